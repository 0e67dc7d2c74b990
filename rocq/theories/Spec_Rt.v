(** Vocabulary for the real-time engine, independent of its loops. *)
From Verif Require Import Base Spec_Graph Model_Link Spec_Link Model_World Model_Node Model_Sim Model_Rt.
Open Scope Q_scope.

(** A set of routes with proper shares. *)
Definition shares_ok (es : list pentry) : Prop :=
  es <> [] /\ (forall e, In e es -> 0 <= e_p e) /\ sumQ (map e_p es) == 1.
Definition table_ok (pt : ptable) : Prop := forall k es, In (k, es) pt -> shares_ok es.
(** The same routes with the same shares. *)
Definition same_shares (es es' : list pentry) : Prop :=
  Forall2 (fun e e' => e_path e' = e_path e /\ e_p e' == e_p e) es es'.
Definition same_table (pt pt' : ptable) : Prop :=
  Forall2 (fun x x' : (Z * Z) * list pentry => fst x' = fst x /\ same_shares (snd x) (snd x')) pt pt'.

(** Every route of the table has [P]; every route has [n] columns. *)
Definition routes_ok (P : list Z -> Prop) (pt : ptable) : Prop := forall k es e, In (k, es) pt -> In e es -> P (r_links (e_path e)).
Definition bufs (n : nat) (pt : ptable) : Prop := forall k es e, In (k, es) pt -> In e es -> length (e_buf e) = n.

(** Sum of [x] over the routes of the table that use link [b]. *)
Definition via_sum (b : Z) (x : Z * Z -> pentry -> Q) (pt : ptable) : Q :=
  sumQ (map (fun r : (Z * Z) * list pentry =>
    sumQ (map (fun e => if in_dec Z.eq_dec b (r_links (e_path e)) then x (fst r) e else 0) (snd r))) pt).
(** What the planned shares (column 2) would send over [b] beyond the estimated ones (column 0). *)
Definition gain (dem : Z * Z -> Q) (pt : ptable) (b : Z) : Q :=
  via_sum b (fun k e => (nth 2 (e_buf e) 0 - nth 0 (e_buf e) 0) * dem k) pt.
(** [dem] gives the demand of every OD pair of the table. *)
Definition demands_are (N : net) (assign : Z) (pt : ptable) (dem : Z * Z -> Q) : Prop :=
  forall k es, In (k, es) pt -> demand_bynode N (fst k) (snd k) assign = Ok (dem k).

(** The states of a pass, interval by interval. *)
Definition pass_states (N : net) (D : Z -> draws) (ut : Q) (m sp assign : Z) (k : nat) (x : pass) (S : nat -> pass) : Prop :=
  S 0%nat = x /\ forall j, (j < k)%nat -> pass_step N (D (Z.of_nat j)) ut m sp assign (Z.of_nat j) (S j) = Ok (S (Datatypes.S j)).
(** Intervals after which the travel times are sampled. *)
Definition sampled (q : Z) (j : nat) : bool := Z.rem (Z.of_nat j + 1) q =? 0.

(** Link parameters and travel times that a network has. *)
Definition par_pos (p : lparam) : Prop := 0 < p_len p /\ 0 < p_ffs p.

(** Measured times are positive and vehicles were seen no later than [t]. *)
Definition mt_ok (t : Z) (m : meter) : Prop := (forall l, 0 < mt_tt m l)%Q /\ (forall v l t0, mt_rec m v = Some (l, t0) -> (t0 <= t)%Z).

(** [v'] of the copy makes the trip of [v] of the original. *)
Definition same_trip (w w' : world) (v v' : Z) : Prop :=
  v_org (w_veh w' v') = v_org (w_veh w v) /\ v_dst (w_veh w' v') = v_dst (w_veh w v) /\
  v_adapt (w_veh w' v') = v_adapt (w_veh w v) /\ v_start (w_veh w' v') = v_start (w_veh w v) /\
  v_cur (w_veh w' v') = v_cur (w_veh w v) /\ v_next (w_veh w' v') = v_next (w_veh w v) /\
  w_trk w' v' = w_trk w v.
(** [v] is on a link, has a next link, and its remaining route is known. *)
Definition ready (w : world) (v : Z) : Prop := v_cur (w_veh w v) <> None /\ v_next (w_veh w v) <> None /\ w_trk w v <> None.
(** What a copy takes over from a link: all vehicles, or for a link queue only those
    that just entered or are ready to leave. *)
Definition copied (l : link) : list Z :=
  match l_body l with BLq _ _ => (l_fin l ++ l_in l)%list | _ => on_link l end.
