(** What one node update is supposed to do, in terms of the queues at the ends of
    the links, independently of how the node computes flows. *)
From Verif Require Import Base Spec_Path Model_CC Model_Link Model_World.

(** [v] is heading for link [b] *)
Definition headed (w : world) (b v : Z) : bool :=
  match v_next (w_veh w v) with Some k => k =? b | None => false end.
(** the vehicles of queue [q] heading for [b], in order *)
Definition line (w : world) (b : Z) (q : list Z) : list Z := filter (headed w b) q.

(** Both cumulative curves of a link are installed, or none. *)
Definition paired (c : curves) : Prop := forall l, cc_Nin c l = None <-> cc_Nout c l = None.
(** No curve ends after time [T]. *)
Definition ctime (T : Z) (c : curve) : Prop := forall b, last_opt c = Some b -> (fst b <= inject_Z T)%Q.
Definition otime (T : Z) (c : option curve) : Prop := forall x, c = Some x -> ctime T x.
Definition ttime (T : Z) (tr : option cctree) : Prop := forall x, tr = Some x -> Forall (fun kc => ctime T (snd kc)) x.
Definition timely (T : Z) (c : curves) : Prop :=
  (forall l, otime T (cc_Nin c l)) /\ (forall l, otime T (cc_Nout c l)) /\
  (forall l, ttime T (cc_Tin c l)) /\ (forall l, ttime T (cc_Tout c l)).

(** Random numbers and shuffles are what the generators can produce. *)
Definition shuffle (f : list Z -> list Z) : Prop := forall l, Permutation (f l) l.
Definition unit_draw (r : Q) : Prop := (0 <= r <= 1)%Q.
Definition draws_valid (D : draws) : Prop :=
  (forall o d, unit_draw (d_rel D o d)) /\ (forall v, unit_draw (d_adapt D v)) /\ (forall n, shuffle (d_oshuf D n)) /\
  (forall v, unit_draw (d_route D v)) /\ (forall n b, unit_draw (d_orig D n b)) /\ (forall n a b, unit_draw (d_node D n a b)) /\
  (forall n b, shuffle (d_inshuf D n b)) /\ (forall l i, unit_draw (d_cell D l i)).

(** The links around a node are distinct, and none is a loop. *)
Definition node_links_ok (N : net) (n : Z) : Prop :=
  NoDup (n_in N n) /\ NoDup (n_out N n) /\ (forall l, In l (n_in N n) -> ~ In l (n_out N n)).

(** Every link out of the node answers with a receiving capacity >= 0. *)
Definition supplies_ok (N : net) (w : world) (n : Z) : Prop :=
  forall b, In b (n_out N n) -> exists s, link_supply (w_link w b) = Ok s /\ (0 <= s)%Q.

(** Every vehicle waiting in [q] is heading for a link out of the node. *)
Definition all_headed (N : net) (w : world) (n : Z) (q : list Z) : Prop :=
  forall v, In v q -> exists b, In b (n_out N n) /\ v_next (w_veh w v) = Some b.

(** A junction is in a state where its update is expected to work. *)
Record junction_ready (N : net) (D : draws) (t n : Z) (w : world) : Prop := {
  jr_fs : (0 < n_fs N)%Q; jr_time : 0 <= t; jr_links : node_links_ok N n; jr_draws : draws_valid D;
  jr_paired : paired (w_cc w); jr_timely : timely (t + 1) (w_cc w); jr_supply : supplies_ok N w n;
  jr_headed : forall a, In a (n_in N n) -> all_headed N w n (l_fin (w_link w a)) }.

(** Vehicles [pass a b] go from in link [a] to out link [b]: first come first served
    per movement, everybody else stays in order, in links are served in some order. *)
Record fifo_passage (N : net) (n : Z) (w w' : world) (pass : Z -> Z -> list Z) : Prop := {
  fp_first : forall a b, In a (n_in N n) -> In b (n_out N n) ->
    line w b (l_fin (w_link w a)) = pass a b ++ line w b (l_fin (w_link w' a));
  fp_stay : forall a, In a (n_in N n) -> subseq (l_fin (w_link w' a)) (l_fin (w_link w a));
  fp_split : forall a, In a (n_in N n) ->
    Permutation (l_fin (w_link w a)) (concat (map (pass a) (n_out N n)) ++ l_fin (w_link w' a));
  fp_enter : forall b, In b (n_out N n) -> exists order, Permutation order (n_in N n) /\
    l_in (w_link w' b) = l_in (w_link w b) ++ concat (map (fun a => pass a b) order);
  fp_in_only : forall a, In a (n_in N n) -> w_link w' a = set_fin (w_link w a) (l_fin (w_link w' a));
  fp_out_only : forall b, In b (n_out N n) -> w_link w' b = set_in (w_link w b) (l_in (w_link w' b));
  fp_others : forall l, ~ In l (n_in N n) -> ~ In l (n_out N n) -> w_link w' l = w_link w l;
  fp_queues : w_oq w' = w_oq w /\ w_dq w' = w_dq w }.

(** An origin node is in a state where its update is expected to work. *)
Record origin_ready (N : net) (D : draws) (t n : Z) (w : world) : Prop := {
  or_fs : (0 < n_fs N)%Q; or_time : 0 <= t; or_links : NoDup (n_out N n); or_draws : draws_valid D;
  or_timely : timely (t + 1) (w_cc w); or_supply : supplies_ok N w n; or_headed : all_headed N w n (w_oq w n) }.

(** Vehicles [send b] leave the queue of origin [n] for link [b]. *)
Record origin_sends (N : net) (n : Z) (w w' : world) (send : Z -> list Z) : Prop := {
  os_first : forall b, In b (n_out N n) -> line w b (w_oq w n) = send b ++ line w b (w_oq w' n);
  os_stay : subseq (w_oq w' n) (w_oq w n);
  os_split : Permutation (w_oq w n) (concat (map send (n_out N n)) ++ w_oq w' n);
  os_enter : forall b, In b (n_out N n) -> w_link w' b = set_in (w_link w b) (l_in (w_link w b) ++ send b);
  os_others : forall l, ~ In l (n_out N n) -> w_link w' l = w_link w l;
  os_queues : (forall n', n' <> n -> w_oq w' n' = w_oq w n') /\ w_dq w' = w_dq w }.

(** [picks] keeps producing every index below [len] *)
Definition fair (picks : nat -> nat) (len : nat) : Prop :=
  forall k i, (i < len)%nat -> exists k', (k <= k')%nat /\ (picks k' mod len)%nat = i.
Definition with_fuel (f : nat) (D : draws) : draws :=
  {| d_rel := d_rel D; d_adapt := d_adapt D; d_oshuf := d_oshuf D; d_route := d_route D; d_orig := d_orig D; d_node := d_node D;
     d_pick := d_pick D; d_fuel := f; d_inshuf := d_inshuf D; d_grj := d_grj D; d_cell := d_cell D; d_tree := d_tree D; d_any := d_any D |}.
