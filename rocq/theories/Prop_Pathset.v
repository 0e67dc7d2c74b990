(** Property theorems: route generation (C63 - C65). *)
From Verif Require Import Base Base_lemmas Model_Num Proof_Num Model_Graph Spec_Graph Proof_Graph Proof_Graph2 Model_SP Spec_SP Proof_SP Model_Pathset Spec_Pathset Proof_Pathset.
Local Open Scope Q_scope.

(** C63: if every OD pair with demand is connected, route generation succeeds for every number of
    trials and all penalties; the result has a path set exactly for the OD pairs with demand; every
    path is a route of the OD pair without repeated node and longer than the minimum; no link
    sequence is stored twice; there are at most [1 + 2 * maxiter] paths.  If the cheapest route is
    long enough it is the first one. *)
Theorem C63_generated_routes : forall P minlen maxiter vot mid heavy,
  pnet_ok P -> 0 < vot -> 0 <= mid -> 0 <= heavy ->
  (forall o d, In o (pn_os P) -> In d (pn_ds P) -> pn_dem P o d = true -> connected P o d) ->
  exists N T, (forall fuel, (N <= fuel)%nat -> build_pathset fuel P minlen maxiter vot mid heavy = Ok T) /\
  (forall o d, T o d <> None <-> In o (pn_os P) /\ In d (pn_ds P) /\ pn_dem P o d = true) /\
  forall o d ps, T o d = Some ps ->
    (forall p, In p ps -> good_path P minlen o d p) /\ NoDup (map snd ps) /\ (length ps <= 1 + 2 * maxiter)%nat /\
    exists best, cheapest P (link_cost P vot) o d best /\
      (minlen < route_length P best -> exists p rest, ps = p :: rest /\ snd p = best).
Proof.
  intros P minlen maxiter vot mid heavy HP Hv Hm Hh Hc. destruct (po_graph _ HP) as (ops & Eg).
  pose proof (gbuild_rep ops) as R. rewrite <- Eg in R.
  destruct (build_ok P _ R HP vot minlen Hv mid heavy Hm Hh maxiter) as [[_ (o & d & I1 & I2 & I3 & U)]|(T & (N & C) & W)].
  - exfalso. apply U. auto.
  - exists N, T. split; [exact C|]. split.
    + intros o d. split.
      * intros E. destruct (p2_none _ _ _ _ _ W o d) as [H|H]; [exact H|congruence].
      * intros (I1 & I2 & I3). destruct (p2_entry _ _ _ _ _ W o d I1 I2 I3) as (ps & E & _). congruence.
    + intros o d ps E. destruct (p2_none _ _ _ _ _ W o d) as [(I1 & I2 & I3)|H]; [|congruence].
      destruct (p2_entry _ _ _ _ _ W o d I1 I2 I3) as (ps' & E' & [(f & r & Ef & (p & _ & _ & Cp & Ep)) G ND L]).
      assert (ps' = ps) as -> by congruence. split; [exact G|]. split; [exact ND|]. split; [exact L|].
      exists (snd p). split; [exact Cp|]. intros Hl. rewrite (proj2 (Qltb_lt _ _) Hl) in Ep. exists p, r. rewrite Ef, Ep. auto.
Qed.
Print Assumptions C63_generated_routes.

(** each further iteration keeps the routes found so far and adds, for both penalties, a route that
    is cheapest when the links used so far cost [vot * tt * penalty + toll] (if it is long enough) *)
Theorem C63_iteration_adds_alternatives : forall P minlen maxiter vot mid heavy,
  pnet_ok P -> 0 < vot -> 0 <= mid -> 0 <= heavy ->
  (forall o d, In o (pn_os P) -> In d (pn_ds P) -> pn_dem P o d = true -> connected P o d) ->
  exists N T T',
  (forall fuel, (N <= fuel)%nat -> build_pathset fuel P minlen maxiter vot mid heavy = Ok T /\
                                   build_pathset fuel P minlen (S maxiter) vot mid heavy = Ok T') /\
  forall used, (forall l, used l = true <-> exists o d ps p, T o d = Some ps /\ In p ps /\ In l (snd p)) ->
  forall o d ps, T o d = Some ps -> exists add, T' o d = Some (ps ++ add)%list /\
  forall penalty, penalty = mid \/ penalty = heavy ->
  exists ls, cheapest P (fun l => Some (if used l then vot * pn_tt P l * penalty + pn_toll P l else vot * pn_tt P l + pn_toll P l)) o d ls /\
    (minlen < route_length P ls -> In ls (map snd (ps ++ add))).
Proof.
  intros P minlen maxiter vot mid heavy HP Hv Hm Hh Hc. destruct (po_graph _ HP) as (ops & Eg).
  pose proof (gbuild_rep ops) as R. rewrite <- Eg in R.
  destruct (build_step P _ R HP vot minlen Hv mid heavy Hm Hh maxiter) as [[_ (o & d & I1 & I2 & I3 & U)]|(T & T' & cm & ch & (N & C) & (M & C') & W & _ & G & A & B & F)].
  { exfalso. apply U. auto. }
  exists (Nat.max N M), T, T'. split; [intros fuel Hf; split; [apply C|apply C']; lia|].
  intros us Hu o d ps E. destruct (G o d ps E) as (add & E'). exists add. split; [exact E'|].
  destruct (p2_none _ _ _ _ _ W o d) as [(I1 & I2 & I3)|H]; [|congruence].
  destruct (F o d I1 I2 I3) as [Fm Fh].
  assert (K : forall pe c, costs_out P vot pe T c -> found P minlen c T' o d ->
    exists ls, cheapest P (fun l => Some (if us l then vot * pn_tt P l * pe + pn_toll P l else vot * pn_tt P l + pn_toll P l)) o d ls /\
      (minlen < route_length P ls -> In ls (map snd (ps ++ add)))).
  { intros pe c Co (ls & Ch & H). exists ls. split.
    - assert (Q : forall x z y, route (pn_g P) x z y -> total_cost (cost_of c) z =
        total_cost (fun l => Some (if us l then vot * pn_tt P l * pe + pn_toll P l else vot * pn_tt P l + pn_toll P l)) z).
      { clear - Co Hu. induction 1 as [u|u l w ls v E R IH]; [reflexivity|]. unfold total_cost in *. cbn [fold_right]. rewrite IH. unfold cost_of.
        destruct (Co l _ E) as [[-> Ul]|[-> Ul]]; unfold pen, free.
        - now rewrite (proj2 (Hu l) Ul).
        - destruct (us l) eqn:El; [|reflexivity]. exfalso. apply Ul. now apply Hu. }
      destruct Ch as (Rt & cc & Ec & L). split; [exact Rt|]. exists cc. rewrite <- (Q _ _ _ Rt). split; [exact Ec|].
      intros ls' c' R' C2. apply (L ls' c' R'). now rewrite (Q _ _ _ R').
    - intros Hl. destruct (H Hl) as (ps' & E2 & I). assert (ps' = ps ++ add)%list as -> by congruence. exact I. }
  intros pe [->| ->]; [exact (K _ _ A Fm)|exact (K _ _ B Fh)].
Qed.
Print Assumptions C63_iteration_adds_alternatives.

(** an OD pair with demand but no route is an exception *)
Theorem C63_unconnected_throws : forall P minlen maxiter vot mid heavy o d,
  pnet_ok P -> 0 < vot -> 0 <= mid -> 0 <= heavy ->
  In o (pn_os P) -> In d (pn_ds P) -> pn_dem P o d = true -> ~ connected P o d ->
  exists N, forall fuel, (N <= fuel)%nat -> build_pathset fuel P minlen maxiter vot mid heavy = Err EThrow.
Proof.
  intros P minlen maxiter vot mid heavy o d HP Hv Hm Hh I1 I2 I3 U. destruct (po_graph _ HP) as (ops & Eg).
  pose proof (gbuild_rep ops) as R. rewrite <- Eg in R.
  destruct (build_ok P _ R HP vot minlen Hv mid heavy Hm Hh maxiter) as [[C _]|(T & _ & W)]; [exact C|].
  exfalso. destruct (p2_entry _ _ _ _ _ W o d I1 I2 I3) as (ps & E & [(f & r & Ef & (p & _ & _ & Cp & Ep)) _ _ _]).
  apply U. exists (snd p). apply Cp.
Qed.
Print Assumptions C63_unconnected_throws.

(** the shortest path set: one quickest route for every OD pair, or an exception *)
Theorem C63_shortest_pathset : forall P, pnet_ok P ->
  (forall o d, In o (pn_os P) -> In d (pn_ds P) -> connected P o d) ->
  exists N T, (forall fuel, (N <= fuel)%nat -> build_shortest_pathset fuel P = Ok T) /\
  (forall o d, T o d <> None <-> In o (pn_os P) /\ In d (pn_ds P)) /\
  forall o d ps, T o d = Some ps -> exists p, ps = [p] /\ visits (pn_g P) o (snd p) (fst p) /\ NoDup (fst p) /\
    cheapest P (fun l => Some (pn_tt P l)) o d (snd p).
Proof.
  intros P HP Hc. destruct (po_graph _ HP) as (ops & Eg). pose proof (gbuild_rep ops) as R. rewrite <- Eg in R.
  destruct (shortest_ok P _ R HP) as [[_ (o & d & I1 & I2 & U)]|(T & (N & C) & W)].
  - exfalso. apply U. auto.
  - exists N, T. split; [exact C|]. split.
    + intros o d. split.
      * intros E. destruct (ps_none _ _ _ W o d) as [H|H]; [exact H|congruence].
      * intros (I1 & I2). destruct (ps_done _ _ _ W o d I1 I2 I2) as (ps & E & _). congruence.
    + intros o d ps E. destruct (ps_none _ _ _ W o d) as [(I1 & I2)|H]; [|congruence].
      destruct (ps_done _ _ _ W o d I1 I2 I2) as (ps' & E' & Q). assert (ps' = ps) as -> by congruence. exact Q.
Qed.
Print Assumptions C63_shortest_pathset.

(** a network with two routes from 1 to 4 (links 10-11 and 12-13) and an unreachable node 5 *)
Definition C63_ops := [GNode 1; GNode 2; GNode 3; GNode 4; GNode 5; GLink 1 2 10; GLink 2 4 11; GLink 1 3 12; GLink 3 4 13; GLink 5 1 14].
Definition C63_net : pnet := {| pn_g := gbuild C63_ops; pn_os := [1%Z; 5%Z]; pn_ds := [4%Z]; pn_dem := fun _ _ => true;
  pn_ids := [10; 11; 12; 13; 14]%Z; pn_tt := fun l => if (l <? 12)%Z then 1 else 3#2; pn_toll := fun _ => 0; pn_len := fun _ => 2 |}.
Definition C63_show (r : res table) : option (list (option (list (list Z)))) :=
  match r with Ok T => Some (map (fun o => option_map (map snd) (T o 4%Z)) [1; 5; 2]%Z) | Err _ => None end.
Lemma C63_ends l e : get_endpoints (gbuild C63_ops) l = Ok e -> In (l, e) [(10, (1, 2)); (11, (2, 4)); (12, (1, 3)); (13, (3, 4)); (14, (5, 1))]%Z.
Proof.
  intros H. destruct e as [f t]. pose proof (gbuild_rep C63_ops) as R. apply (rep_endpoints_iff _ _ _ _ _ R) in H. vm_compute in H.
  cbn. destruct H as [H|[H|[H|[H|[H|[]]]]]]; injection H as <- <- <-; tauto.
Qed.
Lemma C63_net_ok len : pnet_ok {| pn_g := gbuild C63_ops; pn_os := pn_os C63_net; pn_ds := pn_ds C63_net; pn_dem := pn_dem C63_net;
  pn_ids := pn_ids C63_net; pn_tt := pn_tt C63_net; pn_toll := pn_toll C63_net; pn_len := len |}.
Proof.
  split; cbn [pn_g pn_os pn_ds pn_ids pn_tt pn_toll C63_net].
  - exists C63_ops. reflexivity.
  - intros o [<-|[<-|[]]]; vm_compute; auto 10.
  - intros o [<-|[]]; vm_compute; auto 10.
  - repeat constructor; cbn; intuition discriminate.
  - repeat constructor; cbn; intuition discriminate.
  - vm_compute. intuition discriminate.
  - intros l e H. apply C63_ends in H. cbn in H. cbn. destruct H as [H|[H|[H|[H|[H|[]]]]]]; injection H as <- _; tauto.
  - intros l. destruct (l <? 12)%Z; lra.
  - intros l. lra.
Qed.
Lemma C63_conn o : In o [1; 5]%Z -> exists ls, route (gbuild C63_ops) o ls 4.
Proof.
  intros [<-|[<-|[]]].
  - exists [10; 11]%Z. eapply route_cons; [vm_compute; reflexivity|]. eapply route_cons; [vm_compute; reflexivity|]. constructor.
  - exists [14; 10; 11]%Z. eapply route_cons; [vm_compute; reflexivity|]. eapply route_cons; [vm_compute; reflexivity|].
    eapply route_cons; [vm_compute; reflexivity|]. constructor.
Qed.
Example C63_case : pnet_ok C63_net /\
  (forall o d, In o (pn_os C63_net) -> In d (pn_ds C63_net) -> pn_dem C63_net o d = true -> connected C63_net o d) /\
  C63_show (build_pathset 50 C63_net 0 2 3 3 6) = Some [Some [[10; 11]; [12; 13]]; Some [[14; 10; 11]; [14; 12; 13]]; None]%Z /\
  C63_show (build_shortest_pathset 50 C63_net) = Some [Some [[10; 11]]; Some [[14; 10; 11]]; None]%Z.
Proof.
  split; [exact (C63_net_ok (fun _ => 2))|]. split.
  - intros o d Io [<-|[]] _. exact (C63_conn o Io).
  - split; vm_compute; reflexivity.
Qed.
Definition C63_cut : pnet := {| pn_g := gbuild C63_ops; pn_os := [4%Z]; pn_ds := [5%Z]; pn_dem := fun _ _ => true;
  pn_ids := pn_ids C63_net; pn_tt := pn_tt C63_net; pn_toll := pn_toll C63_net; pn_len := fun _ => 2 |}.
Example C63_cut_case : ~ connected C63_cut 4 5 /\ build_pathset 50 C63_cut 0 2 3 3 6 = Err EThrow.
Proof.
  split; [|vm_compute; reflexivity]. intros (ls & R). inversion R as [|u l w ls' v E R']; subst.
  apply C63_ends in E. cbn in E. destruct E as [E|[E|[E|[E|[E|[]]]]]]; discriminate E.
Qed.

(** C64: every OD pair with demand gets a route, provided every route is longer than the minimum. *)
Theorem C64_routes_for_all_demand_partial : forall P minlen maxiter vot mid heavy,
  pnet_ok P -> 0 < vot -> 0 <= mid -> 0 <= heavy ->
  (forall o d, In o (pn_os P) -> In d (pn_ds P) -> pn_dem P o d = true -> connected P o d) ->
  (forall o d ls, In o (pn_os P) -> In d (pn_ds P) -> pn_dem P o d = true -> route (pn_g P) o ls d -> minlen < route_length P ls) ->
  exists N T, (forall fuel, (N <= fuel)%nat -> build_pathset fuel P minlen maxiter vot mid heavy = Ok T) /\
  forall o d, In o (pn_os P) -> In d (pn_ds P) -> pn_dem P o d = true -> exists p rest, T o d = Some (p :: rest).
Proof.
  intros P minlen maxiter vot mid heavy HP Hv Hm Hh Hc Hl.
  destruct (C63_generated_routes P minlen maxiter vot mid heavy HP Hv Hm Hh Hc) as (N & T & C & D & G).
  exists N, T. split; [exact C|]. intros o d I1 I2 I3.
  destruct (T o d) as [ps|] eqn:E; [|exfalso; apply (proj2 (D o d)); auto].
  destruct (G o d ps E) as (_ & _ & _ & best & [R _] & B). destruct (B (Hl o d best I1 I2 I3 R)) as (p & rest & -> & _). eauto.
Qed.
Print Assumptions C64_routes_for_all_demand_partial.
Example C64_case : (forall o d ls, In o (pn_os C63_net) -> In d (pn_ds C63_net) -> pn_dem C63_net o d = true -> route (pn_g C63_net) o ls d ->
  3 < route_length C63_net ls).
Proof.
  intros o d ls Io [<-|[]] _ R. change (pn_g C63_net) with (gbuild C63_ops) in R.
  inversion R as [|u l w ls' v E R']; subst; [cbn in Io; intuition discriminate|].
  inversion R' as [|u' l' w' ls'' v' E' R'']; subst.
  - apply C63_ends in E. cbn in E, Io. exfalso. intuition (try discriminate); subst; intuition discriminate.
  - unfold route_length. cbn [map]. unfold sumQ. cbn [fold_right pn_len C63_net].
    assert (0 <= fold_right Qplus 0 (map (fun _ : Z => 2) ls'')); [|lra].
    clear. induction ls''; cbn; lra.
Qed.

(** REFUTED in general: a pair whose cheapest route is not longer than the minimum can be left
    with an empty path set and no error is raised - here, although a route of length 3 exists *)
Definition C64_net : pnet := {| pn_g := gbuild C63_ops; pn_os := [1%Z; 5%Z]; pn_ds := [4%Z]; pn_dem := fun _ _ => true;
  pn_ids := pn_ids C63_net; pn_tt := pn_tt C63_net; pn_toll := pn_toll C63_net; pn_len := fun l => if (l <? 12)%Z then 1 else 3#2 |}.
Definition C64_pick (o : Z) (x y z : Q) : Q :=
  if (o =? 1)%Z then x else if (o =? 2)%Z || (o =? 3)%Z then y else if (o =? 4)%Z then 0 else z.
Definition C64_show (r : res table) : option (list path) := match r with Ok T => T 1%Z 4%Z | Err _ => None end.
Theorem C64_routes_for_all_demand_refuted :
  pnet_ok C64_net /\ connected C64_net 1 4 /\ pn_dem C64_net 1 4 = true /\
  (exists ls, route (pn_g C64_net) 1 ls 4 /\ 2 < route_length C64_net ls) /\
  C64_show (build_pathset 50 C64_net 2 0 3 3 6) = Some [] /\
  forall maxiter, exists N, forall fuel, (N <= fuel)%nat -> C64_show (build_pathset fuel C64_net 100 maxiter 3 3 6) = Some [].
Proof.
  pose proof (C63_net_ok (pn_len C64_net)) as OK. change (pnet_ok C64_net) in OK.
  assert (CO : forall o d, In o (pn_os C64_net) -> In d (pn_ds C64_net) -> pn_dem C64_net o d = true -> connected C64_net o d).
  { intros o d Io [<-|[]] _. exact (C63_conn o Io). }
  split; [exact OK|]. split; [apply C63_conn; left; reflexivity|]. split; [reflexivity|]. split; [|split].
  - exists [12; 13]%Z. split; [|vm_compute; reflexivity].
    eapply route_cons; [vm_compute; reflexivity|]. eapply route_cons; [vm_compute; reflexivity|]. constructor.
  - vm_compute. reflexivity.
  - intros maxiter. destruct (C63_generated_routes C64_net 100 maxiter 3 3 6 OK ltac:(lra) ltac:(lra) ltac:(lra) CO) as (N & T & C & D & G).
    exists N. intros fuel Hf. rewrite (C fuel Hf). cbn [C64_show].
    destruct (T 1%Z 4%Z) as [ps|] eqn:E; [|exfalso; apply (proj2 (D 1%Z 4%Z)); [cbn; auto|exact E]].
    destruct (G _ _ _ E) as (Gp & _). destruct ps as [|p ps]; [reflexivity|]. exfalso.
    destruct (Gp p (or_introl eq_refl)) as [Rt _ _ L]. clear - Rt L. change (pn_g C64_net) with (gbuild C63_ops) in Rt.
    assert (B : forall o ls, route (gbuild C63_ops) o ls 4 -> route_length C64_net ls <= C64_pick o 3 (3#2) (9#2)).
    { clear. intros o ls R. remember 4%Z as d eqn:Hd. revert Hd. induction R as [u|u l w ls v E R IH]; intros ->; [vm_compute; discriminate|].
      specialize (IH eq_refl). apply C63_ends in E. unfold route_length in *. cbn [map]. unfold sumQ in *. cbn [fold_right].
      cbn in E. destruct E as [E|[E|[E|[E|[E|[]]]]]]; injection E as <- <- <-; cbn in *; lra. }
    pose proof (B _ _ Rt) as K. cbn in K. lra.
Qed.
Print Assumptions C64_routes_for_all_demand_refuted.

(** C65 REFUTED: the Python argument [min_path_tt] of [generate_shortest_pathsets]
    (macposts/_ext/dta.cpp:248-263) is passed on as the minimal LENGTH: a route of 2 seconds is
    dropped with [min_path_tt = 1] because it is short, and one of 3 seconds is kept with
    [min_path_tt = 5] because it is long. *)
Definition py_generate (fuel : nat) (P : pnet) (maxiter : nat) (vot mid heavy min_path_tt : Q) : res table :=
  build_pathset fuel P min_path_tt maxiter vot mid heavy.
Definition route_time (P : pnet) (ls : list Z) : Q := sumQ (map (pn_tt P) ls).
Definition C65_net (len : Q) : pnet := {| pn_g := gbuild C63_ops; pn_os := pn_os C63_net; pn_ds := pn_ds C63_net; pn_dem := pn_dem C63_net;
  pn_ids := pn_ids C63_net; pn_tt := pn_tt C63_net; pn_toll := pn_toll C63_net; pn_len := fun _ => len |}.
Definition C65_show (r : res table) : option (list (list Z)) := match r with Ok T => option_map (map snd) (T 1%Z 4%Z) | Err _ => None end.
Theorem C65_minimal_travel_time_refuted :
  (pnet_ok (C65_net (1#10)) /\ cheapest (C65_net (1#10)) (link_cost (C65_net (1#10)) 3) 1 4 [10; 11]%Z /\
   1 < route_time (C65_net (1#10)) [10; 11]%Z /\
   C65_show (py_generate 50 (C65_net (1#10)) 2 3 3 6 1) = Some []) /\
  (pnet_ok (C65_net 10) /\ ~ 5 < route_time (C65_net 10) [12; 13]%Z /\
   C65_show (py_generate 50 (C65_net 10) 2 3 3 6 5) = Some [[10; 11]; [12; 13]]%Z).
Proof.
  split; [split; [exact (C63_net_ok (fun _ => 1#10))|split; [|split]]|split; [exact (C63_net_ok (fun _ => 10))|split]].
  - assert (CO : forall o d, In o (pn_os (C65_net (1#10))) -> In d (pn_ds (C65_net (1#10))) -> pn_dem (C65_net (1#10)) o d = true -> connected (C65_net (1#10)) o d).
    { intros o d Io [<-|[]] _. exact (C63_conn o Io). }
    destruct (C63_generated_routes (C65_net (1#10)) 0 0 3 3 6 (C63_net_ok (fun _ => 1#10)) ltac:(lra) ltac:(lra) ltac:(lra) CO) as (N & T & C & D & G).
    split; [eapply route_cons; [vm_compute; reflexivity|]; eapply route_cons; [vm_compute; reflexivity|]; constructor|].
    exists (3 * 1 + 0 + (3 * 1 + 0 + 0)). split; [reflexivity|]. intros ls c R Tc.
    assert (B : forall o ls c, route (gbuild C63_ops) o ls 4 -> total_cost (link_cost (C65_net (1#10)) 3) ls = Some c -> C64_pick o 6 3 7 <= c).
    { clear. intros o ls c R. remember 4%Z as d eqn:Hd. revert Hd c. induction R as [u|u l w ls v E R IH]; intros -> c Tc; [cbn in Tc; injection Tc as <-; vm_compute; discriminate|].
      unfold total_cost in *. cbn [fold_right] in Tc. destruct (fold_right _ _ ls) as [c0|] eqn:Ec; [|discriminate].
      specialize (IH eq_refl c0 eq_refl). apply C63_ends in E. cbn in E.
      destruct E as [E|[E|[E|[E|[E|[]]]]]]; injection E as <- <- <-; cbn in Tc; injection Tc as <-; cbn in *; lra. }
    pose proof (B 1%Z ls c R Tc) as K. cbn in K. lra.
  - vm_compute. reflexivity.
  - vm_compute. reflexivity.
  - vm_compute. discriminate.
  - vm_compute. reflexivity.
Qed.
Print Assumptions C65_minimal_travel_time_refuted.
