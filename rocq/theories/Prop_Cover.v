(** C119: routes through observed links. *)
From Verif Require Import Base Base_lemmas Model_Num Proof_Num Model_Graph Spec_Graph Proof_Graph Proof_Graph2 Model_SP Spec_SP Proof_SP Proof_Link4 Model_Node Model_Pathset Spec_Pathset Proof_Pathset Model_Cover Spec_Cover Proof_Cover.
Local Open Scope Z_scope.

(** Links that do not start at an origin node or end at a destination node.  [ods]: the pairs
    of origin and destination nodes with demand, met in any order.
    If every link that is on no registered path can be used between one of these pairs, the
    call succeeds: every registered link is then on a registered path; every path added leads
    from the origin to the destination of its pair through a link that was not covered, by
    fastest routes to it and from it, is the last of its pair's path set, and contains a link
    that none of the paths before it contains.  Otherwise the call is rejected. *)
Theorem C119_cover_partial : forall P nids lids isO isD ods pairs links (ps : list path) (T : table),
  pnet_ok P -> Permutation nids (g_nids (pn_g P)) -> Permutation lids (g_lids (pn_g P)) ->
  (forall o d, In (o, d) ods -> In o (g_nids (pn_g P)) /\ isO o = true /\ In d (g_nids (pn_g P)) /\ isD d = true /\ T o d <> None) ->
  (forall i, Permutation (pairs i) ods) ->
  (forall l, In l links -> exists x y, get_endpoints (pn_g P) l = Ok (x, y) /\ isO x = false /\ isD y = false) ->
  (forall p, In p ps -> snd p <> []) ->
  exists N, forall fuel, (N <= fuel)%nat ->
  ((forall l, In l links -> covered ps l \/ coverable P ods l) ->
     exists T' cov new, generate_cover fuel P nids lids isO isD pairs links ps T = Ok (negb (length new =? 0)%nat, (T', (ps ++ map snd new, cov))) /\
       cov = map (fun _ => true) links /\
       (forall l, In l links -> covered (ps ++ map snd new) l) /\
       (forall od p, In (od, p) new -> In od ods /\ exists l, In l links /\ ~ covered ps l /\ route_through P l (fst od) (snd od) p) /\
       (forall before od p after, new = before ++ (od, p) :: after -> exists l, In l links /\ In l (snd p) /\ ~ covered (ps ++ map snd before) l) /\
       (forall o d, T' o d = match T o d with
                             | Some qs => Some (qs ++ map snd (filter (fun e => (o =? fst (fst e)) && (d =? snd (fst e))) new))
                             | None => None end)) /\
  ((exists l, In l links /\ ~ covered ps l /\ ~ coverable P ods l) ->
     generate_cover fuel P nids lids isO isD pairs links ps T = Err EThrow).
Proof.
  intros P nids lids isO isD ods pairs links ps T HP Pn Pl Hods Hpairs Hin Hps. destruct (po_graph _ HP) as (ops & Eg). pose proof (gbuild_rep ops) as R. rewrite <- Eg in R.
  destruct (reverse_rep (pn_g P) _ nids lids R Pn Pl) as (gr & ar & Er & Rr & Enr & Hlr & _). rewrite (rep_nids _ _ R) in *.
  assert (Hnr : Permutation (a_nodes ar) (a_nodes (a_build ops))) by (rewrite Enr; exact Pn).
  assert (Hods' : forall o d, In (o, d) ods -> In o (a_nodes (a_build ops)) /\ isO o = true /\ In d (a_nodes (a_build ops)) /\ isD d = true) by (intros o d H; destruct (Hods o d H) as (? & ? & ? & ? & ?); auto).
  destruct (trees_all P (a_build ops) ar gr HP R Rr Hnr Hlr isO isD ods Hods' links) as (N & HN). exists N. intros fuel Hf. specialize (HN fuel Hf).
  destruct (check_ok ps links Hps) as (c0 & Ec & M0).
  assert (HT : forall o d, In (o, d) ods -> T o d <> None) by (intros o d H; apply (Hods o d H)).
  assert (Loop : forall n i st new, (i + n = length links)%nat -> cinv P ods links ps T i st new ->
     exists st' new', foldM (cover_step fuel P gr isO isD pairs links) st (seq i n) = Ok st' /\ cinv P ods links ps T (length links) st' new').
  { induction n as [|n IH]; intros i st new Hi C; cbn [seq foldM].
    - exists st, new. split; [reflexivity|]. replace (length links) with i by lia. exact C.
    - destruct (nth_error links i) as [l|] eqn:Nl; [|apply nth_error_None in Nl; lia]. pose proof (nth_error_In _ _ Nl) as Il.
      destruct (step_ok P (a_build ops) ar gr R Rr Hnr Hlr isO isD ods Hods' fuel pairs links ps T i st new l Hpairs HT Nl (Hin l Il) (HN l Il) C) as (st1 & new1 & E1 & C1).
      rewrite E1. cbn [bind]. apply (IH (S i) st1 new1); [lia|exact C1]. }
  assert (I0 : cinv P ods links ps T 0 (T, (ps, c0)) []).
  { constructor; cbn [fst snd map]; try rewrite app_nil_r; auto.
    - intros o d. destruct (T o d) as [qs|]; [|reflexivity]. cbn. now rewrite app_nil_r.
    - intros ? ? [].
    - intros j l Hj. lia.
    - intros before od p after E. destruct before; discriminate. }
  destruct (Loop (length links) 0%nat _ _ eq_refl I0) as ([T1 [ps1 c1]] & new & EL & [D1 D2 D3 D4 D5 D6]). cbn [fst snd] in *. subst ps1.
  assert (AT : forall qs cov, marks qs links cov -> (forall l, In l links -> covered qs l) -> cov = map (fun _ => true) links).
  { clear. unfold marks. intros qs cov M. induction M as [|l b ls bs Hb M IH]; intros A; [reflexivity|]. cbn [map]. f_equal; [apply Hb, A; now left|apply IH; intros m Hm; apply A; now right]. }
  unfold generate_cover. rewrite Ec. cbn [bind]. destruct (all_true c0) eqn:A0.
  { pose proof (proj1 (all_true_marks _ _ _ M0) A0) as Cov. split.
    - intros _. exists T, c0, []. cbn [length negb map Nat.eqb]. rewrite app_nil_r. split; [reflexivity|]. split; [exact (AT _ _ M0 Cov)|]. split; [exact Cov|]. split; [intros ? ? []|]. split; [intros before od p after E; destruct before; discriminate|].
      intros o d. destruct (T o d); cbn; [now rewrite app_nil_r|reflexivity].
    - intros (l & Hl & N1 & _). destruct (N1 (Cov l Hl)). }
  rewrite Er. cbn [bind]. rewrite EL. cbn [bind fst snd]. split.
  - intros All. assert (Cov : forall l, In l links -> covered (ps ++ map snd new) l).
    { intros l Hl. destruct (In_nth_error _ _ Hl) as (j & Nj). destruct (D5 j l ltac:(apply nth_error_Some; congruence) Nj) as [C|C]; [exact C|]. destruct (All l Hl) as [A|A]; [apply covered_mono, A|contradiction]. }
    rewrite (proj2 (all_true_marks _ _ _ D2) Cov). exists T1, c1, new. split.
    { do 2 f_equal. destruct new; [|reflexivity]. cbn [map] in Cov. rewrite app_nil_r in Cov. apply (all_true_marks _ _ _ M0) in Cov. congruence. }
    split; [exact (AT _ _ D2 Cov)|]. split; [exact Cov|]. split; [exact D4|]. split; [exact D6|]. exact D3.
  - intros (l & Hl & N1 & N2). destruct (all_true c1) eqn:A1; [|reflexivity]. destruct N2.
    destruct (proj1 (all_true_marks _ _ _ D2) A1 l Hl) as (p & Hp & Lp). apply in_app_iff in Hp as [Hp|Hp]; [destruct N1; exists p; auto|]. apply in_map_iff in Hp as ((od & q) & <- & Hq). cbn [snd] in Lp.
    destruct (D4 _ _ Hq) as (Iod & m & Im & Nm & RT). destruct RT as (x & y & pre & post & Em & Eq & [F1 _] & [F2 _] & V). destruct od as [o d]. cbn [fst snd] in *.
    assert (RR : route (pn_g P) o (snd q) d) by (rewrite Eq; eapply route_app; [exact F1|econstructor; [exact Em|exact F2]]). clear - RR Lp Iod.
    assert (G : exists x y, get_endpoints (pn_g P) l = Ok (x, y) /\ connected P o x /\ connected P y d).
    { clear Iod. induction RR as [|u k w ls v E RR IH]; [destruct Lp|]. destruct Lp as [<-|Lp].
      - exists u, w. split; [exact E|]. split; [exists []; constructor|exists ls; exact RR].
      - destruct (IH Lp) as (x & y & E' & (l1 & C1) & C2). exists x, y. split; [exact E'|]. split; [exists (k :: l1); econstructor; eauto|exact C2]. }
    destruct G as (x & y & E & C1 & C2). exists o, d, x, y. auto.
Qed.
Print Assumptions C119_cover_partial.

(** Refuted for links at an origin node: the tree is left empty and then searched.  Whatever
    the network, when the first uncovered link starts at an origin node the call reads past the
    end of the empty tree (links ending at a destination node: the same, once a connected origin is met). *)
Theorem C119_origin_links_refuted : forall fuel P gr isO isD od pairs l x y,
  get_endpoints (pn_g P) l = Ok (x, y) -> isO x = true -> isD y = true \/ (exists s, all_to_one_FIFO fuel gr y (tt_cost P) (fun _ => None) = Ok s) ->
  cover_link fuel P gr isO isD (od :: pairs) l = Err EUB.
Proof.
  intros fuel P gr isO isD [o d] pairs l x y E Ox HD. unfold cover_link. rewrite E. cbn [bind fst snd]. unfold side_tree. rewrite Ox. cbn [bind].
  destruct (isD y); [reflexivity|]. destruct HD as [HD|(s & ->)]; [discriminate|]. reflexivity.
Qed.
Print Assumptions C119_origin_links_refuted.

(** A network: origin node 1, destination node 6; 1 -> 2 -> 3 -> 6 and a loop 3 -> 4 -> 5 -> 2. *)
Definition cover_ops := [GNode 1; GNode 2; GNode 3; GNode 4; GNode 5; GNode 6; GLink 1 2 10; GLink 2 3 11; GLink 3 6 12; GLink 3 4 13; GLink 4 5 14; GLink 5 2 15].
Definition cover_net : pnet := {| pn_g := gbuild cover_ops; pn_os := [1]; pn_ds := [6]; pn_dem := fun _ _ => true;
  pn_ids := [10; 11; 12; 13; 14; 15]; pn_tt := fun _ => 1%Q; pn_toll := fun _ => 0%Q; pn_len := fun _ => 1%Q |}.
Definition cover_T : table := fun o d => if (o =? 1) && (d =? 6) then Some [] else None.
Definition cover_run (links : list Z) (ps : list path) := generate_cover 50 cover_net (g_nids (gbuild cover_ops)) (g_lids (gbuild cover_ops)) (fun n => n =? 1) (fun n => n =? 6) (fun _ => [(1, 6)]) links ps cover_T.
Lemma cover_ends l e : get_endpoints (gbuild cover_ops) l = Ok e -> In (l, e) [(10, (1, 2)); (11, (2, 3)); (12, (3, 6)); (13, (3, 4)); (14, (4, 5)); (15, (5, 2))].
Proof.
  intros H. destruct e as [f t]. pose proof (gbuild_rep cover_ops) as R. apply (rep_endpoints_iff _ _ _ _ _ R) in H. vm_compute in H.
  cbn. destruct H as [H|[H|[H|[H|[H|[H|[]]]]]]]; injection H as <- <- <-; tauto.
Qed.
Lemma cover_net_ok : pnet_ok cover_net.
Proof.
  split; cbn [pn_g pn_os pn_ds pn_ids pn_tt pn_toll cover_net].
  - exists cover_ops. reflexivity.
  - intros o [<-|[]]; vm_compute; auto 10.
  - intros o [<-|[]]; vm_compute; auto 10.
  - repeat constructor; cbn; intuition discriminate.
  - repeat constructor; cbn; intuition discriminate.
  - vm_compute. intuition discriminate.
  - intros l e H. apply cover_ends in H. cbn in H. cbn. destruct H as [H|[H|[H|[H|[H|[H|[]]]]]]]; injection H as <- _; tauto.
  - intros l. discriminate.
  - intros l. discriminate.
Qed.
(** Refuted: "the generated routes visit no node twice".  The only route through link 14 passes
    link 11 twice; and asking for the link at the origin, or the one at the destination, is an
    out-of-range read. *)
Theorem C119_simple_routes_refuted : pnet_ok cover_net /\
  (exists T' cov, cover_run [14] [] = Ok (true, (T', ([([1; 2; 3; 4; 5; 2; 3; 6], [10; 11; 13; 14; 15; 11; 12])], cov)))) /\
  cover_run [10] [] = Err EUB /\ cover_run [12] [] = Err EUB.
Proof. split; [apply cover_net_ok|]. split; [eexists; eexists; vm_compute; reflexivity|]. split; vm_compute; reflexivity. Qed.
Print Assumptions C119_simple_routes_refuted.
(** The hypotheses are met: links 14, 11 and 13; the path for 14 covers the others. *)
Example C119_case : (forall o d, In (o, d) [(1, 6)] -> In o (g_nids (pn_g cover_net)) /\ (o =? 1) = true /\ In d (g_nids (pn_g cover_net)) /\ (d =? 6) = true /\ cover_T o d <> None) /\
  (forall l, In l [11; 14; 13] -> exists x y, get_endpoints (pn_g cover_net) l = Ok (x, y) /\ (x =? 1) = false /\ (y =? 6) = false) /\
  (forall l, In l [11; 14; 13] -> coverable cover_net [(1, 6)] l) /\
  exists T' cov, cover_run [11; 14; 13] [] = Ok (true, (T', ([([1; 2; 3; 6], [10; 11; 12]); ([1; 2; 3; 4; 5; 2; 3; 6], [10; 11; 13; 14; 15; 11; 12])], cov))) /\
    T' 1 6 = Some [([1; 2; 3; 6], [10; 11; 12]); ([1; 2; 3; 4; 5; 2; 3; 6], [10; 11; 13; 14; 15; 11; 12])].
Proof.
  assert (W : forall x l ls y, get_endpoints (gbuild cover_ops) l = Ok (x, y) -> forall v, route (gbuild cover_ops) y ls v -> route (gbuild cover_ops) x (l :: ls) v) by (intros; econstructor; eauto).
  split; [|split; [|split]].
  - intros o d [E|[]]. injection E as <- <-. repeat split; try (vm_compute; tauto). discriminate.
  - intros l [<-|[<-|[<-|[]]]]; eexists; eexists; (split; [vm_compute; reflexivity|]); split; reflexivity.
  - intros l [<-|[<-|[<-|[]]]]; exists 1, 6; eexists; eexists; (split; [now left|]); (split; [vm_compute; reflexivity|]); unfold connected; cbn [pn_g cover_net].
    + split; [exists [10]|exists [12]]; (eapply W; [vm_compute; reflexivity|]); constructor.
    + split; [exists [10; 11; 13]|exists [15; 11; 12]]; do 3 (eapply W; [vm_compute; reflexivity|]); constructor.
    + split; [exists [10; 11]; do 2 (eapply W; [vm_compute; reflexivity|]); constructor|exists [14; 15; 11; 12]; do 4 (eapply W; [vm_compute; reflexivity|]); constructor].
  - eexists. eexists. split; vm_compute; reflexivity.
Qed.
