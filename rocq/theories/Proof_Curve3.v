(** One interval, and the time line of a run. *)
From Verif Require Import Base Base_lemmas Model_Num Proof_Num Spec_Path Proof_Path Model_CC Spec_CC Proof_CC Proof_CC2 Proof_CC3 Model_Path Model_Link Spec_Link Spec_Node
  Proof_Link Proof_Link3 Proof_Link4 Proof_Link5 Model_World Model_Node Proof_Node Proof_Node2 Proof_Node3 Proof_Node4 Proof_Node5 Model_Sim Spec_Sim Proof_Sim1 Proof_Sim2 Proof_Sim3 Proof_Sim4 Proof_Sim7 Proof_Safe3 Spec_Curve Proof_Curve1 Proof_Curve2.
Local Open Scope Z_scope.

Lemma release_frame N D cur assign w w' : release_all N D cur assign w = Ok w' -> w_link w' = w_link w /\ w_cc w' = w_cc w.
Proof.
  intros H. unfold release_all in H. apply bind_ok in H as (u & _ & H). destruct (_ =? 0); apply Ok_inj in H as <-; [|auto].
  set (asg := if n_total_assign N <=? assign then -1 else assign). clearbody asg. set (r := base_ratio (n_routing N)). clearbody r.
  assert (A : forall q o d rt k x, w_link (release_n k D cur q o d rt x) = w_link x /\ w_cc (release_n k D cur q o d rt x) = w_cc x).
  { intros q o d rt. induction k as [|k IH]; intros x; [auto|]. simpl. match goal with |- context [release_n k D cur q o d rt ?y] => destruct (IH y) as [-> ->] end. split; reflexivity. }
  assert (B : forall o ds rt x, w_link (release_dests N D cur asg o rt ds x) = w_link x /\ w_cc (release_dests N D cur asg o rt ds x) = w_cc x).
  { intros o. induction ds as [|[d dem] ds IH]; intros rt x; [auto|]. simpl. match goal with |- context [release_dests N D cur asg o ?q ds ?y] => destruct (IH q y) as [-> ->] end. apply A. }
  revert w. induction (n_origins N) as [|o os IH]; intros w; [auto|]. simpl. destruct (IH (release_one N D cur asg r w o)) as [-> ->].
  unfold release_one. destruct (asg <? 0); [auto|]. cbn [set_oq w_link w_cc]. apply B.
Qed.
Lemma links_frame N D w w' : sinv N w -> net_ok N -> foldM (link_step D) w (n_links N) = Ok w' ->
  (forall l, on_link (w_link w' l) = on_link (w_link w l)) /\ w_cc w' = w_cc w /\ w_veh w' = w_veh w.
Proof.
  intros I K H. enough (X : sinv N w' /\ (forall l, on_link (w_link w' l) = on_link (w_link w l)) /\ w_cc w' = w_cc w /\ w_veh w' = w_veh w) by tauto.
  revert H. apply (foldM_inv (link_step D) (fun x => sinv N x /\ (forall l, on_link (w_link x l) = on_link (w_link w l)) /\ w_cc x = w_cc w /\ w_veh x = w_veh w)); [|tauto].
  intros l s s' Hl (Is & E1 & E2 & E3) Es. pose proof (link_step_sinv _ _ _ _ _ K Hl Es Is) as I'. unfold link_step in Es. apply bind_ok in Es as (x & Hx & H). apply bind_ok in H as (y & Hy & H).
  apply Ok_inj in H as <-. destruct (link_clear_line _ _ Hx (i_body _ _ Is l Hl)) as (Bx & Ex & _).
  destruct (link_evolve_line _ _ _ _ Hy Bx) as (By & Ey & _). split; [exact I'|]. split; [|auto].
  intros l'. rewrite <- E1. cbn [set_link w_link]. destruct (Z.eq_dec l' l) as [->|Ne]; [rewrite upd_same; congruence|now rewrite upd_other].
Qed.
Lemma dests_frame N t ds w w' : foldM (receive N t) w ds = Ok w' ->
  w_link w' = w_link w /\ w_cc w' = w_cc w /\ (forall v, v_path (w_veh w' v) = v_path (w_veh w v) /\ v_assign (w_veh w' v) = v_assign (w_veh w v)).
Proof.
  apply (foldM_inv (receive N t) (fun x => w_link x = w_link w /\ w_cc x = w_cc w /\ (forall v, v_path (w_veh x v) = v_path (w_veh w v) /\ v_assign (w_veh x v) = v_assign (w_veh w v)))); [|tauto].
  intros n s s' _ (E1 & E2 & E3) Es. unfold receive in Es. apply bind_ok in Es as (x & Hx & Es). apply Ok_inj in Es as <-. apply receive_loop_eff in Hx.
  destruct Hx as [A1 A2 A3 A4 A5 A6 A7 A8 A9 A10 A11 A12 A13 A14 A15]. cbn [set_dq w_link w_cc w_veh]. rewrite A1, A4. split; [exact E1|]. split; [exact E2|].
  intros v. rewrite A13. destruct (memb v (w_dq s n)); [cbn [set_vfin v_path v_assign]|]; apply E3.
Qed.

(** one interval *)
Record igrow (N : net) (t : Z) (w w' : world) (E L : Z -> list Z) : Prop := {
  ig_E : forall l, In l (n_links N) -> Permutation (E l) (newcomers w w' l);
  ig_L : forall l, In l (n_links N) -> Permutation (L l) (leavers w w' l);
  ig_Nin : forall l, exists incs, cgrow incs (cc_Nin (w_cc w) l) (cc_Nin (w_cc w') l) /\ batch (n_fs N) t (Zlen (E l)) incs;
  ig_Nout : forall l, exists incs, cgrow incs (cc_Nout (w_cc w) l) (cc_Nout (w_cc w') l) /\ batch (n_fs N) t (Zlen (L l)) incs;
  ig_Tin : forall l, ~ origin_fed N l -> tgrow (map (op (n_fs N) t w') (E l)) (cc_Tin (w_cc w) l) (cc_Tin (w_cc w') l);
  ig_Tout : forall l, ~ dest_bound N l -> exists us, Permutation us (L l) /\ tgrow (map (op (n_fs N) t w') us) (cc_Tout (w_cc w) l) (cc_Tout (w_cc w') l) }.

Lemma nodup_app_split {A} (a b : list A) : NoDup (a ++ b) -> NoDup a /\ NoDup b /\ (forall x, In x a -> In x b -> False).
Proof.
  induction a as [|x a IH]; simpl; intros H; [split; [constructor|]; split; [exact H|intros x []]|].
  inversion H as [|? ? Nx Hx]; subst. destruct (IH Hx) as (A1 & A2 & A3). split; [constructor; [intros C; apply Nx, in_or_app; now left|exact A1]|]. split; [exact A2|].
  intros y [<-|Hy] Hb; [apply Nx, in_or_app; now right|eauto].
Qed.
Lemma nodup_app_join {A} (a b : list A) : NoDup a -> NoDup b -> (forall x, In x a -> In x b -> False) -> NoDup (a ++ b).
Proof.
  induction a as [|x a IH]; simpl; intros A1 A2 A3; [exact A2|]. inversion A1 as [|? ? Nx Hx]; subst. constructor.
  - intros C. apply in_app_or in C as [C|C]; [tauto|]. apply (A3 x); auto.
  - apply IH; auto. intros y Ha Hb. apply (A3 y); auto.
Qed.
Lemma on_link_nodup N w l : sinv N w -> In l (n_links N) -> NoDup (on_link (w_link w l)).
Proof.
  intros I Hl. apply NoDup_cnt. intros v. pose proof (zl_ge N w v l Hl). pose proof (zo_nn N w v). pose proof (zd_nn N w v). pose proof (one_le N w I v). pose proof (zc_nonneg v (arrived w)).
  unfold zcount, zc in *. lia.
Qed.
Lemma in_newcomers w w' l v : In v (newcomers w w' l) <-> In v (on_link (w_link w' l)) /\ ~ In v (on_link (w_link w l)).
Proof.
  unfold newcomers. rewrite filter_In, negb_true_iff. split; intros [A B]; (split; [exact A|]).
  - intros C. enough (existsb (Z.eqb v) (on_link (w_link w l)) = true) by congruence. apply existsb_exists. exists v. split; [exact C|apply Z.eqb_refl].
  - apply not_true_iff_false. intros C. apply B. apply existsb_exists in C as (x & Hx & Ex). apply Z.eqb_eq in Ex. now subst.
Qed.

Lemma load_once_igrow N D t a w w' : net_ok N -> draws_valid D -> sinv N w -> load_once N D t a w = Ok w' -> exists E L, igrow N t w w' E L.
Proof.
  intros K DV I H. pose proof (load_once_sinv _ _ _ _ _ _ K DV H I) as I'. unfold load_once in H. apply bind_ok in H as (w1 & H1 & H). apply bind_ok in H as (w2 & H2 & H).
  apply bind_ok in H as (w3 & H3 & H). apply bind_ok in H as (w4 & H4 & H).
  pose proof (release_all_sinv _ _ _ _ _ _ K DV H1 I) as I1. pose proof (update_routing_q _ _ _ _ _ H2) as Q2. pose proof (sinv_q _ _ _ Q2 I1) as I2. destruct Q2 as (Ql & _ & _ & Qc & _).
  pose proof (nodes_sinv _ _ _ _ _ K DV H3 I2) as I3. destruct (release_frame _ _ _ _ _ _ H1) as [Rl Rc].
  destruct (nodes_ngrow N D t K DV _ _ _ I2 (fun _ h => h) H3) as (E & L & G). destruct (links_frame _ _ _ _ I3 K H4) as (Lo & Lc & Lv). destruct (dests_frame _ _ _ _ _ H) as (Dl & Dc & Dv).
  assert (O2 : forall l, on_link (w_link w l) = on_link (w_link w2 l)) by (intros l; rewrite Ql, Rl; reflexivity).
  assert (O3 : forall l, on_link (w_link w' l) = on_link (w_link w3 l)) by (intros l; rewrite Dl; apply Lo).
  assert (C2 : w_cc w2 = w_cc w) by congruence. assert (C3 : w_cc w' = w_cc w3) by congruence.
  assert (OP : forall l, map (op (n_fs N) t w2) l = map (op (n_fs N) t w') l).
  { intros l. rewrite <- (map_op_keep (n_fs N) t w2 w3 l (ng_keep _ _ _ _ _ _ G)). apply map_ext. intros v. unfold op, path_key. destruct (Dv v) as [-> ->]. rewrite Lv. reflexivity. }
  exists E, L. destruct G as [G1 G2 G3 G4 G5 G6 G7 G8 G9 G10].
  assert (P : forall l, Permutation (on_link (w_link w' l) ++ L l) (on_link (w_link w l) ++ E l)).
  { intros l. rewrite O2, O3. unfold on_link. rewrite (G3 l). replace (l_body (w_link w3 l)) with (l_body (w_link w2 l)) by (symmetry; apply (G2 l)).
    rewrite (G4 l). rewrite (Permutation_app_comm _ (L l)). rewrite <- !app_assoc. reflexivity. }
  assert (DE : forall l, In l (n_links N) -> forall v, In v (on_link (w_link w l)) -> In v (E l) -> False).
  { intros l Hl v A B. rewrite O2 in A. destruct (G6 l v B) as (_ & [(n & Hn & Ho)|(b & Hb & Ne & Hf)]).
    - exact (u_ol N w2 I2 v n l Hn Hl Ho A).
    - apply Ne. apply (u_ll N w2 I2 v b l Hb Hl); [|exact A]. unfold on_link. apply in_or_app. now left. }
  assert (NE : forall l, In l (n_links N) -> NoDup (E l)).
  { intros l Hl. pose proof (on_link_nodup N w3 l I3 Hl) as X. unfold on_link in X. rewrite (G3 l) in X. apply nodup_app_split in X as (_ & X & _). apply nodup_app_split in X as (_ & X & _).
    apply nodup_app_split in X as (_ & X & _). exact X. }
  assert (LI : forall l v, In v (L l) -> In v (on_link (w_link w l))).
  { intros l v Hv. rewrite O2. unfold on_link. apply in_or_app. left. eapply Permutation_in; [symmetry; apply G4|]. apply in_or_app. now left. }
  split.
  - intros l Hl. apply NoDup_Permutation; [auto|apply NoDup_filter, (on_link_nodup N); assumption|]. intros v. rewrite in_newcomers. split.
    + intros B. split; [|intros A; exact (DE l Hl v A B)]. assert (X : In v (on_link (w_link w' l) ++ L l)) by (eapply Permutation_in; [symmetry; apply P|]; apply in_or_app; now right).
      apply in_app_or in X as [X|X]; [exact X|]. destruct (DE l Hl v (LI l v X) B).
    + intros [A B]. assert (X : In v (on_link (w_link w l) ++ E l)) by (eapply Permutation_in; [apply P|]; apply in_or_app; now left). apply in_app_or in X as [X|X]; [tauto|exact X].
  - intros l Hl. assert (ND : NoDup (on_link (w_link w' l) ++ L l)).
    { eapply Permutation_NoDup; [symmetry; apply P|]. apply nodup_app_join; [apply (on_link_nodup N); assumption|auto|exact (DE l Hl)]. }
    apply nodup_app_split in ND as (N1 & N2 & N3).
    apply NoDup_Permutation; [exact N2|apply NoDup_filter, (on_link_nodup N); assumption|]. intros v. unfold leavers. rewrite in_newcomers. split.
    + intros B. split; [auto|]. intros C. eauto.
    + intros [A B]. assert (X : In v (on_link (w_link w' l) ++ L l)) by (eapply Permutation_in; [symmetry; apply P|]; apply in_or_app; now left). apply in_app_or in X as [X|X]; [tauto|exact X].
  - intros l. rewrite C3, <- C2. apply G7.
  - intros l. rewrite C3, <- C2. apply G8.
  - intros l Hl. rewrite C3, <- C2, <- OP. apply G9, Hl.
  - intros l Hl. rewrite C3, <- C2. destruct (G10 l Hl) as (us & Pu & X). exists us. rewrite <- OP. auto.
Qed.
