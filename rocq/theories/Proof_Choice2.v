(** Route choice in a run with one class of vehicles. *)
From Verif Require Import Base Base_lemmas Model_Num Proof_Num Spec_Path Proof_Path Model_CC Model_Path Model_Link Spec_Link Spec_Node
  Proof_Link Proof_Link4 Model_World Model_Node Proof_Node Model_Sim Spec_Sim Spec_Route Spec_Choice Proof_Sim1 Proof_Sim2 Proof_Sim3 Proof_Sim4 Proof_Sim7 Proof_Choice.
Local Open Scope Z_scope.

(** what the release leaves alone *)
Definition rkeep1 (a b : world) : Prop :=
  w_link b = w_link a /\ w_dq b = w_dq a /\ arrived b = arrived a /\ w_trk b = w_trk a /\ w_pt b = w_pt a.
Lemma rkeep1_refl a : rkeep1 a a. Proof. repeat split. Qed.
Lemma rkeep1_trans a b c : rkeep1 a b -> rkeep1 b c -> rkeep1 a c.
Proof. unfold rkeep1. intros (?&?&?&?&?) (?&?&?&?&?). repeat split; congruence. Qed.
Lemma rkeep1_n D cur a o d r : forall j w, rkeep1 w (release_n j D cur a o d r w).
Proof. induction j as [|j IH]; intros w; [apply rkeep1_refl|]. cbn [release_n]. cbv zeta. eapply rkeep1_trans; [|apply IH]. repeat split. Qed.
Lemma rkeep1_dests N D cur a o : forall ds r w, rkeep1 w (release_dests N D cur a o r ds w).
Proof.
  induction ds as [|[d dem] ds IH]; intros r w; [apply rkeep1_refl|]. cbn [release_dests]. cbv zeta. eapply rkeep1_trans; [apply rkeep1_n|apply IH].
Qed.
Lemma rkeep1_one N D cur a r w o : rkeep1 w (release_one N D cur a r w o).
Proof.
  unfold release_one. destruct (a <? 0); [apply rkeep1_refl|]. cbv zeta. eapply rkeep1_trans; [apply (rkeep1_dests N D cur a o (o_demand o) r w)|]. repeat split.
Qed.
Lemma rkeep1_all N D cur a w w' : release_all N D cur a w = Ok w' -> rkeep1 w w'.
Proof.
  unfold release_all. intros H. apply bind_ok in H as (u & _ & H). destruct (_ =? 0); [|apply Ok_inj in H as <-; apply rkeep1_refl].
  apply Ok_inj in H as <-. generalize (if n_total_assign N <=? a then -1 else a). intros a'. revert w. induction (n_origins N) as [|o os IH]; intros w; [apply rkeep1_refl|].
  cbn [fold_left]. eapply rkeep1_trans; [apply rkeep1_one|apply IH].
Qed.

Section Choice1.
Context (N : net) (K : net_ok N).
Notation num w := (f_num (w_fac w)).

Lemma new_waits1 w w1 v : sinv N w -> sinv N w1 -> rkeep1 w w1 -> num w < v <= num w1 -> exists o, In o (n_origins N) /\ In v (w_oq w1 (o_node o)).
Proof.
  intros I I1 (L & Q & Dn & _) H. pose proof (i_num _ _ I) as Nn. destruct (none_new N w I v ltac:(lia)) as [C0 A0]. pose proof (i_count _ _ I1 v) as C1.
  assert (E1 : (1 <=? v) && (v <=? num w1) = true) by lia. rewrite E1 in C1. unfold one_if in C1. rewrite Dn, A0 in C1. unfold zcount in *.
  assert (El : zl N w1 v = zl N w v) by (unfold zl; now rewrite L). assert (Ed : zd N w1 v = zd N w v) by (unfold zd; now rewrite Q).
  pose proof (zl_nn N w v). pose proof (zd_nn N w v). assert (P0 : 0 <= zo N w v) by (unfold zo; apply sumZ_nonneg; intros; apply zc_nonneg).
  assert (E : 0 < zo N w1 v) by lia. unfold zo in E. rewrite ?map_map in E. clear - E. induction (n_origins N) as [|o os IH]; [cbn in E; lia|]. cbn [map] in E. unfold sumZ in *. cbn [fold_right] in E.
  pose proof (zc_nonneg v (w_oq w1 (o_node o))). destruct (Z.eq_dec (zc v (w_oq w1 (o_node o))) 0) as [Z0|Nz].
  - destruct IH as (o' & A & B); [lia|]. exists o'. split; [now right|exact B].
  - exists o. split; [now left|]. apply zc_In. lia.
Qed.

Lemma fixed_portion_case t w w' : 0 <= t -> 0 < n_rfreq N -> 0 < n_rlen N -> fixed_portion N t w = Ok w' ->
  w_veh w' = w_veh w /\ w_trk w' = w_trk w /\ w_oq w' = w_oq w /\ w_link w' = w_link w /\
  if (t mod n_rfreq N =? 0) && (t / n_rfreq N <? n_rlen N) then Forall2 (copied (t / n_rfreq N)) (w_pt w) (w_pt w') else w_pt w' = w_pt w.
Proof.
  intros Ht Hf Hl H. unfold fixed_portion in H. destruct (Z.eqb_spec (n_rfreq N) (-1)); [lia|]. destruct (Z.eqb_spec (n_rlen N) (-1)); [lia|]. cbn [orb] in H.
  apply bind_ok in H as (u & _ & H). rewrite Z.quot_div_nonneg, Z.rem_mod_nonneg in H by lia.
  destruct (_ && _); [apply bind_ok in H as (pt & Hp & H); apply change_copied in Hp|]; apply Ok_inj in H as <-; repeat split. exact Hp.
Qed.
Definition portion_rel (t : Z) (a b : ptable) : Prop := exists w w', w_pt w = a /\ w_pt w' = b /\ fixed_portion N t w = Ok w'.

Context (D : draws) (t : Z).
(** the routing of static vehicles after the shares are set *)
Lemma fixed_routing_case w w' : fixed_routing N D t w = Ok w' -> exists w1, fixed_portion N t w = Ok w1 /\ w_pt w' = w_pt w1 /\ w_oq w' = w_oq w /\
  (forall v, (forall o, In o (n_origins N) -> ~ In v (w_oq w (o_node o))) -> w_trk w v = None -> w_trk w' v = None) /\
  (forall v, v_adapt (w_veh w v) = false -> w_trk w v = None -> (exists o, In o (n_origins N) /\ In v (w_oq w (o_node o))) ->
    chosen (w_pt w') (d_route D v) (v_org (w_veh w v)) (v_dst (w_veh w v)) (v_path (w_veh w' v))).
Proof.
  intros H. pose proof (fixed_routing_r _ _ _ _ _ H) as [Rq _]. unfold fixed_routing in H. apply bind_ok in H as (w1 & H1 & H). apply bind_ok in H as (w2 & H2 & H3). exists w1. split; [exact H1|].
  assert (EE : w_veh w1 = w_veh w /\ w_trk w1 = w_trk w /\ w_oq w1 = w_oq w).
  { unfold fixed_portion in H1. destruct (_ || _); [apply Ok_inj in H1 as <-; auto|]. apply bind_ok in H1 as (u & _ & H1).
    destruct (_ && _); [apply bind_ok in H1 as (pt & _ & H1)|]; apply Ok_inj in H1 as <-; auto. }
  destruct EE as (Ev & Et & Eo). set (mine := fun _ : Z => true).
  change (foldM (fun w o => foldM (org_step N D mine) w (w_oq w (o_node o))) w1 (n_origins N) = Ok w2) in H2.
  change (foldM (fun w l => foldM (lnk_step N mine l) w (l_fin (w_link w l))) w2 (n_links N) = Ok w') in H3.
  pose proof (org_loops_pt _ _ _ _ _ _ H2) as P2. destruct (lnk_loops _ _ _ _ _ H3) as [P3 Pv].
  assert (PT : w_pt w' = w_pt w1) by congruence. split; [exact PT|]. split; [apply Rq|]. split.
  - intros v Hq Tv. rewrite <- Et in Tv. rewrite <- Eo in Hq.
    assert (T2 : w_trk w2 v = None).
    { assert (Q2 : w_oq w2 = w_oq w1 /\ (w_trk w1 v = None -> w_trk w2 v = None)); [|apply Q2, Tv].
      clear - H2 Hq. revert w1 Hq H2. generalize (n_origins N). induction l as [|o os IH]; intros w1 Hq H2; cbn [foldM] in H2; [apply Ok_inj in H2 as <-; auto|].
      apply bind_ok in H2 as (x & Hx & H2).
      assert (X : w_oq x = w_oq w1 /\ (w_trk w1 v = None -> w_trk x v = None)).
      { assert (Nv : ~ In v (w_oq w1 (o_node o))) by (apply Hq; now left). revert Hx. generalize (w_oq w1 (o_node o)) Nv. clear. intros vs. revert w1. induction vs as [|u vs IH]; intros w1 Nv H; cbn [foldM] in H; [apply Ok_inj in H as <-; auto|].
        apply bind_ok in H as (y & Hy & H). destruct (IH y) as [A B]; [intros I; apply Nv; now right|exact H|].
        assert (Y : w_oq y = w_oq w1 /\ w_trk y v = w_trk w1 v).
        { unfold org_step in Hy. destruct (mine u); [|apply Ok_inj in Hy as <-; auto]. split; [apply (fixed_origin_q _ _ _ _ _ Hy)|]. apply (fixed_origin_frame N D _ _ _ v) in Hy; [apply Hy|]. intros ->. apply Nv; now left. }
        destruct Y as [Y1 Y2]. split; [congruence|]. intros T. apply B. congruence. }
      destruct X as [X1 X2]. destruct (IH x) as [A B]; [intros o' Ho'; rewrite X1; apply Hq; now right|exact H2|]. split; [congruence|auto]. }
    clear - H3 T2. revert T2. revert H3. apply (foldM_rel (fun a b => w_trk a v = None -> w_trk b v = None)); [auto|auto|]. intros s l s' _.
    apply (foldM_rel (fun a b => w_trk a v = None -> w_trk b v = None)); [auto|auto|]. intros a u b _ E T. unfold lnk_step in E. destruct (mine u); [|apply Ok_inj in E as <-; auto].
    destruct (Z.eq_dec u v) as [->|Ne]; [|apply (fixed_link_frame N _ _ _ _ v Ne) in E; destruct E; congruence].
    unfold fixed_link_veh in E. rewrite T in E. destruct (v_adapt _); [apply Ok_inj in E as <-; auto|]. destruct (_ =? _); discriminate.
  - intros v Ad Tv (o & Ho & Iv).
    destruct (org_loops N D mine v (w_pt w1) (w_veh w v) Ad eq_refl (n_origins N) (w_oq w1) w1 w2 eq_refl H2) as [_ L].
    destruct L as (S1 & S2 & S3 & S4); [unfold waiting; rewrite Ev, Et; auto|exists o; split; [exact Ho|now rewrite Eo]|]. rewrite PT, Pv. exact S4.
Qed.
End Choice1.

(** the table holds the shares of column [col], whatever the current shares were *)
Definition at_col (pt0 : ptable) (col : Z) (pt : ptable) : Prop := exists pt1, plan pt1 = plan pt0 /\ Forall2 (copied col) pt1 pt.

Section Run1.
Context (N : net) (K : net_ok N) (D : Z -> draws) (w0 : world) (F : fresh_world N w0) (DV : forall t, draws_valid (D t)) (NA : n_routing N <> RAdaptive).
Notation num w := (f_num (w_fac w)).

(** one interval: a new static vehicle has a route chosen in the table left by the interval *)
Lemma choice_step1 t w w' a : sinv N w -> (forall v, num w < v -> w_trk w v = None) -> load_once N (D t) t a w = Ok w' ->
  (forall v, num w' < v -> w_trk w' v = None) /\ (exists wa wb, w_pt wa = w_pt w /\ w_pt wb = w_pt w' /\ fixed_portion N t wa = Ok wb) /\
  forall v, num w < v <= num w' -> v_adapt (w_veh w' v) = false ->
    chosen (w_pt w') (d_route (D t) v) (v_org (w_veh w' v)) (v_dst (w_veh w' v)) (v_path (w_veh w' v)).
Proof.
  intros I Ct H. unfold load_once in H. apply bind_ok in H as (w1 & H1 & H). apply bind_ok in H as (w2 & H2 & H).
  apply bind_ok in H as (w3 & H3 & H). apply bind_ok in H as (w4 & H4 & H5).
  pose proof (release_all_sinv _ _ _ _ _ _ K (DV t) H1 I) as I1. pose proof (rkeep1_all _ _ _ _ _ _ H1) as RK. pose proof RK as (_ & _ & _ & Rt & Rp).
  pose proof (release_all_srel _ _ _ _ _ _ H1) as (Gn & _).
  pose proof (sinv_q _ _ _ (update_routing_q _ _ _ _ _ H2) I1) as I2.
  set (R := fun a b : world => w_pt b = w_pt a /\ num b = num a /\ (forall v, w_trk a v = None -> w_trk b v = None) /\
              forall v, v_path (w_veh b v) = v_path (w_veh a v) /\ stat (w_veh b v) = stat (w_veh a v)).
  assert (Rr : forall a, R a a) by (repeat split; auto).
  assert (Rtr : forall a b c, R a b -> R b c -> R a c).
  { intros x y z (A1 & A2 & A4 & A5) (B1 & B2 & B4 & B5). repeat split; try congruence; auto; destruct (A5 v), (B5 v); congruence. }
  assert (R3 : R w2 w3).
  { enough (X : sinv N w3 /\ R w2 w3) by apply X. eapply (foldM_inv (node_evolve N (D t) t) (fun x => sinv N x /\ R w2 x)); [|split; [exact I2|apply Rr]|exact H3].
    intros nk s s' Hin [Is Rs] E. destruct (node_neff N (D t) t s s' nk K (DV t) (i_paired N s Is) Hin E) as (e & lv & o & d & J). split; [eapply neff_sinv; eauto|].
    apply (Rtr _ s _ Rs). destruct (ne_keep _ _ _ _ _ _ _ _ J) as (p1 & p2 & p3 & p4). unfold R. rewrite p1, p2, p3. repeat split; auto; destruct (p4 v) as (?&?&?&?&?&?&?&?); unfold stat; congruence. }
  assert (R4 : R w3 w4).
  { revert H4. apply foldM_rel; auto. intros s l s' _ E. unfold link_step in E. apply bind_ok in E as (x & _ & E). apply bind_ok in E as (y & _ & E). apply Ok_inj in E as <-. repeat split; auto. }
  assert (R5 : R w4 w').
  { revert H5. apply foldM_rel; auto. intros s n s' _ E. unfold receive in E. apply bind_ok in E as (x & E1 & E). apply Ok_inj in E as <-.
    apply receive_loop_eff in E1. destruct E1 as [A1 A2 A3 A4 A5 A6 A7 A8 A9 A10 A11 A12 A13 A14 A15]. unfold R. cbn [set_dq w_pt w_fac w_trk w_veh]. repeat split; auto.
    - intros v T. destruct (A14 v) as [->|[_ ->]]; auto.
    - rewrite A13. destruct (memb v _); reflexivity.
    - rewrite A13. destruct (memb v _); reflexivity. }
  destruct (Rtr _ _ _ R3 (Rtr _ _ _ R4 R5)) as (S1 & S2 & S4 & S5). clear R3 R4 R5 H3 H4 H5 Rr Rtr R.
  pose proof (update_routing_r _ _ _ _ _ H2) as [(_ & _ & _ & _ & Fq) Rs].
  assert (En : num w' = num w1) by (rewrite S2, Fq; reflexivity).
  assert (X : exists x, fixed_routing N (D t) t x = Ok w2 /\ w_pt x = w_pt w1 /\ w_trk x = w_trk w1 /\ w_oq x = w_oq w1 /\ (forall v, stat (w_veh x v) = stat (w_veh w1 v))).
  { unfold update_routing in H2. destruct (n_routing N) as [| |y]; [exists w1; auto|congruence|]. apply bind_ok in H2 as (x & Hx & H2). exists x. split; [exact H2|].
    destruct (Qltb 0 y); [|apply Ok_inj in Hx as <-; auto]. destruct (adaptive_static _ _ _ _ Hx) as (A & B & C & _). pose proof (adaptive_routing_r _ _ _ _ Hx) as [(_ & Qo & _) _]. auto. }
  destruct X as (x & Hx & Xp & Xt & Xo & Xs). destruct (fixed_routing_case N _ _ _ _ Hx) as (x1 & P1 & P2 & O2 & T2 & C2).
  split; [|split].
  - intros v Hv. rewrite En in Hv. apply S4. apply T2; [|rewrite Xt, Rt; apply Ct; lia]. intros o Ho Iv. rewrite Xo in Iv.
    pose proof (u_o_old N w1 I1 v (o_node o) (in_map _ _ _ Ho) Iv). lia.
  - exists x, x1. repeat split; congruence.
  - intros v Hv Ad. rewrite En in Hv. destruct (new_waits1 N w w1 v I I1 RK Hv) as (o & Ho & Iv). destruct (S5 v) as [Sp Ss]. rewrite S1, Sp.
    pose proof (fixed_routing_r _ _ _ _ _ Hx) as [_ Rx]. destruct (Rx v) as [Rxv _].
    assert (Es : stat (w_veh w' v) = stat (w_veh x v)) by congruence. unfold stat in Es. injection Es as -> -> Ea _ _. apply C2; [congruence|rewrite Xt, Rt; apply Ct; lia|]. exists o. now rewrite Xo.
Qed.

Definition col_at (t : Z) : Z := Z.min (t / n_rfreq N) (n_rlen N - 1).
Context (Hf : 0 < n_rfreq N) (Hl : 0 < n_rlen N).
Record chinv1 (j : nat) (w : world) : Prop := {
  c1_trk : forall v, num w < v -> w_trk w v = None;
  c1_pt : if (j =? 0)%nat then w_pt w = w_pt w0 else at_col (w_pt w0) (col_at (Z.of_nat j - 1)) (w_pt w) }.
Lemma chinv1_plan j w : chinv1 j w -> plan (w_pt w) = plan (w_pt w0).
Proof. intros [_ C]. destruct (j =? 0)%nat; [now rewrite C|]. destruct C as (pt1 & P & C). rewrite <- P. eapply copied_plan; eauto. Qed.
Lemma chinv1_step j w w' a : chinv1 j w -> sinv N w -> load_once N (D (Z.of_nat j)) (Z.of_nat j) a w = Ok w' -> chinv1 (S j) w'.
Proof.
  intros C I H. destruct (choice_step1 _ _ _ _ I (c1_trk _ _ C) H) as (T & (wa & wb & Pa & Pb & P) & _). constructor; [exact T|]. cbn [Nat.eqb].
  replace (Z.of_nat (S j) - 1) with (Z.of_nat j) by lia. set (t := Z.of_nat j) in *. assert (Ht : 0 <= t) by (unfold t; lia).
  destruct (fixed_portion_case N t wa wb Ht Hf Hl P) as (_ & _ & _ & _ & Q). rewrite Pa, Pb in Q.
  destruct ((t mod n_rfreq N =? 0) && (t / n_rfreq N <? n_rlen N)) eqn:E.
  - apply andb_true_iff in E as [_ E]. apply Z.ltb_lt in E. exists (w_pt w). split; [now apply (chinv1_plan j)|]. unfold col_at. rewrite Z.min_l by lia. exact Q.
  - rewrite Q. destruct C as [_ C]. destruct (Nat.eqb_spec j 0) as [->|Nz].
    + exfalso. unfold t in E. change (Z.of_nat 0) with 0 in E. rewrite Z.mod_0_l, Z.div_0_l in E by lia. cbn [Z.eqb andb] in E. apply Z.ltb_ge in E. lia.
    + replace (col_at t) with (col_at (t - 1)); [exact C|]. unfold col_at. apply andb_false_iff in E as [E|E].
      * apply Z.eqb_neq in E. pose proof (Z.div_mod t (n_rfreq N) ltac:(lia)). pose proof (Z.mod_pos_bound t (n_rfreq N) Hf).
        replace ((t - 1) / n_rfreq N) with (t / n_rfreq N); [reflexivity|]. apply (Z.div_unique _ _ _ (t mod n_rfreq N - 1)); lia.
      * apply Z.ltb_ge in E. rewrite !Z.min_r; [reflexivity|lia|]. apply Z.div_le_lower_bound; [exact Hf|].
        assert (n_rfreq N * n_rlen N <= t); [|nia]. etransitivity; [apply Z.mul_le_mono_nonneg_l; [lia|exact E]|]. apply Z.mul_div_le. exact Hf.
Qed.
Lemma chinv1_run j : forall s, run N D j (init_state N w0) = Ok s -> chinv1 j (s_w s).
Proof.
  induction j as [|j IH]; intros s H.
  - apply Ok_inj in H as <-. constructor; [intros v _; apply F|reflexivity].
  - pose proof H as H'. apply run_S in H' as (s1 & H1 & _). destruct (st_step N D w0 F DV _ _ _ H1 H) as (E & _).
    eapply chinv1_step; [apply IH, H1| |exact E]. eapply reached_sinv; [exact K|]. exists w0. eauto.
Qed.
Lemma choice1_new j s s' v : run N D j (init_state N w0) = Ok s -> run N D (S j) (init_state N w0) = Ok s' -> num (s_w s) < v <= num (s_w s') -> v_adapt (w_veh (s_w s') v) = false ->
  picked (w_pt w0) (flow_in (col_at (Z.of_nat j))) (v_org (w_veh (s_w s') v)) (v_dst (w_veh (s_w s') v)) (d_route (D (Z.of_nat j)) v) (v_path (w_veh (s_w s') v)).
Proof.
  intros H H' Hv Ad. destruct (st_step N D w0 F DV _ _ _ H H') as (E & _). assert (I : sinv N (s_w s)) by (eapply reached_sinv; [exact K|]; exists w0; eauto).
  destruct (choice_step1 _ _ _ _ I (c1_trk _ _ (chinv1_run _ _ H)) E) as (_ & _ & Ch). pose proof (c1_pt _ _ (chinv1_run _ _ H')) as C. cbn [Nat.eqb] in C.
  replace (Z.of_nat (S j) - 1) with (Z.of_nat j) in C by lia. destruct C as (pt1 & P & C). eapply chosen_picked; [exact P|apply DV|exact C|]. now apply Ch.
Qed.
Lemma plan1_run j s : run N D j (init_state N w0) = Ok s -> plan (w_pt (s_w s)) = plan (w_pt w0).
Proof. intros H. exact (chinv1_plan _ _ (chinv1_run _ _ H)). Qed.
End Run1.

(** without a buffer the table is never touched *)
Section Run0.
Context (N : net) (K : net_ok N) (D : Z -> draws) (w0 : world) (F : fresh_world N w0) (DV : forall t, draws_valid (D t)) (NA : n_routing N <> RAdaptive).
Context (NB : n_rfreq N = -1 \/ n_rlen N = -1).
Notation num w := (f_num (w_fac w)).
Lemma still_run j : forall s, run N D j (init_state N w0) = Ok s -> (forall v, num (s_w s) < v -> w_trk (s_w s) v = None) /\ w_pt (s_w s) = w_pt w0.
Proof.
  induction j as [|j IH]; intros s H.
  - apply Ok_inj in H as <-. split; [intros v _; apply F|reflexivity].
  - pose proof H as H'. apply run_S in H' as (s1 & H1 & _). destruct (st_step N D w0 F DV _ _ _ H1 H) as (E & _). destruct (IH _ H1) as [T P].
    assert (I : sinv N (s_w s1)) by (eapply reached_sinv; [exact K|]; exists w0; eauto). destruct (choice_step1 N K D DV NA _ _ _ _ I T E) as (T' & (wa & wb & Pa & Pb & Q) & _).
    split; [exact T'|]. unfold fixed_portion in Q. replace ((n_rfreq N =? -1) || (n_rlen N =? -1)) with true in Q; [apply Ok_inj in Q as <-; congruence|].
    destruct NB as [-> | ->]; [reflexivity|now rewrite orb_true_r].
Qed.
Lemma still_new j s s' v : run N D j (init_state N w0) = Ok s -> run N D (S j) (init_state N w0) = Ok s' -> num (s_w s) < v <= num (s_w s') -> v_adapt (w_veh (s_w s') v) = false ->
  chosen (w_pt w0) (d_route (D (Z.of_nat j)) v) (v_org (w_veh (s_w s') v)) (v_dst (w_veh (s_w s') v)) (v_path (w_veh (s_w s') v)).
Proof.
  intros H H' Hv Ad. destruct (st_step N D w0 F DV _ _ _ H H') as (E & _). assert (I : sinv N (s_w s)) by (eapply reached_sinv; [exact K|]; exists w0; eauto).
  destruct (choice_step1 N K D DV NA _ _ _ _ I (proj1 (still_run _ _ H)) E) as (_ & _ & Ch). rewrite <- (proj2 (still_run _ _ H')). now apply Ch.
Qed.
End Run0.

(** the choice made at departure is kept *)
Lemma choice1_all N (K : net_ok N) D w0 : fresh_world N w0 -> (forall t, draws_valid (D t)) -> n_routing N <> RAdaptive -> 0 < n_rfreq N -> 0 < n_rlen N -> routes_ok (w_pt w0) ->
  forall k s v, run N D k (init_state N w0) = Ok s -> 1 <= v <= f_num (w_fac (s_w s)) -> v_adapt (w_veh (s_w s) v) = false ->
  picked (w_pt w0) (flow_in (col_at N (v_start (w_veh (s_w s) v)))) (v_org (w_veh (s_w s) v)) (v_dst (w_veh (s_w s) v))
         (d_route (D (v_start (w_veh (s_w s) v))) v) (v_path (w_veh (s_w s) v)).
Proof.
  intros F DV NA Hf Hl RO. induction k as [|k IH]; intros s v H Hv Ad.
  - apply Ok_inj in H as <-. cbn [init_state s_w] in Hv. rewrite (fw_fac _ _ F) in Hv. cbn in Hv. lia.
  - pose proof H as H'. apply run_S in H' as (s1 & H1 & _). destruct (st_step N D w0 F DV _ _ _ H1 H) as (E & _).
    assert (I : sinv N (s_w s1)) by (eapply reached_sinv; [exact K|]; exists w0; eauto).
    destruct (load_once_srel _ _ _ _ _ _ K (DV _) I E) as (G & Old & New). destruct (Z_le_gt_dec v (f_num (w_fac (s_w s1)))) as [L|L].
    + specialize (Old v L). unfold stat in Old. injection Old as -> -> Ea -> _. rewrite Ea in Ad. specialize (IH s1 v H1 ltac:(lia) Ad).
      pose proof IH as (es & e & i & _ & _ & _ & P). rewrite P in IH.
      rewrite (run_path_kept N D w0 v K F DV RO k (S k) s1 s _ (Nat.le_succ_diag_r k) H1 H L P). exact IH.
    + rewrite (New v ltac:(lia)). apply (choice1_new N K D w0 F DV NA Hf Hl k s1 s v H1 H); [lia|exact Ad].
Qed.
