(** Proofs for waiting times of a two-class run. *)
From Coq Require Import Permutation.
From Verif Require Import Base Base_lemmas Model_Num Proof_Num Spec_Path Proof_Path Model_CC Spec_CC Model_Path Model_Link Spec_Link Spec_Node
  Proof_Link Proof_Link4 Model_World Model_Node Model_Sim Spec_Sim Proof_Sim1 Proof_Sim3 Proof_Sim4
  Model_McLink Spec_McLink Proof_McLink Proof_McLink5 Proof_McLink6 Model_McNode Spec_McNode Model_McSim Spec_McSim Proof_McSim1 Proof_McSim2 Proof_McSim3
  Model_Text Model_Io Model_Mio Model_McAttr Spec_McAttr Proof_McAttr Model_McWait.
Local Open Scope Z_scope.

(** ** nodes leave the sums alone *)
Definition waits (l : mlink) : Q * Q * Q * bool := (ml_wait l, ml_wait_c l, ml_wait_t l, ml_spill l).
Definition wkeep (w w' : mworld) : Prop := forall l, waits (mw_link w' l) = waits (mw_link w l).
Lemma wkeep_refl w : wkeep w w. Proof. now intros l. Qed.
Lemma wkeep_trans a b c : wkeep a b -> wkeep b c -> wkeep a c. Proof. intros A B l. now rewrite (B l), (A l). Qed.
Lemma wkeep_link w w' : mw_link w' = mw_link w -> wkeep w w'. Proof. intros E l. now rewrite E. Qed.
Lemma wkeep_set w b x : waits x = waits (mw_link w b) -> wkeep w (mset_link w b x).
Proof. intros E l. cbn [mset_link mw_link]. destruct (Z.eq_dec l b) as [->|N]; [now rewrite upd_same|now rewrite upd_other]. Qed.
Lemma rec_in_link fs t k b n w w' : rec_in fs t k b n w = Ok w' -> mw_link w' = mw_link w.
Proof. unfold rec_in. intros H. apply bind_ok in H as (c & _ & H). now apply Ok_inj in H as <-. Qed.
Lemma rec_out_link fs t k b n w w' : rec_out fs t k b n w = Ok w' -> mw_link w' = mw_link w.
Proof. unfold rec_out. intros H. apply bind_ok in H as (c & _ & H). now apply Ok_inj in H as <-. Qed.
Lemma tree_inc_link fs t b w v w' : mtree_inc fs t b w v = Ok w' -> mw_link w' = mw_link w.
Proof.
  unfold mtree_inc. cbv zeta. destruct (mk_Tin _ _ _) as [tr|]; [|intros H; now apply Ok_inj in H as <-].
  intros H. apply bind_ok in H as (c1 & _ & H). now apply Ok_inj in H as <-.
Qed.
Lemma origin_move_wkeep fs t n w bk w' : morigin_move fs t n w bk = Ok w' -> wkeep w w'.
Proof.
  destruct bk as [b k]. unfold morigin_move. destruct (pull _ _ _) as [[vs rest] x]. cbv zeta. intros H.
  apply bind_ok in H as (u & _ & H). apply bind_ok in H as (w4 & H1 & H). apply rec_in_link in H, H1.
  eapply wkeep_trans; [|apply wkeep_link; rewrite H, H1; reflexivity].
  intros l. cbn [mset_vehs mset_link mset_oq mw_link]. destruct (Z.eq_dec l b) as [->|N]; [now rewrite upd_same|now rewrite upd_other].
Qed.
Lemma dest_step_wkeep fs t n w a w' : mdest_step fs t n w a = Ok w' -> wkeep w w'.
Proof.
  unfold mdest_step. cbv zeta. intros H. apply bind_ok in H as (u & _ & H). apply bind_ok in H as (u' & _ & H). apply bind_ok in H as (w4 & H1 & H). apply rec_out_link in H, H1.
  eapply wkeep_trans; [|apply wkeep_link; rewrite H, H1; reflexivity].
  intros l. cbn [mset_vehs mset_link mset_dq mw_link]. destruct (Z.eq_dec l a) as [->|N]; [now rewrite upd_same|now rewrite upd_other].
Qed.
Lemma move_pair_wkeep fs pcu t w p w' : mmove_pair fs pcu t w p = Ok w' -> wkeep w w'.
Proof.
  destruct p as [[a b] x]. unfold mmove_pair. destruct (mpull _ _ _ _) as [[vs rest] y]. cbv zeta. intros H.
  apply bind_ok in H as (w4 & H1 & H). apply bind_ok in H as (u & _ & H). apply Ok_inj in H as <-.
  eapply wkeep_trans; [|refine (foldM_rel wkeep _ wkeep_refl wkeep_trans _ _ _ _ H1); intros s v s' _ E; apply wkeep_link; eapply tree_inc_link; eauto].
  intros l. cbn [mset_vehs mset_link mw_link]. destruct (Z.eq_dec l b) as [->|N].
  - rewrite upd_same. destruct (Z.eq_dec b a) as [->|N2]; [now rewrite upd_same|now rewrite upd_other].
  - rewrite upd_other by exact N. destruct (Z.eq_dec l a) as [->|N2]; [now rewrite upd_same|now rewrite upd_other].
Qed.
Lemma node_wkeep fs pcu outs ins D t w nk w' : mnode_evolve fs pcu outs ins D t w nk = Ok w' -> wkeep w w'.
Proof.
  destruct nk as [n []]; cbn [mnode_evolve].
  - unfold mjunction_evolve. intros H. apply bind_ok in H as (u & _ & H). apply bind_ok in H as (sup & _ & H). cbv zeta in H. apply bind_ok in H as (s & H1 & H).
    assert (A : wkeep w (fst s)).
    { change (wkeep (fst (w, @nil (Z * Z * list Z))) (fst s)). revert H1. apply (foldM_rel (fun a b => wkeep (fst a) (fst b))); [intros; apply wkeep_refl|intros; eapply wkeep_trans; eauto|].
      intros s1 [[a b] x] s2 _ E. unfold mmove_log in E. apply bind_ok in E as (w2 & E1 & E). apply Ok_inj in E as <-. cbn [fst]. eapply move_pair_wkeep; eauto. }
    eapply wkeep_trans; [exact A|]. unfold mrecord in H. apply bind_ok in H as (w1 & H2 & H).
    apply (wkeep_trans _ w1); [refine (foldM_rel wkeep _ wkeep_refl wkeep_trans _ _ _ _ H2)|refine (foldM_rel wkeep _ wkeep_refl wkeep_trans _ _ _ _ H)];
      intros s1 b s2 _ E; apply bind_ok in E as (s3 & E1 & E2); apply wkeep_link.
    + rewrite (rec_in_link _ _ _ _ _ _ _ E2). eapply rec_in_link; eauto.
    + rewrite (rec_out_link _ _ _ _ _ _ _ E2). eapply rec_out_link; eauto.
  - unfold morigin_evolve. intros H. apply bind_ok in H as (ks & _ & H). revert H. apply foldM_rel; [apply wkeep_refl|apply wkeep_trans|]. intros; eapply origin_move_wkeep; eauto.
  - unfold mdest_evolve. apply foldM_rel; [apply wkeep_refl|apply wkeep_trans|]. intros; eapply dest_step_wkeep; eauto.
Qed.

(** ** the link updates *)
Lemma link_step_wait D w l w' : mlink_step D w l = Ok w' -> exists y, w' = mset_link w l y /\ ml_par y = ml_par (mw_link w l) /\
  forall k, wait_k k y = (wait_k k (mw_link w l) + class_count (mw_cls w) k (ml_fin y) / mp_fs (ml_par y) * mp_ut (ml_par y))%Q.
Proof.
  unfold mlink_step. intros H. apply bind_ok in H as (x & Hx & H). apply bind_ok in H as (y & Hy & H). apply Ok_inj in H as <-. exists y. split; [reflexivity|].
  apply clear_keeps in Hx as (C1 & C2 & C3 & C4 & _). destruct (evolve_settle _ _ _ _ _ Hy) as (b & sp & E & _).
  assert (P : ml_par y = ml_par x) by (rewrite E; reflexivity). split; [congruence|].
  intros [|]; unfold wait_k, class_count.
  - rewrite <- of_class_trucks. rewrite E at 1. cbn [settle ml_wait_t]. rewrite C4, P. reflexivity.
  - rewrite <- of_class_cars. rewrite E at 1. cbn [settle ml_wait_c]. rewrite C3, P. reflexivity.
Qed.

(** ** one interval *)
Section Run.
Context (M : mnet) (K : mnet_ok M).
Definition gone (w w' : mworld) (k : bool) (l : Z) : Prop :=
  mw_cls w' = mw_cls w /\ exists x, cadds x (mk_Nout (mw_cc w) k l) (mk_Nout (mw_cc w') k l) /\
    (x + class_count (mw_cls w) k (ml_fin (mw_link w' l)) / mn_fs M == class_count (mw_cls w) k (ml_fin (mw_link w l)) / mn_fs M)%Q.
Lemma cadds_comp x y a b c : cadds x a b -> cadds y b c -> cadds (x + y) a c.
Proof. destruct a, b, c; simpl; try tauto. intros A B. rewrite B, A. lra. Qed.
Lemma gone_refl k l w : gone w w k l.
Proof. split; [reflexivity|]. exists 0%Q. split; [apply cadds_refl; reflexivity|lra]. Qed.
Lemma gone_trans k l a b c : gone a b k l -> gone b c k l -> gone a c k l.
Proof.
  intros (A1 & x & A2 & A3) (B1 & y & B2 & B3). split; [congruence|]. exists (x + y)%Q. split; [eapply cadds_comp; eauto|]. rewrite A1 in B3. lra.
Qed.
Lemma class_count_app cls k a b : (class_count cls k (a ++ b) == class_count cls k a + class_count cls k b)%Q.
Proof. unfold class_count, of_class. rewrite filter_app, Zlen_app, inject_Z_plus. reflexivity. Qed.
Lemma class_count_perm cls k a b : Permutation a b -> class_count cls k a = class_count cls k b.
Proof. intros P. unfold class_count, of_class, Zlen. f_equal. f_equal. apply Permutation_length. induction P; cbn [filter]; repeat destruct (Bool.eqb _ _); eauto using Permutation; try constructor; eauto using Permutation. Qed.
Lemma meff_gone w w' e lv k l : meff M w w' e lv -> gone w w' k l.
Proof.
  intros J. destruct (me_plans _ _ _ _ _ J) as (E1 & E2 & _).
  split; [assumption|]. eexists. split; [apply (me_Nout _ _ _ _ _ J)|].
  rewrite (class_count_perm _ _ _ _ (me_fin _ _ _ _ _ J l)), class_count_app. unfold Qdiv. ring.
Qed.
Definition accounts (w : mworld) (k : bool) (l : Z) : Prop := forall c, mk_Nout (mw_cc w) k l = Some c ->
  ((cum_total c + class_count (mw_cls w) k (ml_fin (mw_link w l)) / mn_fs M) * mp_ut (ml_par (mw_link w l)) <= wait_k k (mw_link w l))%Q.

Lemma release_n_cc D cur asg o k d r : forall j w, mw_cc (mrelease_n j D cur asg o k d r w) = mw_cc w.
Proof. induction j as [|j IH]; intros w; cbn [mrelease_n]; [reflexivity|]. cbv zeta. rewrite IH. reflexivity. Qed.
Lemma release_dests_cc D cur asg o k : forall ds r w, mw_cc (fst (mrelease_dests M D cur asg o k r ds w)) = mw_cc w.
Proof. induction ds as [|[d dem] ds IH]; intros r w; cbn [mrelease_dests]; [reflexivity|]. cbv zeta. rewrite IH. apply release_n_cc. Qed.
Lemma release_cc D cur asg w w' : mrelease_all M D cur asg w = Ok w' -> mw_cc w' = mw_cc w.
Proof.
  unfold mrelease_all. intros H. apply bind_ok in H as (u & _ & H). destruct (_ =? 0); apply Ok_inj in H as <-; [|reflexivity].
  generalize (if mn_total_assign M <=? asg then -1 else asg). intros z. revert w. induction (mn_origins M) as [|o os IH]; intros w; cbn [fold_left]; [reflexivity|]. rewrite IH.
  unfold mrelease_one. destruct (z <? 0); [reflexivity|].
  destruct (mrelease_dests M D cur z o false _ _ w) as [w1 x] eqn:E1. cbv zeta. destruct (mrelease_dests M D cur z o true _ _ w1) as [w2 x2] eqn:E2. cbn [mset_oq mw_cc].
  pose proof (release_dests_cc D cur z o true (og_demand o true) (match mn_routing M with MRBiclass _ _ => mbase_ratio (mn_routing M) true | _ => x end) w1) as A. rewrite E2 in A.
  pose proof (release_dests_cc D cur z o false (og_demand o false) (mbase_ratio (mn_routing M) false) w) as B. rewrite E1 in B. cbn [fst] in A, B. congruence.
Qed.
Lemma sumZ_cons x l : sumZ (x :: l) = x + sumZ l. Proof. change (x :: l) with ([x] ++ l). rewrite sumZ_app. f_equal. cbn. lia. Qed.
Lemma zc_in v l : In v l -> 0 < zc v l.
Proof. intros H. apply cnt_In in H. unfold zc. lia. Qed.
Lemma known_fin w l v : minv M w -> In l (mn_links M) -> In v (ml_fin (mw_link w l)) -> v <= f_num (mw_fac w).
Proof.
  intros I Hl Hv. pose proof (n_count M w I v) as C. unfold one_if in C.
  destruct ((1 <=? v) && (v <=? f_num (mw_fac w))) eqn:E; [apply andb_true_iff in E; lia|exfalso].
  assert (0 < mzl M w v).
  { unfold mzl. clear - Hl Hv. assert (G : forall ls, 0 <= sumZ (map (fun l => zc v (mall (mw_link w l))) ls)) by (induction ls as [|x ls IH]; cbn [map]; [reflexivity|rewrite sumZ_cons; unfold zc in *; lia]).
    induction (mn_links M) as [|x ls IH]; [destruct Hl|]. cbn [map]. rewrite sumZ_cons. destruct Hl as [->|Hl].
    - specialize (G ls). assert (0 < zc v (mall (mw_link w l))) by (apply zc_in; unfold mall; apply in_or_app; auto). lia.
    - specialize (IH Hl). assert (0 <= zc v (mall (mw_link w x))) by (unfold zc; lia). lia. }
  assert (0 <= mzo M w v) by (unfold mzo; clear; induction (mn_origins M) as [|x ls IH]; cbn [map]; [reflexivity|rewrite sumZ_cons; unfold zc in *; lia]).
  assert (0 <= mzd M w v) by (unfold mzd; clear; induction (mn_dests M) as [|x ls IH]; cbn [map]; [reflexivity|rewrite sumZ_cons; unfold zc in *; lia]).
  unfold mzcount in C. assert (0 <= zc v (map fst (mdone w))) by (unfold zc; lia). lia.
Qed.
Lemma class_count_ext cls cls' k q : (forall v, In v q -> cls' v = cls v) -> class_count cls' k q = class_count cls k q.
Proof. intros H. unfold class_count, of_class. f_equal. f_equal. apply filter_ext_in. intros v Hv. now rewrite (H v Hv). Qed.
Lemma class_count_pos cls k q : (0 <= class_count cls k q)%Q.
Proof. unfold class_count. change 0%Q with (inject_Z 0). rewrite <- Zle_Qle. unfold Zlen. lia. Qed.

Lemma links_phase D k l : forall ls w w', NoDup ls -> In l ls -> foldM (mlink_step D) w ls = Ok w' ->
  mw_cls w' = mw_cls w /\ mw_cc w' = mw_cc w /\ ml_par (mw_link w' l) = ml_par (mw_link w l) /\
  wait_k k (mw_link w' l) = (wait_k k (mw_link w l) + class_count (mw_cls w) k (ml_fin (mw_link w' l)) / mp_fs (ml_par (mw_link w l)) * mp_ut (ml_par (mw_link w l)))%Q.
Proof.
  assert (O : forall ls w w', ~ In l ls -> foldM (mlink_step D) w ls = Ok w' -> mw_cls w' = mw_cls w /\ mw_cc w' = mw_cc w /\ mw_link w' l = mw_link w l).
  { induction ls as [|x ls IH]; intros w w' N H; cbn [foldM] in H; [apply Ok_inj in H as <-; auto|]. apply bind_ok in H as (w1 & H1 & H).
    destruct (link_step_wait _ _ _ _ H1) as (y & -> & _). cbn [In] in N. destruct (IH _ _ ltac:(tauto) H) as (A & B & C). rewrite A, B, C. cbn [mset_link mw_cls mw_cc mw_link]. rewrite upd_other by (intros ->; tauto). auto. }
  induction ls as [|x ls IH]; intros w w' ND Hl H; [destruct Hl|]. cbn [foldM] in H. apply bind_ok in H as (w1 & H1 & H). inversion ND as [|? ? N1 N2]; subst.
  destruct (link_step_wait _ _ _ _ H1) as (y & -> & Py & Wy). destruct (Z.eq_dec x l) as [->|Ne].
  - destruct (O _ _ _ N1 H) as (A & B & C). rewrite A, B, C. cbn [mset_link mw_cls mw_cc mw_link]. rewrite upd_same. repeat split; [exact Py|]. rewrite <- Py. apply Wy.
  - destruct Hl as [->|Hl]; [congruence|]. destruct (IH _ _ N2 Hl H) as (A & B & C & E). rewrite A, B, C, E. cbn [mset_link mw_cls mw_cc mw_link]. rewrite upd_other by congruence. auto.
Qed.

Lemma load_once_accounts D t a w w' k l : mdraws_valid D -> In l (mn_links M) -> minv M w -> mload_once M D t a w = Ok w' ->
  (mp_fs (ml_par (mw_link w l)) == mn_fs M)%Q -> (0 <= mp_ut (ml_par (mw_link w l)))%Q -> accounts w k l -> accounts w' k l.
Proof.
  intros DV Hl I H Hfs Hut A. unfold mload_once in H. apply bind_ok in H as (w1 & H1 & H). apply bind_ok in H as (w2 & H2 & H). apply bind_ok in H as (w3 & H3 & H). apply bind_ok in H as (w4 & H4 & H).
  pose proof (release_link M _ _ _ _ _ H1) as L1. pose proof (release_cc _ _ _ _ _ H1) as C1. destruct (release_all_minv M K _ _ _ _ _ DV H1 I) as [I1 (_ & G1 & _)].
  destruct (routing_stat M _ _ _ _ H2) as (S2 & _ & L2 & _ & _ & C2 & _).
  assert (N3 : gone w2 w3 k l).
  { revert H3. apply (foldM_rel (fun a b => gone a b k l)); [intros; apply gone_refl|intros; eapply gone_trans; eauto|]. intros s nk s' Hin E. destruct (node_meff M K D t s s' nk DV Hin E) as (e & lv & J). eapply meff_gone; eauto. }
  assert (P3 : ml_par (mw_link w3 l) = ml_par (mw_link w2 l)).
  { revert H3. apply (foldM_rel (fun a b => ml_par (mw_link b l) = ml_par (mw_link a l))); [reflexivity|intros; congruence|]. intros s nk s' Hin E. destruct (node_meff M K D t s s' nk DV Hin E) as (e & lv & J). apply (me_body _ _ _ _ _ J l). }
  assert (W3 : wkeep w2 w3) by (revert H3; apply foldM_rel; [apply wkeep_refl|apply wkeep_trans|intros; eapply node_wkeep; eauto]).
  destruct (links_phase _ k l _ _ _ (mno_links M K) Hl H4) as (S4 & C4 & P4 & W4).
  assert (X5 : mw_link w' = mw_link w4 /\ mw_cc w' = mw_cc w4 /\ mw_cls w' = mw_cls w4).
  { revert H. apply (foldM_rel (fun a b => mw_link b = mw_link a /\ mw_cc b = mw_cc a /\ mw_cls b = mw_cls a)); [auto|intros ? ? ? (? & ? & ?) (? & ? & ?); repeat split; congruence|].
    intros s n s' _ E. unfold mreceive in E. apply bind_ok in E as (x & E1 & E). apply Ok_inj in E as <-. apply mreceive_loop_eff in E1. cbn [mset_dq mw_link mw_cc mw_cls].
    repeat split; [apply (mre_link _ _ _ _ _ E1)|apply (mre_cc _ _ _ _ _ E1)|apply (mre_cls _ _ _ _ _ E1)]. }
  destruct X5 as (L5 & C5 & S5). destruct N3 as (S3 & x & Ca & Cx).
  assert (Q : class_count (mw_cls w2) k (ml_fin (mw_link w2 l)) = class_count (mw_cls w) k (ml_fin (mw_link w l))).
  { rewrite S2, L2, L1. apply class_count_ext. intros v Hv. apply G1. eapply known_fin; eauto. }
  assert (Wk : wait_k k (mw_link w3 l) = wait_k k (mw_link w l)).
  { specialize (W3 l). unfold waits in W3. injection W3 as _ Wc Wt _. unfold wait_k. rewrite Wc, Wt, L2, L1. reflexivity. }
  intros c' Hc'. rewrite C5, C4 in Hc'. rewrite Hc' in Ca. rewrite C2, C1 in Ca. destruct (mk_Nout (mw_cc w) k l) as [c|] eqn:Hc; [|destruct Ca]. cbn [cadds] in Ca.
  specialize (A c Hc). rewrite S5, L5, S4, W4, P4, P3, L2, L1, Wk. rewrite Q in Cx.
  set (u := mp_ut (ml_par (mw_link w l))) in *. set (fs := mn_fs M) in *. pose proof (mno_fs M K) as Hf. fold fs in Hf.
  pose proof (class_count_pos (mw_cls w2) k (ml_fin (mw_link w3 l))) as Z3. set (n3 := class_count (mw_cls w2) k (ml_fin (mw_link w3 l))) in *. set (n4 := class_count (mw_cls w3) k (ml_fin (mw_link w4 l))).
  set (n := (class_count (mw_cls w) k (ml_fin (mw_link w l)) / fs)%Q) in *.
  assert (Z : (0 <= n3 / fs)%Q) by (apply Qle_shift_div_l; [exact Hf|lra]). set (z := (n3 / fs)%Q) in *.
  rewrite Hfs. set (f := (n4 / fs)%Q). rewrite Ca. nra.
Qed.
Lemma reached_accounts D : forall j s k l, mreached M D j s -> In l (mn_links M) ->
  (mp_fs (ml_par (mw_link (ms_w s) l)) == mn_fs M)%Q -> (0 <= mp_ut (ml_par (mw_link (ms_w s) l)))%Q -> accounts (ms_w s) k l.
Proof.
  induction j as [|j IH]; intros s k l R Hl Hf Hu.
  - destruct R as (w0 & F & _ & H). cbn [mrun] in H. apply Ok_inj in H as <-. cbn [minit ms_w] in *. destruct (mf_link _ _ F l Hl) as (p & Hp).
    assert (E : ml_fin (mw_link w0 l) = [] /\ wait_k k (mw_link w0 l) = 0%Q).
    { unfold fresh_mlink in Hp. destruct (mp_kind p).
      - unfold make_mctm in Hp. repeat (apply bind_ok in Hp as (? & _ & Hp)). apply Ok_inj in Hp as <-. destruct k; auto.
      - unfold make_mlq in Hp. repeat (apply bind_ok in Hp as (? & _ & Hp)). apply Ok_inj in Hp as <-. destruct k; auto.
      - unfold make_mpq in Hp. repeat (apply bind_ok in Hp as (? & _ & Hp)). apply Ok_inj in Hp as <-. destruct k; auto. }
    destruct E as [E1 E2]. intros c Hc. destruct (proj1 (proj2 (mf_cc _ _ F k l))) as [N|N]; rewrite N in Hc; [discriminate|injection Hc as <-].
    rewrite E1, E2, class_count_nil. change (cum_total fresh_curve) with 0%Q. lra.
  - pose proof R as (w0 & F & DV & H). apply mrun_S in H as (s1 & H1 & H2). assert (R1 : mreached M D j s1) by (exists w0; auto).
    apply mloop_body_inv in H2 as (w & H2 & _ & <- & _). destruct (load_once_likes M K _ _ _ _ _ (DV _) H2 l) as (P & _). rewrite P in Hf, Hu.
    eapply load_once_accounts; eauto using mreached_minv.
Qed.

(** ** the sum over both classes *)
Definition sums (w : mworld) (l : Z) : Prop := (ml_wait (mw_link w l) == ml_wait_c (mw_link w l) + ml_wait_t (mw_link w l))%Q.
Lemma sums_wkeep w w' l : wkeep w w' -> sums w l -> sums w' l.
Proof. intros W S. specialize (W l). unfold waits in W. injection W as A B C _. unfold sums. rewrite A, B, C. exact S. Qed.
Lemma link_step_sums D w x w' l : mlink_step D w x = Ok w' -> sums w l -> sums w' l.
Proof.
  unfold mlink_step. intros H Sm. apply bind_ok in H as (x1 & Hx & H). apply bind_ok in H as (y & Hy & H). apply Ok_inj in H as <-. unfold sums in *. cbn [mset_link mw_link].
  destruct (Z.eq_dec l x) as [->|N]; [rewrite upd_same|now rewrite upd_other by exact N].
  apply clear_keeps in Hx as (C1 & C2 & C3 & C4 & _). destruct (evolve_settle _ _ _ _ _ Hy) as (b & sp & E & _).
  assert (W : ml_wait y = (ml_wait x1 + mwait x1 (ml_fin y))%Q) by (rewrite E at 1; reflexivity).
  assert (Wc : ml_wait_c y = (ml_wait_c x1 + mwait x1 (cars (mw_cls w) (ml_fin y)))%Q) by (rewrite E at 1; reflexivity).
  assert (Wt : ml_wait_t y = (ml_wait_t x1 + mwait x1 (trucks (mw_cls w) (ml_fin y)))%Q) by (rewrite E at 1; reflexivity).
  rewrite W, Wc, Wt, C2, C3, C4, Sm. unfold mwait. pose proof (cars_trucks (mw_cls w) (ml_fin y)) as CT. rewrite <- CT, inject_Z_plus. unfold Qdiv. ring.
Qed.
Lemma load_once_sums D t a w w' l : mload_once M D t a w = Ok w' -> sums w l -> sums w' l.
Proof.
  intros H Sm. unfold mload_once in H. apply bind_ok in H as (w1 & H1 & H). apply bind_ok in H as (w2 & H2 & H). apply bind_ok in H as (w3 & H3 & H). apply bind_ok in H as (w4 & H4 & H).
  pose proof (release_link M _ _ _ _ _ H1) as L1. destruct (routing_stat M _ _ _ _ H2) as (_ & _ & L2 & _).
  assert (S2 : sums w2 l) by (unfold sums; rewrite L2, L1; exact Sm).
  assert (W3 : wkeep w2 w3) by (revert H3; apply foldM_rel; [apply wkeep_refl|apply wkeep_trans|intros; eapply node_wkeep; eauto]).
  assert (S4 : sums w4 l) by (refine (foldM_rel (fun a b => sums a l -> sums b l) _ _ _ _ _ _ _ H4 (sums_wkeep _ _ _ W3 S2)); [auto|auto|intros; eapply link_step_sums; eauto]).
  assert (X5 : mw_link w' = mw_link w4).
  { revert H. apply (foldM_rel (fun a b => mw_link b = mw_link a)); [auto|intros; congruence|].
    intros s n s' _ E. unfold mreceive in E. apply bind_ok in E as (x & E1 & E). apply Ok_inj in E as <-. apply mreceive_loop_eff in E1. apply (mre_link _ _ _ _ _ E1). }
  unfold sums. rewrite X5. exact S4.
Qed.
Lemma reached_sums D : forall j s l, mreached M D j s -> In l (mn_links M) -> sums (ms_w s) l.
Proof.
  intros j s l (w0 & F & _ & H) Hl. revert s H. induction j as [|j IH]; intros s H.
  - cbn [mrun] in H. apply Ok_inj in H as <-. cbn [minit ms_w]. destruct (mf_link _ _ F l Hl) as (p & Hp).
    apply (mreach_wait (fun _ => true) p). now constructor.
  - apply mrun_S in H as (s1 & H1 & H2). apply mloop_body_inv in H2 as (w & H2 & _ & <- & _). eapply load_once_sums; eauto.
Qed.

(** ** counts of entries are not negative *)
Definition entries (w : mworld) (k : bool) (l : Z) : Prop := forall c, mk_Nin (mw_cc w) k l = Some c -> (0 <= cum_total c)%Q.
Lemma entries_cc w w' k l : mw_cc w' = mw_cc w -> entries w k l -> entries w' k l.
Proof. intros E H c. rewrite E. apply H. Qed.
Lemma meff_entries w w' e lv k l : meff M w w' e lv -> entries w k l -> entries w' k l.
Proof.
  intros J H c Hc. pose proof (me_Nin _ _ _ _ _ J k l) as A. rewrite Hc in A. destruct (mk_Nin (mw_cc w) k l) as [c0|] eqn:E; [|destruct A]. cbn [cadds] in A. specialize (H c0 E).
  assert (P : (0 <= class_count (mw_cls w) k (e l) / mn_fs M)%Q) by (apply Qle_shift_div_l; [apply (mno_fs M K)|pose proof (class_count_pos (mw_cls w) k (e l)); lra]).
  rewrite A. lra.
Qed.
Lemma load_once_entries D t a w w' k l : mdraws_valid D -> mload_once M D t a w = Ok w' -> entries w k l -> entries w' k l.
Proof.
  intros DV H Sm. unfold mload_once in H. apply bind_ok in H as (w1 & H1 & H). apply bind_ok in H as (w2 & H2 & H). apply bind_ok in H as (w3 & H3 & H). apply bind_ok in H as (w4 & H4 & H).
  apply release_cc in H1. destruct (routing_stat M _ _ _ _ H2) as (_ & _ & _ & _ & _ & C2 & _).
  apply (entries_cc _ w2) in Sm; [|congruence].
  assert (S3 : entries w3 k l).
  { refine (foldM_rel (fun a b => entries a k l -> entries b k l) _ _ _ _ _ _ _ H3 Sm); [auto|auto|]. intros s nk s' Hin E. destruct (node_meff M K D t s s' nk DV Hin E) as (e & lv & J). eapply meff_entries; eauto. }
  assert (X4 : mw_cc w4 = mw_cc w3).
  { revert H4. apply (foldM_rel (fun a b => mw_cc b = mw_cc a)); [auto|intros; congruence|]. intros s x s' _ E. destruct (link_step_wait _ _ _ _ E) as (y & -> & _). reflexivity. }
  assert (X5 : mw_cc w' = mw_cc w4).
  { revert H. apply (foldM_rel (fun a b => mw_cc b = mw_cc a)); [auto|intros; congruence|].
    intros s n s' _ E. unfold mreceive in E. apply bind_ok in E as (x & E1 & E). apply Ok_inj in E as <-. apply mreceive_loop_eff in E1. apply (mre_cc _ _ _ _ _ E1). }
  eapply entries_cc; [|exact S3]. congruence.
Qed.
Lemma reached_entries D : forall j s k l, mreached M D j s -> entries (ms_w s) k l.
Proof.
  intros j s k l (w0 & F & DV & H). revert s H. induction j as [|j IH]; intros s H.
  - cbn [mrun] in H. apply Ok_inj in H as <-. cbn [minit ms_w]. intros c Hc. destruct (proj1 (mf_cc _ _ F k l)) as [N|N]; rewrite N in Hc; [discriminate|injection Hc as <-]. change (cum_total fresh_curve) with 0%Q. lra.
  - apply mrun_S in H as (s1 & H1 & H2). apply mloop_body_inv in H2 as (w & H2 & _ & <- & _). eapply load_once_entries; eauto.
Qed.
End Run.
