(** Proofs for spill-back of a two-class run. *)
From Coq Require Import Permutation.
From Verif Require Import Base Base_lemmas Model_Num Proof_Num Spec_Path Proof_Path Model_CC Spec_CC Model_Path Model_Link Spec_Link Spec_Node
  Proof_Link Proof_Link4 Model_World Model_Node Model_Sim Spec_Sim Proof_Sim1 Proof_Sim3 Proof_Sim4
  Model_McLink Spec_McLink Proof_McLink Proof_McLink2 Proof_McLink3 Proof_McLink4 Proof_McLink5 Proof_McLink6 Model_McNode Spec_McNode Model_McSim Spec_McSim Proof_McSim1 Proof_McSim2 Proof_McSim3
  Model_Text Model_Io Model_Mio Model_McAttr Spec_McAttr Proof_McAttr Model_McWait Spec_McWait Proof_McWait Model_McSpill.
Local Open Scope Z_scope.

(** ** one update of a link *)
Definition fd_ok (l : mlink) : Prop :=
  match ml_body l with MCtm f _ => f = mctm_fd (ml_par l) | MLq f _ _ _ _ _ => mlq_fd (ml_par l) = Ok f | MPq _ _ _ _ => True end.
Definition updated (cls : Z -> bool) (l l' : mlink) : Prop := exists hn D l1, mlink_clear cls l = Ok l1 /\ mlink_evolve cls hn D l1 = Ok l' /\ mdraws_ok D.
Lemma updated_interval cls l l' : updated cls l l' -> minterval cls l [] l'.
Proof.
  intros (hn & D & l1 & E1 & E2 & Dk). exists (ml_fin l), hn, D, l1. split; [apply subseq_refl|]. split; [exact Dk|]. split; [|exact E2].
  rewrite <- E1. f_equal. unfold moffered. rewrite app_nil_r. destruct l; reflexivity.
Qed.
Lemma update_spill cls l l' : updated cls l l' -> mbody_inv cls (ml_body l) -> fd_ok l' -> (0 <= mp_pcu (ml_par l'))%Q -> (0 < mp_fs (ml_par l'))%Q -> (0 < mp_len (ml_par l'))%Q ->
  ml_spill l = false -> ml_spill l' = true -> (m_jam (ml_par l') < pcu_load cls l' / mp_fs (ml_par l') / mp_len (ml_par l'))%Q.
Proof.
  intros U HB FD Hp Hf HL S0 S1. pose proof (updated_interval _ _ _ U) as H. pose proof (interval_vols _ _ _ _ H HB) as V.
  destruct U as (hn & D & l1 & E1 & E2 & _). apply clear_keeps in E1 as (C1 & _ & _ & _ & C5 & _).
  assert (Lq : forall a b, (a <= b)%Q -> (a / mp_fs (ml_par l') / mp_len (ml_par l') <= b / mp_fs (ml_par l') / mp_len (ml_par l'))%Q).
  { intros a b L. unfold Qdiv. apply Qmult_le_compat_r; [apply Qmult_le_compat_r; [exact L|]|]; apply Qinv_le_0_compat; lra. }
  unfold fd_ok in FD. unfold mlink_evolve in E2. destruct (ml_body l1) as [f1 cs1|f1 a b c d e|m1 pool1 vc1 vt1] eqn:Hb1.
  - apply bind_ok in E2 as ([cs' fin'] & EE & E2). apply Ok_inj in E2. subst l'. cbn [settle ml_spill ml_body ml_par fst snd] in *. rewrite C5, S0 in S1. cbn [orb] in S1.
    unfold mctm_spill in S1. apply Qltb_lt in S1. unfold vols_of in V. cbn [ml_body settle] in V. destruct V as [V1 V2].
    unfold m_jam, pcu_load. cbn [settle ml_par]. eapply Qlt_le_trans; [rewrite Qmult_comm; exact S1|]. apply Lq.
    unfold mctm_evolve in EE. apply bind_ok in EE as (os & _ & EE). apply bind_ok in EE as (m & _ & EE). apply Ok_pair in EE as [Ec Ef].
    assert (VV : mvols cls fin' cs') by (rewrite Ec, Ef; apply mrecount_vols).
    pose proof (mcount_le (mp_pcu (ml_par l1)) Hp cs' 0 0 ltac:(lia) (fun c Hc => mvols_nonneg cls fin' cs' c VV Hc) ltac:(apply Qle_refl)) as M.
    unfold mcount_pcu. rewrite <- V1, <- V2. lra.
  - apply bind_ok in E2 as ([[[[[qc' qt'] vc'] vt'] sp'] fin'] & EE & E2). apply Ok_inj in E2. subst l'. cbn [settle ml_spill ml_body ml_par fst snd] in *. rewrite C5, S0 in S1. cbn [orb] in S1.
    unfold mlq_spill in S1. apply Qltb_lt in S1. unfold vols_of in V. cbn [ml_body settle] in V. destruct V as [V1 V2].
    unfold m_jam, pcu_load. cbn [settle ml_par]. rewrite (mlq_fd_K _ _ FD) in S1. eapply Qlt_le_trans; [rewrite Qmult_comm; exact S1|]. apply Lq.
    rewrite <- V1, <- V2.
    assert (N1 : (0 <= vc')%Z) by (rewrite V1; apply Zlen_nonneg). assert (N2 : (0 <= vt')%Z) by (rewrite V2; apply Zlen_nonneg).
    rewrite (Qmult_comm (mp_pcu (ml_par l1))). apply trunc_lo. pose proof (injZ_nonneg _ N1). pose proof (injZ_nonneg _ N2). nra.
  - apply Ok_inj in E2. subst l'. cbn [settle ml_spill] in S1. rewrite C5, S0 in S1. discriminate.
Qed.
Lemma update_stays cls l l' : updated cls l l' -> ml_spill l = true -> ml_spill l' = true.
Proof. intros U. apply (interval_wait _ _ _ _ (updated_interval _ _ _ U)). Qed.
Lemma update_pq cls l l' : updated cls l l' -> is_pq l' = true -> ml_spill l' = ml_spill l.
Proof.
  intros (hn & D & l1 & E1 & E2 & _). apply clear_keeps in E1 as (_ & _ & _ & _ & C5 & _). unfold mlink_evolve in E2. destruct (ml_body l1).
  - apply bind_ok in E2 as (? & _ & E2). apply Ok_inj in E2 as <-. discriminate.
  - apply bind_ok in E2 as ([[[[[? ?] ?] ?] ?] ?] & _ & E2). apply Ok_inj in E2 as <-. discriminate.
  - apply Ok_inj in E2 as <-. intros _. cbn [settle ml_spill]. rewrite orb_false_r. exact C5.
Qed.

Section Run.
Context (M : mnet) (K : mnet_ok M).
Lemma links_updated D l : mdraws_valid D -> forall ls w w', NoDup ls -> In l ls -> foldM (mlink_step D) w ls = Ok w' ->
  mw_cls w' = mw_cls w /\ updated (mw_cls w) (mw_link w l) (mw_link w' l).
Proof.
  intros (_ & _ & _ & _ & _ & DV).
  assert (St : forall x w w', mlink_step D w x = Ok w' -> exists y, w' = mset_link w x y /\ updated (mw_cls w) (mw_link w x) y).
  { intros x w w' H. unfold mlink_step in H. apply bind_ok in H as (l1 & H1 & H). apply bind_ok in H as (y & H2 & H). apply Ok_inj in H as <-. exists y. split; [reflexivity|]. repeat eexists; eauto; apply DV. }
  assert (O : forall ls w w', ~ In l ls -> foldM (mlink_step D) w ls = Ok w' -> mw_cls w' = mw_cls w /\ mw_link w' l = mw_link w l).
  { induction ls as [|x ls IH]; intros w w' N H; cbn [foldM] in H; [apply Ok_inj in H as <-; auto|]. apply bind_ok in H as (w1 & H1 & H).
    destruct (St _ _ _ H1) as (y & -> & _). cbn [In] in N. destruct (IH _ _ ltac:(tauto) H) as (A & C). rewrite A, C. cbn [mset_link mw_cls mw_link]. rewrite upd_other by (intros ->; tauto). auto. }
  induction ls as [|x ls IH]; intros w w' ND Hl H; [destruct Hl|]. cbn [foldM] in H. apply bind_ok in H as (w1 & H1 & H). inversion ND as [|? ? N1 N2]; subst.
  destruct (St _ _ _ H1) as (y & -> & U). destruct (Z.eq_dec x l) as [->|Ne].
  - destruct (O _ _ _ N1 H) as (A & C). rewrite A, C. cbn [mset_link mw_cls mw_link]. rewrite upd_same. auto.
  - destruct Hl as [->|Hl]; [congruence|]. destruct (IH _ _ N2 Hl H) as (A & E). rewrite A. split; [reflexivity|]. cbn [mset_link mw_cls mw_link] in E. rewrite upd_other in E by congruence. exact E.
Qed.
Lemma load_once_updated D t a w w' l : mdraws_valid D -> In l (mn_links M) -> minv M w -> mload_once M D t a w = Ok w' ->
  exists l0, ml_spill l0 = ml_spill (mw_link w l) /\ mbody_inv (mw_cls w') (ml_body l0) /\ updated (mw_cls w') l0 (mw_link w' l).
Proof.
  intros DV Hl I H. unfold mload_once in H. apply bind_ok in H as (w1 & H1 & H). apply bind_ok in H as (w2 & H2 & H). apply bind_ok in H as (w3 & H3 & H). apply bind_ok in H as (w4 & H4 & H).
  pose proof (release_link M _ _ _ _ _ H1) as L1. destruct (release_all_minv M K _ _ _ _ _ DV H1 I) as [I1 _].
  destruct (routing_stat M _ _ _ _ H2) as (_ & _ & L2 & _). destruct (routing_minv M _ _ _ _ H2 I1) as [I2 _].
  assert (I3 : minv M w3 /\ mgrow t w2 w3).
  { eapply foldM_both; [|exact H3|exact I2]. intros nk s s' Hin E Hs. destruct (node_meff M K D t s s' nk DV Hin E) as (e & lv & J). eapply meff_minv; eauto. }
  assert (W3 : wkeep w2 w3) by (revert H3; apply foldM_rel; [apply wkeep_refl|apply wkeep_trans|intros; eapply node_wkeep; eauto]).
  destruct (links_updated D l DV _ _ _ (mno_links M K) Hl H4) as (S4 & U).
  assert (X5 : mw_link w' = mw_link w4 /\ mw_cls w' = mw_cls w4).
  { revert H. apply (foldM_rel (fun a b => mw_link b = mw_link a /\ mw_cls b = mw_cls a)); [auto|intros ? ? ? (? & ?) (? & ?); split; congruence|].
    intros s n s' _ E. unfold mreceive in E. apply bind_ok in E as (x & E1 & E). apply Ok_inj in E as <-. apply mreceive_loop_eff in E1. split; [apply (mre_link _ _ _ _ _ E1)|apply (mre_cls _ _ _ _ _ E1)]. }
  destruct X5 as (L5 & S5). exists (mw_link w3 l). rewrite S5, S4, L5. split; [|split; [apply (n_body M w3 (proj1 I3) l Hl)|exact U]].
  specialize (W3 l). unfold waits in W3. injection W3 as _ _ _ W. now rewrite W, L2, L1.
Qed.
Lemma fd_like l l' : like l l' -> fd_ok l -> fd_ok l'.
Proof.
  intros (A & B & C). unfold fd_ok. rewrite A. destruct (ml_body l), (ml_body l'); cbn in B, C; try discriminate; try congruence; auto.
Qed.
Lemma reached_like D w0 : (forall t, mdraws_valid (D t)) -> forall j s, mrun M D j (minit M w0) = Ok s -> likes w0 (ms_w s).
Proof.
  intros DV. induction j as [|j IH]; intros s H; [apply Ok_inj in H as <-; apply likes_refl|].
  apply mrun_S in H as (s1 & H1 & H2). apply mloop_body_inv in H2 as (w & H2 & _ & <- & _). eapply likes_trans; [apply IH, H1|]. eapply load_once_likes; eauto.
Qed.
Lemma fresh_facts w0 l : mfresh_world M w0 -> In l (mn_links M) -> fd_ok (mw_link w0 l) /\ ml_spill (mw_link w0 l) = false.
Proof.
  intros F Hl. destruct (mf_link _ _ F l Hl) as (p & Hp). split; [exact (mreach_fd (fun _ => true) p _ (mreach_new _ _ _ Hp))|].
  unfold fresh_mlink in Hp. destruct (mp_kind p).
  - unfold make_mctm in Hp. repeat (apply bind_ok in Hp as (? & _ & Hp)). apply Ok_inj in Hp as <-. reflexivity.
  - unfold make_mlq in Hp. repeat (apply bind_ok in Hp as (? & _ & Hp)). apply Ok_inj in Hp as <-. reflexivity.
  - unfold make_mpq in Hp. repeat (apply bind_ok in Hp as (? & _ & Hp)). apply Ok_inj in Hp as <-. reflexivity.
Qed.
Lemma run_step D n s i l : one_run M D n s -> (i < n)%nat -> In l (mn_links M) -> exists l0, ml_spill l0 = ml_spill (mw_link (ms_w (s i)) l) /\
  mbody_inv (mw_cls (ms_w (s (S i)))) (ml_body l0) /\ updated (mw_cls (ms_w (s (S i)))) l0 (mw_link (ms_w (s (S i))) l).
Proof.
  intros (w0 & F & DV & H) Hi Hl. pose proof (H (S i) Hi) as H2. apply mrun_S in H2 as (s1 & H1 & H2). pose proof (H i ltac:(lia)) as H1'. rewrite H1' in H1. apply Ok_inj in H1 as <-.
  apply mloop_body_inv in H2 as (w & H2 & _ & <- & _). eapply load_once_updated; eauto. eapply (mreached_minv M K). exists w0. eauto.
Qed.
End Run.
