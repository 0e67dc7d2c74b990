(** Two-class links: reachable states, supply, reported counts, waiting, spill-back. *)
From Verif Require Import Base Base_lemmas Model_Num Proof_Num Spec_Path Proof_Path Model_Link Spec_Link
  Proof_Link Proof_Link2 Proof_Link3 Proof_Link4 Proof_Link5 Model_McLink Spec_McLink Proof_McLink Proof_McLink2 Proof_McLink3 Proof_McLink4 Proof_McLink5.

(** ** reachable links can always be updated *)
Lemma msane_new p l : fresh_mlink p l -> ~ (mp_pcu p == 0)%Q -> msane l.
Proof.
  unfold fresh_mlink. intros E Hp. destruct (mp_kind p).
  - destruct (make_mctm_cells _ _ E) as (p' & lens & _ & -> & _ & _ & _ & _ & _ & HN & _). split.
    + destruct lens; [|discriminate]. cbn [length] in HN. unfold mfreeflow_intervals in HN. lia.
    + intros c Hc. apply in_map_iff in Hc as (x & <- & _). split; discriminate.
  - unfold make_mlq in E. apply bind_ok in E as (? & _ & E). apply bind_ok in E as (f & _ & E). apply Ok_inj in E as <-. exact Hp.
  - unfold make_mpq in E. apply bind_ok in E as (? & _ & E). apply bind_ok in E as (? & _ & E). apply bind_ok in E as (m & _ & E). apply Ok_inj in E as <-. exact I.
Qed.
Lemma mrecount_known f fs cls fin : forall cs c, In c (mrecount f fs cls cs fin) -> known (s_pc (mc_sp c)) /\ known (s_pt (mc_sp c)).
Proof.
  intros cs c H. destruct (mrecount_sp _ _ _ _ _ _ H) as [->|(_ & _ & ->)]; [apply perceive_known|split; discriminate].
Qed.
Lemma msane_step cls l arr l' : minterval cls l arr l' -> msane l -> msane l'.
Proof.
  intros H. unfold msane at 1. destruct (ml_body l) as [f cs|f qc qt vc vt sp|m pool vc vt] eqn:Hb.
  - intros _. destruct (mctm_interval _ _ _ _ _ _ H Hb) as (rest & c & tl & D & os & fin' & _ & -> & _ & _ & _ & _ & X). cbv zeta in X. destruct X as (Eo & _ & Hb').
    pose proof (F2_length _ _ _ (mouts_fits _ _ _ _ _ _ _ Eo)) as HL. unfold msane. rewrite Hb'. split; [|apply mrecount_known].
    intros C. apply (f_equal (@length mcell)) in C. rewrite mrecount_length, mshift_length in C; [discriminate|lia].
  - intros Hp. destruct H as (rest & hn & D & l1 & Hs & _ & E1 & E2). unfold mlink_clear, moffered in E1. cbn [with_body ml_body ml_par ml_in ml_fin] in E1.
    rewrite Hb in E1. apply Ok_inj in E1 as <-. unfold mlink_evolve in E2. cbn [with_body ml_body ml_par ml_in ml_fin] in E2.
    apply bind_ok in E2 as ([[[[[qc' qt'] vc'] vt'] sp'] fin'] & _ & E2). apply Ok_inj in E2 as <-. exact Hp.
  - intros _. destruct (pm_interval cls l arr l' H) as (_ & _ & m' & pool' & a & b & Hb'); [eauto 6|]. unfold msane. rewrite Hb'. exact I.
Qed.
Lemma msane_mod l a l' : mlink_modify l a = Ok l' -> msane l -> msane l'.
Proof.
  unfold mlink_modify, msane. destruct (ml_body l) as [f cs|f qc qt vc vt sp|m pool vc vt]; intros E H.
  - apply bind_ok in E as (p & _ & E). apply bind_ok in E as (? & _ & E). destruct cs as [|c cs]; [discriminate|].
    apply bind_ok in E as (? & _ & E). apply bind_ok in E as (? & _ & E). apply Ok_inj in E as <-. exact H.
  - apply bind_ok in E as (f' & _ & E). apply Ok_inj in E as <-. exact H.
  - apply Ok_inj in E as <-. exact I.
Qed.
Lemma msane_reach cls p l : mreach cls p l -> ~ (mp_pcu p == 0)%Q -> msane l.
Proof.
  intros H Hp. induction H.
  - eapply msane_new; eauto.
  - eapply msane_step; eauto.
  - eapply msane_mod; eauto.
Qed.

(** supply is defined unless the link is a link queue that has never been updated *)
Lemma supply_defined l : msane l -> (forall f qc qt vc vt sp, ml_body l = MLq f qc qt vc vt sp -> known (s_pc sp) /\ known (s_pt sp)) ->
  exists q, mlink_supply l = Ok q.
Proof.
  unfold msane, mlink_supply. destruct (ml_body l) as [f cs|f qc qt vc vt sp|m pool vc vt]; intros H HL.
  - destruct H as [H _]. destruct cs; [congruence|]. eexists. reflexivity.
  - destruct (HL _ _ _ _ _ _ eq_refl) as [K1 K2]. unfold mlq_supply, mlq_part.
    destruct (s_pc sp); [| |exfalso; apply K1; reflexivity]; (destruct (s_pt sp); [| |exfalso; apply K2; reflexivity]); eexists; reflexivity.
  - eexists. reflexivity.
Qed.
Lemma lq_known_step cls l arr l' : minterval cls l arr l' -> forall f qc qt vc vt sp, ml_body l' = MLq f qc qt vc vt sp -> known (s_pc sp) /\ known (s_pt sp).
Proof.
  intros (rest & hn & D & l1 & Hs & _ & E1 & E2) f qc qt vc vt sp Hb'.
  unfold mlink_evolve in E2. destruct (ml_body l1) as [f1 cs1|f1 a b c d e|m pool vc1 vt1].
  - apply bind_ok in E2 as (m & _ & E2). apply Ok_inj in E2 as <-. discriminate.
  - apply bind_ok in E2 as ([[[[[qc' qt'] vc'] vt'] sp'] fin'] & E & E2). apply Ok_inj in E2 as <-.
    unfold mlq_evolve in E. cbv zeta in E. apply bind_ok in E as (? & _ & E). apply bind_ok in E as (? & _ & E). apply bind_ok in E as (? & _ & E). apply bind_ok in E as (? & _ & E).
    apply Ok_inj in E. injection E as _ _ _ _ Es _. cbn [settle ml_body] in Hb'. injection Hb' as _ _ _ _ _ <-. rewrite <- Es. apply perceive_known.
  - apply Ok_inj in E2 as <-. discriminate.
Qed.

(** ** reported numbers *)
Lemma Zlen_concat_rev {A} (ls : list (list A)) : Zlen (concat (rev ls)) = sumZ (map Zlen ls).
Proof.
  induction ls as [|a ls IH]; [reflexivity|]. cbn [rev map]. rewrite concat_app, Zlen_app, IH. cbn [concat]. rewrite app_nil_r.
  unfold sumZ. cbn [fold_right]. lia.
Qed.
Lemma mvols_sum cls fin : forall cs, cs <> [] -> mvols cls fin cs ->
  sumZ (map mc_vc cs) = (Zlen (mline false cs) + Zlen (cars cls fin))%Z /\ sumZ (map mc_vt cs) = (Zlen (mline true cs) + Zlen (trucks cls fin))%Z.
Proof.
  intros cs. unfold mline. rewrite !Zlen_concat_rev, !map_map. induction cs as [|c cs IH]; intros Hn V; [congruence|].
  destruct cs as [|c' cs].
  - destruct V as [[V1 V2] _]. cbn. lia.
  - destruct V as [[V1 V2] V]. destruct (IH ltac:(discriminate) V) as [I1 I2].
    change (map mc_vc (c :: c' :: cs)) with (mc_vc c :: map mc_vc (c' :: cs)). change (map mc_vt (c :: c' :: cs)) with (mc_vt c :: map mc_vt (c' :: cs)).
    change (map (fun x : mcell => Zlen (mc_qc x)) (c :: c' :: cs)) with (Zlen (mc_qc c) :: map (fun x : mcell => Zlen (mc_qc x)) (c' :: cs)).
    change (map (fun x : mcell => Zlen (mc_qt x)) (c :: c' :: cs)) with (Zlen (mc_qt c) :: map (fun x : mcell => Zlen (mc_qt x)) (c' :: cs)).
    unfold sumZ in *. cbn [fold_right] in *. rewrite I1, I2. lia.
Qed.

Definition vols_of (cls : Z -> bool) (l : mlink) : Prop :=
  match ml_body l with
  | MCtm _ cs => sumZ (map mc_vc cs) = passed cls false l /\ sumZ (map mc_vt cs) = passed cls true l
  | MLq _ _ _ vc vt _ | MPq _ _ vc vt => vc = passed cls false l /\ vt = passed cls true l
  end.

Lemma interval_vols cls l arr l' : minterval cls l arr l' -> mbody_inv cls (ml_body l) -> vols_of cls l'.
Proof.
  intros H HB. unfold vols_of, passed. destruct (ml_body l) as [f cs|f qc qt vc vt sp|m pool vc vt] eqn:Hb.
  - destruct (mctm_interval _ _ _ _ _ _ H Hb) as (rest & c & tl & D & os & fin' & _ & -> & _ & _ & Hfin & _ & X). cbv zeta in X. destruct X as (Eo & _ & Hb').
    rewrite Hb', Hfin. cbn [minside]. rewrite !Zlen_app, <- of_class_cars, <- of_class_trucks.
    pose proof (F2_length _ _ _ (mouts_fits _ _ _ _ _ _ _ Eo)) as HL. clear Hb'.
    set (cs' := mrecount _ _ _ _ _). assert (Hn : cs' <> []).
    { intros C. apply (f_equal (@length mcell)) in C. unfold cs' in C. rewrite mrecount_length, mshift_length in C; [discriminate|lia]. }
    destruct (mvols_sum cls fin' cs' Hn (mrecount_vols _ _ _ _ _)) as [A B].
    unfold mline in A, B. rewrite A, B. lia.
  - destruct H as (rest & hn & D & l1 & Hs & _ & E1 & E2). unfold mlink_clear, moffered in E1. cbn [with_body ml_body ml_par ml_in ml_fin] in E1.
    rewrite Hb in E1. apply Ok_inj in E1 as <-. unfold mlink_evolve in E2. cbn [with_body ml_body ml_par ml_in ml_fin] in E2.
    apply bind_ok in E2 as ([[[[[qc' qt'] vc'] vt'] sp'] fin'] & EE & E2). apply Ok_inj in E2 as <-. cbn [settle ml_body ml_fin minside with_body].
    destruct HB as [A1 A2].
    assert (Ac : all_class cls false (qc ++ cars cls (ml_in l ++ arr))) by (rewrite of_class_cars; apply all_class_app; split; [exact A1|apply of_class_is]).
    assert (At : all_class cls true (qt ++ trucks cls (ml_in l ++ arr))) by (rewrite of_class_trucks; apply all_class_app; split; [exact A2|apply of_class_is]).
    destruct (mlq_evolve_line _ _ _ _ _ _ _ _ _ EE Ac At) as (ac & qc2 & at_ & qt2 & Ex & Eqc & Eqt & _).
    injection Ex as -> -> -> -> _ ->. rewrite Eqc in Ac. rewrite Eqt in At. apply all_class_app in Ac as [Ac _]. apply all_class_app in At as [At _].
    destruct (merge_class cls (md_mix D) ac at_ Ac At) as [M1 M2].
    rewrite Eqc, Eqt, !Zlen_app, !of_class_app, M1, M2, !Zlen_app, of_class_cars, of_class_trucks. lia.
  - destruct H as (rest & hn & D & l1 & Hs & _ & E1 & E2). unfold mlink_clear, moffered in E1. cbn [with_body ml_body ml_par ml_in ml_fin] in E1.
    rewrite Hb in E1. apply Ok_inj in E1 as <-. unfold mlink_evolve in E2. cbn [with_body ml_body ml_par ml_in ml_fin] in E2.
    apply Ok_inj in E2 as <-. cbn [settle ml_body ml_fin minside with_body].
    destruct HB as [A1 A2].
    set (pool' := pool ++ _).
    assert (SD : stamps_desc pool' /\ (forall y, In y pool' -> 0 <= snd y)).
    { unfold pool'. split; [apply stamps_app_zero; auto|]. intros y Hy. apply in_app_or in Hy as [Hy|Hy]; auto. apply in_map_iff in Hy as (? & <- & _). cbn. lia. }
    pose proof (pq_scan_line m pool' (proj1 SD)) as PL.
    assert (X : forall k, Zlen (of_class cls k (map fst pool' ++ rest)) = Zlen (of_class cls k (rest ++ snd (pq_scan m pool')) ++ of_class cls k (map fst (fst (pq_scan m pool'))))).
    { intros k. rewrite <- PL, !of_class_app, !Zlen_app. lia. }
    rewrite of_class_cars, of_class_trucks. split; apply X.
Qed.

(** ** emission counts *)
Lemma filter_concat_rev {A} (g : A -> bool) (ls : list (list A)) : Zlen (filter g (concat (rev ls))) = Zlen (filter g (concat ls)).
Proof.
  induction ls as [|a ls IH]; [reflexivity|]. cbn [rev concat]. rewrite concat_app, !filter_app, !Zlen_app, IH. cbn [concat]. rewrite app_nil_r. lia.
Qed.
Lemma mqueues_count k cls l g : Zlen (filter g (mqueues k cls l)) = Zlen (filter g (of_class cls k (ml_fin l) ++ minside cls k (ml_body l))).
Proof.
  unfold mqueues. rewrite !filter_app, !Zlen_app, Z.add_comm. f_equal. destruct (ml_body l) as [f cs|f qc qt vc vt sp|m pool vc vt]; cbn [minside]; try reflexivity.
  rewrite filter_concat_rev. reflexivity.
Qed.

(** ** waiting times *)
Lemma mwait_split cls l n : (mwait l n == mwait l (cars cls n) + mwait l (trucks cls n))%Q.
Proof. unfold mwait. rewrite <- (cars_trucks cls n), inject_Z_plus. unfold Qdiv. ring. Qed.
Lemma evolve_settle cls hn D l l' : mlink_evolve cls hn D l = Ok l' -> exists b sp, l' = settle cls l (ml_fin l') b sp /\ ml_body l' = b.
Proof.
  unfold mlink_evolve. destruct (ml_body l) as [f cs|f qc qt vc vt sp|m pool vc vt]; intros E.
  - apply bind_ok in E as (m & _ & E). apply Ok_inj in E as <-. eexists. eexists. split; [reflexivity|reflexivity].
  - apply bind_ok in E as ([[[[[qc' qt'] vc'] vt'] sp'] fin'] & _ & E). apply Ok_inj in E as <-. eexists. eexists. split; [reflexivity|reflexivity].
  - apply Ok_inj in E as <-. eexists. eexists. split; [reflexivity|reflexivity].
Qed.
Lemma clear_keeps cls l l1 : mlink_clear cls l = Ok l1 -> ml_par l1 = ml_par l /\ ml_wait l1 = ml_wait l /\ ml_wait_c l1 = ml_wait_c l /\
  ml_wait_t l1 = ml_wait_t l /\ ml_spill l1 = ml_spill l /\ ml_fin l1 = ml_fin l.
Proof.
  unfold mlink_clear. destruct (ml_body l); intros E.
  - apply bind_ok in E as (? & _ & E). apply Ok_inj in E as <-. cbn. auto 8.
  - apply Ok_inj in E as <-. cbn. auto 8.
  - apply Ok_inj in E as <-. cbn. auto 8.
Qed.
Lemma interval_wait cls l arr l' : minterval cls l arr l' ->
  ml_wait l' = (ml_wait l + inject_Z (Zlen (ml_fin l')) / mp_fs (ml_par l) * mp_ut (ml_par l))%Q /\
  ml_wait_c l' = (ml_wait_c l + inject_Z (Zlen (of_class cls false (ml_fin l'))) / mp_fs (ml_par l) * mp_ut (ml_par l))%Q /\
  ml_wait_t l' = (ml_wait_t l + inject_Z (Zlen (of_class cls true (ml_fin l'))) / mp_fs (ml_par l) * mp_ut (ml_par l))%Q /\
  (ml_spill l = true -> ml_spill l' = true).
Proof.
  intros (rest & hn & D & l1 & Hs & _ & E1 & E2). apply clear_keeps in E1 as (C1 & C2 & C3 & C4 & C5 & _). cbn [moffered with_body ml_par ml_wait ml_wait_c ml_wait_t ml_spill] in *.
  destruct (evolve_settle _ _ _ _ _ E2) as (b & sp & E & _).
  assert (W : ml_wait l' = (ml_wait l1 + mwait l1 (ml_fin l'))%Q) by (rewrite E at 1; reflexivity).
  assert (Wc : ml_wait_c l' = (ml_wait_c l1 + mwait l1 (cars cls (ml_fin l')))%Q) by (rewrite E at 1; reflexivity).
  assert (Wt : ml_wait_t l' = (ml_wait_t l1 + mwait l1 (trucks cls (ml_fin l')))%Q) by (rewrite E at 1; reflexivity).
  assert (Sp : ml_spill l' = ml_spill l1 || sp) by (rewrite E; reflexivity).
  rewrite W, Wc, Wt, Sp, of_class_cars, of_class_trucks, C2, C3, C4, C5. unfold mwait. rewrite C1.
  split; [reflexivity|]. split; [reflexivity|]. split; [reflexivity|]. intros ->. reflexivity.
Qed.

(** ** spill-back *)
Lemma trunc_le q : (0 <= q)%Q -> (inject_Z (trunc q) <= q)%Q.
Proof. intros H. rewrite trunc_floor by exact H. apply Qfloor_le. Qed.
Lemma mcount_le pcu : (0 <= pcu)%Q -> forall cs n x, (0 <= n)%Z -> (forall c, In c cs -> 0 <= mc_vc c /\ 0 <= mc_vt c)%Z -> (inject_Z n <= x)%Q ->
  (inject_Z (fold_left (fun n c => trunc (inject_Z (n + mc_vc c) + inject_Z (mc_vt c) * pcu)) cs n) <=
   x + inject_Z (sumZ (map mc_vc cs)) + pcu * inject_Z (sumZ (map mc_vt cs)))%Q.
Proof.
  intros Hp. induction cs as [|c cs IH]; intros n x Hn Hv Hx.
  - cbn. change (inject_Z 0) with 0%Q. nra.
  - cbn [fold_left map]. destruct (Hv c (or_introl eq_refl)) as [V1 V2].
    assert (N1 : (0 <= inject_Z (n + mc_vc c))%Q) by (apply injZ_nonneg; lia). assert (N2 : (0 <= inject_Z (mc_vt c) * pcu)%Q) by (apply Qmult_le_0_compat; [apply injZ_nonneg; lia|exact Hp]).
    assert (N3 : (0 <= inject_Z (n + mc_vc c) + inject_Z (mc_vt c) * pcu)%Q) by lra.
    pose proof (trunc_le _ N3) as T.
    assert (Z0 : (0 <= trunc (inject_Z (n + mc_vc c) + inject_Z (mc_vt c) * pcu))%Z) by (rewrite trunc_floor by exact N3; change 0%Z with (Qfloor 0); apply Qfloor_resp_le; exact N3).
    eapply Qle_trans; [apply (IH _ (inject_Z (n + mc_vc c) + inject_Z (mc_vt c) * pcu)%Q Z0); [intros d Hd; apply Hv; right; exact Hd|exact T]|].
    change (sumZ (mc_vc c :: map mc_vc cs)) with (mc_vc c + sumZ (map mc_vc cs))%Z. change (sumZ (mc_vt c :: map mc_vt cs)) with (mc_vt c + sumZ (map mc_vt cs))%Z.
    rewrite !inject_Z_plus. lra.
Qed.

(** ** property changes *)
Lemma modify_keeps l a l' : mlink_modify l a = Ok l' -> ml_in l' = ml_in l /\ ml_fin l' = ml_fin l /\
  (forall cls k, minside cls k (ml_body l') = minside cls k (ml_body l)) /\ (forall cls, mbody_inv cls (ml_body l) -> mbody_inv cls (ml_body l')) /\
  ml_wait l' = ml_wait l /\ ml_wait_c l' = ml_wait_c l /\ ml_wait_t l' = ml_wait_t l /\ ml_spill l' = ml_spill l /\
  mp_pcu (ml_par l') = mp_pcu (ml_par l) /\ mp_fs (ml_par l') = mp_fs (ml_par l) /\ mp_ut (ml_par l') = mp_ut (ml_par l).
Proof.
  unfold mlink_modify. destruct (ml_body l) as [f cs|f qc qt vc vt sp|m pool vc vt]; intros E.
  - apply bind_ok in E as (p & Ea & E). apply bind_ok in E as (? & _ & E). destruct cs as [|c cs]; [discriminate|].
    apply bind_ok in E as (? & _ & E). apply bind_ok in E as (? & _ & E). apply Ok_inj in E as <-. cbn [set_par ml_in ml_fin ml_body ml_par ml_wait ml_wait_c ml_wait_t ml_spill].
    unfold mctm_adjust in Ea. apply bind_ok in Ea as (? & _ & Ea). apply bind_ok in Ea as (? & _ & Ea). apply bind_ok in Ea as (? & _ & Ea). cbv zeta in Ea.
    apply bind_ok in Ea as (? & _ & Ea). apply bind_ok in Ea as (? & _ & Ea). apply bind_ok in Ea as (? & _ & Ea). apply bind_ok in Ea as (? & _ & Ea). apply Ok_inj in Ea as <-.
    cbn [mp_pcu mp_fs mp_ut mwith]. auto 15.
  - apply bind_ok in E as (f' & _ & E). apply Ok_inj in E as <-. cbn. auto 15.
  - apply Ok_inj in E as <-. cbn. auto 15.
Qed.
Lemma mreach_inv cls p l : mreach cls p l -> mbody_inv cls (ml_body l).
Proof.
  induction 1 as [l F|l arr l' _ IH H|l a l' _ IH H].
  - apply (fresh_mempty _ _ F cls).
  - apply (minterval_line _ _ _ _ H IH).
  - apply (modify_keeps _ _ _ H). exact IH.
Qed.
Lemma mreach_wait cls p l : mreach cls p l -> (ml_wait l == ml_wait_c l + ml_wait_t l)%Q.
Proof.
  induction 1 as [l F|l arr l' _ IH H|l a l' _ IH H].
  - unfold fresh_mlink in F. destruct (mp_kind p).
    + destruct (make_mctm_inv _ _ F) as (p' & lens & _ & -> & _). cbn. ring.
    + unfold make_mlq in F. apply bind_ok in F as (? & _ & E). apply bind_ok in E as (f & _ & E). apply Ok_inj in E as <-. cbn. ring.
    + unfold make_mpq in F. apply bind_ok in F as (? & _ & E). apply bind_ok in E as (? & _ & E). apply bind_ok in E as (m & _ & E). apply Ok_inj in E as <-. cbn. ring.
  - destruct (interval_wait _ _ _ _ H) as (A & B & C & _). rewrite A, B, C, IH.
    pose proof (cars_trucks cls (ml_fin l')) as CT. rewrite of_class_cars, of_class_trucks in CT. rewrite <- CT, inject_Z_plus. unfold Qdiv. ring.
  - destruct (modify_keeps _ _ _ H) as (_ & _ & _ & _ & -> & -> & -> & _). exact IH.
Qed.

(** the fundamental diagram of a link queue *)
Lemma mlq_fd_K p f : mlq_fd p = Ok f -> K_c f = (mp_hold_c p * inject_Z (mp_lanes p))%Q.
Proof.
  unfold mlq_fd. intros E. apply bind_ok in E as (? & _ & E). cbv zeta in E. apply bind_ok in E as (? & _ & E). apply bind_ok in E as (? & _ & E). apply Ok_inj in E as <-. reflexivity.
Qed.
Lemma mreach_fd cls p l : mreach cls p l ->
  match ml_body l with MCtm f _ => f = mctm_fd (ml_par l) | MLq f _ _ _ _ _ => mlq_fd (ml_par l) = Ok f | MPq _ _ _ _ => True end.
Proof.
  induction 1 as [l F|l arr l' _ IH H|l a l' _ IH H].
  - unfold fresh_mlink in F. destruct (mp_kind p).
    + destruct (make_mctm_inv _ _ F) as (p' & lens & _ & -> & _). reflexivity.
    + unfold make_mlq in F. apply bind_ok in F as (? & _ & E). apply bind_ok in E as (f & Ef & E). apply Ok_inj in E as <-. exact Ef.
    + unfold make_mpq in F. apply bind_ok in F as (? & _ & E). apply bind_ok in E as (? & _ & E). apply bind_ok in E as (m & _ & E). apply Ok_inj in E as <-. exact I.
  - destruct H as (rest & hn & D & l1 & _ & _ & E1 & E2).
    assert (Pr : ml_par l1 = ml_par l /\ match ml_body l, ml_body l1 with MCtm f _, MCtm g _ => g = f | MLq f _ _ _ _ _, MLq g _ _ _ _ _ => g = f | MPq _ _ _ _, MPq _ _ _ _ => True | _, _ => False end).
    { unfold mlink_clear, moffered in E1. cbn [with_body ml_body ml_par ml_in ml_fin] in E1. destruct (ml_body l) as [f cs|f qc qt vc vt sp|m pool vc vt].
      - apply bind_ok in E1 as (? & _ & E1). apply Ok_inj in E1 as <-. split; reflexivity.
      - apply Ok_inj in E1 as <-. split; reflexivity.
      - apply Ok_inj in E1 as <-. split; [reflexivity|exact I]. }
    destruct Pr as [P1 B1]. unfold mlink_evolve in E2.
    destruct (ml_body l1) as [f1 cs1|f1 a b c d e|m1 pool1 vc1 vt1]; destruct (ml_body l) as [f0 cs0|f0 a0 b0 c0 d0 e0|m0 pool0 vc0 vt0]; try contradiction.
    + apply bind_ok in E2 as (m & _ & E2). apply Ok_inj in E2 as <-. cbn [settle ml_body ml_par]. rewrite P1, B1. exact IH.
    + apply bind_ok in E2 as ([[[[[qc' qt'] vc'] vt'] sp'] fin'] & _ & E2). apply Ok_inj in E2 as <-. cbn [settle ml_body ml_par]. rewrite P1, B1. exact IH.
    + apply Ok_inj in E2 as <-. exact I.
  - unfold mlink_modify in H. destruct (ml_body l) as [f cs|f qc qt vc vt sp|m pool vc vt].
    + apply bind_ok in H as (p1 & Ea & E). apply bind_ok in E as (? & _ & E). destruct cs as [|c cs]; [discriminate|].
      apply bind_ok in E as (? & _ & E). apply bind_ok in E as (? & _ & E). apply Ok_inj in E as <-. reflexivity.
    + apply bind_ok in H as (f' & Ef & E). apply Ok_inj in E as <-. exact Ef.
    + apply Ok_inj in H as <-. exact I.
Qed.

(** ** when the spill-back flag rises *)
Lemma mvols_nonneg cls fin : forall cs c, mvols cls fin cs -> In c cs -> (0 <= mc_vc c /\ 0 <= mc_vt c)%Z.
Proof.
  intros cs c V H. apply In_nth_error in H as (j & Ej). destruct (mvols_nth _ _ _ _ _ V Ej) as [A B].
  pose proof (Zlen_nonneg (mc_qc c)). pose proof (Zlen_nonneg (mc_qt c)). pose proof (Zlen_nonneg (cars cls fin)). pose proof (Zlen_nonneg (trucks cls fin)).
  destruct (S j =? length cs)%nat; lia.
Qed.
Lemma spill_rises cls p l arr l' : mreach cls p l -> minterval cls l arr l' -> (0 <= mp_pcu (ml_par l))%Q -> (0 < mp_fs (ml_par l))%Q -> (0 < mp_len (ml_par l))%Q ->
  ml_spill l = false -> ml_spill l' = true -> (m_jam (ml_par l') < pcu_load cls l' / mp_fs (ml_par l') / mp_len (ml_par l'))%Q.
Proof.
  intros R H Hp Hf HL S0 S1. pose proof (mreach_inv _ _ _ R) as HB. pose proof (interval_vols _ _ _ _ H HB) as V.
  pose proof (mreach_fd _ _ _ (mreach_step _ _ _ _ _ R H)) as FD.
  assert (Pr : ml_par l' = ml_par l) by (apply (minterval_line _ _ _ _ H HB)). rewrite <- Pr in Hp, Hf, HL.
  pose proof H as (rest & hn & D & l1 & _ & _ & E1 & E2). apply clear_keeps in E1 as (C1 & _ & _ & _ & C5 & _). cbn [moffered with_body ml_par ml_spill] in *.
  assert (Lq : forall a b, (a <= b)%Q -> (a / mp_fs (ml_par l') / mp_len (ml_par l') <= b / mp_fs (ml_par l') / mp_len (ml_par l'))%Q).
  { intros a b L. unfold Qdiv. apply Qmult_le_compat_r; [apply Qmult_le_compat_r; [exact L|]|]; apply Qinv_le_0_compat; lra. }
  unfold mlink_evolve in E2. destruct (ml_body l1) as [f1 cs1|f1 a b c d e|m1 pool1 vc1 vt1] eqn:Hb1.
  - apply bind_ok in E2 as ([cs' fin'] & EE & E2). apply Ok_inj in E2. subst l'. cbn [settle ml_spill ml_body ml_par fst snd] in *. rewrite C5, S0 in S1. cbn [orb] in S1.
    unfold mctm_spill in S1. apply Qltb_lt in S1. unfold vols_of in V. cbn [ml_body settle] in V. destruct V as [V1 V2].
    unfold m_jam, pcu_load. cbn [settle ml_par]. eapply Qlt_le_trans; [rewrite Qmult_comm; exact S1|]. apply Lq.
    unfold mctm_evolve in EE. apply bind_ok in EE as (os & _ & EE). apply bind_ok in EE as (m & _ & EE). apply Ok_pair in EE as [Ec Ef].
    assert (VV : mvols cls fin' cs') by (rewrite Ec, Ef; apply mrecount_vols).
    pose proof (mcount_le (mp_pcu (ml_par l1)) Hp cs' 0 0 ltac:(lia) (fun c Hc => mvols_nonneg cls fin' cs' c VV Hc) ltac:(apply Qle_refl)) as M.
    unfold mcount_pcu. rewrite <- V1, <- V2. lra.
  - apply bind_ok in E2 as ([[[[[qc' qt'] vc'] vt'] sp'] fin'] & EE & E2). apply Ok_inj in E2. subst l'. cbn [settle ml_spill ml_body ml_par fst snd] in *. rewrite C5, S0 in S1. cbn [orb] in S1.
    unfold mlq_spill in S1. apply Qltb_lt in S1. unfold vols_of in V. cbn [ml_body settle] in V. destruct V as [V1 V2].
    unfold m_jam, pcu_load. cbn [settle ml_par]. rewrite (mlq_fd_K _ _ FD) in S1. eapply Qlt_le_trans; [rewrite Qmult_comm; exact S1|]. apply Lq.
    rewrite <- V1, <- V2.
    assert (N1 : (0 <= vc')%Z) by (rewrite V1; apply Zlen_nonneg). assert (N2 : (0 <= vt')%Z) by (rewrite V2; apply Zlen_nonneg).
    rewrite (Qmult_comm (mp_pcu (ml_par l1))). apply trunc_lo. pose proof (injZ_nonneg _ N1). pose proof (injZ_nonneg _ N2). nra.
  - apply Ok_inj in E2. subst l'. cbn [settle ml_spill] in S1. rewrite C5, S0 in S1. discriminate.
Qed.

(** ** CTM supply *)
Lemma mctm_supply_bound f p cs c : (0 <= w_c f)%Q -> (0 <= cap_c f)%Q -> (0 < mp_ut p)%Q -> (0 < mp_fs p)%Q -> (0 <= mp_pcu p)%Q -> (0 < mc_len c)%Q ->
  (0 <= mc_vc c)%Z -> (0 <= mc_vt c)%Z -> exists q, mctm_supply p f (c :: cs) = Ok q /\ (0 <= q)%Q /\ (q <= Qmax (cap_c f) (w_c f * K_c f / 4) * mp_ut p)%Q /\
  (K_c f * mc_len c * mp_fs p <= inject_Z (mc_vc c) + mp_pcu p * inject_Z (mc_vt c) -> q == 0)%Q.
Proof.
  intros Hw Hc Hu Hf Hp HL V1 V2. unfold mctm_supply. eexists. split; [reflexivity|].
  set (k := ((inject_Z (mc_vt c) * mp_pcu p + inject_Z (mc_vc c)) / mp_fs p / mc_len c)%Q).
  assert (K0 : (0 <= k)%Q). { apply div_nn; [apply div_nn|]; auto. pose proof (injZ_nonneg _ V1). pose proof (injZ_nonneg _ V2). nra. }
  pose proof (Q.le_max_l 0 (Qmax (Qmin (cap_c f) (w_c f * (K_c f - k))) (w_c f * (1 # 4) * (K_c f - k)))) as M0.
  split; [apply Qmult_le_0_compat; lra|]. split.
  - apply Qmult_le_compat_r; [|lra].
    assert (A1 : (Qmin (cap_c f) (w_c f * (K_c f - k)) <= cap_c f)%Q) by apply Q.le_min_l.
    assert (A2 : (w_c f * (1 # 4) * (K_c f - k) <= w_c f * K_c f / 4)%Q) by (unfold Qdiv; change (/ 4)%Q with (1 # 4)%Q; nra).
    pose proof (Q.le_max_l (cap_c f) (w_c f * K_c f / 4)) as B1. pose proof (Q.le_max_r (cap_c f) (w_c f * K_c f / 4)) as B2.
    apply Q.max_lub; [lra|]. apply Q.max_lub; lra.
  - intros J. assert (KK : (K_c f <= k)%Q).
    { unfold k. apply Qle_shift_div_l; [exact HL|]. apply Qle_shift_div_l; [exact Hf|]. lra. }
    assert (Z1 : (w_c f * (K_c f - k) <= 0)%Q) by nra. assert (Z2 : (w_c f * (1 # 4) * (K_c f - k) <= 0)%Q) by nra.
    assert (Z3 : (Qmin (cap_c f) (w_c f * (K_c f - k)) <= 0)%Q) by (eapply Qle_trans; [apply Q.le_min_r|exact Z1]).
    assert (Z4 : (Qmax (Qmin (cap_c f) (w_c f * (K_c f - k))) (w_c f * (1 # 4) * (K_c f - k)) <= 0)%Q) by (apply Q.max_lub; auto).
    rewrite (Q.max_l _ _ Z4). ring.
Qed.
