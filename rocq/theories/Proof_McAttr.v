(** Proofs for loading with time-dependent attributes. *)
From Coq Require Import Permutation.
From Verif Require Import Base Base_lemmas Model_Num Proof_Num Spec_Path Proof_Path Model_CC Spec_CC Model_Path Model_Link Spec_Link Spec_Node
  Proof_Link Proof_Link4 Model_World Model_Node Model_Sim Spec_Sim Proof_Sim1 Proof_Sim3 Proof_Sim4
  Model_McLink Spec_McLink Proof_McLink Proof_McLink6 Model_McNode Spec_McNode Model_McSim Spec_McSim Proof_McSim1 Proof_McSim2 Proof_McSim3
  Model_Text Model_Io Model_Mio Model_McAttr Spec_McAttr.
Local Open Scope Z_scope.

Section Attr.
Context (M : mnet) (K : mnet_ok M).

(** a change keeps the invariant *)
Lemma modify_minv w l a l' t : mlink_modify (mw_link w l) a = Ok l' -> In l (mn_links M) -> minv M w -> minv M (mset_link w l l') /\ mgrow t w (mset_link w l l').
Proof.
  intros Hm Hl [H1 H2 H3 H4 H5 H6 H7 H8 H9 H10 H11 H12 H13 H14]. split; [|now apply mgrow_keep].
  destruct (modify_keeps _ _ _ Hm) as (Ki & Kf & Kb & Kv & _).
  assert (Ey : forall k, on_mlink (mw_cls w) k l' = on_mlink (mw_cls w) k (mw_link w l)) by (intros k; unfold on_mlink; now rewrite Ki, Kf, Kb).
  assert (OL : forall k l1, on_mlink (mw_cls w) k (mw_link (mset_link w l l') l1) = on_mlink (mw_cls w) k (mw_link w l1)).
  { intros k l1. cbn [mset_link mw_link]. destruct (Z.eq_dec l1 l) as [->|Ne]; [rewrite upd_same; apply Ey|now rewrite upd_other]. }
  assert (BI : forall l1, In l1 (mn_links M) -> mbody_inv (mw_cls w) (ml_body (mw_link (mset_link w l l') l1))).
  { intros l1 Hl1. cbn [mset_link mw_link]. destruct (Z.eq_dec l1 l) as [->|Ne]; [rewrite upd_same; apply Kv; auto|rewrite upd_other by exact Ne; auto]. }
  assert (Z0 : forall v, mzcount M (mset_link w l l') v = mzcount M w v).
  { intros v. unfold mzcount, mzo, mzl, mzd. f_equal. f_equal. apply sumZ_map_ext. intros l1 Hl1.
    rewrite (mall_split _ _ v (BI l1 Hl1)), (mall_split _ _ v (H1 l1 Hl1)). now rewrite !OL. }
  constructor; auto.
  - intros v. rewrite Z0. apply H2.
  - intros v. rewrite Z0. apply H3.
  - intros k l1 c c' Hl1 Ec Ec'. specialize (H5 k l1 c c' Hl1 Ec Ec'). change (mw_cls (mset_link w l l')) with (mw_cls w). rewrite OL. exact H5.
Qed.
Lemma row_inv w tl x w' tl' : attr_row M (w, tl) x = Ok (w', tl') -> exists l', In (fst x) (mn_links M) /\ mlink_modify (mw_link w (fst x)) (td_prop (snd x)) = Ok l' /\
  w' = mset_link w (fst x) l' /\ tl' = upd tl (fst x) {| tl_all := td_toll (snd x); tl_car := td_toll (snd x); tl_truck := td_toll (snd x) |}.
Proof.
  unfold attr_row. intros H. apply bind_ok in H as (u & G & H). apply guard_ok in G. apply bind_ok in H as (l' & Hm & H). cbv zeta in H. apply Ok_inj in H; injection H as <- <-.
  exists l'. split; [now apply memb_In|auto].
Qed.
Lemma rows_minv t : forall rows w tl w' tl', foldM (attr_row M) (w, tl) rows = Ok (w', tl') -> minv M w -> minv M w' /\ mgrow t w w'.
Proof.
  induction rows as [|x rows IH]; intros w tl w' tl' H I; cbn [foldM] in H; [apply Ok_inj in H; injection H as <- <-; split; [exact I|apply mgrow_refl]|].
  apply bind_ok in H as ([w1 tl1] & H1 & H2). destruct (row_inv _ _ _ _ _ H1) as (l' & Hl & Hm & -> & _). destruct (modify_minv _ _ _ _ t Hm Hl I) as [I1 G1].
  destruct (IH _ _ _ _ H2 I1) as [I2 G2]. split; [exact I2|exact (mgrow_trans _ _ _ _ G1 G2)].
Qed.
Lemma attr_once_inv ord T D t a w tl w' tl' : attr_once M ord T D t a w tl = Ok (w', tl') -> exists w1, attr_update M ord T t w tl = Ok (w1, tl') /\ mload_once M D t a w1 = Ok w'.
Proof. unfold attr_once. intros H. apply bind_ok in H as ([w1 tl1] & H1 & H). apply bind_ok in H as (w2 & H2 & H). cbn [fst snd] in *. apply Ok_inj in H; injection H as <- <-. eauto. Qed.
Lemma attr_once_minv ord T D t a w tl w' tl' : mdraws_valid D -> attr_once M ord T D t a w tl = Ok (w', tl') -> minv M w -> minv M w' /\ mgrow t w w'.
Proof.
  intros DV H I. apply attr_once_inv in H as (w1 & H1 & H2). destruct (rows_minv t _ _ _ _ _ H1 I) as [I1 G1].
  destruct (load_once_minv M K _ _ _ _ _ DV H2 I1) as [I2 G2]. split; [exact I2|exact (mgrow_trans _ _ _ _ G1 G2)].
Qed.
Lemma attr_body_inv ord T D a a' : attr_body M ord T D a = Ok a' -> exists w tl, attr_once M ord T (D (ms_cur (a_s a))) (ms_cur (a_s a)) (ms_assign (a_s a)) (ms_w (a_s a)) (a_toll a) = Ok (w, tl) /\
  ms_cur (a_s a') = ms_cur (a_s a) + 1 /\ ms_w (a_s a') = w /\ ms_enr (a_s a') = ms_enr (a_s a) ++ [f_enroute (mw_fac w)] /\ a_toll a' = tl /\
  ms_assign (a_s a') = (if Z.rem (ms_cur (a_s a) + 1) (mn_freq M) =? 0 then ms_assign (a_s a) + 1 else ms_assign (a_s a)).
Proof. unfold attr_body. cbv zeta. intros H. apply bind_ok in H as ([w tl] & H1 & H). cbn [fst snd] in H. apply Ok_inj in H as <-. exists w, tl. cbn [a_s ms_cur ms_w ms_enr a_toll ms_assign]. auto 10. Qed.
Lemma attr_run_S ord T D k a a' : attr_run M ord T D (S k) a = Ok a' -> exists a1, attr_run M ord T D k a = Ok a1 /\ attr_body M ord T D a1 = Ok a'.
Proof. cbn [attr_run]. intros H. apply bind_ok in H. exact H. Qed.
Lemma areached_S ord T D w0 tl0 j a : areached M ord T D w0 tl0 (S j) a -> exists a1, areached M ord T D w0 tl0 j a1 /\ attr_body M ord T D a1 = Ok a.
Proof. intros (F & DV & H). apply attr_run_S in H as (a1 & H1 & H2). exists a1. split; [split; auto|exact H2]. Qed.
Lemma areached_minv ord T D w0 tl0 : forall j a, areached M ord T D w0 tl0 j a -> minv M (ms_w (a_s a)).
Proof.
  induction j as [|j IH]; intros a R.
  - destruct R as (F & _ & H). apply Ok_inj in H as <-. now apply fresh_minv.
  - apply areached_S in R as (a1 & R1 & H). pose proof (proj1 (proj2 R1)) as DV. apply attr_body_inv in H as (w & tl & H & _ & -> & _). eapply attr_once_minv; eauto.
Qed.
Lemma areached_cur ord T D w0 tl0 : forall j a, areached M ord T D w0 tl0 j a -> ms_cur (a_s a) = Z.of_nat j.
Proof.
  induction j as [|j IH]; intros a R; [destruct R as (_ & _ & H); apply Ok_inj in H as <-; reflexivity|].
  apply areached_S in R as (a1 & R1 & H). apply attr_body_inv in H as (w & tl & _ & -> & _). rewrite (IH _ R1). lia.
Qed.
Lemma areached_more ord T D w0 tl0 j n a a' : areached M ord T D w0 tl0 j a -> attr_run M ord T D n a = Ok a' -> areached M ord T D w0 tl0 (n + j) a'.
Proof.
  intros (F & DV & H) Hn. split; [exact F|]. split; [exact DV|]. revert a' Hn. induction n as [|n IH]; intros a' Hn; [apply Ok_inj in Hn as <-; exact H|].
  apply attr_run_S in Hn as (a1 & H1 & H2). cbn [Nat.add attr_run]. rewrite (IH _ H1). exact H2.
Qed.
Lemma akept ord T D w0 tl0 j a : areached M ord T D w0 tl0 j a -> forall n a', attr_run M ord T D n a = Ok a' ->
  f_num (mw_fac (ms_w (a_s a))) <= f_num (mw_fac (ms_w (a_s a'))) /\
  (forall v, v <= f_num (mw_fac (ms_w (a_s a))) -> stat (mw_veh (ms_w (a_s a')) v) = stat (mw_veh (ms_w (a_s a)) v) /\ mw_cls (ms_w (a_s a')) v = mw_cls (ms_w (a_s a)) v /\ mw_lab (ms_w (a_s a')) v = mw_lab (ms_w (a_s a)) v) /\
  exists more, mdone (ms_w (a_s a')) = mdone (ms_w (a_s a)) ++ more.
Proof.
  intros R. induction n as [|n IH]; intros a' H; [apply Ok_inj in H as <-; split; [lia|]; split; [auto|]; exists []; now rewrite app_nil_r|].
  apply attr_run_S in H as (a1 & H1 & H2). destruct (IH _ H1) as (A & B & x & C). pose proof (areached_more _ _ _ _ _ _ _ _ _ R H1) as R1. pose proof (proj1 (proj2 R)) as DV.
  apply attr_body_inv in H2 as (w & tl & H2 & _ & -> & _). destruct (attr_once_minv _ _ _ _ _ _ _ _ _ (DV _) H2 (areached_minv _ _ _ _ _ _ _ R1)) as [_ (G1 & G2 & _ & y & G4 & _)].
  split; [lia|]. split.
  - intros v Hv. destruct (B v Hv) as (p & q & r). destruct (G2 v ltac:(lia)) as (p' & q' & r'). repeat split; congruence.
  - exists (x ++ y). rewrite G4, C. now rewrite app_assoc.
Qed.

(** an interval keeps parameters and kind of every link *)
Definition like (l l' : mlink) : Prop := ml_par l' = ml_par l /\ body_kind (ml_body l') = body_kind (ml_body l) /\ diagram (ml_body l') = diagram (ml_body l).
Definition likes (w w' : mworld) : Prop := forall l, like (mw_link w l) (mw_link w' l).
Lemma likes_refl w : likes w w. Proof. intros l. repeat split; reflexivity. Qed.
Lemma likes_trans a b c : likes a b -> likes b c -> likes a c.
Proof. intros A B l. destruct (A l) as (a1 & a2 & a3), (B l) as (b1 & b2 & b3). repeat split; congruence. Qed.
Lemma likes_same w w' : mw_link w' = mw_link w -> likes w w'. Proof. intros E l. rewrite E. repeat split; reflexivity. Qed.
Lemma release_n_link D cur asg o k d r : forall j w, mw_link (mrelease_n j D cur asg o k d r w) = mw_link w.
Proof. induction j as [|j IH]; intros w; cbn [mrelease_n]; [reflexivity|]. cbv zeta. rewrite IH. reflexivity. Qed.
Lemma release_dests_link D cur asg o k : forall ds r w, mw_link (fst (mrelease_dests M D cur asg o k r ds w)) = mw_link w.
Proof. induction ds as [|[d dem] ds IH]; intros r w; cbn [mrelease_dests]; [reflexivity|]. cbv zeta. rewrite IH. apply release_n_link. Qed.
Lemma release_link D cur asg w w' : mrelease_all M D cur asg w = Ok w' -> mw_link w' = mw_link w.
Proof.
  unfold mrelease_all. intros H. apply bind_ok in H as (u & _ & H). destruct (_ =? 0); apply Ok_inj in H as <-; [|reflexivity].
  generalize (if mn_total_assign M <=? asg then -1 else asg). intros z. revert w. induction (mn_origins M) as [|o os IH]; intros w; cbn [fold_left]; [reflexivity|]. rewrite IH.
  unfold mrelease_one. destruct (z <? 0); [reflexivity|].
  destruct (mrelease_dests M D cur z o false _ _ w) as [w1 x] eqn:E1. cbv zeta. destruct (mrelease_dests M D cur z o true _ _ w1) as [w2 x2] eqn:E2. cbn [mset_oq mw_link].
  pose proof (release_dests_link D cur z o true (og_demand o true) (match mn_routing M with MRBiclass _ _ => mbase_ratio (mn_routing M) true | _ => x end) w1) as A. rewrite E2 in A.
  pose proof (release_dests_link D cur z o false (og_demand o false) (mbase_ratio (mn_routing M) false) w) as B. rewrite E1 in B. cbn [fst] in A, B. congruence.
Qed.
Lemma load_once_likes D t a w w' : mdraws_valid D -> mload_once M D t a w = Ok w' -> likes w w'.
Proof.
  intros DV H. unfold mload_once in H. apply bind_ok in H as (w1 & H1 & H). apply bind_ok in H as (w2 & H2 & H). apply bind_ok in H as (w3 & H3 & H). apply bind_ok in H as (w4 & H4 & H).
  destruct (routing_stat _ _ _ _ _ H2) as (_ & _ & E2 & _).
  assert (Q1 : likes w w1) by (apply likes_same, (release_link _ _ _ _ _ H1)). assert (Q2 : likes w1 w2) by (apply likes_same, E2).
  assert (Q3 : likes w2 w3); [|assert (Q4 : likes w3 w4); [|assert (Q5 : likes w4 w')]].
  - revert H3. apply foldM_rel; [apply likes_refl|apply likes_trans|]. intros s nk s' Hin E. destruct (node_meff M K D t s s' nk DV Hin E) as (e & lv & J). intros l. destruct (me_body _ _ _ _ _ J l) as [A B]. repeat split; congruence.
  - revert H4. apply foldM_rel; [apply likes_refl|apply likes_trans|]. intros s l s' _ E. unfold mlink_step in E. apply bind_ok in E as (x & Ex & E). apply bind_ok in E as (y & Ey & E). apply Ok_inj in E as <-.
    intros l1. cbn [mset_link mw_link]. destruct (Z.eq_dec l1 l) as [->|Ne]; [rewrite upd_same|rewrite upd_other by exact Ne; repeat split; reflexivity].
    assert (A : like (mw_link s l) x).
    { unfold mlink_clear in Ex. destruct (ml_body (mw_link s l)) as [f cs|f qc qt vc vt sp|m pool vc vt] eqn:B.
      - apply bind_ok in Ex as (cs' & _ & Ex). apply Ok_inj in Ex as <-. unfold like. rewrite B. repeat split; reflexivity.
      - apply Ok_inj in Ex as <-. unfold like. rewrite B. repeat split; reflexivity.
      - cbv zeta in Ex. apply Ok_inj in Ex as <-. unfold like. rewrite B. repeat split; reflexivity. }
    assert (C : like x y).
    { unfold mlink_evolve in Ey. destruct (ml_body x) as [f cs|f qc qt vc vt sp|m pool vc vt] eqn:B.
      - apply bind_ok in Ey as (cs' & _ & Ey). apply Ok_inj in Ey as <-. unfold like. rewrite B. repeat split; reflexivity.
      - apply bind_ok in Ey as ([[[[[a1 a2] a3] a4] a5] a6] & _ & Ey). apply Ok_inj in Ey as <-. unfold like. rewrite B. repeat split; reflexivity.
      - cbv zeta in Ey. apply Ok_inj in Ey as <-. unfold like. rewrite B. repeat split; reflexivity. }
    destruct A as (a1 & a2 & a3), C as (b1 & b2 & b3). repeat split; congruence.
  - revert H. apply foldM_rel; [apply likes_refl|apply likes_trans|]. intros s n s' _ E. unfold mreceive in E. apply bind_ok in E as (x & E1 & E). apply Ok_inj in E as <-. apply mreceive_loop_eff in E1.
    apply likes_same. cbn [mset_dq mw_link]. apply (mre_link _ _ _ _ _ E1).
  - exact (likes_trans _ _ _ Q1 (likes_trans _ _ _ Q2 (likes_trans _ _ _ Q3 (likes_trans _ _ _ Q4 Q5)))).
Qed.

(** ** the values in force *)
Lemma works_like l l' a : like l l' -> works_with l a -> works_with l' a.
Proof. intros (A & B & C) W. unfold works_with, diagram_of in *. rewrite A, B, C. exact W. Qed.
Lemma modify_works l a l' : mlink_modify l a = Ok l' -> works_with l' a.
Proof.
  unfold mlink_modify, works_with. destruct (ml_body l) as [f cs|f qc qt vc vt sp|m pool vc vt]; intros E.
  - apply bind_ok in E as (p & Ea & E). apply bind_ok in E as (? & _ & E). destruct cs as [|c cs]; [discriminate|].
    apply bind_ok in E as (? & _ & E). apply bind_ok in E as (? & _ & E). apply Ok_inj in E as <-.
    unfold mctm_adjust in Ea. apply bind_ok in Ea as (? & _ & Ea). apply bind_ok in Ea as (? & _ & Ea). apply bind_ok in Ea as (? & _ & Ea). cbv zeta in Ea.
    apply bind_ok in Ea as (? & _ & Ea). apply bind_ok in Ea as (? & _ & Ea). apply bind_ok in Ea as (? & _ & Ea). apply bind_ok in Ea as (? & _ & Ea). apply Ok_inj in Ea as <-.
    unfold diagram_of. cbn [set_par ml_par ml_body mp_lanes mp_ffs_c mp_ffs_t mwith body_kind diagram]. split; [reflexivity|]. split; [reflexivity|]. split; [reflexivity|]. split; [congruence|]. split; [discriminate|reflexivity].
  - apply bind_ok in E as (f' & Ef & E). apply Ok_inj in E as <-. cbv zeta in Ef. unfold diagram_of. cbn [set_par ml_par ml_body mwith mp_lanes mp_len mp_ffs_c mp_ffs_t mp_hold_c mp_hold_t mp_flow_c mp_flow_t body_kind diagram]. repeat split; eauto.
  - apply Ok_inj in E as <-. cbn. repeat split; discriminate.
Qed.
Definition one_toll (r : tdrow) : tolls := {| tl_all := td_toll r; tl_car := td_toll r; tl_truck := td_toll r |}.
Lemma rows_links : forall rows w tl w' tl', NoDup (map fst rows) -> foldM (attr_row M) (w, tl) rows = Ok (w', tl') ->
  (forall k r, In (k, r) rows -> works_with (mw_link w' k) (td_prop r) /\ tl' k = one_toll r) /\
  (forall k, ~ In k (map fst rows) -> mw_link w' k = mw_link w k /\ tl' k = tl k).
Proof.
  induction rows as [|[k r] rows IH]; intros w tl w' tl' ND H; cbn [foldM] in H.
  - apply Ok_inj in H; injection H as <- <-. split; [intros k r []|auto].
  - apply bind_ok in H as ([w1 tl1] & H1 & H2). destruct (row_inv _ _ _ _ _ H1) as (l' & Hl & Hm & -> & ->). cbn [fst snd] in *. inversion ND as [|? ? N1 N2]; subst.
    destruct (IH _ _ _ _ N2 H2) as [A B]. split.
    + intros k' r' [E|I]; [|now apply A]. injection E as <- <-. destruct (B k N1) as [-> ->]. cbn [mset_link mw_link]. rewrite !upd_same. split; [eapply modify_works; eauto|reflexivity].
    + intros k' Hk. cbn [map fst In] in Hk. destruct (B k') as [-> ->]; [tauto|]. cbn [mset_link mw_link]. rewrite !upd_other by (intros ->; tauto). auto.
Qed.
Lemma step_links ord T D a a' : rows_ok ord T -> (forall t, mdraws_valid (D t)) -> attr_body M ord T D a = Ok a' -> let t := ms_cur (a_s a) in
  (forall k r, In (k, r) (T t) -> works_with (mw_link (ms_w (a_s a')) k) (td_prop r) /\ a_toll a' k = one_toll r) /\
  (forall k, (forall r, ~ In (k, r) (T t)) -> like (mw_link (ms_w (a_s a)) k) (mw_link (ms_w (a_s a')) k) /\ a_toll a' k = a_toll a k).
Proof.
  intros [P ND] DV H t. apply attr_body_inv in H as (w & tl & H & _ & -> & _ & -> & _). apply attr_once_inv in H as (w1 & H1 & H2). pose proof (load_once_likes _ _ _ _ _ (DV _) H2) as Lk.
  unfold attr_update in H1. fold t in H1. assert (N1 : NoDup (map fst (ord (T t)))) by (eapply Permutation_NoDup; [apply Permutation_map, P|apply ND]).
  destruct (rows_links _ _ _ _ _ N1 H1) as [A B]. split.
  - intros k r I. destruct (A k r) as [W E]; [eapply Permutation_in; [apply P|exact I]|]. split; [eapply works_like; [apply Lk|exact W]|exact E].
  - intros k I. destruct (B k) as [E1 E2].
    + intros X. apply in_map_iff in X as ([k' r] & <- & X). apply (I r). eapply Permutation_in; [apply Permutation_sym, P|exact X].
    + split; [|exact E2]. rewrite <- E1. apply Lk.
Qed.
Lemma in_force_never ord T D w0 tl0 : rows_ok ord T -> forall j a k, areached M ord T D w0 tl0 j a -> never_given T k j ->
  like (mw_link w0 k) (mw_link (ms_w (a_s a)) k) /\ a_toll a k = tl0 k.
Proof.
  intros RO. induction j as [|j IH]; intros a k R N.
  - destruct R as (_ & _ & H). apply Ok_inj in H as <-. split; [repeat split|]; reflexivity.
  - apply areached_S in R as (a1 & R1 & H). pose proof (proj1 (proj2 R1)) as DV. destruct (IH a1 k R1) as [A B]; [intros i r Hi; apply N; lia|].
    destruct (step_links _ _ _ _ _ RO DV H) as [_ X]. rewrite (areached_cur _ _ _ _ _ _ _ R1) in X. destruct (X k) as [C E]; [intros r; apply N; lia|].
    split; [|congruence]. destruct A as (x1 & x2 & x3), C as (b1 & b2 & b3). repeat split; congruence.
Qed.
Lemma in_force_row ord T D w0 tl0 : rows_ok ord T -> forall j a k r, areached M ord T D w0 tl0 j a -> given_last T k j r ->
  works_with (mw_link (ms_w (a_s a)) k) (td_prop r) /\ a_toll a k = one_toll r.
Proof.
  intros RO. induction j as [|j IH]; intros a k r R (i & Hi & I & N); [lia|].
  apply areached_S in R as (a1 & R1 & H). pose proof (proj1 (proj2 R1)) as DV. destruct (step_links _ _ _ _ _ RO DV H) as [X Y]. rewrite (areached_cur _ _ _ _ _ _ _ R1) in X, Y.
  destruct (Nat.eq_dec i j) as [->|Ne]; [now apply X|]. destruct (IH a1 k r R1) as [A B]; [exists i; split; [lia|split; [exact I|intros; apply N; lia]]|].
  destruct (Y k) as [C E]; [intros r'; apply N; lia|]. split; [eapply works_like; eauto|congruence].
Qed.

(** ** tables that agree on the intervals passed *)
Lemma attr_run_agree ord T T' D w0 tl0 : forall j, (forall i, (i < j)%nat -> T (Z.of_nat i) = T' (Z.of_nat i)) ->
  attr_run M ord T D j {| a_s := minit M w0; a_toll := tl0 |} = attr_run M ord T' D j {| a_s := minit M w0; a_toll := tl0 |}.
Proof.
  assert (Cur : forall T j a, attr_run M ord T D j {| a_s := minit M w0; a_toll := tl0 |} = Ok a -> ms_cur (a_s a) = Z.of_nat j).
  { intros T0. induction j as [|j IH]; intros a H; [apply Ok_inj in H as <-; reflexivity|]. apply attr_run_S in H as (a1 & H1 & H). apply attr_body_inv in H as (w & tl & _ & -> & _). rewrite (IH _ H1). lia. }
  induction j as [|j IH]; intros E; [reflexivity|]. cbn [attr_run]. rewrite IH by (intros; apply E; lia).
  destruct (attr_run M ord T' D j _) as [a|e] eqn:H; [|reflexivity]. cbn [bind]. unfold attr_body, attr_once, attr_update. rewrite (Cur T' j a H), E by lia. reflexivity.
Qed.
Lemma attr_run_none ord T D w0 tl0 : (forall l, Permutation l (ord l)) -> forall j, (forall i, (i < j)%nat -> T (Z.of_nat i) = []) ->
  attr_run M ord T D j {| a_s := minit M w0; a_toll := tl0 |} = (do s <- mrun M D j (minit M w0); Ok {| a_s := s; a_toll := tl0 |}).
Proof.
  intros P. assert (O0 : ord [] = []) by (apply Permutation_nil, P).
  assert (Cur : forall j s, mrun M D j (minit M w0) = Ok s -> ms_cur s = Z.of_nat j).
  { induction j as [|j IH]; intros s H; [apply Ok_inj in H as <-; reflexivity|]. apply mrun_S in H as (s1 & H1 & H). apply mloop_body_inv in H as (w & _ & -> & _). rewrite (IH _ H1). lia. }
  induction j as [|j IH]; intros E; [reflexivity|]. cbn [attr_run mrun]. rewrite IH by (intros; apply E; lia).
  destruct (mrun M D j (minit M w0)) as [s|e] eqn:H; [|reflexivity]. cbn [bind]. unfold attr_body, attr_once, attr_update, mloop_body. cbn [a_s a_toll]. rewrite (Cur j s H), E by lia.
  rewrite O0. cbn [foldM bind fst snd]. destruct (mload_once M _ _ _ _) as [w|e]; reflexivity.
Qed.

(** ** rows that cannot be applied *)
Lemma rows_err : forall rows w tl k r, NoDup (map fst rows) -> In (k, r) rows -> (~ In k (mn_links M) \/ exists e, mlink_modify (mw_link w k) (td_prop r) = Err e) -> exists e, foldM (attr_row M) (w, tl) rows = Err e.
Proof.
  induction rows as [|[k1 r1] rows IH]; intros w tl k r ND I B; [destruct I|]. cbn [map fst] in ND. inversion ND as [|? ? N1 N2]; subst. cbn [foldM].
  destruct (attr_row M (w, tl) (k1, r1)) as [[w1 tl1]|e] eqn:E; [|cbn [bind]; eauto]. cbn [bind]. destruct I as [I|I].
  - injection I as -> ->. destruct (row_inv _ _ _ _ _ E) as (l' & Hl & Hm & _). cbn [fst snd] in *. destruct B as [B|[e B]]; [contradiction|congruence].
  - apply (IH w1 tl1 k r N2 I). destruct B as [B|[e B]]; [now left|right]. exists e. destruct (row_inv _ _ _ _ _ E) as (l' & _ & _ & -> & _). cbn [mset_link mw_link fst].
    rewrite upd_other; [exact B|]. intros ->. apply N1. apply in_map_iff. exists (k1, r). auto.
Qed.
End Attr.
