(** Two-class (car, truck) links: C81 - C91 *)
From Verif Require Import Base Base_lemmas Model_Num Proof_Num Spec_Path Proof_Path Model_Link Spec_Link
  Proof_Link Proof_Link2 Proof_Link3 Proof_Link4 Proof_Link5 Proof_Link6 Model_McLink Spec_McLink Proof_McLink Proof_McLink2 Proof_McLink3 Proof_McLink4
  Proof_McLink5 Proof_McLink6.
Local Open Scope Q_scope.

(** * C81: conservation and order, per class *)
Theorem C81_classes_keep_order : forall cls p N s arr, fresh_mlink p (s 0%nat) -> mhistory cls N s arr ->
  forall k, subseq (on_mlink cls k (s N)) (of_class cls k (arrivals N arr)).
Proof. intros cls p N s arr F H. destruct (fresh_mempty _ _ F cls) as (A & B & _). apply (mhistory_inv cls N s arr H A B). Qed.
Print Assumptions C81_classes_keep_order.

(** per interval: nobody is lost but those taken at the exit *)
Theorem C81_interval_conserves : forall cls p l arr l', mreach cls p l -> minterval cls l arr l' ->
  exists rest, subseq rest (ml_fin l) /\ forall k,
    on_mlink cls k l' = (of_class cls k rest ++ minside cls k (ml_body l) ++ of_class cls k (ml_in l ++ arr))%list.
Proof. intros cls p l arr l' R H. apply (minterval_line _ _ _ _ H (mreach_inv _ _ _ R)). Qed.
Print Assumptions C81_interval_conserves.

Lemma on_class cls p l k v : mreach cls p l -> In v (on_mlink cls k l) -> cls v = k.
Proof.
  intros R H. pose proof (mreach_inv _ _ _ R) as B. unfold on_mlink in H. apply in_app_or in H as [H|H]; [apply of_class_In in H; tauto|].
  apply in_app_or in H as [H|H]; [|apply of_class_In in H; tauto].
  destruct (ml_body l) as [f cs|f qc qt vc vt sp|m pool vc vt]; cbn [mbody_inv minside] in *.
  - apply (B k v H).
  - destruct B as [B1 B2]. destruct k; [apply (B2 v H)|apply (B1 v H)].
  - apply of_class_In in H. tauto.
Qed.
(** cars and trucks are never mixed up *)
Theorem C81_classes_stay_apart : forall cls p l k v, mreach cls p l -> In v (on_mlink cls k l) -> cls v = k.
Proof. exact on_class. Qed.
Print Assumptions C81_classes_stay_apart.

(** * C82: updates never fail *)
Theorem C82_updates_never_fail : forall cls p l, mreach cls p l -> ~ mp_pcu p == 0 ->
  forall rest arr has_next D, subseq rest (ml_fin l) -> (forall v k, In v (on_mlink cls k l) \/ In v arr -> has_next v = true) ->
  exists l1 l', mlink_clear cls (moffered l rest arr) = Ok l1 /\ mlink_evolve cls has_next D l1 = Ok l'.
Proof. intros cls p l R Hp rest arr hn D _ HN. apply mlink_total; [eapply msane_reach; eauto|exact HN]. Qed.
Print Assumptions C82_updates_never_fail.
Theorem C82_supply_defined_after_an_update : forall cls p l arr l', mreach cls p l -> ~ mp_pcu p == 0 -> minterval cls l arr l' ->
  exists q, mlink_supply l' = Ok q.
Proof.
  intros cls p l arr l' R Hp H. apply supply_defined.
  - eapply msane_step; [exact H|]. eapply msane_reach; eauto.
  - eapply lq_known_step; eauto.
Qed.
Print Assumptions C82_supply_defined_after_an_update.

(** * C83: traversal *)
Theorem C83_no_vehicle_faster_than_free_flow : forall cls p N s arr, make_mctm p = Ok (s 0%nat) -> mhistory cls N s arr -> NoDup (arrivals N arr) ->
  forall t v n, Z.of_nat n = mfreeflow_intervals p -> (t < N)%nat -> In v (arr t) ->
    forall i, (i < t + n)%nat -> (i <= N)%nat -> ~ In v (ml_fin (s i)).
Proof.
  intros cls p N s arr E H ND t v n Hn Ht Hv i Hi HN C.
  destruct (le_lt_dec i t) as [L|L].
  - destruct (mctm_all cls p N s arr E H) as (f & lens & _ & _ & _ & _ & _ & _ & _ & A). destruct (A i HN) as (_ & _ & _ & _ & _ & _ & _ & _ & S1).
    assert (X : In v (of_class cls (cls v) (arrivals i arr))).
    { eapply subseq_In; [apply S1|]. unfold on_mlink. apply in_or_app. left. apply of_class_In. auto. }
    apply of_class_In in X as [X _]. apply In_arrivals in X as (j & Lj & Hj).
    pose proof (subseq_NoDup _ _ (subseq_arrivals_mono (S t) N arr ltac:(lia)) ND) as ND1. rewrite arrivals_S in ND1.
    apply NoDup_app_inv in ND1 as (_ & _ & D). refine (D v _ Hv). apply In_arrivals. exists j. split; [lia|exact Hj].
  - pose proof (mnot_before cls p N s arr E H t v ND Ht Hv (i - t - 1)) as B. replace (S (t + (i - t - 1))) with i in B by lia.
    destruct B as (B & _); [lia|lia|]. apply B. exact C.
Qed.
Print Assumptions C83_no_vehicle_faster_than_free_flow.

Theorem C83_cars_exact_in_free_flow : forall cls p N s arr, make_mctm p = Ok (s 0%nat) -> mhistory cls N s arr ->
  forall t v n, Z.of_nat n = mfreeflow_intervals p -> (t + n <= N)%nat -> In v (arr t) -> cls v = false ->
    (forall i, (t <= i < t + n)%nat -> link_free cls (s i) (arr i)) -> In v (ml_fin (s (t + n)%nat)).
Proof.
  intros cls p N s arr E H t v n Hn HN Hv Hc U.
  assert (N1 : (1 <= n)%nat) by (unfold mfreeflow_intervals in Hn; lia).
  pose proof (mfree_travel cls p N s arr E H t v Hv Hc (n - 1)) as T. replace (S (n - 1)) with n in T by lia.
  destruct T as (f & cs & Hb & P); [lia|lia|intros; apply U; lia|].
  destruct (mctm_all cls p N s arr E H) as (f0 & lens & _ & _ & _ & _ & _ & _ & _ & A). destruct (A (t + n)%nat HN) as (_ & _ & _ & _ & _ & LN & _).
  unfold mncell in LN. rewrite Hb in LN. destruct (nth_error cs n) as [c|] eqn:Ec; [|tauto].
  exfalso. assert (n < length cs)%nat by (apply nth_error_Some; congruence). lia.
Qed.
Print Assumptions C83_cars_exact_in_free_flow.

(** in free flow all cars of a cell go on to the next one; of the trucks the ratio of
    the two speeds, up to one; those in the last cell reach the exit *)
Theorem C83_cell_flows_in_free_flow : forall cls p N s arr, make_mctm p = Ok (s 0%nat) -> mhistory cls N s arr -> mp_ffs_t p <= mp_ffs_c p ->
  forall t, (t < N)%nat -> link_free cls (s t) (arr t) ->
  exists f cs cs', ml_body (s t) = MCtm f cs /\ ml_body (s (S t)) = MCtm f cs' /\ length cs' = length cs /\
    exists (o : bool -> nat -> nat),
      (forall k j c, nth_error cs j = Some c -> exists d, nth_error cs' j = Some d /\
         queue_of k d = (skipn (o k j) (mload cls k (s t) (arr t) j c) ++
           match j with O => [] | S i => match nth_error cs i with Some e => firstn (o k i) (mload cls k (s t) (arr t) i e) | None => [] end end)%list) /\
      (forall j c, nth_error cs j = Some c -> o false j = length (mload cls false (s t) (arr t) j c)) /\
      (forall j c, nth_error cs j = Some c -> (o true j <= length (mload cls true (s t) (arr t) j c))%nat /\
         (S j = length cs -> o true j = length (mload cls true (s t) (arr t) j c)) /\
         ((S j < length cs)%nat -> moved (Zlen (mload cls true (s t) (arr t) j c)) (Z.of_nat (o true j)) (mp_ffs_t p / mp_ffs_c p))) /\
      (forall k c, nth_error cs (length cs - 1) = Some c -> exists rest, subseq rest (of_class cls k (ml_fin (s t))) /\
          of_class cls k (ml_fin (s (S t))) = (rest ++ mload cls k (s t) (arr t) (length cs - 1) c)%list).
Proof.
  intros cls p N s arr E H Hv t Ht U. destruct (mctm_all cls p N s arr E H) as (f & lens & FD & _ & Vc & Vt & HL & Hu & Hf & A).
  destruct (A t ltac:(lia)) as (I1 & I2 & _ & I4 & I5 & _).
  destruct (free_step cls f lens (s t) (arr t) (s (S t)) FD) as (cs & cs' & B1 & B2 & L & o & O1 & O2 & O3 & O4);
    [rewrite I5; lra|rewrite I4; lra|rewrite I4; exact HL|exact I1|exact I2|apply H; exact Ht|exact U|].
  exists f, cs, cs'. split; [exact B1|]. split; [exact B2|]. split; [exact L|]. exists o. split; [exact O1|]. split; [exact O2|]. split; [|exact O4].
  intros j c Ej. destruct (O3 j c Ej) as (X & Y & Z). split; [exact X|]. split; [exact Y|]. intros Lj. rewrite <- Vc, <- Vt. apply Z; [exact Lj|]. rewrite Vc, Vt. exact Hv.
Qed.
Print Assumptions C83_cell_flows_in_free_flow.

(** both classes take the same time on a point queue *)
Theorem C83_point_queue_traversal_time : forall cls p N s arr, make_mpq p = Ok (s 0%nat) -> 0 < mp_ut p -> mhistory cls N s arr -> NoDup (arrivals N arr) ->
  forall t v n, Z.of_nat n = mfreeflow_intervals p -> (t < N)%nat -> In v (ml_in (s t) ++ arr t) -> ~ In v (ml_in (s (S t))) ->
    (forall i, (t < i < t + n)%nat -> (i <= N)%nat -> ~ In v (ml_fin (s i))) /\ ((t + n <= N)%nat -> In v (ml_fin (s (t + n)%nat))).
Proof. exact mpq_traversal. Qed.
Print Assumptions C83_point_queue_traversal_time.

(** * C84: the split of a cell between the classes *)
Theorem C84_two_class_diagram : forall f fs len vc vt, fd_ok f -> 0 < fs -> 0 < len -> (0 <= vc)%Z -> (0 <= vt)%Z ->
  fill f (kden fs len vc) (kden fs len vt) <= 1 ->
  exists pc pt, let s := perceive f fs len vc vt in
    s_pc s = Den pc /\ s_pt s = Den pt /\ s_fc s + s_ft s == 1 /\ 0 <= s_fc s /\ 0 <= s_ft s /\
    s_fc s * pc == kden fs len vc /\ s_ft s * pt == kden fs len vt /\ 0 <= pc <= K_c f /\ 0 <= pt <= K_t f /\
    (vf_t f <= vf_c f -> speed_at (vf_t f) (w_t f) (K_t f) pt == Qmin (vf_t f) (speed_at (vf_c f) (w_c f) (K_c f) pc)).
Proof. intros f fs len vc vt HF Hf HL Zc Zt HJ. apply (perceive_ok f fs len vc vt HF Hf HL Zc Zt HJ). Qed.
Print Assumptions C84_two_class_diagram.
(** the cells of a link have such a diagram *)
Theorem C84_constructed_diagram : forall p l, make_mctm p = Ok l -> exists cs f, ml_body l = MCtm f cs /\ fd_ok f /\
  vf_c f = mp_ffs_c p /\ vf_t f = mp_ffs_t p.
Proof.
  intros p l E. destruct (make_mctm_cells _ _ E) as (p' & lens & AD & -> & _). destruct (mctm_fd_ok _ _ AD) as (FD & Vc & Vt & _).
  eexists. eexists. split; [reflexivity|]. auto.
Qed.
Print Assumptions C84_constructed_diagram.

(** * C85: supply of a CTM link *)
Theorem C85_ctm_supply : forall cls p N s arr, make_mctm p = Ok (s 0%nat) -> mhistory cls N s arr ->
  let q := ml_par (s N) in
  exists x f c cs, mlink_supply (s N) = Ok x /\ ml_body (s N) = MCtm f (c :: cs) /\
    0 <= x /\ x <= Qmax (m_capacity q) (m_wave q * m_jam q / 4) * mp_ut q /\
    (cs <> [] -> m_jam q * mc_len c * mp_fs q <= inject_Z (Zlen (mc_qc c)) + mp_pcu q * inject_Z (Zlen (mc_qt c)) -> x == 0).
Proof.
  intros cls p N s arr E H. cbv zeta. destruct (make_mctm_cells _ _ E) as (p' & lens0 & AD & E0 & Hu & Hf & Hp & _ & _ & _ & _).
  destruct (mctm_all cls p N s arr E H) as (f & lens & FD & HN & _ & _ & HL & _ & _ & A). destruct (A N ltac:(lia)) as (I1 & _ & I3 & I4 & I5 & I6 & _ & I8 & _).
  pose proof I1 as (cs & Hb & Hl & _ & Hv & _). assert (P0 : ml_par (s 0%nat) = p') by (rewrite E0; reflexivity). rewrite P0 in I3.
  assert (F0 : f = mctm_fd p') by (rewrite <- I8, I3; reflexivity).
  destruct (mctm_fd_ok _ _ AD) as (_ & _ & _ & KK & CC). rewrite <- F0 in KK, CC. pose proof (fd_w f FD) as (W1 & _ & C1 & _).
  destruct cs as [|c cs]. { exfalso. cbn in Hl. subst lens. cbn [length] in HN. unfold mfreeflow_intervals in HN. lia. }
  assert (Lc : 0 < mc_len c). { apply (HL 0%nat). rewrite <- Hl. reflexivity. }
  destruct (mvols_nonneg _ _ _ c Hv (or_introl eq_refl)) as [V1 V2].
  assert (Wv : w_c f = m_wave p') by (rewrite F0; reflexivity).
  rewrite I3. assert (U' : mp_ut p' = mp_ut p) by apply (ad_ut _ _ AD). assert (S' : mp_fs p' = mp_fs p) by apply (ad_fs _ _ AD). assert (Q' : mp_pcu p' = mp_pcu p) by apply (ad_pcu _ _ AD).
  destruct (mctm_supply_bound f p' cs c) as (x & Ex & X0 & X1 & X2); [lra|lra|rewrite U'; lra|rewrite S'; lra|rewrite Q'; lra|exact Lc|exact V1|exact V2|].
  exists x, f, c, cs. unfold mlink_supply. rewrite Hb, I3. split; [exact Ex|]. split; [reflexivity|]. split; [exact X0|].
  assert (Lq : K_c f == m_jam p') by (rewrite KK; unfold m_jam; rewrite (ad_lanes _ _ AD); reflexivity).
  assert (Cq : cap_c f == m_capacity p') by (rewrite CC; unfold m_capacity; rewrite (ad_lanes _ _ AD); reflexivity).
  split. { rewrite Cq, Lq, Wv in X1. exact X1. }
  intros L1 J. apply X2. destruct cs as [|c' cs]; [congruence|].
  destruct Hv as [[Vc Vt] _]. rewrite Vc, Vt, Lq. exact J.
Qed.
Print Assumptions C85_ctm_supply.

(** * C86: reported numbers of vehicles, in vehicles per flow scalar *)
Theorem C86_queue_links_count_exactly : forall cls p l arr l', mreach cls p l -> minterval cls l arr l' ->
  (forall f cs, ml_body l' <> MCtm f cs) ->
  mflow_car cls l' = inject_Z (passed cls false l') / mp_fs (ml_par l') /\
  mflow_truck cls l' = inject_Z (passed cls true l') / mp_fs (ml_par l') /\
  mflow l' = inject_Z (passed cls false l' + passed cls true l') / mp_fs (ml_par l').
Proof.
  intros cls p l arr l' R H NC. pose proof (interval_vols _ _ _ _ H (mreach_inv _ _ _ R)) as V. unfold vols_of in V. unfold mflow_car, mflow_truck, mflow.
  destruct (ml_body l') as [f cs|f qc qt vc vt sp|m pool vc vt] eqn:Hb; [exfalso; eapply NC; reflexivity| |]; destruct V as [-> ->]; auto.
Qed.
Print Assumptions C86_queue_links_count_exactly.
(** a CTM link counts the vehicles ready at its exit twice *)
Theorem C86_ctm_counts_actual : forall cls p l arr l', mreach cls p l -> minterval cls l arr l' -> (exists f cs, ml_body l' = MCtm f cs) ->
  mflow_car cls l' = inject_Z (passed cls false l' + Zlen (of_class cls false (ml_fin l'))) / mp_fs (ml_par l') /\
  mflow_truck cls l' = inject_Z (passed cls true l' + Zlen (of_class cls true (ml_fin l'))) / mp_fs (ml_par l') /\
  mflow l' = inject_Z (passed cls false l' + passed cls true l' + Zlen (ml_fin l')) / mp_fs (ml_par l').
Proof.
  intros cls p l arr l' R H (f & cs & Hb). pose proof (interval_vols _ _ _ _ H (mreach_inv _ _ _ R)) as V. unfold vols_of in V. unfold mflow_car, mflow_truck, mflow.
  rewrite Hb in *. destruct V as [-> ->]. rewrite of_class_cars, of_class_trucks. auto.
Qed.
Print Assumptions C86_ctm_counts_actual.
(** the counts used for emissions are exact at any time, on any kind of link *)
Theorem C86_emission_counts_exact : forall k cls ev l,
  memission k cls ev l =
    (inject_Z (Zlen (filter (fun v => negb (ev v)) (of_class cls k (ml_fin l) ++ minside cls k (ml_body l)))) / mp_fs (ml_par l),
     inject_Z (Zlen (filter ev (of_class cls k (ml_fin l) ++ minside cls k (ml_body l)))) / mp_fs (ml_par l)).
Proof. intros k cls ev l. unfold memission. cbv zeta. rewrite !mqueues_count. reflexivity. Qed.
Print Assumptions C86_emission_counts_exact.

(** * C87: travel time as a function of the volume *)
Definition tt_par (trk : bool) (p : mparam) : lparam :=
  {| p_kind := KCtm; p_hold := if trk then mp_hold_t p else mp_hold_c p; p_flow := if trk then mp_flow_t p else mp_flow_c p; p_lanes := mp_lanes p;
     p_len := mp_len p; p_ffs := if trk then mp_ffs_t p else mp_ffs_c p; p_ut := mp_ut p; p_fs := mp_fs p |}.
Definition mtt (trk : bool) : mlink -> Q -> res Q := if trk then mtt_truck else mtt_car.
Lemma mtt_eq trk l f : (exists g cs, ml_body l = MCtm g cs) -> mtt trk l f = tt_from_flow (tt_par trk (ml_par l)) f.
Proof. intros (g & cs & Hb). unfold mtt, mtt_car, mtt_truck, mtt_gen, tt_from_flow, tt_par. destruct trk; rewrite Hb; reflexivity. Qed.
Lemma adjusted_tt p p' trk : adjusted p p' -> 0 < mp_len p' -> tt_ok (tt_par trk p').
Proof.
  intros AD HL. unfold tt_ok, tt_par. destruct trk; cbn [p_lanes p_len p_ffs p_flow p_hold]; rewrite ?(ad_lanes _ _ AD), ?(ad_fc _ _ AD), ?(ad_ft _ _ AD); destruct AD; auto 8.
Qed.
Lemma ctm_tt cls p N s arr trk : make_mctm p = Ok (s 0%nat) -> mhistory cls N s arr ->
  tt_ok (tt_par trk (ml_par (s N))) /\ (exists g cs, ml_body (s N) = MCtm g cs).
Proof.
  intros E H. destruct (make_mctm_cells _ _ E) as (p' & lens0 & AD & E0 & Hu & Hf & Hp & HL0 & NC & _ & _).
  destruct (mctm_all cls p N s arr E H) as (f & lens & FD & HN & _ & _ & HL & _ & _ & A). destruct (A N ltac:(lia)) as (I1 & _ & I3 & _).
  pose proof I1 as (cs & Hb & _). split; [|eauto]. rewrite I3, E0. cbn [mnew ml_par]. apply (adjusted_tt p); [exact AD|].
  rewrite (ad_len _ _ AD). assert (V := ad_vc _ _ AD). destruct (Z.eqb_spec (Qfloor (mp_len p / (mp_ffs_c p * mp_ut p))) 0) as [Z|Z]; [pp|].
  destruct (Qlt_le_dec 0 (mp_len p)); [assumption|]. exfalso. apply Z. assert (Z0 : mp_len p == 0) by lra.
  rewrite (Qfloor_comp (mp_len p / (mp_ffs_c p * mp_ut p)) 0); [reflexivity|]. rewrite Z0. field. split; lra.
Qed.
(** both classes, with their own speed, jam density and capacity per lane: at least free
    flow, bounded, monotone below jam density, 3600 from jam density on *)
Theorem C87_ctm_travel_times : forall cls p N s arr trk, make_mctm p = Ok (s 0%nat) -> mhistory cls N s arr ->
  let q := tt_par trk (ml_par (s N)) in
  (forall x, density q x < p_hold q -> exists t, mtt trk (s N) x = Ok t /\ p_len q / p_ffs q <= t /\ t <= p_len q / ((1 # 1000) * p_ffs q)) /\
  (forall x y t u, x <= y -> density q y < p_hold q -> mtt trk (s N) x = Ok t -> mtt trk (s N) y = Ok u -> t <= u) /\
  (forall x, x <= critical q -> mtt trk (s N) x = Ok (p_len q / p_ffs q)) /\
  (forall x, p_hold q <= density q x -> mtt trk (s N) x = Ok 3600).
Proof.
  intros cls p N s arr trk E H q. destruct (ctm_tt cls p N s arr trk E H) as [T B]. fold q in T. split; [|split; [|split]].
  - intros x Hx. rewrite (mtt_eq trk _ x B). fold q. eexists. split; [apply tt_below; auto|]. split.
    + eapply tt_lower; eauto. apply tt_below; auto.
    + eapply (tt_upper q x); eauto. apply tt_below; auto.
  - intros x y t u L Hy E1 E2. rewrite (mtt_eq trk _ _ B) in E1. rewrite (mtt_eq trk _ _ B) in E2. eapply (tt_mono q); eauto.
  - intros x Hx. rewrite (mtt_eq trk _ x B). fold q. pose proof T as (Hn & HL & Hv & Hc & Hk). apply injZ_pos in Hn.
    assert (D : density q x <= p_flow q / p_ffs q).
    { unfold density. apply Qle_shift_div_r; [exact HL|]. apply Qle_shift_div_r; [lra|]. unfold critical in Hx. lra. }
    rewrite tt_below by (auto; lra). unfold speed. destruct (Qleb_spec (density q x) (p_flow q / p_ffs q)); [reflexivity|contradiction].
  - intros x Hx. rewrite (mtt_eq trk _ x B). apply tt_jam; auto.
Qed.
Print Assumptions C87_ctm_travel_times.
(** a point queue reports the free-flow time of cars for both classes *)
Theorem C87_point_queue_travel_time : forall l x, (exists m q a b, ml_body l = MPq m q a b) -> 0 < mp_ffs_c (ml_par l) ->
  mtt_car l x = Ok (mp_len (ml_par l) / mp_ffs_c (ml_par l)) /\ mtt_truck l x = Ok (mp_len (ml_par l) / mp_ffs_c (ml_par l)).
Proof.
  intros l x (m & q & a & b & Hb) Hv. unfold mtt_car, mtt_truck. rewrite Hb.
  destruct (Qeqb_spec (mp_ffs_c (ml_par l)) 0); [lra|]. auto.
Qed.
Print Assumptions C87_point_queue_travel_time.

(** * C88: free-flow traversal times in intervals *)
Theorem C88_ctm_free_flow_intervals : forall p l, make_mctm p = Ok l -> mfftt_car l = Ok (mfreeflow_intervals p) /\
  exists n, mfftt_truck l = Ok n /\ (mp_ffs_t p <= mp_ffs_c p -> (mfreeflow_intervals p <= n)%Z) /\
    inject_Z n <= inject_Z (mfreeflow_intervals p) * mp_ffs_c p / mp_ffs_t p < inject_Z n + 1.
Proof.
  intros p l E. destruct (make_mctm_cells _ _ E) as (p' & lens0 & AD & -> & Hu & Hf & Hp & HL0 & NC & _ & _).
  unfold mfftt_car, mfftt_truck. cbn [mnew ml_body ml_par]. rewrite NC, (ad_fc _ _ AD), (ad_ft _ _ AD). split; [reflexivity|].
  eexists. split; [reflexivity|]. pose proof (ad_vc _ _ AD) as Vc. pose proof (ad_vt _ _ AD) as Vt.
  assert (N1 : (1 <= mfreeflow_intervals p)%Z) by (unfold mfreeflow_intervals; lia).
  assert (Y1 : 1 <= inject_Z (mfreeflow_intervals p)) by (apply injZ_pos; exact N1).
  set (y := inject_Z (mfreeflow_intervals p) * mp_ffs_c p / mp_ffs_t p).
  assert (Y0 : 0 <= y) by (unfold y; apply div_nn; [pp|exact Vt]).
  split; [|split; [apply trunc_lo; exact Y0|apply trunc_hi; exact Y0]].
  intros L. apply trunc_ge; [lia|]. unfold y. apply Qle_shift_div_l; [exact Vt|]. nra.
Qed.
Print Assumptions C88_ctm_free_flow_intervals.
Theorem C88_point_queue_free_flow_intervals : forall p l, make_mpq p = Ok l -> 0 < mp_ut p ->
  mfftt_car l = Ok (mfreeflow_intervals p) /\ mfftt_truck l = Ok (mfreeflow_intervals p).
Proof. intros p l E Hu. destruct (make_mpq_inv _ _ E Hu) as [-> _]. split; reflexivity. Qed.
Print Assumptions C88_point_queue_free_flow_intervals.

(** * C89: changing the properties of a link *)
Theorem C89_modify_keeps_vehicles : forall l a l', mlink_modify l a = Ok l' -> forall cls k, on_mlink cls k l' = on_mlink cls k l.
Proof. intros l a l' E cls k. destruct (modify_keeps _ _ _ E) as (A & B & C & _). unfold on_mlink. rewrite A, B, C. reflexivity. Qed.
Print Assumptions C89_modify_keeps_vehicles.
(** an accepted change leaves a CTM or queue link with the values of a link built with them *)
Theorem C89_modified_as_built : forall l a l' l2, mlink_modify l a = Ok l' ->
  match ml_body l with
  | MCtm _ _ => make_mctm (mwith (ml_par l) a) = Ok l2 -> ml_par l' = ml_par l2 /\
      exists f cs cs2, ml_body l' = MCtm f cs /\ ml_body l2 = MCtm f cs2 /\ length cs = length cs2
  | MLq _ _ _ _ _ _ => make_mlq (mwith (ml_par l) a) = Ok l2 -> ml_par l' = ml_par l2 /\
      exists f x1 x2 x3 x4 x5 y1 y2 y3 y4 y5, ml_body l' = MLq f x1 x2 x3 x4 x5 /\ ml_body l2 = MLq f y1 y2 y3 y4 y5
  | MPq _ _ _ _ => True
  end.
Proof.
  intros l a l' l2. unfold mlink_modify. destruct (ml_body l) as [f cs|f qc qt vc vt sp|m pool vc vt]; intros E; [| |exact I].
  - intros M. apply bind_ok in E as (p & Ea & E). apply bind_ok in E as (u & G & E). apply guard_ok in G. destruct cs as [|c cs]; [discriminate|].
    apply bind_ok in E as (? & _ & E). apply bind_ok in E as (? & _ & E). apply Ok_inj in E as <-. cbn [set_par ml_par ml_body].
    destruct (make_mctm_cells _ _ M) as (p1 & lens1 & _ & E1 & _ & _ & _ & _ & N1 & L1 & _).
    destruct (make_mctm_inv _ _ M) as (p2 & lens2 & Ea2 & E2 & _). rewrite Ea in Ea2. apply Ok_inj in Ea2 as <-.
    assert (p1 = p) by (rewrite E1 in E2; injection E2; auto). subst p1. rewrite E1. cbn [mnew ml_par ml_body]. split; [reflexivity|].
    eexists. eexists. eexists. split; [reflexivity|]. split; [reflexivity|]. rewrite map_length. unfold Zlen in G. lia.
  - intros M. apply bind_ok in E as (f' & Ef & E). apply Ok_inj in E as <-. unfold make_mlq in M. apply bind_ok in M as (? & _ & M). rewrite Ef in M. cbn [bind] in M.
    apply Ok_inj in M as <-. cbn [set_par ml_par ml_body mnew]. split; [reflexivity|]. repeat eexists.
Qed.
Print Assumptions C89_modified_as_built.
(** a change that would need other cells is rejected *)
Theorem C89_cells_cannot_change : forall cls p N s arr a l', make_mctm p = Ok (s 0%nat) -> mhistory cls N s arr -> mlink_modify (s N) a = Ok l' ->
  mfreeflow_intervals (mwith (ml_par (s N)) a) = mfreeflow_intervals p.
Proof.
  intros cls p N s arr a l' E H M. destruct (mctm_all cls p N s arr E H) as (f & lens & _ & _ & _ & _ & _ & Hu & Hf & A).
  destruct (A N ltac:(lia)) as (I1 & _ & _ & I4 & I5 & I6 & _). pose proof I1 as (cs & Hb & _). unfold mncell in I6. rewrite Hb in I6.
  unfold mlink_modify in M. rewrite Hb in M. apply bind_ok in M as (p2 & Ea & M). apply bind_ok in M as (u & G & _). apply guard_ok in G. apply Z.eqb_eq in G.
  rewrite <- I6. unfold Zlen in G. rewrite <- G.
  unfold mctm_adjust in Ea. apply bind_ok in Ea as (? & _ & Ea). apply bind_ok in Ea as (? & _ & Ea). apply bind_ok in Ea as (u3 & G3 & Ea). cbv zeta in Ea.
  apply bind_ok in Ea as (u4 & G4 & Ea). apply bind_ok in Ea as (? & _ & Ea). apply bind_ok in Ea as (? & _ & Ea). apply bind_ok in Ea as (? & _ & Ea). apply Ok_inj in Ea as <-.
  unfold mctm_ncells, mfreeflow_intervals in *. cbn [mwith mp_len mp_ffs_c mp_ut] in *.
  set (st := mr_ffs_c a * mp_ut (ml_par (s N))) in *.
  apply guard_neg in G4. destruct (Qeqb_spec st 0) as [|Nz]; [discriminate|].
  destruct (Z.eqb_spec (Qfloor (mr_len a / st)) 0) as [Z|Z].
  - rewrite Z. assert (O : Qfloor (st / st) = 1%Z). { setoid_replace (st / st) with 1 by (field; exact Nz). reflexivity. } rewrite O. reflexivity.
  - destruct (Z.eqb_spec (Qfloor (mr_len a / st)) 0); [contradiction|]. rewrite G. 
    assert (0 < length cs)%nat by (destruct cs; [unfold mfreeflow_intervals in I6; cbn [length] in I6; lia|cbn; lia]). lia.
Qed.
Print Assumptions C89_cells_cannot_change.

(** * C90: waiting time and spill-back *)
Theorem C90_waiting_adds_up : forall cls p l, mreach cls p l -> ml_wait l == ml_wait_c l + ml_wait_t l.
Proof. exact mreach_wait. Qed.
Print Assumptions C90_waiting_adds_up.
Theorem C90_waiting_of_an_interval : forall cls l arr l', minterval cls l arr l' ->
  ml_wait l' = ml_wait l + inject_Z (Zlen (ml_fin l')) / mp_fs (ml_par l) * mp_ut (ml_par l) /\
  ml_wait_c l' = ml_wait_c l + inject_Z (Zlen (of_class cls false (ml_fin l'))) / mp_fs (ml_par l) * mp_ut (ml_par l) /\
  ml_wait_t l' = ml_wait_t l + inject_Z (Zlen (of_class cls true (ml_fin l'))) / mp_fs (ml_par l) * mp_ut (ml_par l).
Proof. intros cls l arr l' H. destruct (interval_wait _ _ _ _ H) as (A & B & C & _). auto. Qed.
Print Assumptions C90_waiting_of_an_interval.
Theorem C90_spill_back_stays : forall cls l arr l', minterval cls l arr l' -> ml_spill l = true -> ml_spill l' = true.
Proof. intros cls l arr l' H. apply (interval_wait _ _ _ _ H). Qed.
Print Assumptions C90_spill_back_stays.
Theorem C90_spill_back_only_when_jammed : forall cls p l arr l', mreach cls p l -> minterval cls l arr l' ->
  0 <= mp_pcu (ml_par l) -> 0 < mp_fs (ml_par l) -> 0 < mp_len (ml_par l) -> ml_spill l = false -> ml_spill l' = true ->
  m_jam (ml_par l') < pcu_load cls l' / mp_fs (ml_par l') / mp_len (ml_par l').
Proof. exact spill_rises. Qed.
Print Assumptions C90_spill_back_only_when_jammed.

Theorem C90_waiting_accumulates : forall cls p N s arr, fresh_mlink p (s 0%nat) -> mhistory cls N s arr ->
  ml_wait (s N) == sumQ (map (fun i => inject_Z (Zlen (ml_fin (s i))) / mp_fs (ml_par (s 0%nat)) * mp_ut (ml_par (s 0%nat))) (seq 1 N)).
Proof.
  intros cls p N s arr F. induction N as [|N IH]; intros H.
  - assert (W : ml_wait (s 0%nat) = 0).
    { unfold fresh_mlink in F. destruct (mp_kind p).
      - destruct (make_mctm_cells _ _ F) as (? & ? & _ & -> & _). reflexivity.
      - unfold make_mlq in F. apply bind_ok in F as (? & _ & F). apply bind_ok in F as (? & _ & F). apply Ok_inj in F as <-. reflexivity.
      - unfold make_mpq in F. apply bind_ok in F as (? & _ & F). apply bind_ok in F as (? & _ & F). apply bind_ok in F as (? & _ & F). apply Ok_inj in F as <-. reflexivity. }
    rewrite W. reflexivity.
  - pose proof (mhistory_prefix _ _ _ _ N H ltac:(lia)) as HN. destruct (fresh_mempty _ _ F cls) as (A & B & _).
    destruct (mhistory_inv cls N s arr HN A B) as (_ & P & _). destruct (interval_wait _ _ _ _ (H N ltac:(lia))) as (W & _).
    rewrite seq_S, map_app, sumQ_app, W, (IH HN), P. cbn [map]. change (1 + N)%nat with (S N). cbn [sumQ fold_right]. ring.
Qed.
Print Assumptions C90_waiting_accumulates.

(** * C91: what a link lets in *)
(** a full first cell lets nothing in: [C85_ctm_supply]; a point queue always offers
    the same, and lets in that many vehicles of either class, rounded up *)
Theorem C91_point_queue_admission : forall cls l arr l', minterval cls l arr l' -> (exists m q a b, ml_body l = MPq m q a b) ->
  exists x, mlink_supply l = Ok x /\ x = mp_flow_c (ml_par l) * inject_Z (mp_lanes (ml_par l)) * mp_ut (ml_par l) /\
    ml_in l' = skipn (Z.to_nat (Qceiling (x * mp_fs (ml_par l)))) (ml_in l ++ arr).
Proof.
  intros cls l arr l' (rest & hn & D & l1 & _ & _ & E1 & E2) (m & q & a & b & Hb).
  eexists. split; [unfold mlink_supply; rewrite Hb; reflexivity|]. split; [reflexivity|].
  unfold mlink_clear, moffered in E1. cbn [with_body ml_body ml_in ml_fin ml_par] in E1. rewrite Hb in E1. cbv zeta in E1. apply Ok_inj in E1 as <-.
  unfold mlink_evolve in E2. cbn [with_body ml_body] in E2. cbv zeta in E2. apply Ok_inj in E2 as <-. cbn [settle ml_in with_body]. rewrite mpq_take_ceil. reflexivity.
Qed.
Print Assumptions C91_point_queue_admission.

(** * Concrete cases *)
Definition mex_cls : Z -> bool := Z.odd.
Definition mex_D : mdraws := {| md_car := fun _ => 0; md_truck := fun _ => 0; md_mix := fun _ => 0 |}.
Definition mex_step (l : mlink) (arr : list Z) : res mlink :=
  do l1 <- mlink_clear mex_cls (moffered l (ml_fin l) arr); mlink_evolve mex_cls (fun _ => true) mex_D l1.
Fixpoint mex_run (l : mlink) (arr : nat -> list Z) (n : nat) : mlink :=
  match n with O => l | S k => match mex_step (mex_run l arr k) (arr k) with Ok l' => l' | Err _ => mex_run l arr k end end.
Lemma mex_history N l arr :
  forallb (fun i => match mex_step (mex_run l arr i) (arr i) with Ok _ => true | Err _ => false end) (seq 0 N) = true ->
  mhistory mex_cls N (mex_run l arr) arr.
Proof.
  intros H i Hi. rewrite forallb_forall in H. specialize (H i ltac:(apply in_seq; lia)).
  destruct (mex_step (mex_run l arr i) (arr i)) as [l'|] eqn:E; [|discriminate]. simpl mex_run. rewrite E.
  unfold mex_step in E. apply bind_ok in E as (l1 & E1 & E2).
  exists (ml_fin (mex_run l arr i)), (fun _ => true), mex_D, l1. split; [apply subseq_refl|]. split; [|auto].
  intros j. cbn [mex_D md_car md_truck md_mix]. repeat split; vm_compute; discriminate.
Qed.
Lemma mex_reach p l arr N : fresh_mlink p l -> mhistory mex_cls N (mex_run l arr) arr -> mreach mex_cls p (mex_run l arr N).
Proof.
  intros F H. induction N as [|N IH]; [apply mreach_new; exact F|]. eapply mreach_step; [apply IH; intros i Hi; apply H; lia|apply H; lia].
Qed.

(** 600 m, cars 15 m/s, trucks 10 m/s, two lanes, 10 s intervals; odd numbers are trucks *)
Definition mex_p (k : mkind) : mparam :=
  {| mp_kind := k; mp_lanes := 2; mp_len := 600; mp_hold_c := 1 # 8; mp_hold_t := 1 # 16; mp_flow_c := 1 # 2; mp_flow_t := 1 # 4;
     mp_ffs_c := 15; mp_ffs_t := 10; mp_ut := 10; mp_pcu := 2; mp_fs := 1 |}.
Definition mex_new (p : mparam) : mlink :=
  match (match mp_kind p with MKCtm => make_mctm | MKLq => make_mlq | MKPq => make_mpq end) p with
  | Ok l => l | Err _ => mnew p (MPq 0 [] 0 0) end.
Definition mex_link (k : mkind) : mlink := mex_new (mex_p k).
Definition mex_arr (i : nat) : list Z := match i with 0%nat => [1; 2; 3; 4]%Z | 2%nat => [5; 6]%Z | _ => [] end.

Lemma mex_fresh k : fresh_mlink (mex_p k) (mex_link k).
Proof. destruct k; vm_compute; reflexivity. Qed.
Lemma mex_hist k : mhistory mex_cls 8 (mex_run (mex_link k) mex_arr) mex_arr.
Proof. apply mex_history. destruct k; vm_compute; reflexivity. Qed.

Example C81_C82_case : forall k, fresh_mlink (mex_p k) (mex_link k) /\ mhistory mex_cls 8 (mex_run (mex_link k) mex_arr) mex_arr /\
  mreach mex_cls (mex_p k) (mex_run (mex_link k) mex_arr 8) /\ ~ mp_pcu (mex_p k) == 0 /\
  on_mlink mex_cls true (mex_run (mex_link k) mex_arr 8) = [1; 3; 5]%Z /\ on_mlink mex_cls false (mex_run (mex_link k) mex_arr 8) = [2; 4; 6]%Z.
Proof.
  intros k. split; [apply mex_fresh|]. split; [apply mex_hist|]. split; [apply mex_reach; [apply mex_fresh|apply mex_hist]|].
  split; [vm_compute; discriminate|]. destruct k; split; vm_compute; reflexivity.
Qed.
Example C83_case : make_mctm (mex_p MKCtm) = Ok (mex_link MKCtm) /\ mhistory mex_cls 8 (mex_run (mex_link MKCtm) mex_arr) mex_arr /\
  NoDup (arrivals 8 mex_arr) /\ mfreeflow_intervals (mex_p MKCtm) = 4%Z /\ mp_ffs_t (mex_p MKCtm) <= mp_ffs_c (mex_p MKCtm) /\
  (forall i, (i < 4)%nat -> link_free mex_cls (mex_run (mex_link MKCtm) mex_arr i) (mex_arr i)) /\
  ml_fin (mex_run (mex_link MKCtm) mex_arr 3) = [] /\ ml_fin (mex_run (mex_link MKCtm) mex_arr 4) = [2; 4; 1; 3]%Z.
Proof.
  split; [vm_compute; reflexivity|]. split; [apply mex_hist|]. split; [repeat constructor; cbn; intuition lia|].
  split; [reflexivity|]. split; [vm_compute; discriminate|]. split; [|split; vm_compute; reflexivity].
  intros i Hi f cs j c Hb Ej.
  assert (G : match ml_body (mex_run (mex_link MKCtm) mex_arr i) with MCtm f cs => forallb (fun jc =>
     Qle_bool (kden (mp_fs (ml_par (mex_run (mex_link MKCtm) mex_arr i))) (mc_len (snd jc)) (cell_load mex_cls false (mex_run (mex_link MKCtm) mex_arr i) (mex_arr i) (length cs) (fst jc) (snd jc)) / cr_c f
      + kden (mp_fs (ml_par (mex_run (mex_link MKCtm) mex_arr i))) (mc_len (snd jc)) (cell_load mex_cls true (mex_run (mex_link MKCtm) mex_arr i) (mex_arr i) (length cs) (fst jc) (snd jc)) / cr_t f) 1) (combine (seq 0 (length cs)) cs) | _ => false end = true).
  { destruct i as [|[|[|[|i]]]]; [vm_compute; reflexivity..|lia]. }
  rewrite Hb in G. rewrite forallb_forall in G. apply Qle_bool_iff. unfold at_free_flow in *.
  apply (G (j, c)). clear - Ej. rewrite <- (Nat.add_0_l j). generalize 0%nat. revert j Ej. induction cs as [|d cs IH]; intros [|j] Ej n; try discriminate; cbn.
  - injection Ej as ->. left. f_equal. lia.
  - right. replace (n + S j)%nat with (S n + j)%nat by lia. apply IH. exact Ej.
Qed.
Example C83_point_queue_case : make_mpq (mex_p MKPq) = Ok (mex_link MKPq) /\ 0 < mp_ut (mex_p MKPq) /\
  mhistory mex_cls 8 (mex_run (mex_link MKPq) mex_arr) mex_arr /\ mfreeflow_intervals (mex_p MKPq) = 4%Z /\ ml_in (mex_run (mex_link MKPq) mex_arr 1) = [] /\
  ml_fin (mex_run (mex_link MKPq) mex_arr 3) = [] /\ ml_fin (mex_run (mex_link MKPq) mex_arr 4) = [1; 2; 3; 4]%Z.
Proof. split; [vm_compute; reflexivity|]. split; [reflexivity|]. split; [apply mex_hist|]. repeat split; vm_compute; reflexivity. Qed.

(** ten cars and three trucks in a 150 m cell: congested, trucks still at free flow *)
Example C84_case : exists f cs, ml_body (mex_link MKCtm) = MCtm f cs /\ fd_ok f /\ fill f (kden 1 150 10) (kden 1 150 3) <= 1 /\
  ~ at_free_flow f (kden 1 150 10) (kden 1 150 3) /\ vf_t f <= vf_c f.
Proof.
  destruct (C84_constructed_diagram (mex_p MKCtm) (mex_link MKCtm)) as (cs & f & Hb & FD & _); [vm_compute; reflexivity|].
  exists f, cs. split; [exact Hb|]. split; [exact FD|].
  assert (F : f = mctm_fd (ml_par (mex_link MKCtm))). { destruct (make_mctm_cells (mex_p MKCtm) (mex_link MKCtm)) as (p' & ? & _ & E & _); [vm_compute; reflexivity|]. rewrite E in *. cbn in Hb. cbn. congruence. }
  rewrite F. split; [vm_compute; discriminate|]. split; [|vm_compute; discriminate]. intros C. vm_compute in C. apply C. reflexivity.
Qed.

(** ** What does not hold *)
(** C82: a new link queue has no supply: its perceived densities are read before being set *)
Theorem C82_supply_of_new_queue_link_refuted : exists p l, make_mlq p = Ok l /\ mlink_supply l = Err EUB.
Proof. exists (mex_p MKLq), (mex_link MKLq). split; vm_compute; reflexivity. Qed.
Print Assumptions C82_supply_of_new_queue_link_refuted.
Theorem C82_new_queue_link_actual : forall p l, make_mlq p = Ok l -> mlink_supply l = Err EUB.
Proof.
  intros p l E. unfold make_mlq in E. apply bind_ok in E as (? & _ & E). apply bind_ok in E as (? & _ & E). apply Ok_inj in E as <-. reflexivity.
Qed.
Print Assumptions C82_new_queue_link_actual.

Definition mex_fast : mparam :=
  {| mp_kind := MKCtm; mp_lanes := 1; mp_len := 100; mp_hold_c := 75 # 1000; mp_hold_t := 75 # 1000; mp_flow_c := 6 # 10; mp_flow_t := 6 # 10;
     mp_ffs_c := 10; mp_ffs_t := 10; mp_ut := 5; mp_pcu := 1; mp_fs := 1 |}.
Theorem C85_supply_within_capacity_refuted : exists p l x, make_mctm p = Ok l /\ mlink_supply l = Ok x /\ m_capacity (ml_par l) * mp_ut (ml_par l) < x.
Proof.
  exists mex_fast, (mex_new mex_fast). eexists. split; [vm_compute; reflexivity|]. split; [vm_compute; reflexivity|]. vm_compute. reflexivity.
Qed.
Print Assumptions C85_supply_within_capacity_refuted.

Theorem C86_ctm_counts_exactly_refuted : exists cls p N s arr, fresh_mlink p (s 0%nat) /\ mhistory cls N s arr /\ NoDup (arrivals N arr) /\
  ~ mflow_car cls (s N) == inject_Z (passed cls false (s N)) / mp_fs (ml_par (s N)).
Proof.
  exists mex_cls, (mex_p MKCtm), 8%nat, (mex_run (mex_link MKCtm) mex_arr), mex_arr. split; [apply (mex_fresh MKCtm)|]. split; [apply mex_hist|].
  split; [repeat constructor; cbn; intuition lia|]. vm_compute. discriminate.
Qed.
Print Assumptions C86_ctm_counts_exactly_refuted.

(** C87: a two-lane queue link at jam density reports its free-flow time *)
Definition mex_jam : mparam :=
  {| mp_kind := MKLq; mp_lanes := 2; mp_len := 100; mp_hold_c := 1 # 10; mp_hold_t := 1 # 10; mp_flow_c := 6 # 10; mp_flow_t := 6 # 10;
     mp_ffs_c := 10; mp_ffs_t := 10; mp_ut := 5; mp_pcu := 1; mp_fs := 1 |}.
Theorem C87_queue_link_jam_time_refuted : exists p l t, make_mlq p = Ok l /\
  mtt_car l (mp_hold_c p * inject_Z (mp_lanes p) * mp_len p) = Ok t /\ t == mp_len p / mp_ffs_c p.
Proof. exists mex_jam, (mex_new mex_jam). eexists. split; [vm_compute; reflexivity|]. split; vm_compute; reflexivity. Qed.
Print Assumptions C87_queue_link_jam_time_refuted.

(** C88: a queue link reports seconds, not intervals *)
Theorem C88_queue_link_intervals_refuted : exists p l, make_mlq p = Ok l /\ mfreeflow_intervals p = 2%Z /\ mfftt_car l = Ok 10%Z.
Proof. exists mex_jam, (mex_new mex_jam). split; [vm_compute; reflexivity|]. split; vm_compute; reflexivity. Qed.
Print Assumptions C88_queue_link_intervals_refuted.

(** C89: a point queue keeps its old capacity and traversal time *)
Theorem C89_point_queue_changed_refuted : exists p l a l', make_mpq p = Ok l /\ mlink_modify l a = Ok l' /\
  mr_flow_c a < mp_flow_c p /\ mlink_supply l' = mlink_supply l /\
  mfreeflow_intervals (mwith (ml_par l) a) = 8%Z /\ mfftt_car l' = Ok 4%Z.
Proof.
  exists (mex_p MKPq), (mex_link MKPq), {| mr_lanes := 2; mr_len := 1200; mr_hold_c := 1 # 8; mr_hold_t := 1 # 16; mr_flow_c := 1 # 4; mr_flow_t := 1 # 4; mr_ffs_c := 15; mr_ffs_t := 10 |}.
  eexists. split; [vm_compute; reflexivity|]. split; [vm_compute; reflexivity|]. repeat split; vm_compute; reflexivity.
Qed.
Print Assumptions C89_point_queue_changed_refuted.
Example C89_case : exists l', mlink_modify (mex_run (mex_link MKCtm) mex_arr 3)
    {| mr_lanes := 3; mr_len := 600; mr_hold_c := 1 # 8; mr_hold_t := 1 # 16; mr_flow_c := 1 # 4; mr_flow_t := 1 # 4; mr_ffs_c := 15; mr_ffs_t := 10 |} = Ok l' /\
  on_mlink mex_cls true l' = [1; 3; 5]%Z.
Proof. eexists. split; vm_compute; reflexivity. Qed.

(** C90: the equivalents are truncated to whole numbers, so an overfull link may not be flagged *)
Definition mex_trunc : mparam :=
  {| mp_kind := MKLq; mp_lanes := 1; mp_len := 10; mp_hold_c := 205 # 1000; mp_hold_t := 205 # 1000; mp_flow_c := 1 # 2; mp_flow_t := 1 # 2;
     mp_ffs_c := 10; mp_ffs_t := 10; mp_ut := 5; mp_pcu := 209 # 100; mp_fs := 1 |}.
Theorem C90_spill_back_when_jammed_refuted : exists cls p l arr l', fresh_mlink p l /\ minterval cls l arr l' /\
  m_jam (ml_par l') < pcu_load cls l' / mp_fs (ml_par l') / mp_len (ml_par l') /\ ml_spill l' = false.
Proof.
  exists mex_cls, mex_trunc, (mex_new mex_trunc), [1%Z], (mex_run (mex_new mex_trunc) (fun _ => [1%Z]) 1). split; [vm_compute; reflexivity|].
  split; [refine (mex_history 1 (mex_new mex_trunc) (fun _ => [1%Z]) _ 0%nat _); [vm_compute; reflexivity|lia]|]. split; vm_compute; reflexivity.
Qed.
Print Assumptions C90_spill_back_when_jammed_refuted.
Example C90_case : let l := mex_run (mex_new mex_trunc) (fun _ => [2; 4; 6]%Z) in
  ml_spill (l 0%nat) = false /\ ml_spill (l 1%nat) = true /\ mhistory mex_cls 2 l (fun _ => [2; 4; 6]%Z) /\ 0 < ml_wait (l 2%nat).
Proof. cbv zeta. split; [vm_compute; reflexivity|]. split; [vm_compute; reflexivity|]. split; [apply mex_history; vm_compute; reflexivity|vm_compute; reflexivity]. Qed.

(** C91: an overfull queue link still offers supply *)
Theorem C91_full_queue_link_refuted : exists cls p l arr l' x, fresh_mlink p l /\ minterval cls l arr l' /\
  m_jam (ml_par l') < pcu_load cls l' / mp_fs (ml_par l') / mp_len (ml_par l') /\ mlink_supply l' = Ok x /\ 0 < x.
Proof.
  exists mex_cls, mex_trunc, (mex_new mex_trunc), [2; 4; 6]%Z, (mex_run (mex_new mex_trunc) (fun _ => [2; 4; 6]%Z) 1). eexists. split; [vm_compute; reflexivity|].
  split; [refine (mex_history 1 (mex_new mex_trunc) (fun _ => [2; 4; 6]%Z) _ 0%nat _); [vm_compute; reflexivity|lia]|]. split; [vm_compute; reflexivity|].
  split; [vm_compute; reflexivity|]. vm_compute. reflexivity.
Qed.
Print Assumptions C91_full_queue_link_refuted.
