(** Property theorems on links: C03 (point queue), C04-C06 (CTM), C35 (travel time
    from density), C45 (link queue), C46 (reported volume).  Vocabulary: Spec_Link.v. *)
From Verif Require Import Base Base_lemmas Model_Num Proof_Num Spec_Path Proof_Path Model_Link Spec_Link
  Proof_Link Proof_Link2 Proof_Link3 Proof_Link4 Proof_Link5 Proof_Link6.
Local Open Scope Q_scope.

(** * C04 (and the FIFO halves of C03 and C45): order, for every kind of link *)
Theorem C04_links_keep_order : forall p N s arr, fresh_link p (s 0%nat) -> history N s arr ->
  subseq (on_link (s N)) (arrivals N arr).
Proof.
  intros p N s arr F H. destruct (fresh_empty _ _ F) as (A & B & _). apply (history_inv N s arr H A B).
Qed.
Print Assumptions C04_links_keep_order.

(** internal movement changes nothing in the line of vehicles (exit to entrance):
    after an interval it is the old line without those taken at the exit, plus the arrivals *)
Theorem C04_internal_movement_keeps_line : forall p N s arr, fresh_link p (s 0%nat) -> history N s arr ->
  forall t, (t < N)%nat -> exists rest, subseq rest (l_fin (s t)) /\
    on_link (s (S t)) = rest ++ inside (l_body (s t)) ++ l_in (s t) ++ arr t.
Proof.
  intros p N s arr F H t Ht. destruct (fresh_empty _ _ F) as (A & B & _).
  destruct (history_inv t s arr (history_prefix N s arr t H ltac:(lia)) A B) as (D & _ & _).
  destruct (interval_line _ _ _ (H t Ht) D) as (_ & _ & R). exact R.
Qed.
Print Assumptions C04_internal_movement_keeps_line.

(** whoever arrives earlier is ready earlier *)
Theorem C04_ready_in_order_of_arrival : forall p N s arr, fresh_link p (s 0%nat) -> history N s arr -> NoDup (arrivals N arr) ->
  forall u v, precedes u v (arrivals N arr) -> In v (l_fin (s N)) -> ~ In u (inside (l_body (s N)) ++ l_in (s N)).
Proof.
  intros p N s arr F H ND u v P Hv Hu. apply (precedes_asym u v (arrivals N arr) ND P).
  eapply subseq_precedes; [exact (C04_links_keep_order _ _ _ _ F H)|]. unfold on_link. apply app_precedes; auto.
Qed.
Print Assumptions C04_ready_in_order_of_arrival.

(** * C03: exact traversal time of a point queue.  The vehicle waits at the entrance
    until interval [t] admits it; it is ready for the first time [n] updates later,
    the admitting one included. *)
Theorem C03_point_queue_traversal_time : forall p N s arr, make_pq p = Ok (s 0%nat) -> 0 < p_ut p ->
  history N s arr -> NoDup (arrivals N arr) ->
  forall t v n, Z.of_nat n = freeflow_intervals p -> (t < N)%nat ->
    In v (l_in (s t) ++ arr t) -> ~ In v (l_in (s (S t))) ->
    (forall i, (t < i < t + n)%nat -> (i <= N)%nat -> ~ In v (l_fin (s i))) /\
    ((t + n <= N)%nat -> In v (l_fin (s (t + n)%nat))).
Proof.
  intros p N s arr E Hu H ND t v n Hn Ht Hin Hout.
  assert (F : 0 <= p_len p /\ exists m, s 0%nat = {| l_par := l_par (s 0%nat); l_in := []; l_fin := []; l_body := BPq m [] 0 |} /\ m = freeflow_intervals p).
  { unfold make_pq in E. apply bind_ok in E as (? & B & E). apply base_checks_ok in B as (B1 & B2 & B3).
    cbv zeta in E. cbn [p_ffs p_ut p_len] in E. apply bind_ok in E as (? & G & E). apply guard_ok, negb_true_iff in G.
    apply bind_ok in E as (m & M & E). apply Ok_inj in E. rewrite <- E. cbn [l_par]. split; [exact B3|]. exists m. split; [reflexivity|].
    assert (S0 : 0 < p_ffs p * p_ut p).
    { destruct (Qeqb_spec (p_ffs p * p_ut p) 0) as [|Z]; [discriminate|]. assert (0 <= p_ffs p * p_ut p) by nra. lra. }
    assert (X0 : 0 <= p_len p / (p_ffs p * p_ut p)) by (apply Qle_shift_div_l; lra).
    destruct (round_down_time_total (p_len p / (p_ffs p * p_ut p))) as (k & K & K1 & K2). rewrite K in M. apply Ok_inj in M as <-.
    unfold freeflow_intervals. generalize dependent (p_len p / (p_ffs p * p_ut p)). intros y X0 K K2.
    destruct (Qlt_le_dec y 1) as [L|L].
    - rewrite (proj2 K2) by lra. assert (Qfloor y <= 0)%Z; [|lia].
      pose proof (Qfloor_le y). assert (inject_Z (Qfloor y) < inject_Z 1) by (change (inject_Z 1) with 1; lra).
      rewrite injZ_lt in *. lia.
    - rewrite (proj1 K2) by lra. assert (1 <= Qfloor y)%Z; [|lia].
      change 1%Z with (Qfloor 1). apply Qfloor_resp_le. exact L. }
  destruct F as (_ & m & E0 & Em).
  assert (P0 : pq_of (s 0%nat) m []) by (exists 0%Z; rewrite E0; reflexivity).
  assert (He : on_link (s 0%nat) = []) by (rewrite E0; reflexivity).
  assert (Hm : (1 <= m)%Z) by (rewrite Em; unfold freeflow_intervals; lia).
  split.
  - intros i Hi HN. replace i with (S (t + (i - t - 1))) by lia.
    eapply (pq_not_before N s arr m); eauto; lia.
  - intros HN. replace (t + n)%nat with (S (t + (n - 1))) by lia.
    refine (proj2 (pq_follow N s arr m H P0 t v Ht Hin Hout (n - 1) _) _); lia.
Qed.
Print Assumptions C03_point_queue_traversal_time.

(** * C05 *)
Theorem C05_ctm_not_faster_than_free_flow : forall p N s arr, make_ctm p = Ok (s 0%nat) -> 0 < p_ut p -> 0 < p_len p ->
  history N s arr -> NoDup (arrivals N arr) ->
  forall t v n, Z.of_nat n = freeflow_intervals p -> (t < N)%nat -> In v (arr t) ->
    forall i, (i < t + n)%nat -> (i <= N)%nat -> ~ In v (l_fin (s i)).
Proof.
  intros p N s arr E Hu HL H ND t v n Hn Ht Hv i Hi HN C.
  destruct (make_ctm_cells _ _ E Hu HL) as (cs0 & Hb0 & L0 & _ & _ & F0 & I0 & Q0 & _ & _).
  assert (B0 : body_inv (l_body (s 0%nat))) by (rewrite Hb0; exact I).
  assert (Z0 : on_link (s 0%nat) = []).
  { unfold on_link. rewrite F0, I0, Hb0. simpl. rewrite app_nil_r. clear - Q0.
    induction cs0 as [|c cs IH]; [reflexivity|]. simpl. rewrite concat_app. rewrite IH by (intros; apply Q0; right; auto).
    simpl. rewrite (proj1 (Q0 c (or_introl eq_refl))). reflexivity. }
  assert (Inv : forall k, (k <= N)%nat -> subseq (on_link (s k)) (arrivals k arr) /\ (exists cs, l_body (s k) = BCtm cs) /\ ncell (s k) = n).
  { intros k Lk. split; [apply (history_inv k s arr); auto; eapply history_prefix; eauto|].
    induction k as [|k IH].
    - split; [eauto|]. unfold ncell. rewrite Hb0. lia.
    - destruct IH as [IH1 IH2]; [lia|]. destruct (interval_ncell _ _ _ (H k ltac:(lia)) IH1) as [A B]. split; [exact A|lia]. }
  assert (NotOn : ~ In v (on_link (s t))).
  { intros Hon. destruct (Inv t ltac:(lia)) as (S & _). eapply subseq_In in Hon; [|exact S].
    apply In_arrivals in Hon as (j & Lj & Hj). pose proof (arrivals_once N arr v j t ND ltac:(lia) Ht Hj Hv). lia. }
  destruct (Nat.le_gt_cases i t) as [Lit|Lit].
  - destruct (Inv i HN) as (S & _). assert (Hon : In v (on_link (s i))) by (unfold on_link; apply in_or_app; auto).
    eapply subseq_In in Hon; [|exact S].
    apply In_arrivals in Hon as (j & Lj & Hj). pose proof (arrivals_once N arr v j t ND ltac:(lia) Ht Hj Hv). lia.
  - assert (G : forall k, (1 <= k < n)%nat -> (t + k <= N)%nat -> before (S k) v (s (t + k)%nat)).
    { induction k as [|k IH]; intros Lk LN; [lia|]. destruct (Nat.eq_dec k 0) as [->|Nk].
      - replace (t + 1)%nat with (S t) by lia. apply (before_enter v (s t) (arr t)); auto.
        + apply (Inv t); lia. + destruct (Inv t ltac:(lia)) as (_ & _ & ->). lia.
      - replace (t + S k)%nat with (S (t + k)) by lia. apply (before_step (S k) v (s (t + k)%nat) (arr (t + k)%nat)).
        + apply H; lia. + apply IH; lia.
        + intros Hj. pose proof (arrivals_once N arr v (t + k) t ND ltac:(lia) Ht Hj Hv). lia.
        + destruct (Inv (t + k)%nat ltac:(lia)) as (_ & _ & ->). lia. }
    specialize (G (i - t)%nat ltac:(lia)). replace (t + (i - t))%nat with i in G by lia.
    destruct (G HN) as (cs & _ & Hf & _). auto.
Qed.
Print Assumptions C05_ctm_not_faster_than_free_flow.

Theorem C05_ctm_exact_when_uncongested : forall p N s arr, make_ctm p = Ok (s 0%nat) -> 0 < p_ut p -> 0 < p_len p -> 0 < p_fs p ->
  history N s arr ->
  forall t v n, Z.of_nat n = freeflow_intervals p -> (t + n <= N)%nat -> In v (arr t) ->
    (forall i, (t <= i < t + n)%nat -> uncongested (s i) (arr i)) -> In v (l_fin (s (t + n)%nat)).
Proof.
  intros p N s arr E Hu HL Hf H t v n Hn HN Hv U.
  destruct (make_ctm_cells _ _ E Hu HL) as (cs0 & Hb0 & L0 & _ & P0 & _ & _ & Q0 & _ & _).
  assert (N1 : (1 <= n)%nat) by (unfold freeflow_intervals in Hn; lia).
  assert (V0 : volx cs0).
  { clear - Q0. induction cs0 as [|c cs IH]; [exact I|]. destruct cs as [|c' cs]; [exact I|].
    split; [destruct (Q0 c (or_introl eq_refl)) as [-> ->]; reflexivity|]. apply IH. intros; apply Q0; right; auto. }
  assert (Inv : forall k, (k <= N)%nat -> (exists cs, l_body (s k) = BCtm cs) /\ ncell (s k) = n /\ l_par (s k) = l_par (s 0%nat)).
  { induction k as [|k IH]; intros Lk.
    - split; [eauto|]. split; [|reflexivity]. unfold ncell. rewrite Hb0. lia.
    - destruct IH as (IH1 & IH2 & IH3); [lia|]. destruct (interval_ncell _ _ _ (H k ltac:(lia)) IH1) as [A B].
      split; [exact A|]. split; [lia|]. destruct IH1 as [cs Hb].
      assert (Bi : body_inv (l_body (s k))) by (rewrite Hb; exact I).
      destruct (interval_line _ _ _ (H k ltac:(lia)) Bi) as (_ & -> & _). exact IH3. }
  destruct (free_travel N s arr t v H) with (k := (n - 1)%nat) (n := n) as [(cs & Hb & _ & Lc) (cs' & Hb' & P)].
  - rewrite P0. exact Hf.
  - intros i Li. destruct (Inv i Li) as (_ & _ & ->). reflexivity.
  - apply (volx_history N s arr H); [eauto|lia].
  - exact Hv.
  - apply Inv. lia.
  - lia.
  - lia.
  - intros i Hi. apply U. lia.
  - replace (t + S (n - 1))%nat with (t + n)%nat in * by lia. rewrite Hb in Hb'. injection Hb' as <-.
    destruct (nth_error cs (S (n - 1))) eqn:En; [|apply P].
    exfalso. assert (nth_error cs (S (n - 1)) <> None) by congruence. apply nth_error_Some in H0. lia.
Qed.
Print Assumptions C05_ctm_exact_when_uncongested.

(** n is what the link reports as its free-flow time *)
Theorem C05_reported_free_flow_time : forall p l, make_ctm p = Ok l -> 0 < p_ut p -> link_fftt l = Ok (freeflow_intervals p).
Proof.
  intros p l E Hu. apply make_ctm_inv in E. cbv zeta in E. destruct E as (A1 & _ & A3 & _ & _ & B3 & _ & _ & ->).
  assert (S0 : 0 < p_ffs p * p_ut p) by (assert (0 <= p_ffs p * p_ut p) by nra; lra).
  unfold link_fftt. cbn [l_body l_par]. rewrite ctm_ncells_eq by auto. reflexivity.
Qed.
Print Assumptions C05_reported_free_flow_time.

(** * C06 *)
Theorem C06_ctm_cells_never_overfill : forall p N s arr, make_ctm p = Ok (s 0%nat) -> 0 < p_ut p -> 0 < p_fs p -> 0 < p_len p ->
  history N s arr ->
  exists cs, l_body (s N) = BCtm cs /\ Z.of_nat (length cs) = freeflow_intervals p /\
    forall j c, nth_error cs j = Some c ->
      inject_Z (in_cell (s N) (length cs) j c) < jam_storage p (length cs) j * p_fs p + 1.
Proof.
  intros p N s arr E Hu Hf HL H. destruct (history_occ N s arr p E Hu Hf HL H N (le_n N)) as (cs & A & B & C & D & F).
  exists cs. split; [exact A|]. split; [exact B|]. intros j c Ej. rewrite <- (F j c Ej). apply occ_nth; auto.
Qed.
Print Assumptions C06_ctm_cells_never_overfill.

(** * C45 *)
Theorem C45_link_queue_density : forall p N s arr, make_lq p = Ok (s 0%nat) -> (1 <= p_lanes p)%Z ->
  lq_stable (l_par (s 0%nat)) -> history N s arr ->
  let jam := p_hold p * inject_Z (p_lanes p) * p_len p in
  inject_Z (Zlen (on_link (s N))) / p_fs p <= jam /\
  (exists sup, link_supply (s N) = Ok sup /\ 0 <= sup) /\
  subseq (on_link (s N)) (arrivals N arr).
Proof.
  intros p N s arr E Hn HS H. cbv zeta.
  assert (FL : forall k, p_kind p = k -> True) by auto.
  assert (I0 : lq_inv (l_par (s 0%nat)) (s 0%nat) /\ body_inv (l_body (s 0%nat)) /\ on_link (s 0%nat) = [] /\
     p_lanes (l_par (s 0%nat)) = p_lanes p /\ p_hold (l_par (s 0%nat)) = p_hold p /\ p_fs (l_par (s 0%nat)) = p_fs p /\ p_len (l_par (s 0%nat)) = p_len p).
  { unfold make_lq in E. apply bind_ok in E as (? & _ & E). cbv zeta in E. apply bind_ok in E as (? & _ & E). apply Ok_inj in E.
    rewrite <- E in HS |- *. cbn [l_par p_lanes p_hold p_fs p_len]. split; [|repeat split].
    exists [], 0%Z. cbn [l_body l_par l_in l_fin p_lanes p_hold p_fs p_len]. repeat (split; [reflexivity || (simpl; lia)|]).
    destruct HS as (HL & Hu & Hf & Hv & Hc & Hd & _). cbn [l_par p_flow p_ffs p_len p_hold p_ut p_fs] in *.
    apply injZ_pos in Hn.
    match goal with |- ?a <= _ => assert (Z0 : a == 0) by (unfold Qdiv; rewrite Qmult_0_l; reflexivity); rewrite Z0 end.
    assert (0 < p_hold p) by (eapply Qle_lt_trans; [|exact Hd]; apply Qle_shift_div_l; [exact Hv|rewrite Qmult_0_l; exact Hc]). apply Qmult_le_0_compat; [apply Qmult_le_0_compat|]; lra. }
  destruct I0 as (I0 & B0 & Z0 & E1 & E2 & E3 & E4).
  destruct (history_inv N s arr H B0 Z0) as (BN & PN & SN).
  assert (IN : lq_inv (l_par (s 0%nat)) (s N)).
  { clear - I0 H HS Hn E1. induction N as [|N IH]; [exact I0|]. apply (lq_inv_step _ (s N) (arr N)); [exact HS|lia|apply H; lia|].
    apply IH. eapply history_prefix; eauto. }
  destruct IN as (q & vol & Hb & Hp & Hin & Hle & V0 & V1). rewrite E1, E2, E3, E4 in V1.
  pose proof HS as (_ & _ & Hf & _). rewrite E3 in Hf.
  split; [|split; [|exact SN]].
  - eapply Qle_trans; [|exact V1]. unfold on_link. rewrite Hb, Hin. cbn [inside]. rewrite app_nil_r, Zlen_app.
    apply Qle_shift_div_r; [exact Hf|]. assert (X : inject_Z vol / p_fs p * p_fs p == inject_Z vol) by (field; lra). rewrite X.
    apply injZ_le. lia.
  - unfold link_supply. rewrite Hb, Hp. eexists. split; [reflexivity|]. apply lq_supply_room; auto; [lia|].
    rewrite E1, E2, E3, E4. exact V1.
Qed.
Print Assumptions C45_link_queue_density.

(** * C46: reported volume after an interval *)
Theorem C46_link_queue_volume_exact : forall l arr l', interval l arr l' -> (exists q v, l_body l' = BLq q v) ->
  link_flow l' = inject_Z (Zlen (on_link l')) / p_fs (l_par l').
Proof.
  intros l arr l' H (q & v & Hb). pose proof (interval_vol _ _ _ H) as V. unfold vol_inv in V. rewrite Hb in V. destruct V as [V I].
  unfold link_flow, on_link. rewrite Hb, I. cbn [inside]. rewrite app_nil_r, Zlen_app. do 2 f_equal. lia.
Qed.
Print Assumptions C46_link_queue_volume_exact.

(** a point queue does not count those it has not yet admitted *)
Theorem C46_point_queue_volume_exact : forall l arr l', interval l arr l' -> (exists m q v, l_body l' = BPq m q v) ->
  link_flow l' = inject_Z (Zlen (on_link l') - Zlen (l_in l')) / p_fs (l_par l').
Proof.
  intros l arr l' H (m & q & v & Hb). pose proof (interval_vol _ _ _ H) as V. unfold vol_inv in V. rewrite Hb in V.
  unfold link_flow, on_link. rewrite Hb. cbn [inside]. rewrite !Zlen_app, Zlen_map. do 2 f_equal. lia.
Qed.
Print Assumptions C46_point_queue_volume_exact.

(** a CTM link counts the vehicles ready at its exit twice *)
Theorem C46_ctm_volume_actual : forall l arr l', interval l arr l' -> (exists cs, l_body l' = BCtm cs) ->
  link_flow l' = inject_Z (Zlen (on_link l') + Zlen (l_fin l')) / p_fs (l_par l').
Proof.
  intros l arr l' H (cs & Hb). pose proof (interval_vol _ _ _ H) as V. unfold vol_inv in V. rewrite Hb in V. destruct V as (V & I & _).
  unfold link_flow, on_link. rewrite Hb, I. cbn [inside] in *. rewrite app_nil_r, Zlen_app. do 2 f_equal. lia.
Qed.
Print Assumptions C46_ctm_volume_actual.

(** * C35 *)
Theorem C35_travel_time_bounds : forall p f, tt_ok p -> density p f < p_hold p ->
  exists t, tt_from_flow p f = Ok t /\ p_len p / p_ffs p <= t /\
    t <= p_len p / ((match p_kind p with KCtm => 1 # 1000 | _ => dbl_epsilon end) * p_ffs p).
Proof.
  intros p f H Hd. eexists. split; [apply tt_below; auto|]. split.
  - eapply tt_lower; eauto. apply tt_below; auto.
  - eapply (tt_upper p f); eauto. apply tt_below; auto.
Qed.
Print Assumptions C35_travel_time_bounds.
Theorem C35_travel_time_monotone : forall p f1 f2 t1 t2, tt_ok p -> f1 <= f2 -> density p f2 < p_hold p ->
  tt_from_flow p f1 = Ok t1 -> tt_from_flow p f2 = Ok t2 -> t1 <= t2.
Proof. exact tt_mono. Qed.
Print Assumptions C35_travel_time_monotone.
Theorem C35_continuous_at_critical_density : forall p, tt_ok p -> forall e, 0 < e -> exists d, 0 < d /\
  forall f, Qabs (f - critical p) <= d -> exists t, tt_from_flow p f = Ok t /\ Qabs (t - p_len p / p_ffs p) <= e.
Proof. exact tt_continuous. Qed.
Print Assumptions C35_continuous_at_critical_density.
Theorem C35_cap_at_jam : forall p f, tt_ok p -> p_hold p <= density p f -> tt_from_flow p f = Ok 3600.
Proof. exact tt_jam. Qed.
Print Assumptions C35_cap_at_jam.
(** the same on an actual link, through its own volume *)
Theorem C35_link_travel_time : forall l, tt_ok (l_par l) -> density (l_par l) (link_flow l) < p_hold (l_par l) ->
  exists t, link_tt l = Ok t /\ p_len (l_par l) / p_ffs (l_par l) <= t.
Proof. intros l H Hd. destruct (C35_travel_time_bounds _ _ H Hd) as (t & A & B & _). exists t. auto. Qed.
Print Assumptions C35_link_travel_time.

(** * Concrete cases *)
Definition ex_step (l : link) (arr : list Z) : res link :=
  do l1 <- link_clear (offered l (l_fin l) arr); link_evolve (fun _ => 0) (fun _ => true) l1.
Fixpoint ex_run (l : link) (arr : nat -> list Z) (n : nat) : link :=
  match n with O => l | S k => match ex_step (ex_run l arr k) (arr k) with Ok l' => l' | Err _ => ex_run l arr k end end.
Lemma ex_history N l arr :
  forallb (fun i => match ex_step (ex_run l arr i) (arr i) with Ok _ => true | Err _ => false end) (seq 0 N) = true ->
  history N (ex_run l arr) arr.
Proof.
  intros H i Hi. rewrite forallb_forall in H. specialize (H i ltac:(apply in_seq; lia)).
  destruct (ex_step (ex_run l arr i) (arr i)) as [l'|] eqn:E; [|discriminate]. simpl ex_run. rewrite E.
  unfold ex_step in E. apply bind_ok in E as (l1 & E1 & E2).
  exists (l_fin (ex_run l arr i)), (fun _ => 0), (fun _ => true), l1. repeat split; auto; try (intros j; lra).
  - apply subseq_refl.
  - unfold Qle; simpl; lia.
  - unfold Qle; simpl; lia.
Qed.

(** 600 m link, 15 m/s, 10 s intervals: four intervals at free flow; vehicles 1, 2 then 3 *)
Definition ex_p (k : lkind) : lparam :=
  {| p_kind := k; p_hold := 1 # 8; p_flow := 1 # 2; p_lanes := 2; p_len := 600; p_ffs := 15; p_ut := 10; p_fs := 1 |}.
Definition ex_arr (i : nat) : list Z := match i with 0%nat => [1%Z; 2%Z] | 2%nat => [3%Z] | _ => [] end.
Definition ex_link (k : lkind) : link :=
  match (match k with KCtm => make_ctm | KPq => make_pq | KLq => make_lq end) (ex_p k) with
  | Ok l => l | Err _ => {| l_par := ex_p k; l_in := []; l_fin := []; l_body := BLq [] 0 |} end.

Example C03_case : make_pq (ex_p KPq) = Ok (ex_link KPq) /\ history 6 (ex_run (ex_link KPq) ex_arr) ex_arr /\
  NoDup (arrivals 6 ex_arr) /\ freeflow_intervals (ex_p KPq) = 4%Z /\
  l_fin (ex_run (ex_link KPq) ex_arr 4) = [1; 2]%Z /\ l_fin (ex_run (ex_link KPq) ex_arr 6) = [1; 2; 3]%Z.
Proof.
  split; [reflexivity|]. split; [apply ex_history; vm_compute; reflexivity|].
  split; [vm_compute; repeat constructor; simpl; intuition lia|]. repeat split; vm_compute; reflexivity.
Qed.
Example C04_C05_C06_case : make_ctm (ex_p KCtm) = Ok (ex_link KCtm) /\ history 6 (ex_run (ex_link KCtm) ex_arr) ex_arr /\
  NoDup (arrivals 6 ex_arr) /\ freeflow_intervals (ex_p KCtm) = 4%Z /\
  (forall i, (i < 4)%nat -> uncongested (ex_run (ex_link KCtm) ex_arr i) (ex_arr i)) /\
  l_fin (ex_run (ex_link KCtm) ex_arr 3) = [] /\ l_fin (ex_run (ex_link KCtm) ex_arr 4) = [1; 2]%Z /\
  l_fin (ex_run (ex_link KCtm) ex_arr 6) = [1; 2; 3]%Z /\ jam_storage (ex_p KCtm) 4 0 == 75 # 2.
Proof.
  split; [vm_compute; reflexivity|]. split; [apply ex_history; vm_compute; reflexivity|].
  split; [vm_compute; repeat constructor; simpl; intuition lia|]. split; [vm_compute; reflexivity|].
  split.
  { intros i Hi cs j c c' Hb E E'.
    assert (D : i = 0%nat \/ i = 1%nat \/ i = 2%nat \/ i = 3%nat) by lia.
    destruct D as [->|[->|[->| ->]]]; vm_compute in Hb; injection Hb as <-;
      (destruct j as [|[|[|[|j]]]]; vm_compute in E, E'; try discriminate; try (destruct j; discriminate);
       injection E as <-; injection E' as <-; vm_compute; split; intros X; discriminate X). }
  repeat split; vm_compute; reflexivity.
Qed.
Example C45_case : make_lq (ex_p KLq) = Ok (ex_link KLq) /\ lq_stable (l_par (ex_link KLq)) /\
  history 6 (ex_run (ex_link KLq) ex_arr) ex_arr /\ on_link (ex_run (ex_link KLq) ex_arr 6) = [1; 2; 3]%Z.
Proof.
  split; [reflexivity|]. split; [vm_compute; repeat split; intros X; discriminate X|].
  split; [apply ex_history; vm_compute; reflexivity|vm_compute; reflexivity].
Qed.

(** C46 fails for CTM links: the same three vehicles are reported as six *)
Theorem C46_ctm_volume_refuted : exists p N s arr, params_ok p /\ make_ctm p = Ok (s 0%nat) /\ history N s arr /\
  Zlen (on_link (s N)) = 3%Z /\ link_flow (s N) == 6 / p_fs p.
Proof.
  exists (ex_p KCtm), 6%nat, (ex_run (ex_link KCtm) ex_arr), ex_arr.
  split; [vm_compute; repeat split; intros X; discriminate X|].
  split; [vm_compute; reflexivity|]. split; [apply ex_history; vm_compute; reflexivity|]. split; vm_compute; reflexivity.
Qed.
Print Assumptions C46_ctm_volume_refuted.

Example C35_case : tt_ok (ex_p KCtm) /\ tt_from_flow (ex_p KCtm) 30 = Ok (600 / 15) /\
  density (ex_p KCtm) 100 < p_hold (ex_p KCtm) /\ (exists t, tt_from_flow (ex_p KCtm) 100 = Ok t /\ 60 < t).
Proof.
  split; [vm_compute; repeat split; intros X; discriminate X|]. split; [reflexivity|]. split; [vm_compute; reflexivity|].
  eexists. split; [reflexivity|vm_compute; reflexivity].
Qed.
(** across jam density the travel time may drop: near jam it may exceed the cap *)
Theorem C35_monotone_across_jam_refuted : exists p f1 f2 t1 t2, tt_ok p /\ f1 <= f2 /\
  tt_from_flow p f1 = Ok t1 /\ tt_from_flow p f2 = Ok t2 /\ t2 < t1.
Proof.
  exists (ex_p KCtm), (149999 # 1000), 150. eexists. eexists.
  split; [vm_compute; repeat split; intros X; discriminate X|]. split; [vm_compute; intros X; discriminate X|].
  split; [reflexivity|]. split; [reflexivity|]. vm_compute. reflexivity.
Qed.
Print Assumptions C35_monotone_across_jam_refuted.
