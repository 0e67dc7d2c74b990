(** C97-C102: conservation, accounting, curves, release, shares and route choice by
    class over whole two-class runs. *)
From Verif Require Import Base Base_lemmas Model_Num Proof_Num Spec_Path Proof_Path Model_CC Model_Path Model_Link Spec_Link Spec_Node
  Proof_Link Proof_Link4 Proof_Link5 Model_World Model_Node Model_Sim Spec_Sim Spec_Choice Proof_Sim1 Proof_Sim2 Proof_Sim3 Proof_Sim4 Proof_Choice
  Model_McLink Spec_McLink Model_McNode Spec_McNode Model_McSim Spec_McSim Proof_McNode Proof_McSim1 Proof_McSim2 Proof_McSim3 Proof_McSim4 Proof_McSim5
  Ex_Net Ex_McNet Prop_Node Prop_Sim.
Local Open Scope Z_scope.

(** C97: after any number of intervals every vehicle of a class is in exactly one
    place, once, and nothing else of that class is anywhere. *)
Theorem C97_classes_conserved : forall M D j s k, mnet_ok M -> mreached M D j s ->
  Permutation (m_at_origins M (ms_w s) k ++ m_on_links M (ms_w s) k ++ m_at_dests M (ms_w s) k ++ m_arrived (ms_w s) k) (m_ids (ms_w s) k) /\
  NoDup (m_ids (ms_w s) k).
Proof.
  intros M D j s k K R. pose proof (mreached_minv M K D j s R) as I. set (w := ms_w s) in *. split.
  - apply perm_cnt. intros v. apply Nat2Z.inj. fold (zc v (m_ids w k)). unfold m_ids. rewrite zc_class, ids_count by apply I. rewrite <- (n_count _ _ I v).
    fold (zc v (m_at_origins M w k ++ m_on_links M w k ++ m_at_dests M w k ++ m_arrived w k)). rewrite !app_assoc, zc_app, <- app_assoc.
    rewrite (mzcount_places M w v k (n_body _ _ I)), arrived_class, zc_class. unfold mdone. destruct (Bool.eqb _ _); lia.
  - unfold m_ids, of_class. apply NoDup_filter. unfold ids. apply FinFun.Injective_map_NoDup; [|apply seq_NoDup]. intros a b. lia.
Qed.
Print Assumptions C97_classes_conserved.

(** C97: class, label, origin, destination, routing mode, departure interval and
    assignment interval of a vehicle are fixed when it is created. *)
Theorem C97_identity_fixed : forall M D j n s s' v, mnet_ok M -> mreached M D j s -> mrun M D n s = Ok s' -> 1 <= v <= f_num (mw_fac (ms_w s)) ->
  let x := mw_veh (ms_w s) v in let y := mw_veh (ms_w s') v in
  mw_cls (ms_w s') v = mw_cls (ms_w s) v /\ mw_lab (ms_w s') v = mw_lab (ms_w s) v /\
  v_org y = v_org x /\ v_dst y = v_dst x /\ v_adapt y = v_adapt x /\ v_start y = v_start x /\ v_assign y = v_assign x.
Proof.
  intros M D j n s s' v K R H Hv x y. destruct (mkept M D K n j s s' R H) as (_ & E & _). destruct (E v ltac:(lia)) as (A & B & C).
  unfold stat in A. injection A as A1 A2 A3 A4 A5. unfold x, y. repeat split; auto.
Qed.
Print Assumptions C97_identity_fixed.

(** C98: the counters of a class count the vehicles of that class, and the overall
    counters are the sums over the classes. *)
Theorem C98_class_counters : forall M D j s, mnet_ok M -> mreached M D j s ->
  let w := ms_w s in
  (forall k, let c := mw_cf w k in
     cf_num c = Zlen (m_ids w k) /\ cf_finished c = Zlen (m_arrived w k) /\
     cf_enroute c = Zlen (m_at_origins M w k) + Zlen (m_on_links M w k) + Zlen (m_at_dests M w k) /\
     (cf_tt c == inject_Z (sumZ (map (fun d => snd (snd d) - fst (snd d))%Z (m_trips w k))))%Q /\
     Forall (fun d => fst (snd d) = v_start (mw_veh w (fst d)) /\ 1 <= snd (snd d) - fst (snd d)) (m_trips w k)) /\
  f_num (mw_fac w) = cf_num (mw_cf w false) + cf_num (mw_cf w true) /\
  f_enroute (mw_fac w) = cf_enroute (mw_cf w false) + cf_enroute (mw_cf w true) /\
  f_finished (mw_fac w) = cf_finished (mw_cf w false) + cf_finished (mw_cf w true) /\
  (f_tt (mw_fac w) == cf_tt (mw_cf w false) + cf_tt (mw_cf w true))%Q.
Proof.
  intros M D j s K R w. pose proof (mreached_minv M K D j s R) as I. fold w in I.
  assert (Ar : forall k, Zlen (m_trips w k) = Zlen (m_arrived w k)) by (intros; unfold m_arrived; now rewrite Zlen_map).
  pose proof (n_cnum _ _ I) as CN. pose proof (n_cenr _ _ I) as CE. pose proof (n_cfin _ _ I) as CF. pose proof (n_ctt _ _ I) as CT.
  pose proof (n_enr _ _ I) as FE. pose proof (n_fin _ _ I) as FF. pose proof (n_tt _ _ I) as FT.
  assert (NUM : f_num (mw_fac w) = cf_num (mw_cf w false) + cf_num (mw_cf w true)).
  { rewrite !CN. unfold m_ids. rewrite <- class_sum_len. unfold ids, Zlen. rewrite map_length, seq_length. pose proof (n_num _ _ I). lia. }
  assert (FIN : f_finished (mw_fac w) = cf_finished (mw_cf w false) + cf_finished (mw_cf w true)).
  { rewrite FF, !CF. unfold m_trips, mdone. apply trips_sum_len. }
  split; [|repeat split; auto].
  - intros k c. unfold c. split; [apply CN|]. split; [now rewrite CF|]. split; [|split; [apply CT|]].
    + destruct (C97_classes_conserved M D j s k K R) as [P _]. fold w in P. apply Permutation_length in P. rewrite !app_length in P.
      specialize (CN k). specialize (CE k). specialize (CF k). rewrite Ar in CF. unfold Zlen in *. lia.
    + rewrite Forall_forall. intros d Hd. unfold m_trips in Hd. apply filter_In in Hd as [Hd _].
      pose proof (n_start _ _ I) as S1. pose proof (n_gap _ _ I) as S2. rewrite Forall_forall in S1, S2. split; [apply S1, Hd|apply (S2 d Hd)].
  - specialize (CE false) as E0. specialize (CE true) as E1. lia.
  - rewrite FT, !CT. rewrite <- inject_Z_plus. unfold m_trips, mdone. rewrite <- trips_sum_tt. reflexivity.
Qed.
Print Assumptions C98_class_counters.

(** C98: the enroute series gets one entry per interval, the vehicles of both classes
    underway at its end. *)
Theorem C98_enroute_series : forall M D j s, mnet_ok M -> mreached M D (S j) s ->
  exists pre, length pre = j /\ ms_enr s = pre ++ [cf_enroute (mw_cf (ms_w s) false) + cf_enroute (mw_cf (ms_w s) true)].
Proof.
  intros M D j s K R. destruct (menr_record M D j s R) as (pre & L & E). exists pre. split; [exact L|]. rewrite E.
  destruct (C98_class_counters M D (S j) s K R) as (_ & _ & -> & _). reflexivity.
Qed.
Print Assumptions C98_enroute_series.

(** C98: a trip logged at one interval is never changed or lost later. *)
Theorem C98_trips_kept : forall M D j n s s' k, mnet_ok M -> mreached M D j s -> mrun M D n s = Ok s' ->
  exists more, m_trips (ms_w s') k = m_trips (ms_w s) k ++ more.
Proof.
  intros M D j n s s' k K R H. destruct (mkept M D K n j s s' R H) as (_ & E & more & Em). pose proof (mreached_minv M K D j s R) as I.
  unfold mdone in Em. unfold m_trips. rewrite Em, filter_app. eexists. f_equal. apply filter_ext_in. intros d Hd.
  assert (Hv : fst d <= f_num (mw_fac (ms_w s))).
  { pose proof (n_count _ _ I (fst d)) as C. assert (1 <= zc (fst d) (map fst (mdone (ms_w s)))) by (assert (In (fst d) (map fst (mdone (ms_w s)))) as X by (now apply in_map); apply zc_In in X; lia).
    pose proof (mzo_nonneg M (ms_w s) (fst d)). pose proof (mzl_nonneg M (ms_w s) (fst d)). pose proof (mzd_nonneg M (ms_w s) (fst d)). unfold mzcount in C.
    destruct (Z.leb_spec (fst d) (f_num (mw_fac (ms_w s)))); [assumption|]. rewrite andb_false_r in C. unfold one_if in C. lia. }
  destruct (E (fst d) Hv) as (_ & -> & _). reflexivity.
Qed.
Print Assumptions C98_trips_kept.

(** C99: the curves of a class at a link differ by the vehicles of that class on it. *)
Theorem C99_class_curves : forall M D j s k l cin cout, mnet_ok M -> mreached M D j s -> In l (mn_links M) ->
  mk_Nin (mw_cc (ms_w s)) k l = Some cin -> mk_Nout (mw_cc (ms_w s)) k l = Some cout ->
  ((cum_total cin - cum_total cout) * mn_fs M == inject_Z (Zlen (on_mlink (mw_cls (ms_w s)) k (mw_link (ms_w s) l))))%Q.
Proof. intros M D j s k l cin cout K R Hl H1 H2. exact (n_bal _ _ (mreached_minv M K D j s R) k l cin cout Hl H1 H2). Qed.
Print Assumptions C99_class_curves.

(** C100: in a release interval every class gets its demand for every origin and
    destination, rounded; every new vehicle belongs to such a row of its class. *)
Theorem C100_release_by_class : forall M D j s s', mnet_ok M -> mdemands_ok M -> 0 < mn_freq M -> mreached M D j s -> mloop_body M D s = Ok s' -> m_release_time M j ->
  (forall o k d dem, In o (mn_origins M) -> In (d, dem) (og_demand o k) ->
    let x := (dem (m_assign_at M j) * mn_fs M)%Q in let n := Zlen (m_released k (og_node o) d (ms_w s) (ms_w s')) in
    (0 <= x)%Q -> (x - 1 < inject_Z n < x + 1)%Q /\ (forall z, (x == inject_Z z)%Q -> n = z)) /\
  (forall v, In v (m_new (ms_w s) (ms_w s')) -> let y := mw_veh (ms_w s') v in let k := mw_cls (ms_w s') v in
    v_start y = Z.of_nat j /\
    exists o dem, In o (mn_origins M) /\ v_org y = og_node o /\ In (v_dst y, dem) (og_demand o k)).
Proof.
  intros M D j s s' K Dm Hf R H RT. pose proof (mstep _ _ _ _ _ Hf R H) as E. pose proof (mreached_valid _ _ _ _ R (Z.of_nat j)) as DV.
  pose proof E as E0. unfold mload_once in E0. apply bind_ok in E0 as (w1 & R1 & _).
  destruct (mload_once_after_release _ _ _ _ _ _ _ K DV R1 E) as (EN & EC & EL & ES).
  destruct (mrelease_all_new _ _ _ _ _ _ K Dm Hf (Zle_0_nat j) R1) as (_ & X & _). destruct (X RT) as (P & C). split.
  - intros o k d dem Ho Hd x n Hx.
    assert (En : n = Z.max 0 (rround (r_rel (D (Z.of_nat j)) k (og_node o) d) x)).
    { unfold n, x. rewrite <- (C o k d dem Ho Hd). f_equal. unfold m_released.
      replace (m_new (ms_w s) (ms_w s')) with (m_new (ms_w s) w1) by (unfold m_new; unfold mnum in EN; now rewrite EN).
      apply filter_ext. intros v. rewrite EC. specialize (ES v). unfold stat in ES. injection ES as -> -> _ _ _. reflexivity. }
    destruct DV as (_ & Hr & _). destruct (Hr k (og_node o) d) as [Hr0 _].
    rewrite Z.max_r in En by (apply rround_nonneg; exact Hx). rewrite En. split; [split; [now apply rround_gt|now apply rround_lt]|].
    intros z Ez. rewrite (rround_comp _ _ _ Ez). now apply rround_int.
  - intros v Hv y k. apply m_new_In in Hv. rewrite EN in Hv. destruct (P v Hv) as (o & Ho & Hd & Mk). specialize (ES v). unfold stat in ES. injection ES as E1 E2 E3 E4 E5.
    unfold y, k. rewrite E1, E2, E4, EC. destruct Mk as (Ex & _). split; [rewrite Ex; reflexivity|].
    apply in_map_iff in Hd as ([d dem] & Ed & Id). cbn [fst] in Ed. exists o, dem. split; [exact Ho|]. split; [rewrite Ex; reflexivity|]. rewrite <- Ed. exact Id.
Qed.
Print Assumptions C100_release_by_class.

(** C100: otherwise nothing is released. *)
Theorem C100_nothing_released_otherwise : forall M D j s s', mnet_ok M -> mdemands_ok M -> 0 < mn_freq M -> mreached M D j s -> mloop_body M D s = Ok s' ->
  ~ m_release_time M j -> m_new (ms_w s) (ms_w s') = [] /\ f_num (mw_fac (ms_w s')) = f_num (mw_fac (ms_w s)).
Proof.
  intros M D j s s' K Dm Hf R H RT. pose proof (mstep _ _ _ _ _ Hf R H) as E. pose proof (mreached_valid _ _ _ _ R (Z.of_nat j)) as DV.
  pose proof E as E0. unfold mload_once in E0. apply bind_ok in E0 as (w1 & R1 & _).
  destruct (mload_once_after_release _ _ _ _ _ _ _ K DV R1 E) as (EN & _).
  destruct (mrelease_all_new _ _ _ _ _ _ K Dm Hf (Zle_0_nat j) R1) as (_ & _ & X). rewrite (X RT) in EN. unfold mnum in EN.
  split; [|exact EN]. unfold m_new. rewrite EN, Z.sub_diag. reflexivity.
Qed.
Print Assumptions C100_nothing_released_otherwise.

(** C100: the label of a new vehicle is the index of a label of its class, drawn with
    the label ratios of its origin; -1 when the ratios leave none. *)
Theorem C100_labels : forall M D j s s' v o, mnet_ok M -> mdemands_ok M -> 0 < mn_freq M -> mreached M D j s -> mloop_body M D s = Ok s' ->
  In v (m_new (ms_w s) (ms_w s')) -> In o (mn_origins M) -> v_org (mw_veh (ms_w s') v) = og_node o ->
  let ps := og_labels o (mw_cls (ms_w s') v) in (forall p, In p ps -> 0 <= p)%Q ->
  let r := r_label (D (Z.of_nat j)) v in let i := mw_lab (ms_w s') v in
  (i = -1 \/ exists n, i = Z.of_nat n /\ in_slice ps r n) /\
  ((sumQ ps == 1)%Q -> exists n, i = Z.of_nat n /\ in_slice ps r n) /\
  ((forall p, In p ps -> p == 0)%Q -> i = -1).
Proof.
  intros M D j s s' v o K Dm Hf R H Hv Ho Eo ps Hp r i. pose proof (mstep _ _ _ _ _ Hf R H) as E. pose proof (mreached_valid _ _ _ _ R (Z.of_nat j)) as DV.
  pose proof E as E0. unfold mload_once in E0. apply bind_ok in E0 as (w1 & R1 & _).
  destruct (mload_once_after_release _ _ _ _ _ _ _ K DV R1 E) as (EN & EC & EL & ES).
  destruct (mrelease_all_new _ _ _ _ _ _ K Dm Hf (Zle_0_nat j) R1) as (_ & X & Y). apply m_new_In in Hv. rewrite EN in Hv.
  assert (RT : m_release_time M j).
  { unfold m_release_time. destruct (Z.eq_dec (Z.of_nat j mod mn_freq M) 0) as [e|n]; [destruct (Z_le_gt_dec 0 (m_assign_at M j)); [destruct (Z_lt_ge_dec (m_assign_at M j) (mn_total_assign M)); [lia|]|]|];
      exfalso; (rewrite Y in Hv by lia); lia. }
  destruct (X RT) as (P & _). destruct (P v Hv) as (o2 & Ho2 & _ & Ex & _ & Lb). specialize (ES v). unfold stat in ES. injection ES as E1 _ _ _ _.
  assert (o2 = o).
  { assert (NDo := mno_origins M K). rewrite E1, Ex in Eo. cbn [v_org] in Eo. clear - NDo Ho Ho2 Eo. induction (mn_origins M) as [|x l IH]; [destruct Ho|].
    cbn [map] in NDo. apply NoDup_cons_iff in NDo as [Nx NDo]. destruct Ho as [->|Ho], Ho2 as [->|Ho2]; auto.
    - exfalso. apply Nx. rewrite <- Eo. now apply in_map. - exfalso. apply Nx. rewrite Eo. now apply in_map. }
  subst o2. assert (Ei : i = generate_label ps r) by (unfold i, ps, r; rewrite EL, EC; exact Lb). rewrite Ei.
  assert (Hr : (0 <= r <= 1)%Q) by apply DV. split; [now apply label_in_slice|]. split; [intros Hs; now apply label_found|].
  intros Z0. unfold generate_label. replace (forallb _ ps) with true; [reflexivity|]. symmetry. apply forallb_forall. intros p Hpp. apply Qle_bool_iff. rewrite (Z0 p Hpp). lra.
Qed.
Print Assumptions C100_labels.

(** C101: the share of adaptive vehicles meant for one class and destination *)
Definition class_share (M : mnet) (o : morigin) (k : bool) (d a : Z) : Q :=
  match og_ratio o k d with Some f => f a | None => mbase_ratio (mn_routing M) k end.
Definition uniform (o : morigin) (k : bool) : Prop :=
  (forall d, In d (map fst (og_demand o k)) -> og_ratio o k d = None) \/ (forall d, In d (map fst (og_demand o k)) -> og_ratio o k d <> None).
Definition own_ratio (M : mnet) : Prop := exists rc rt, mn_routing M = MRBiclass rc rt.

(** C101 holds when an origin has shares for all destinations of a class or for none
    and, unless each class has its own ratio, cars have none or trucks have all. *)
Theorem C101_share_by_class_partial : forall M D j s s' v o, mnet_ok M -> mdemands_ok M -> 0 < mn_freq M -> mreached M D j s -> mloop_body M D s = Ok s' ->
  In v (m_new (ms_w s) (ms_w s')) -> In o (mn_origins M) -> v_org (mw_veh (ms_w s') v) = og_node o ->
  uniform o false -> uniform o true ->
  own_ratio M \/ (forall d, In d (map fst (og_demand o false)) -> og_ratio o false d = None) \/ (forall d, In d (map fst (og_demand o true)) -> og_ratio o true d <> None) ->
  let y := mw_veh (ms_w s') v in let share := class_share M o (mw_cls (ms_w s') v) (v_dst y) (m_assign_at M j) in
  ((share == 0)%Q -> v_adapt y = false) /\ ((share == 1)%Q -> v_adapt y = true) /\
  (~ (share == 0)%Q -> ~ (share == 1)%Q -> (v_adapt y = true <-> (d_adapt (r_base (D (Z.of_nat j))) v <= share)%Q)).
Proof.
  intros M D j s s' v o K Dm Hf R H Hv Ho Eo U0 U1 Un y share. pose proof (mstep _ _ _ _ _ Hf R H) as E. pose proof (mreached_valid _ _ _ _ R (Z.of_nat j)) as DV.
  pose proof E as E0. unfold mload_once in E0. apply bind_ok in E0 as (w1 & R1 & _).
  destruct (mload_once_after_release _ _ _ _ _ _ _ K DV R1 E) as (EN & EC & EL & ES).
  destruct (mrelease_all_new _ _ _ _ _ _ K Dm Hf (Zle_0_nat j) R1) as (_ & X & Y). apply m_new_In in Hv. rewrite EN in Hv.
  assert (RT : m_release_time M j).
  { unfold m_release_time. destruct (Z.eq_dec (Z.of_nat j mod mn_freq M) 0) as [e|n]; [destruct (Z_le_gt_dec 0 (m_assign_at M j)); [destruct (Z_lt_ge_dec (m_assign_at M j) (mn_total_assign M)); [lia|]|]|];
      exfalso; (rewrite Y in Hv by lia); lia. }
  destruct (X RT) as (P & _). destruct (P v Hv) as (o2 & Ho2 & Hd & Ex & _ & _). specialize (ES v). unfold stat in ES. injection ES as E1 E2 E3 _ _.
  assert (o2 = o).
  { assert (NDo := mno_origins M K). rewrite E1, Ex in Eo. cbn [v_org] in Eo. clear - NDo Ho Ho2 Eo. induction (mn_origins M) as [|x l IH]; [destruct Ho|].
    cbn [map] in NDo. apply NoDup_cons_iff in NDo as [Nx NDo]. destruct Ho as [->|Ho], Ho2 as [->|Ho2]; auto.
    - exfalso. apply Nx. rewrite <- Eo. now apply in_map. - exfalso. apply Nx. rewrite Eo. now apply in_map. }
  subst o2. unfold share, y. rewrite E2, E3, EC. set (k := mw_cls w1 v) in *. set (d := v_dst (mw_veh w1 v)) in *. rewrite Ex. cbn [v_adapt].
  set (a := m_assign_at M j) in *. set (r := d_adapt (r_base (D (Z.of_nat j))) v).
  assert (ER : mratio_at o k a (mratio_start M o a k) (og_demand o k) d = class_share M o k d a).
  { unfold class_share. assert (Uk : uniform o k) by (destruct k; assumption). destruct Uk as [N|S].
    - rewrite (N d Hd), mratio_at_none by exact N. unfold mratio_start. destruct k; [|reflexivity].
      destruct (mn_routing M) as [| |q|rc rt] eqn:Er; try reflexivity; destruct Un as [(rc' & rt' & B)|[C0|C1]]; try (rewrite Er in B; discriminate B);
        try (rewrite mratio_end_none by exact C0; reflexivity); exfalso; apply (C1 d Hd); apply N, Hd.
    - destruct (mratio_at_some o k a (mratio_start M o a k) (og_demand o k) d Hd S) as (f & -> & ->). reflexivity. }
  rewrite ER. set (sh := class_share M o k d a). unfold pick_adaptive. split; [|split].
  - intros Es. rewrite (proj2 (Qeq_bool_iff _ _) Es). reflexivity.
  - intros Es. destruct (Qeq_bool sh 0) eqn:Z0; [apply Qeq_bool_iff in Z0; exfalso; lra|]. rewrite (proj2 (Qeq_bool_iff _ _) Es). reflexivity.
  - intros N0 N1. destruct (Qeq_bool sh 0) eqn:Z0; [apply Qeq_bool_iff in Z0; contradiction|]. destruct (Qeq_bool sh 1) eqn:Z1; [apply Qeq_bool_iff in Z1; contradiction|]. apply Qle_bool_iff.
Qed.
Print Assumptions C101_share_by_class_partial.

(** C102: with the routing that keeps the classes apart, a static vehicle's route is
    drawn in proportion to the flows of its class for the interval it departs in. *)
Theorem C102_route_by_class : forall M D w0 j s s' v rc rt, mnet_ok M -> mn_routing M = MRBiclass rc rt -> 0 < mn_rfreq M -> 2 <= mn_rlen M -> 0 < mn_freq M ->
  mfresh_world M w0 -> (forall t, mdraws_valid (D t)) -> mrun M D j (minit M w0) = Ok s -> mrun M D (S j) (minit M w0) = Ok s' ->
  In v (m_new (ms_w s) (ms_w s')) -> v_adapt (mw_veh (ms_w s') v) = false ->
  Z.of_nat j / mn_rfreq M < mn_rlen M / 2 ->
  picked (mw_pt w0) (flow_in (Z.of_nat j / mn_rfreq M + (if mw_cls (ms_w s') v then mn_rlen M / 2 else 0)))
         (v_org (mw_veh (ms_w s') v)) (v_dst (mw_veh (ms_w s') v)) (d_route (r_base (D (Z.of_nat j))) v) (v_path (mw_veh (ms_w s') v)).
Proof.
  intros M D w0 j s s' v rc rt K B Hf Hl Hq F DV H H' Hv Ad L.
  pose proof (choice_new M K rc rt B Hf Hl Hq D w0 F DV j s s' v H H' Hv Ad) as P. unfold used_col, half, column in P.
  rewrite (proj2 (Z.ltb_lt _ _) L) in P. exact P.
Qed.
Print Assumptions C102_route_by_class.

(** C102: once the columns of a class are used up, trucks keep their last one ... *)
Theorem C102_last_truck_column_kept : forall M D w0 j s s' v rc rt, mnet_ok M -> mn_routing M = MRBiclass rc rt -> 0 < mn_rfreq M -> 2 <= mn_rlen M -> 0 < mn_freq M ->
  mfresh_world M w0 -> (forall t, mdraws_valid (D t)) -> mrun M D j (minit M w0) = Ok s -> mrun M D (S j) (minit M w0) = Ok s' ->
  In v (m_new (ms_w s) (ms_w s')) -> v_adapt (mw_veh (ms_w s') v) = false -> mw_cls (ms_w s') v = true ->
  mn_rlen M / 2 <= Z.of_nat j / mn_rfreq M ->
  picked (mw_pt w0) (flow_in (mn_rlen M / 2 - 1 + mn_rlen M / 2))
         (v_org (mw_veh (ms_w s') v)) (v_dst (mw_veh (ms_w s') v)) (d_route (r_base (D (Z.of_nat j))) v) (v_path (mw_veh (ms_w s') v)).
Proof.
  intros M D w0 j s s' v rc rt K B Hf Hl Hq F DV H H' Hv Ad _ L.
  pose proof (choice_new M K rc rt B Hf Hl Hq D w0 F DV j s s' v H H' Hv Ad) as P. unfold used_col, half, column in P.
  rewrite (proj2 (Z.ltb_ge _ _) L) in P. exact P.
Qed.
Print Assumptions C102_last_truck_column_kept.

(** ... and so do cars: they are routed by the last column of the trucks. *)
Theorem C102_cars_get_truck_column : forall M D w0 j s s' v rc rt, mnet_ok M -> mn_routing M = MRBiclass rc rt -> 0 < mn_rfreq M -> 2 <= mn_rlen M -> 0 < mn_freq M ->
  mfresh_world M w0 -> (forall t, mdraws_valid (D t)) -> mrun M D j (minit M w0) = Ok s -> mrun M D (S j) (minit M w0) = Ok s' ->
  In v (m_new (ms_w s) (ms_w s')) -> v_adapt (mw_veh (ms_w s') v) = false -> mw_cls (ms_w s') v = false ->
  mn_rlen M / 2 <= Z.of_nat j / mn_rfreq M ->
  picked (mw_pt w0) (flow_in (mn_rlen M / 2 - 1 + mn_rlen M / 2))
         (v_org (mw_veh (ms_w s') v)) (v_dst (mw_veh (ms_w s') v)) (d_route (r_base (D (Z.of_nat j))) v) (v_path (mw_veh (ms_w s') v)).
Proof.
  intros M D w0 j s s' v rc rt K B Hf Hl Hq F DV H H' Hv Ad _ L.
  pose proof (choice_new M K rc rt B Hf Hl Hq D w0 F DV j s s' v H H' Hv Ad) as P. unfold used_col, half, column in P.
  rewrite (proj2 (Z.ltb_ge _ _) L) in P. exact P.
Qed.
Print Assumptions C102_cars_get_truck_column.

(** C102: the routes and flows of the table never change during a run. *)
Theorem C102_table_kept : forall M D w0 j s rc rt, mnet_ok M -> mn_routing M = MRBiclass rc rt -> 0 < mn_rfreq M -> 2 <= mn_rlen M -> 0 < mn_freq M ->
  mfresh_world M w0 -> (forall t, mdraws_valid (D t)) -> mrun M D j (minit M w0) = Ok s -> plan (mw_pt (ms_w s)) = plan (mw_pt w0).
Proof. intros M D w0 j s rc rt K B Hf Hl Hq F DV H. exact (plan_run M K rc rt B Hf Hl Hq D w0 F DV j s H). Qed.
Print Assumptions C102_table_kept.

(** * Concrete cases *)
Lemma ym_net_ok r os : map og_node os = [1; 5] -> mnet_ok (ym_net r os).
Proof.
  intros Eo.
  assert (OUTL : forall n l, In l (mn_out (ym_net r os) n) -> (n = 1 /\ l = 10) \/ (n = 5 /\ l = 50) \/ (n = 2 /\ (l = 20 \/ l = 25)) \/ (n = 3 /\ l = 30)).
  { intros n l H. cbn [ym_net mn_out] in H. destruct (Z.eqb_spec n 1); [|destruct (Z.eqb_spec n 5); [|destruct (Z.eqb_spec n 2); [|destruct (Z.eqb_spec n 3); [|destruct H]]]]; cbn in H; lia. }
  assert (INL : forall n l, In l (mn_in (ym_net r os) n) -> (n = 2 /\ (l = 10 \/ l = 50)) \/ (n = 3 /\ (l = 20 \/ l = 25)) \/ (n = 4 /\ l = 30)).
  { intros n l H. cbn [ym_net mn_in] in H. destruct (Z.eqb_spec n 2); [|destruct (Z.eqb_spec n 3); [|destruct (Z.eqb_spec n 4); [|destruct H]]]; cbn in H; lia. }
  constructor; try (cbn [ym_net mn_nodes mn_links mn_dests map fst]; repeat constructor; cbn; intuition discriminate).
  - cbn [ym_net mn_origins]. rewrite Eo. repeat constructor; cbn; intuition discriminate.
  - intros n. repeat split.
    + cbn [ym_net mn_in]. destruct (n =? 2), (n =? 3), (n =? 4); repeat constructor; cbn; intuition discriminate.
    + cbn [ym_net mn_out]. destruct (n =? 1), (n =? 5), (n =? 2), (n =? 3); repeat constructor; cbn; intuition discriminate.
    + intros l H1 H2. apply INL in H1. apply OUTL in H2. lia.
  - intros n l H. apply INL in H. destruct H as [[-> [->| ->]]|[[-> [->| ->]]|[-> ->]]]; cbn; auto 8.
  - intros n l H. apply OUTL in H. cbn [ym_net mn_links In]. lia.
  - intros n n' l H1 H2. apply OUTL in H1, H2. lia.
  - intros n H. cbn [ym_net mn_origins]. rewrite Eo. cbn in H |- *. intuition congruence.
  - intros n H. cbn in H |- *. intuition congruence.
Qed.
Lemma ym_draws_valid : mdraws_valid ym_draws.
Proof.
  split; [exact xn_draws_valid|]. unfold unit_draw, shuffle, mdraws_ok. cbn [ym_draws r_rel r_label r_node r_link mn_orig mn_shuf md_car md_truck md_mix].
  repeat split; intros; try (destruct (Z.even _)); try (destruct (Nat.even _)); try (vm_compute; discriminate); symmetry; apply Permutation_rev.
Qed.
Lemma ym_draws_tree_valid : mdraws_valid ym_draws_tree.
Proof.
  destruct ym_draws_valid as (B & R). split; [|exact R]. destruct B as (B1 & B2 & B3). unfold draws_valid. cbn [ym_draws_tree r_base d_rel d_adapt d_oshuf d_route d_orig d_node d_pick d_inshuf d_grj d_cell].
  split; [exact B1|]. split; [|exact B3]. intros v. unfold unit_draw. destruct (Z.even v); vm_compute; split; discriminate.
Qed.
Lemma ym_fresh r os : mfresh_world (ym_net r os) ym_world.
Proof.
  constructor; try reflexivity; auto.
  intros l Hl. cbn [ym_net mn_links In] in Hl. cbn [ym_world mw_link]. unfold fresh_mlink.
  destruct Hl as [<-|[<-|[<-|[<-|[<-|[]]]]]]; [exists (ym_par MKPq 10 100)|exists (ym_par MKPq 10 100)|exists (ym_par MKCtm (1 # 2) 300)|exists (ym_par MKPq 10 100)|exists (ym_par MKCtm (1 # 3) 150)]; vm_compute; reflexivity.
Qed.
Lemma ym_run_at M k : is_ok (ym_run M k) = true -> ym_run M k = Ok (ym_at M k).
Proof. unfold ym_at. destruct (ym_run M k); [reflexivity|discriminate]. Qed.
Lemma ym_mrun M k : is_ok (ym_run M k) = true -> mrun M (fun _ => ym_draws) k (minit M ym_world) = Ok (ym_at M k).
Proof. exact (ym_run_at M k). Qed.
Lemma ym_reached r os k : is_ok (ym_run (ym_net r os) k) = true -> mreached (ym_net r os) (fun _ => ym_draws) k (ym_at (ym_net r os) k).
Proof. intros H. exists ym_world. split; [apply ym_fresh|]. split; [intros; exact ym_draws_valid|]. exact (ym_run_at _ _ H). Qed.
Lemma run_next M D k s0 s s' : mrun M D k s0 = Ok s -> mrun M D (S k) s0 = Ok s' -> mloop_body M D s = Ok s'.
Proof. intros H H'. apply mrun_S in H' as (s1 & H1 & H2). rewrite H in H1. apply Ok_inj in H1 as <-. exact H2. Qed.
Lemma ym_next M k : is_ok (ym_run M k) = true -> is_ok (ym_run M (S k)) = true -> mloop_body M (fun _ => ym_draws) (ym_at M k) = Ok (ym_at M (S k)).
Proof. intros H H'. eapply run_next; [exact (ym_run_at _ _ H)|exact (ym_run_at _ _ H')]. Qed.

Example C97_case : mnet_ok ym /\ mreached ym (fun _ => ym_draws) 8 (ym_at ym 8) /\
  let w := ms_w (ym_at ym 8) in
  (m_on_links ym w false, m_arrived w false, m_on_links ym w true, m_arrived w true) = ([13], [8; 4; 3; 2; 11; 10; 7; 1], [15; 14], [6; 5; 9; 12]) /\
  mrun ym (fun _ => ym_draws) 4 (ym_at ym 4) = Ok (ym_at ym 8).
Proof.
  split; [apply ym_net_ok; reflexivity|]. split; [apply ym_reached; vm_compute; reflexivity|]. split; [vm_compute; reflexivity|].
  assert (R : forall n, is_ok (ym_run ym n) = true -> is_ok (ym_run ym (S n)) = true -> mloop_body ym (fun _ => ym_draws) (ym_at ym n) = Ok (ym_at ym (S n))) by (intros; now apply ym_next).
  cbn [mrun bind]. rewrite (R 4%nat) by (vm_compute; reflexivity). cbn [bind]. rewrite (R 5%nat) by (vm_compute; reflexivity). cbn [bind].
  rewrite (R 6%nat) by (vm_compute; reflexivity). cbn [bind]. apply (R 7%nat); vm_compute; reflexivity.
Qed.
Example C98_case : mreached ym (fun _ => ym_draws) 8 (ym_at ym 8) /\
  let w := ms_w (ym_at ym 8) in
  map (fun k => (cf_num (mw_cf w k), cf_enroute (mw_cf w k), cf_finished (mw_cf w k), cf_tt (mw_cf w k))) [false; true] = [(9, 1, 8, 46%Q); (6, 2, 4, 19%Q)] /\
  m_trips w true = [(6, (0, 4)); (5, (0, 5)); (9, (0, 6)); (12, (3, 7))] /\ ms_enr (ym_at ym 8) = [9; 9; 9; 15; 14; 13; 8; 3].
Proof. split; [apply ym_reached; vm_compute; reflexivity|]. repeat split; vm_compute; reflexivity. Qed.
Example C99_case : mreached ym (fun _ => ym_draws) 4 (ym_at ym 4) /\
  let w := ms_w (ym_at ym 4) in
  mk_Nin (mw_cc w) true 25 = Some [(0, 0)%Q; (2, 2)%Q] /\ mk_Nout (mw_cc w) true 25 = Some [(0, 0)%Q; (4, 1)%Q] /\ on_mlink (mw_cls w) true (mw_link w 25) = [5].
Proof. split; [apply ym_reached; vm_compute; reflexivity|]. repeat split; vm_compute; reflexivity. Qed.
Lemma ym_demands r : mdemands_ok (ym_net r ym_os).
Proof. intros o k [<-|[<-|[]]]; repeat constructor; cbn; intuition discriminate. Qed.
Example C100_case : mnet_ok ym /\ mdemands_ok ym /\ mreached ym (fun _ => ym_draws) 3 (ym_at ym 3) /\ mloop_body ym (fun _ => ym_draws) (ym_at ym 3) = Ok (ym_at ym 4) /\
  m_release_time ym 3 /\ ~ m_release_time ym 4 /\ m_new (ms_w (ym_at ym 3)) (ms_w (ym_at ym 4)) = [10; 11; 12; 13; 14; 15] /\
  m_released true 5 4 (ms_w (ym_at ym 3)) (ms_w (ym_at ym 4)) = [14; 15] /\ m_released false 1 4 (ms_w (ym_at ym 0)) (ms_w (ym_at ym 1)) = [1; 2; 3; 4] /\
  map (fun v => (mw_cls (ms_w (ym_at ym 4)) v, mw_lab (ms_w (ym_at ym 4)) v)) [10; 11; 12] = [(false, 0); (false, 1); (true, -1)].
Proof.
  split; [apply ym_net_ok; reflexivity|]. split; [apply ym_demands|]. split; [apply ym_reached; vm_compute; reflexivity|]. split; [apply ym_next; vm_compute; reflexivity|].
  split; [split; [reflexivity|vm_compute; split; [discriminate|reflexivity]]|]. split; [intros [H _]; vm_compute in H; discriminate|]. repeat split; vm_compute; reflexivity.
Qed.

Lemma ym_half_run_at k : is_ok (ym_half_run k) = true -> ym_half_run k = Ok (ym_half_at k).
Proof. unfold ym_half_at. destruct (ym_half_run k); [reflexivity|discriminate]. Qed.
Lemma ym_half_next k : is_ok (ym_half_run k) = true -> is_ok (ym_half_run (S k)) = true -> mloop_body ym_half (fun _ => ym_draws_tree) (ym_half_at k) = Ok (ym_half_at (S k)).
Proof. intros H H'. eapply run_next; [exact (ym_half_run_at _ H)|exact (ym_half_run_at _ H')]. Qed.
Lemma ym_half_reached k : is_ok (ym_half_run k) = true -> mreached ym_half (fun _ => ym_draws_tree) k (ym_half_at k).
Proof. intros H. exists ym_world. split; [apply ym_fresh|]. split; [intros; exact ym_draws_tree_valid|]. exact (ym_half_run_at _ H). Qed.
Example C101_case : mnet_ok ym_half /\ mdemands_ok ym_half /\ own_ratio ym_half /\ (forall o k, In o (mn_origins ym_half) -> uniform o k) /\
  mreached ym_half (fun _ => ym_draws_tree) 0 (ym_half_at 0) /\ mloop_body ym_half (fun _ => ym_draws_tree) (ym_half_at 0) = Ok (ym_half_at 1) /\
  map (fun v => (mw_cls (ms_w (ym_half_at 1)) v, v_adapt (mw_veh (ms_w (ym_half_at 1)) v))) (m_new (ms_w (ym_half_at 0)) (ms_w (ym_half_at 1))) =
    [(false, false); (false, false); (false, false); (false, false); (true, false); (true, true); (false, false); (false, false); (true, false)].
Proof.
  split; [apply ym_net_ok; reflexivity|]. split; [apply ym_demands|]. split; [exists 0%Q, (1 # 2)%Q; reflexivity|].
  split; [intros o k [<-|[<-|[]]]; left; intros; reflexivity|].
  split; [apply ym_half_reached; vm_compute; reflexivity|]. split; [apply ym_half_next; vm_compute; reflexivity|]. vm_compute. reflexivity.
Qed.

(** C101 refuted: the trucks have no share of their own and the overall share is 1,
    but the share 0 of the cars is applied to them. *)
Theorem C101_car_share_leaks_refuted : exists M D j s s' v o,
  mnet_ok M /\ mdemands_ok M /\ 0 < mn_freq M /\ mreached M D j s /\ mloop_body M D s = Ok s' /\
  In v (m_new (ms_w s) (ms_w s')) /\ In o (mn_origins M) /\ v_org (mw_veh (ms_w s') v) = og_node o /\ uniform o false /\ uniform o true /\
  mw_cls (ms_w s') v = true /\ og_ratio o true (v_dst (mw_veh (ms_w s') v)) = None /\ (mbase_ratio (mn_routing M) true == 1)%Q /\ v_adapt (mw_veh (ms_w s') v) = false.
Proof.
  exists ym_leak, (fun _ => ym_draws), 0%nat, (ym_at ym_leak 0), (ym_at ym_leak 1), 5, (hd (ym_origin 0 0 0 0 0) ym_leak_os).
  split; [apply ym_net_ok; reflexivity|]. split; [intros o k [<-|[<-|[]]]; repeat constructor; cbn; intuition discriminate|]. split; [reflexivity|].
  split; [apply ym_reached; vm_compute; reflexivity|]. split; [apply ym_next; vm_compute; reflexivity|].
  split; [replace (m_new _ _) with [1; 2; 3; 4; 5; 6; 7; 8; 9] by (vm_compute; reflexivity); cbn; auto 12|]. split; [now left|]. split; [vm_compute; reflexivity|].
  split; [right; intros; discriminate|]. split; [left; intros; reflexivity|]. repeat split; vm_compute; reflexivity.
Qed.
Print Assumptions C101_car_share_leaks_refuted.

Example C102_case : mrun ym (fun _ => ym_draws) 0 (minit ym ym_world) = Ok (ym_at ym 0) /\ mrun ym (fun _ => ym_draws) 1 (minit ym ym_world) = Ok (ym_at ym 1) /\
  2 <= mn_rlen ym /\ 0 / mn_rfreq ym < mn_rlen ym / 2 /\
  map (fun v => (v_org (mw_veh (ms_w (ym_at ym 1)) v), mw_cls (ms_w (ym_at ym 1)) v, v_adapt (mw_veh (ms_w (ym_at ym 1)) v), option_map r_id (v_path (mw_veh (ms_w (ym_at ym 1)) v))))
      (m_new (ms_w (ym_at ym 0)) (ms_w (ym_at ym 1))) =
    [(1, false, false, Some 0); (1, false, false, Some 0); (1, false, false, Some 0); (1, false, false, Some 0); (1, true, false, Some 1); (1, true, false, Some 1);
     (5, false, false, Some 2); (5, false, false, Some 2); (5, true, false, Some 2)] /\
  mrun ym (fun _ => ym_draws) 3 (minit ym ym_world) = Ok (ym_at ym 3) /\ mrun ym (fun _ => ym_draws) 4 (minit ym ym_world) = Ok (ym_at ym 4) /\
  mn_rlen ym / 2 <= 3 / mn_rfreq ym /\ In 12 (m_new (ms_w (ym_at ym 3)) (ms_w (ym_at ym 4))) /\ mw_cls (ms_w (ym_at ym 4)) 12 = true.
Proof.
  split; [reflexivity|]. split; [apply (ym_mrun ym 1%nat); vm_compute; reflexivity|]. split; [vm_compute; discriminate|]. split; [reflexivity|]. split; [vm_compute; reflexivity|].
  split; [apply (ym_mrun ym 3%nat); vm_compute; reflexivity|]. split; [apply (ym_mrun ym 4%nat); vm_compute; reflexivity|]. split; [vm_compute; discriminate|].
  split; [replace (m_new _ _) with [10; 11; 12; 13; 14; 15] by (vm_compute; reflexivity); cbn; auto|vm_compute; reflexivity].
Qed.

(** C102 refuted: car 10 departs after the columns of the cars are used up and takes a
    route that no column of the cars has any flow on. *)
Theorem C102_car_columns_lost_refuted : exists M D w0 j s s' v rc rt,
  mnet_ok M /\ mn_routing M = MRBiclass rc rt /\ 0 < mn_rfreq M /\ 2 <= mn_rlen M /\ 0 < mn_freq M /\ mfresh_world M w0 /\ (forall t, mdraws_valid (D t)) /\
  mrun M D j (minit M w0) = Ok s /\ mrun M D (S j) (minit M w0) = Ok s' /\ In v (m_new (ms_w s) (ms_w s')) /\ v_adapt (mw_veh (ms_w s') v) = false /\
  mw_cls (ms_w s') v = false /\
  forall col, 0 <= col < mn_rlen M / 2 ->
    ~ picked (mw_pt w0) (flow_in col) (v_org (mw_veh (ms_w s') v)) (v_dst (mw_veh (ms_w s') v)) (d_route (r_base (D (Z.of_nat j))) v) (v_path (mw_veh (ms_w s') v)).
Proof.
  exists ym, (fun _ => ym_draws), ym_world, 3%nat, (ym_at ym 3), (ym_at ym 4), 10, 0%Q, 0%Q.
  split; [apply ym_net_ok; reflexivity|]. split; [reflexivity|]. split; [reflexivity|]. split; [vm_compute; discriminate|]. split; [reflexivity|]. split; [apply ym_fresh|].
  split; [intros; exact ym_draws_valid|]. split; [apply (ym_mrun ym 3%nat); vm_compute; reflexivity|]. split; [apply (ym_mrun ym 4%nat); vm_compute; reflexivity|].
  split; [replace (m_new _ _) with [10; 11; 12; 13; 14; 15] by (vm_compute; reflexivity); cbn; auto|]. split; [vm_compute; reflexivity|]. split; [vm_compute; reflexivity|].
  intros col Hc. assert (col = 0) as -> by (cbn [ym ym_net mn_rlen] in Hc; change (2 / 2) with 1 in Hc; lia).
  replace (v_org _) with 1 by (vm_compute; reflexivity). replace (v_dst _) with 4 by (vm_compute; reflexivity). replace (d_route _ _) with (1 # 10)%Q by reflexivity.
  replace (v_path _) with (Some {| r_id := 1; r_links := [10; 25; 30] |}) by (vm_compute; reflexivity). cbn [ym_world mw_pt].
  intros (es & e & i & I & Ne & Sl & Ep). destruct I as [E|[E|[]]]; [|discriminate E]. injection E as <-.
  destruct i as [|[|i]]; cbn [nth_error] in Ne.
  - injection Ne as <-. discriminate Ep.
  - destruct Sl as (_ & L & _). specialize (L ltac:(lia)). vm_compute in L. discriminate L.
  - destruct i; discriminate Ne.
Qed.
Print Assumptions C102_car_columns_lost_refuted.
