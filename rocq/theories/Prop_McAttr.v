(** Loading with time-dependent link attributes: C253-C255. *)
From Coq Require Import Permutation.
From Verif Require Import Base Base_lemmas Model_Num Proof_Num Spec_Path Model_CC Spec_CC Model_Path Model_Link Spec_Link Spec_Node
  Proof_Link Proof_Link4 Proof_Link5 Proof_Sim2 Model_World Model_Node Model_Sim Spec_Sim Proof_Sim1 Proof_Sim3 Proof_Sim4 Ex_Net
  Proof_Sim7 Model_McLink Spec_McLink Proof_McLink Model_McNode Spec_McNode Model_McSim Spec_McSim Proof_McSim1 Proof_McSim2 Proof_McSim3 Proof_McSim4 Proof_McSim5 Ex_McNet Prop_Node Prop_Sim Prop_McSim
  Model_Text Model_Io Model_Mio Model_McAttr Spec_McAttr Proof_McAttr.
Local Open Scope Z_scope.

(** ** C253: what changes of attributes do not touch *)
Theorem C253_vehicles_conserved : forall M ord T D w0 tl0 j a k, mnet_ok M -> areached M ord T D w0 tl0 j a -> let w := ms_w (a_s a) in
  Permutation (m_at_origins M w k ++ m_on_links M w k ++ m_at_dests M w k ++ m_arrived w k) (m_ids w k) /\ NoDup (m_ids w k).
Proof.
  intros M ord T D w0 tl0 j a k K R w. pose proof (areached_minv M K _ _ _ _ _ _ _ R) as I. fold w in I. split.
  - apply perm_cnt. intros v. apply Nat2Z.inj. fold (zc v (m_ids w k)). unfold m_ids. rewrite zc_class, ids_count by apply I. rewrite <- (n_count _ _ I v).
    fold (zc v (m_at_origins M w k ++ m_on_links M w k ++ m_at_dests M w k ++ m_arrived w k)). rewrite !app_assoc, zc_app, <- app_assoc.
    rewrite (mzcount_places M w v k (n_body _ _ I)), arrived_class, zc_class. unfold mdone. destruct (Bool.eqb _ _); lia.
  - unfold m_ids, of_class. apply NoDup_filter. unfold ids. apply FinFun.Injective_map_NoDup; [|apply seq_NoDup]. intros p q. lia.
Qed.
Print Assumptions C253_vehicles_conserved.
Theorem C253_identity_fixed : forall M ord T D w0 tl0 j n a a' v, mnet_ok M -> areached M ord T D w0 tl0 j a -> attr_run M ord T D n a = Ok a' ->
  1 <= v <= f_num (mw_fac (ms_w (a_s a))) ->
  let x := mw_veh (ms_w (a_s a)) v in let y := mw_veh (ms_w (a_s a')) v in
  mw_cls (ms_w (a_s a')) v = mw_cls (ms_w (a_s a)) v /\ mw_lab (ms_w (a_s a')) v = mw_lab (ms_w (a_s a)) v /\
  v_org y = v_org x /\ v_dst y = v_dst x /\ v_adapt y = v_adapt x /\ v_start y = v_start x /\ v_assign y = v_assign x.
Proof.
  intros M ord T D w0 tl0 j n a a' v K R H Hv x y. destruct (akept M K _ _ _ _ _ _ _ R _ _ H) as (_ & E & _). destruct (E v ltac:(lia)) as (A & B & C).
  unfold stat in A. injection A as A1 A2 A3 A4 A5. unfold x, y. repeat split; auto.
Qed.
Print Assumptions C253_identity_fixed.
Theorem C253_counters : forall M ord T D w0 tl0 j a, mnet_ok M -> areached M ord T D w0 tl0 j a -> let w := ms_w (a_s a) in
  (forall k, let c := mw_cf w k in
     cf_num c = Zlen (m_ids w k) /\ cf_finished c = Zlen (m_arrived w k) /\
     cf_enroute c = Zlen (m_at_origins M w k) + Zlen (m_on_links M w k) + Zlen (m_at_dests M w k) /\
     (cf_tt c == inject_Z (sumZ (map (fun d => snd (snd d) - fst (snd d))%Z (m_trips w k))))%Q /\
     Forall (fun d => fst (snd d) = v_start (mw_veh w (fst d)) /\ 1 <= snd (snd d) - fst (snd d)) (m_trips w k)) /\
  f_num (mw_fac w) = cf_num (mw_cf w false) + cf_num (mw_cf w true) /\
  f_enroute (mw_fac w) = cf_enroute (mw_cf w false) + cf_enroute (mw_cf w true) /\
  f_finished (mw_fac w) = cf_finished (mw_cf w false) + cf_finished (mw_cf w true).
Proof.
  intros M ord T D w0 tl0 j a K R w. pose proof (areached_minv M K _ _ _ _ _ _ _ R) as I. fold w in I.
  assert (Ar : forall k, Zlen (m_trips w k) = Zlen (m_arrived w k)) by (intros; unfold m_arrived; now rewrite Zlen_map).
  pose proof (n_cnum _ _ I) as CN. pose proof (n_cenr _ _ I) as CE. pose proof (n_cfin _ _ I) as CF. pose proof (n_ctt _ _ I) as CT.
  pose proof (n_enr _ _ I) as FE. pose proof (n_fin _ _ I) as FF.
  assert (NUM : f_num (mw_fac w) = cf_num (mw_cf w false) + cf_num (mw_cf w true)).
  { rewrite !CN. unfold m_ids. rewrite <- class_sum_len. unfold ids, Zlen. rewrite map_length, seq_length. pose proof (n_num _ _ I). lia. }
  assert (FIN : f_finished (mw_fac w) = cf_finished (mw_cf w false) + cf_finished (mw_cf w true)).
  { rewrite FF, !CF. unfold m_trips, mdone. apply trips_sum_len. }
  split; [|repeat split; auto].
  - intros k c. unfold c. split; [apply CN|]. split; [now rewrite CF|]. split; [|split; [apply CT|]].
    + destruct (C253_vehicles_conserved M ord T D w0 tl0 j a k K R) as [P _]. fold w in P. apply Permutation_length in P. rewrite !app_length in P.
      specialize (CN k). specialize (CE k). specialize (CF k). rewrite Ar in CF. unfold Zlen in *. lia.
    + rewrite Forall_forall. intros d Hd. unfold m_trips in Hd. apply filter_In in Hd as [Hd _].
      pose proof (n_start _ _ I) as S1. pose proof (n_gap _ _ I) as S2. rewrite Forall_forall in S1, S2. split; [apply S1, Hd|apply (S2 d Hd)].
  - specialize (CE false) as E0. specialize (CE true) as E1. lia.
Qed.
Print Assumptions C253_counters.
Theorem C253_curves : forall M ord T D w0 tl0 j a k l cin cout, mnet_ok M -> areached M ord T D w0 tl0 j a -> In l (mn_links M) ->
  mk_Nin (mw_cc (ms_w (a_s a))) k l = Some cin -> mk_Nout (mw_cc (ms_w (a_s a))) k l = Some cout ->
  ((cum_total cin - cum_total cout) * mn_fs M == inject_Z (Zlen (on_mlink (mw_cls (ms_w (a_s a))) k (mw_link (ms_w (a_s a)) l))))%Q.
Proof. intros M ord T D w0 tl0 j a k l cin cout K R Hl H1 H2. exact (n_bal _ _ (areached_minv M K _ _ _ _ _ _ _ R) k l cin cout Hl H1 H2). Qed.
Print Assumptions C253_curves.

(** ** C254: the values in force *)
Theorem C254_last_row_in_force : forall M ord T D w0 tl0 j a k r, mnet_ok M -> rows_ok ord T -> areached M ord T D w0 tl0 j a -> given_last T k j r ->
  works_with (mw_link (ms_w (a_s a)) k) (td_prop r) /\ tl_all (a_toll a k) = td_toll r /\ tl_car (a_toll a k) = td_toll r /\ tl_truck (a_toll a k) = td_toll r.
Proof. intros M ord T D w0 tl0 j a k r K RO R G. destruct (in_force_row M K _ _ _ _ _ RO _ _ _ _ R G) as [A ->]. cbn. auto. Qed.
Print Assumptions C254_last_row_in_force.
Theorem C254_as_built_without_row : forall M ord T D w0 tl0 j a k, mnet_ok M -> rows_ok ord T -> areached M ord T D w0 tl0 j a -> never_given T k j ->
  ml_par (mw_link (ms_w (a_s a)) k) = ml_par (mw_link w0 k) /\ a_toll a k = tl0 k.
Proof. intros M ord T D w0 tl0 j a k K RO R G. destruct (in_force_never M K _ _ _ _ _ RO _ _ _ R G) as [[A _] B]. auto. Qed.
Print Assumptions C254_as_built_without_row.
(** rows for later intervals have no effect; without rows the loading is that without the file *)
Theorem C254_no_effect_before : forall M ord T T' D w0 tl0 j, (forall i, (i < j)%nat -> T (Z.of_nat i) = T' (Z.of_nat i)) ->
  attr_run M ord T D j {| a_s := minit M w0; a_toll := tl0 |} = attr_run M ord T' D j {| a_s := minit M w0; a_toll := tl0 |}.
Proof. intros. now apply attr_run_agree. Qed.
Print Assumptions C254_no_effect_before.
Theorem C254_no_rows : forall M ord T D w0 tl0 j s, rows_ok ord T -> (forall i, (i < j)%nat -> T (Z.of_nat i) = []) ->
  mrun M D j (minit M w0) = Ok s <-> attr_run M ord T D j {| a_s := minit M w0; a_toll := tl0 |} = Ok {| a_s := s; a_toll := tl0 |}.
Proof.
  intros M ord T D w0 tl0 j s [P _] E. rewrite (attr_run_none M ord T D w0 tl0 P j E). destruct (mrun M D j (minit M w0)) as [s1|e]; cbn [bind]; split; intros H; try discriminate; congruence.
Qed.
Print Assumptions C254_no_rows.
(** a finished loading does not depend on the rows for the intervals after its end or before its start *)
Theorem C254_rows_after_the_end : forall M ord T T' D fuel a0 a, attr_loading M ord T D fuel a0 = Ok a ->
  (forall i, ms_cur (a_s a0) <= i < ms_cur (a_s a) -> T i = T' i) -> attr_loading M ord T' D fuel a0 = Ok a.
Proof.
  intros M ord T T' D. assert (Mono : forall fuel a0 a, attr_loading M ord T D fuel a0 = Ok a -> ms_cur (a_s a0) <= ms_cur (a_s a)).
  { induction fuel as [|fuel IH]; intros a0 a H; cbn [attr_loading] in H; destruct (mloop_cond M (a_s a0)); try discriminate; try (apply Ok_inj in H as <-; lia).
    apply bind_ok in H as (a1 & H1 & H). apply IH in H. apply attr_body_inv in H1 as (w & tl & _ & E & _). lia. }
  induction fuel as [|fuel IH]; intros a0 a H E; cbn [attr_loading] in *; destruct (mloop_cond M (a_s a0)); try discriminate; try exact H.
  apply bind_ok in H as (a1 & H1 & H). pose proof (Mono _ _ _ H) as L. pose proof (attr_body_inv _ _ _ _ _ _ H1) as (w & tl & _ & Ec & _).
  assert (H1' : attr_body M ord T' D a0 = Ok a1) by (rewrite <- H1; unfold attr_body, attr_once, attr_update; rewrite E by lia; reflexivity).
  rewrite H1'. cbn [bind]. apply IH; [exact H|]. intros i Hi. apply E. lia.
Qed.
Print Assumptions C254_rows_after_the_end.

(** ** C255: rows that cannot be applied *)
(** a row for a link that does not exist, or one that the link rejects, ends the loading in its interval *)
Theorem C255_bad_row_stops_partial : forall M ord T D a k r, rows_ok ord T -> In (k, r) (T (ms_cur (a_s a))) ->
  (~ In k (mn_links M) \/ exists e, mlink_modify (mw_link (ms_w (a_s a)) k) (td_prop r) = Err e) ->
  exists e, attr_body M ord T D a = Err e.
Proof.
  intros M ord T D a k r [P ND] I B. assert (N1 : NoDup (map fst (ord (T (ms_cur (a_s a)))))) by (eapply Permutation_NoDup; [apply Permutation_map, P|apply ND]).
  destruct (rows_err M _ (ms_w (a_s a)) (a_toll a) k r N1 (Permutation_in _ (P _) I) B) as (e & E). exists e. unfold attr_body, attr_once, attr_update. cbv zeta. rewrite E. reflexivity.
Qed.
Print Assumptions C255_bad_row_stops_partial.
(** but not before: everything up to that interval goes as if the row were not there *)
Theorem C255_reported_before_loading_refuted : forall M ord T D w0 tl0 j s k r, rows_ok ord T -> (forall i, (i < j)%nat -> T (Z.of_nat i) = []) ->
  In (k, r) (T (Z.of_nat j)) -> ~ In k (mn_links M) -> mrun M D j (minit M w0) = Ok s ->
  attr_run M ord T D j {| a_s := minit M w0; a_toll := tl0 |} = Ok {| a_s := s; a_toll := tl0 |} /\
  exists e, attr_run M ord T D (S j) {| a_s := minit M w0; a_toll := tl0 |} = Err e.
Proof.
  intros M ord T D w0 tl0 j s k r RO E I N H. assert (A : attr_run M ord T D j {| a_s := minit M w0; a_toll := tl0 |} = Ok {| a_s := s; a_toll := tl0 |}) by (apply C254_no_rows; auto).
  split; [exact A|]. cbn [attr_run]. rewrite A. cbn [bind]. apply C255_bad_row_stops_partial with (k := k) (r := r); [exact RO| |now left].
  cbn [a_s]. assert (Cur : forall j s, mrun M D j (minit M w0) = Ok s -> ms_cur s = Z.of_nat j).
  { clear. induction j as [|j IH]; intros s H; [apply Ok_inj in H as <-; reflexivity|]. apply mrun_S in H as (s1 & H1 & H). apply mloop_body_inv in H as (w & _ & -> & _). rewrite (IH _ H1). lia. }
  rewrite (Cur _ _ H). exact I.
Qed.
Print Assumptions C255_reported_before_loading_refuted.

(** ** a case: link 20 loses a lane and its toll changes in interval 2, link 25 in interval 4 *)
Definition at_row (lanes : Z) (len : Q) (toll : Q) : tdrow :=
  {| td_prop := {| mr_lanes := lanes; mr_len := len; mr_hold_c := 1 # 8; mr_hold_t := 1 # 16; mr_flow_c := 1 # 2; mr_flow_t := 1 # 4; mr_ffs_c := 15; mr_ffs_t := 10 |}; td_toll := toll |}.
Definition at_table : tdtable := fun t => if t =? 2 then [(20, at_row 1 300 7); (30, at_row 3 200 1)] else if t =? 4 then [(25, at_row 1 150 2); (20, at_row 2 300 3)] else [].
Definition no_toll : tolls := {| tl_all := 0; tl_car := 0; tl_truck := 0 |}.
Definition at_run (T : tdtable) (k : nat) : res astate := attr_run ym (@rev _) T (fun _ => ym_draws) k {| a_s := minit ym ym_world; a_toll := fun _ => no_toll |}.
Lemma at_rows_ok : rows_ok (@rev _) at_table.
Proof.
  split; [intros; apply Permutation_rev|]. intros t. unfold at_table. destruct (t =? 2); [|destruct (t =? 4)]; repeat constructor; cbn; intuition discriminate.
Qed.
Definition at_at (T : tdtable) (k : nat) : astate := match at_run T k with Ok a => a | Err _ => {| a_s := minit ym ym_world; a_toll := fun _ => no_toll |} end.
Lemma at_reached T k : is_ok (at_run T k) = true -> areached ym (@rev _) T (fun _ => ym_draws) ym_world (fun _ => no_toll) k (at_at T k).
Proof. intros H. split; [apply ym_fresh|]. split; [intros; exact ym_draws_valid|]. unfold at_at. fold (at_run T k). destruct (at_run T k); [reflexivity|discriminate]. Qed.
Example C253_case : mnet_ok ym /\ areached ym (@rev _) at_table (fun _ => ym_draws) ym_world (fun _ => no_toll) 9 (at_at at_table 9) /\
  let w := ms_w (a_s (at_at at_table 9)) in
  (m_on_links ym w false, m_arrived w false, m_on_links ym w true, m_arrived w true) = ([13], [8; 4; 11; 3; 2; 10; 7; 1], [15; 14], [6; 5; 12; 9]) /\
  map (fun k => cf_tt (mw_cf w k)) [false; true] = [51; 21]%Q.
Proof. split; [apply ym_net_ok; reflexivity|]. split; [apply at_reached; vm_compute; reflexivity|]. vm_compute. split; reflexivity. Qed.
Example C254_case : rows_ok (@rev _) at_table /\ given_last at_table 20 9 (at_row 2 300 3) /\ given_last at_table 20 4 (at_row 1 300 7) /\ given_last at_table 30 9 (at_row 3 200 1) /\ never_given at_table 10 9 /\
  let a := at_at at_table 9 in map (fun l => (mp_lanes (ml_par (mw_link (ms_w (a_s a)) l)), mp_len (ml_par (mw_link (ms_w (a_s a)) l)), tl_car (a_toll a l))) [20; 25; 30; 10] = [(2, 300%Q, 3%Q); (1, 150%Q, 2%Q); (3, 200%Q, 1%Q); (2, 100%Q, 0%Q)].
Proof.
  split; [exact at_rows_ok|]. split; [|split; [|split; [|split]]].
  - exists 4%nat. split; [lia|]. split; [cbn; auto|]. intros i r Hi. unfold at_table. replace (Z.of_nat i =? 2) with false by lia. replace (Z.of_nat i =? 4) with false by lia. auto.
  - exists 2%nat. split; [lia|]. split; [cbn; auto|]. intros i r Hi. unfold at_table. replace (Z.of_nat i =? 2) with false by lia. replace (Z.of_nat i =? 4) with false by lia. auto.
  - exists 2%nat. split; [lia|]. split; [cbn; auto|]. intros i r Hi. unfold at_table. replace (Z.of_nat i =? 2) with false by lia. destruct (Z.of_nat i =? 4); cbn; intuition discriminate.
  - intros i r Hi. unfold at_table. destruct (Z.of_nat i =? 2), (Z.of_nat i =? 4); cbn; intuition discriminate.
  - vm_compute. reflexivity.
Qed.
(** a row for link 99, and one that would change the number of cells of link 20 *)
Definition at_unknown : tdtable := fun t => if t =? 3 then [(99, at_row 1 300 7)] else [].
Definition at_shorter : tdtable := fun t => if t =? 3 then [(20, at_row 2 150 0)] else [].
Example C255_case : rows_ok (@rev _) at_unknown /\ is_ok (ym_run ym 3) = true /\ at_run at_unknown 4 = Err EUB /\
  is_ok (at_run at_shorter 3) = true /\ at_run at_shorter 4 = Err EThrow.
Proof.
  split; [split; [intros; apply Permutation_rev|]; intros t; unfold at_unknown; destruct (t =? 3); repeat constructor; cbn; intuition discriminate|].
  split; [vm_compute; reflexivity|]. split; [vm_compute; reflexivity|]. split; vm_compute; reflexivity.
Qed.
