(** C258-C259: the route report of vehicle tracking. *)
From Verif Require Import Base Base_lemmas Model_Num Proof_Num Spec_Path Proof_Path Model_CC Spec_CC Proof_CC Model_Path Model_Link Spec_Link Spec_Node
  Proof_Link Proof_Link3 Proof_Link4 Proof_Link5 Model_World Model_Node Proof_Node Proof_Node3 Model_Sim Spec_Sim Proof_Sim1 Proof_Sim2 Proof_Sim3 Proof_Sim4 Proof_Sim5 Proof_Sim6 Spec_Route Spec_Valid Proof_Safe2 Proof_Sim7
  Model_McLink Spec_McLink Proof_McLink Model_McNode Spec_McNode Proof_McNode Model_McSim Spec_McSim Proof_McSim1 Proof_McSim2 Proof_McSim3 Proof_McSim5 Proof_McRoute1 Proof_McRoute2 Proof_McRoute3 Spec_McValid Proof_McValid2
  Ex_Net Ex_McNet Prop_Node Prop_Sim Prop_McSim Prop_McValid Model_Track Spec_Track Proof_Track.
Local Open Scope Z_scope.

(** The report of a tracking run.  The network is loaded as without tracking.  A row is
    in the report exactly when it describes, at a report time, a vehicle under way that
    was selected in its departure interval. *)
Theorem C258_report : forall M D w0 C U R k s trk rows, mnet_ok M -> mfresh_world M w0 -> (forall t, mdraws_valid (D t)) ->
  0 < tc_freq C -> (forall t l, Permutation l (R t l)) -> track_run M D C U R k (minit M w0) = Ok (s, trk, rows) ->
  mrun M D k (minit M w0) = Ok s /\
  forall r, In r rows <-> exists a v sa, (a < k)%nat /\ (tc_freq C | Z.of_nat a) /\ mrun M D (S a) (minit M w0) = Ok sa /\ under_way (ms_w sa) v /\
    (exists b, (b <= a)%nat /\ selected M D C U w0 b v) /\ describes C (Z.of_nat a) (ms_w sa) v r.
Proof. intros M D w0 C U R k s trk rows K F DV FQ PR H. destruct (track_run_spec M K D w0 F DV C U R FQ PR k s trk rows H) as (A & _ & _ & B & _). split; [exact A|exact B]. Qed.
Print Assumptions C258_report.

(** One row per vehicle and report time. *)
Theorem C258_one_row : forall M D w0 C U R k s trk rows, mnet_ok M -> mfresh_world M w0 -> (forall t, mdraws_valid (D t)) ->
  0 < tc_freq C -> (forall t l, Permutation l (R t l)) -> track_run M D C U R k (minit M w0) = Ok (s, trk, rows) ->
  NoDup (map (fun r => (tr_time r, tr_veh r)) rows).
Proof. intros M D w0 C U R k s trk rows K F DV FQ PR H. apply (track_run_spec M K D w0 F DV C U R FQ PR k s trk rows H). Qed.
Print Assumptions C258_one_row.

(** Tracking never makes a run fail. *)
Theorem C258_tracking_harmless : forall M D w0 C U R k s, mrun M D k (minit M w0) = Ok s ->
  exists trk rows, track_run M D C U R k (minit M w0) = Ok (s, trk, rows).
Proof. intros. now apply track_run_total. Qed.
Print Assumptions C258_tracking_harmless.

Lemma start_kept M D w0 v : mnet_ok M -> mfresh_world M w0 -> (forall t, mdraws_valid (D t)) -> forall j k s s', (j <= k)%nat ->
  mrun M D j (minit M w0) = Ok s -> mrun M D k (minit M w0) = Ok s' -> 1 <= v <= f_num (mw_fac (ms_w s)) ->
  v_start (mw_veh (ms_w s') v) = v_start (mw_veh (ms_w s) v) /\ v <= f_num (mw_fac (ms_w s')).
Proof.
  intros K F DV j k s s' L. revert s'. induction L as [|k L IH]; intros s' H H' Hv.
  - rewrite H in H'. apply Ok_inj in H' as <-. split; [reflexivity|lia].
  - pose proof H' as H2. apply mrun_S in H2 as (s1 & H1 & H2). destruct (IH _ H H1 Hv) as [A B].
    assert (Re : mreached M D k s1) by (exists w0; eauto). assert (H3 : mrun M D 1 s1 = Ok s') by (cbn [mrun bind]; exact H2).
    destruct (C97_identity_fixed M D k 1 s1 s' v K Re H3 ltac:(lia)) as (_ & _ & _ & _ & _ & E & _). rewrite E. split; [exact A|].
    destruct (mkept M D K 1 k s1 s' Re H3) as (G & _). lia.
Qed.

(** Vehicles whose departure interval is no report time are never in the report. *)
Theorem C258_off_schedule_missed : forall M D w0 C U R k s trk rows v, mnet_ok M -> mfresh_world M w0 -> (forall t, mdraws_valid (D t)) ->
  0 < tc_freq C -> (forall t l, Permutation l (R t l)) -> track_run M D C U R k (minit M w0) = Ok (s, trk, rows) ->
  ~ (tc_freq C | v_start (mw_veh (ms_w s) v)) -> forall r, In r rows -> tr_veh r <> v.
Proof.
  intros M D w0 C U R k s trk rows v K F DV FQ PR H Hv r Hr E. destruct (C258_report M D w0 C U R k s trk rows K F DV FQ PR H) as [Hs I].
  apply I in Hr as (a & u & sa & L & _ & Ha & W & (b & Lb & Sl) & De). destruct De as (_ & De & _). rewrite E in De. subst u.
  destruct Sl as (Dv & _ & _ & sb & Hb & (Wb & _) & Es & _). destruct (start_kept M D w0 v K F DV (S b) k sb s ltac:(lia) Hb Hs Wb) as [A _].
  apply Hv. rewrite A, Es. exact Dv.
Qed.
Print Assumptions C258_off_schedule_missed.

(** Vehicles still waiting at their origin at the end of their departure interval are
    never in the report. *)
Theorem C258_waiting_missed : forall M D w0 C U R k s trk rows b sb v, mnet_ok M -> mfresh_world M w0 -> (forall t, mdraws_valid (D t)) ->
  0 < tc_freq C -> (forall t l, Permutation l (R t l)) -> track_run M D C U R k (minit M w0) = Ok (s, trk, rows) ->
  mrun M D (S b) (minit M w0) = Ok sb -> 1 <= v <= f_num (mw_fac (ms_w sb)) -> v_start (mw_veh (ms_w sb) v) = Z.of_nat b -> v_cur (mw_veh (ms_w sb) v) = None ->
  forall r, In r rows -> tr_veh r <> v.
Proof.
  intros M D w0 C U R k s trk rows b sb v K F DV FQ PR H Hb Hv Es Ec r Hr E. destruct (C258_report M D w0 C U R k s trk rows K F DV FQ PR H) as [Hs I].
  apply I in Hr as (a & u & sa & L & _ & Ha & W & (b' & Lb & Sl) & De). destruct De as (_ & De & _). rewrite E in De. subst u.
  destruct Sl as (_ & _ & _ & sc & Hc & (Wc & _) & Es' & _ & (l & Ecur & _) & _).
  assert (EQ : b' = b).
  { destruct (Nat.le_ge_cases b b') as [Le|Le].
    - destruct (start_kept M D w0 v K F DV (S b) (S b') sb sc ltac:(lia) Hb Hc Hv) as [A _]. lia.
    - destruct (start_kept M D w0 v K F DV (S b') (S b) sc sb ltac:(lia) Hc Hb Wc) as [A _]. lia. }
  subst b'. rewrite Hb in Hc. apply Ok_inj in Hc as <-. congruence.
Qed.
Print Assumptions C258_waiting_missed.

(** While a vehicle is on a link and not yet at its end, the report gives that link
    itself as the next link. *)
Theorem C259_next_link_is_current : forall M D w0 C U R k s trk rows r a sa v l c, mvalid_input M w0 -> (forall t, mdraws_valid (D t)) ->
  0 < tc_freq C -> (forall t l, Permutation l (R t l)) -> track_run M D C U R k (minit M w0) = Ok (s, trk, rows) ->
  In r rows -> tr_time r = Z.of_nat a -> tr_veh r = v -> mrun M D (S a) (minit M w0) = Ok sa ->
  In l (mn_links M) -> In v (on_mlink (mw_cls (ms_w sa)) c (mw_link (ms_w sa) l)) -> ~ In v (ml_fin (mw_link (ms_w sa) l)) ->
  tr_cur r = Some l /\ tr_next r = Some l.
Proof.
  intros M D w0 C U R k s trk rows r a sa v l c VA DV FQ PR H Hr Et Ev Ha Hl Hon Nf.
  pose proof (mv_net _ _ VA) as K. pose proof (mv_fresh _ _ VA) as F.
  destruct (C258_report M D w0 C U R k s trk rows K F DV FQ PR H) as [_ I]. apply I in Hr as (a' & u & sx & _ & _ & Hx & _ & _ & De).
  unfold describes in De. cbv zeta in De. destruct De as (D1 & D2 & _ & _ & _ & _ & _ & _ & D9 & D10).
  assert (a' = a) by lia. subst a'. rewrite Ha in Hx. apply Ok_inj in Hx as <-. rewrite Ev in D2. subst u. rewrite D9, D10.
  destruct (mrun_total M w0 VA D DV (S a)) as (s' & E' & _ & B). rewrite Ha in E'. apply Ok_inj in E' as <-.
  assert (Im : minv M (ms_w sa)) by (eapply mreached_minv; [exact K|]; exists w0; eauto).
  assert (Hm : In v (mall (mw_link (ms_w sa) l))).
  { apply zc_In. apply zc_In in Hon. rewrite on_mlink_class in Hon by apply (n_body _ _ Im l Hl). destruct (Bool.eqb _ _); lia. }
  split.
  - destruct (on_link_state (snet M) (shadow w0) (rvalid_shadow M w0 VA) (shadow (ms_w sa)) v l (mb_r _ _ _ _ B) Hl) as (_ & Ec & _); [cbn [shadow w_link]; now rewrite on_shadow|exact Ec].
  - apply (mb_next _ _ _ _ B l v Hl). unfold mall in Hm. apply in_app_or in Hm as [Hm|Hm]; [contradiction|exact Hm].
Qed.
Print Assumptions C259_next_link_is_current.

(** everybody tracked, reports in every second interval *)
Definition yt : tconf := {| tc_ods := []; tc_ints := []; tc_rate := 1; tc_freq := 2; tc_oid := fun n => n; tc_did := fun n => n |}.
Definition yt_draw : Z -> Z -> Q := fun _ v => if Z.even v then (1 # 2)%Q else (9 # 10)%Q.
Definition yt_run (k : nat) := track_run (yv true) (fun _ => ym_draws) yt yt_draw (fun _ l => l) k (minit (yv true) ym_world).
Definition yt_rows (k : nat) : list trow := match yt_run k with Ok (_, _, rows) => rows | Err _ => [] end.

Lemma yt_missed : match yt_run 6 with Ok (_, _, rows) => negb (existsb (fun r => tr_veh r =? 10) rows) | Err _ => false end = true.
Proof. vm_compute. reflexivity. Qed.
Lemma yt_run_ok k : yt_run k = track_run (yv true) (fun _ => ym_draws) yt yt_draw (fun _ l => l) k (minit (yv true) ym_world).
Proof. reflexivity. Qed.
Lemma yt_way : under_way (ms_w (ym_at (yv true) 5)) 10 /\ v_cur (mw_veh (ms_w (ym_at (yv true) 5)) 10) <> None.
Proof.
  split; [split; vm_compute; [split; discriminate|intros X; repeat (destruct X as [X|X]; [discriminate X|]); exact X]|vm_compute; discriminate].
Qed.
Lemma yt_mrun : mrun (yv true) (fun _ => ym_draws) 5 (minit (yv true) ym_world) = Ok (ym_at (yv true) 5).
Proof. apply ym_mrun. vm_compute. reflexivity. Qed.
Lemma yt_missed_ex n : (match yt_run n with Ok (_, _, rows) => negb (existsb (fun r => tr_veh r =? 10) rows) | Err _ => false end = true) ->
  exists s trk rows, yt_run n = Ok (s, trk, rows) /\ forall r, In r rows -> tr_veh r <> 10.
Proof.
  destruct (yt_run n) as [[[s trk] rows]|]; [|discriminate]. intros B. exists s, trk, rows. split; [reflexivity|]. apply negb_true_iff in B.
  intros r Hr C. assert (X : existsb (fun r => tr_veh r =? 10) rows = true) by (apply existsb_exists; exists r; split; [exact Hr|apply Z.eqb_eq, C]). congruence.
Qed.
(** Vehicle 10, which leaves in interval 3, is under way at report time 4 but not in
    the report, although every vehicle is to be tracked. *)
Theorem C258_every_tracked_vehicle_refuted : exists M D w0 C U R k s trk rows v s', mvalid_input M w0 /\ (forall t, mdraws_valid (D t)) /\ (forall t l, Permutation l (R t l)) /\
  tc_ods C = [] /\ tc_ints C = [] /\ (forall t u, U t u <= tc_rate C)%Q /\ track_run M D C U R k (minit M w0) = Ok (s, trk, rows) /\
  (4 < k)%nat /\ (tc_freq C | 4) /\ mrun M D 5 (minit M w0) = Ok s' /\ under_way (ms_w s') v /\ v_cur (mw_veh (ms_w s') v) <> None /\ forall r, In r rows -> tr_veh r <> v.
Proof.
  destruct (yt_missed_ex 6 yt_missed) as (s & trk & rows & E & N). rewrite yt_run_ok in E.
  exists (yv true), (fun _ => ym_draws), ym_world, yt, yt_draw, (fun _ l => l), 6%nat, s, trk, rows, 10, (ym_at (yv true) 5).
  split; [apply yv_valid|]. split; [intros; apply ym_draws_valid|]. split; [reflexivity|]. split; [reflexivity|]. split; [reflexivity|].
  split; [intros t u; unfold yt_draw; destruct (Z.even u); vm_compute; discriminate|]. split; [exact E|]. split; [lia|]. split; [exists 2; reflexivity|].
  split; [exact yt_mrun|]. split; [exact (proj1 yt_way)|]. split; [exact (proj2 yt_way)|exact N].
Qed.
Print Assumptions C258_every_tracked_vehicle_refuted.

Lemma yt_next_ex n : existsb (fun r => (tr_veh r =? 1) && (tr_time r =? 2) && opt_eqb (tr_cur r) (Some 20) && opt_eqb (tr_next r) (Some 20)) (yt_rows n) = true ->
  exists s trk rows r, yt_run n = Ok (s, trk, rows) /\ In r rows /\ tr_veh r = 1 /\ tr_time r = 2 /\ tr_cur r = Some 20 /\ tr_next r = Some 20.
Proof.
  unfold yt_rows. destruct (yt_run n) as [[[s trk] rows]|]; [|discriminate]. intros B. apply existsb_exists in B as (r & Hr & B). exists s, trk, rows, r.
  apply andb_true_iff in B as [B B4]. apply andb_true_iff in B as [B B3]. apply andb_true_iff in B as [B1 B2].
  apply Z.eqb_eq in B1, B2. apply opt_eqb_spec in B3, B4. auto 8.
Qed.
(** Vehicle 1 has the route 10, 20, 30; on link 20 it is reported with next link 20. *)
Theorem C259_next_link_refuted : exists M D w0 C U R k s trk rows r p s', mvalid_input M w0 /\ (forall t, mdraws_valid (D t)) /\ (forall t l, Permutation l (R t l)) /\
  track_run M D C U R k (minit M w0) = Ok (s, trk, rows) /\ In r rows /\ tr_time r = 2 /\ mrun M D 3 (minit M w0) = Ok s' /\
  v_path (mw_veh (ms_w s') (tr_veh r)) = Some p /\ r_links p = [10; 20; 30] /\ tr_cur r = Some 20 /\ tr_next r = Some 20.
Proof.
  destruct (yt_next_ex 6 ltac:(vm_compute; reflexivity)) as (s & trk & rows & r & E & Hr & V & T & Cu & Nx). rewrite yt_run_ok in E.
  assert (X : exists s' p, mrun (yv true) (fun _ => ym_draws) 3 (minit (yv true) ym_world) = Ok s' /\ v_path (mw_veh (ms_w s') 1) = Some p /\ r_links p = [10; 20; 30]).
  { exists (ym_at (yv true) 3). eexists. split; [apply ym_mrun; vm_compute; reflexivity|]. split; vm_compute; reflexivity. }
  destruct X as (s' & p & E3 & Hp & Lp).
  exists (yv true), (fun _ => ym_draws), ym_world, yt, yt_draw, (fun _ l => l), 6%nat, s, trk, rows, r, p, s'. rewrite V.
  split; [apply yv_valid|]. split; [intros; apply ym_draws_valid|]. split; [reflexivity|]. auto 10.
Qed.
Print Assumptions C259_next_link_refuted.

Example C258_case : mnet_ok (yv true) /\ mfresh_world (yv true) ym_world /\ mdraws_valid ym_draws /\
  map (fun r => (tr_time r, tr_veh r, tr_onode r, tr_cur r, tr_next r)) (filter (fun r => memb (tr_veh r) [1; 6]) (yt_rows 6)) =
    [(0, 1, 1, Some 10, Some 10); (0, 6, 1, Some 10, Some 10); (2, 1, 1, Some 20, Some 20); (2, 6, 1, Some 25, Some 25); (4, 1, 1, Some 20, Some 20)].
Proof. split; [apply ym_net_ok; reflexivity|]. split; [apply ym_fresh|]. split; [apply ym_draws_valid|]. vm_compute. reflexivity. Qed.
