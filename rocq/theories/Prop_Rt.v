(** The real-time engine: C136 - C144. *)
From Verif Require Import Base Base_lemmas Model_Num Proof_Num Model_Graph Spec_Graph Prop_Graph Model_CC Model_Path Model_Link Spec_Link Model_World Model_Node Spec_Node
  Model_Sim Spec_Sim Ex_Net Proof_Link4 Proof_GRJ Proof_Path Proof_Safe2 Prop_Sim Model_Rt Spec_Rt Proof_Rt Proof_Rt2 Proof_Rt3 Proof_Rt4.
Open Scope Z_scope.
Local Lemma inject_Z_nz z : (0 < z)%Z -> ~ (inject_Z z == 0)%Q.
Proof. intros H. change 0%Q with (inject_Z 0). rewrite inject_Z_injective. lia. Qed.

(** * C136: repeating the planning step *)
Theorem C136_planning_repeats_refuted : forall est opt s0, life_init life_start = Ok s0 ->
  (forall k, (2 <= k)%nat -> life_run est opt k s0 = Err EUB) /\
  ((1 <= est)%nat \/ (2 <= opt)%nat -> forall k, (1 <= k)%nat -> life_run est opt k s0 = Err EUB).
Proof.
  intros est opt s0 H. cbn in H. apply Ok_inj in H as <-.
  assert (B : (1 <= est)%nat \/ (2 <= opt)%nat -> life_iteration est opt {| lf_table := true; lf_before := Some false; lf_after := Some false |} = Err EUB).
  { intros HB. unfold life_iteration. cbn [lf_table lf_before lf_after]. destruct est as [|[|est]].
    - cbn. destruct opt as [|[|opt]]; [lia|lia|]. now rewrite iters_many.
    - cbn [life_iters init_routing guard bind destroy fst snd]. destruct opt as [|[|opt]]; [reflexivity|reflexivity|]. now rewrite iters_many.
    - now rewrite iters_many. }
  assert (C : forall k, (1 <= est)%nat \/ (2 <= opt)%nat -> (1 <= k)%nat -> life_run est opt k {| lf_table := true; lf_before := Some false; lf_after := Some false |} = Err EUB).
  { intros [|k] HB Hk; [lia|]. cbn [life_run]. now rewrite (B HB). }
  split; [|intros HB k Hk; now apply C]. intros k Hk. destruct est as [|est]; [|apply C; lia]. destruct opt as [|[|opt]]; [| |apply C; lia]; destruct k as [|[|k]]; try lia; reflexivity.
Qed.
Print Assumptions C136_planning_repeats_refuted.

(** What does work: one planning step without estimation and with at most one
    optimisation; after it the engine cannot even be initialised again. *)
Theorem C136_one_step_without_estimation : forall opt s0, (opt <= 1)%nat -> life_init life_start = Ok s0 ->
  exists s1, life_run 0 opt 1 s0 = Ok s1 /\ life_init s1 = Err EUB.
Proof.
  intros opt s0 Ho H. cbn in H. apply Ok_inj in H as <-. destruct opt as [|[|opt]]; [| |lia]; eexists; (split; [reflexivity|reflexivity]).
Qed.
Print Assumptions C136_one_step_without_estimation.
Example C136_case : exists s0, life_init life_start = Ok s0 /\ life_run 3 2 1 s0 = Err EUB /\ life_run 0 1 2 s0 = Err EUB.
Proof. eexists. split; [reflexivity|]. split; reflexivity. Qed.

(** * C137: compliance *)
Open Scope Q_scope.
Theorem C137_compliance_estimate_refuted : forall N assign pt v v', update_ratio N assign pt v = Ok v' ->
  vm_link v' = vm_link v /\ vm_outs v' = vm_outs v /\ vm_detour v' = vm_detour v /\
  vm_ratio v' == (7 # 10) * vm_ratio v + (3 # 10) /\ (vm_ratio v == 1 -> vm_ratio v' == 1).
Proof.
  intros N assign pt v v' H. destruct (update_ratio_val _ _ _ _ _ H) as (A & B & C & D). repeat split; auto; [rewrite D; ring|]. intros E. rewrite D, E. reflexivity.
Qed.
Print Assumptions C137_compliance_estimate_refuted.

(** Signs start with ratio 1, so the predicted shares are the ones before. *)
Theorem C137_prediction_ignores_signs : forall vs pt, table_ok pt -> (forall v, In v vs -> vm_ratio v == 1) ->
  exists pt', predicted_shares vs pt = Ok pt' /\ same_table pt pt'.
Proof.
  intros vs pt T H. assert (S : same_table pt (fold_left comply vs pt)).
  { clear T. revert pt. induction vs as [|v vs IH]; intros pt; cbn [fold_left]; [apply same_table_refl|].
    eapply same_table_trans; [apply comply_one, H; now left|]. apply IH. intros; apply H; now right. }
  destruct (normalize_table_same (fold_left comply vs pt)) as (pt' & E & S'); [eapply same_table_ok; eauto|].
  exists pt'. split; [exact E|]. eapply same_table_trans; eauto.
Qed.
Print Assumptions C137_prediction_ignores_signs.
Theorem C137_signs_start_compliant : forall g l v, make_vms g l = Ok v -> vm_ratio v == 1.
Proof. intros g l v H. unfold make_vms in H. apply bind_ok in H as (e & _ & H). apply bind_ok in H as (o & _ & H). apply Ok_inj in H as <-. reflexivity. Qed.
Print Assumptions C137_signs_start_compliant.

(** a table with four columns, used below *)
Definition rt_entry (i : Z) (links : list Z) (p : Q) (buf : list Q) : pentry := {| e_path := {| r_id := i; r_links := links |}; e_p := p; e_buf := buf |}.
Definition rt_pt : ptable :=
  [((1, 4)%Z, [rt_entry 0 [10; 20; 30]%Z (1 # 4) [1 # 4; 0; 3 # 4; 0]; rt_entry 1 [10; 25; 30]%Z (3 # 4) [3 # 4; 0; 1 # 4; 0]]);
   ((5, 4)%Z, [rt_entry 2 [50; 20; 30]%Z 1 [1; 0; 1; 0]])].
Lemma rt_ok : table_ok rt_pt.
Proof.
  intros k es [E | [E | []]]; injection E as <- <-; (split; [discriminate|]); (split; [|reflexivity]).
  - intros e [<- | [<- | []]]; cbn; lra.
  - intros e [<- | []]; cbn; lra.
Qed.
Lemma rt_bufs : bufs 4 rt_pt.
Proof. intros k es e [E | [E | []]] I; injection E as <- <-; cbn in I; intuition (subst; reflexivity). Qed.
Lemma rt_routes : routes_ok (fun ls => ls <> []) rt_pt.
Proof. intros k es e [E | [E | []]] I; injection E as <- <-; cbn in I; intuition (subst; discriminate). Qed.
Definition rt_dem (k : Z * Z) : Q := if (fst k =? 1)%Z then 7 # 2 else 2.
Lemma rt_demands : demands_are xn 0 rt_pt rt_dem.
Proof. intros k es [E | [E | []]]; injection E as <- <-; reflexivity. Qed.
Definition rt_sign (d : Z) (r : Q) : vms := {| vm_link := 20; vm_outs := [20; 25]%Z; vm_detour := d; vm_ratio := r |}.
(** nobody follows the sign, yet the ratio goes up *)
Example C137_case : (exists v, update_ratio xn 0 rt_pt (rt_sign 25 (1 # 2)) = Ok v /\ vm_ratio v == 13 # 20) /\
  sign_flows xn 0 rt_pt (rt_sign 25 (1 # 2)) = Ok ((1 * 2)%Q, (1 * 2)%Q) /\
  (exists pt', predicted_shares [rt_sign 25 1] rt_pt = Ok pt' /\ map (fun x => map (fun e => Qred (e_p e)) (snd x)) pt' = [[1 # 4; 3 # 4]; [1]]).
Proof. split; [|split]; [eexists; split; [reflexivity|vm_compute; reflexivity]|vm_compute; reflexivity|eexists; split; vm_compute; reflexivity]. Qed.

(** * C138: the link a sign recommends *)
Theorem C138_sign_recommends_greatest_gain : forall N assign pt dem v v', demands_are N assign pt dem -> generate_detour N assign pt v = Ok v' ->
  In (vm_detour v') (vm_outs v) /\ (0 <= vm_detour v')%Z /\ vm_ratio v' = vm_ratio v /\
  forall b, In b (vm_outs v) -> gain dem pt b <= gain dem pt (vm_detour v').
Proof.
  intros N assign pt dem v v' D H. unfold generate_detour in H. destruct (best_fold N assign pt dem D (vm_outs v) None) as (r & E & HR); [discriminate|].
  rewrite E in H. cbn [bind] in H. destruct r as [[b g]|]; [|discriminate]. apply bind_ok in H as ([] & G & H). apply guard_ok, Z.leb_le in G. apply Ok_inj in H as <-. cbn.
  destruct HR as (_ & [I|I] & M & _); [|discriminate]. auto.
Qed.
Print Assumptions C138_sign_recommends_greatest_gain.

(** The candidates are the links that leave the start of the sign's link: the link
    itself is one, the links that can follow it are none. *)
Theorem C138_sign_covers_next_links_refuted : forall ops l v, let a := a_build ops in make_vms (gbuild ops) l = Ok v ->
  exists f t, In (l, (f, t)) (a_links a) /\ vm_link v = l /\ In l (vm_outs v) /\
  (forall b, In b (vm_outs v) <-> exists t', In (b, (f, t')) (a_links a)) /\
  (t <> f -> forall b t', In (b, (t, t')) (a_links a) -> ~ In b (vm_outs v)).
Proof.
  intros ops l v a H. destruct (C17_graph_stores_what_was_added ops) as (_ & _ & CO & CN & CI & _ & CE). fold a in CO, CN, CI, CE.
  unfold make_vms in H. apply bind_ok in H as ([f t] & HE & H). apply bind_ok in H as (outs & HO & H). apply Ok_inj in H as <-. cbn [fst vm_link vm_outs] in *.
  pose proof (proj1 (CE _ _ _) HE) as IL. exists f, t.
  assert (Io : forall b, In b outs <-> exists t', In (b, (f, t')) (a_links a)).
  { intros b. destruct (in_dec Z.eq_dec f (a_nodes a)) as [I|I]; [|rewrite CN in HO by exact I; discriminate].
    rewrite CO in HO by exact I. apply Ok_inj in HO as <-. rewrite CI. split; [intros ([f0 t0] & J & <-); cbn; eauto|intros (t' & J); exists (f, t'); auto]. }
  split; [exact IL|]. split; [reflexivity|]. split; [apply Io; eauto|]. split; [exact Io|]. intros Ne b t' I J. apply Io in J as (t2 & J).
  apply CE in I. apply CE in J. rewrite I in J. injection J as -> _. congruence.
Qed.
Print Assumptions C138_sign_covers_next_links_refuted.

(** After the planning (copy the shares to column 0, optimise, copy them to column 2)
    every gain is zero and the sign recommends its first candidate. *)
Theorem C138_sign_recommends_first_link : forall N assign par n step dem obs pt v b rest,
  (0 < n)%Z -> 0 <= step -> step <= 9999 -> (forall k, 0 <= dem k) ->
  (forall avg flow, In (avg, flow) obs -> forall l, par_pos (par l) /\ 0 < avg l /\ 0 <= flow l) ->
  table_ok pt -> bufs 4 pt -> routes_ok (fun ls => ls <> []) pt -> demands_are N assign pt dem ->
  vm_outs v = b :: rest -> (0 <= b)%Z ->
  exists pt2 v', optimize_shares N assign par n step 0 obs (copy_p 0 pt) = Ok pt2 /\ generate_detour N assign (copy_p 2 pt2) v = Ok v' /\ vm_detour v' = b.
Proof.
  intros N assign par n step dem obs pt v b rest Hn S0 S1 DP HO T B R D EV Hb.
  pose proof (copy_p_same 0 pt) as SM.
  destruct (optimize_kept N assign par n step dem Hn S0 S1 DP obs 0%Z (copy_p 0 pt)) as (pt2 & E & K);
    [lia|exact HO|eapply same_table_ok; eauto|now apply copy_p_bufs|eapply same_routes; eauto|eapply same_demands; eauto|].
  pose proof (plan_flat _ pt2 dem pt B eq_refl K) as FL.
  assert (D3 : demands_are N assign (copy_p 2 pt2) dem).
  { eapply same_demands; [apply copy_p_same|]. eapply same_demands; [exact (kept_same_t _ _ _ K)|]. eapply same_demands; eauto. }
  assert (X : exists v', generate_detour N assign (copy_p 2 pt2) v = Ok v' /\ vm_detour v' = b); [|destruct X as (v' & X1 & X2); exists pt2, v'; auto].
  unfold generate_detour. rewrite EV. cbn [foldM]. unfold best_step at 1. destruct (link_gain_ok N assign _ dem b D3) as (g & EG & VG). rewrite EG. cbn [bind].
  rewrite FL in VG. destruct (best_flat N assign _ dem D3 FL rest b g VG) as (g' & EB & _). rewrite EB. cbn [bind].
  replace (0 <=? b)%Z with true by (symmetry; now apply Z.leb_le). cbn [guard bind]. eexists. split; reflexivity.
Qed.
Print Assumptions C138_sign_recommends_first_link.

Definition rt_par (l : Z) : lparam := l_par (w_link xn_world l).
Lemma rt_par_pos l : par_pos (rt_par l).
Proof. unfold rt_par, par_pos. cbn. unfold xn_link. destruct (l =? 20)%Z; [vm_compute; split; reflexivity|]. destruct (l =? 25)%Z; vm_compute; split; reflexivity. Qed.
Lemma rt_dem_pos k : 0 <= rt_dem k.
Proof. unfold rt_dem. destruct (fst k =? 1)%Z; lra. Qed.
Example C138_case :
  (exists v, generate_detour xn 0 rt_pt (rt_sign (-1) 1) = Ok v /\ vm_detour v = 20%Z /\ gain rt_dem rt_pt 25 == -7 # 4 /\ gain rt_dem rt_pt 20 == 7 # 4) /\
  (exists v, make_vms (gbuild C17_ops) 10 = Ok v /\ vm_outs v = [11; 10]%Z) /\ In (13, (2, 3))%Z (a_links (a_build C17_ops)) /\ In (10, (1, 2))%Z (a_links (a_build C17_ops)) /\
  (exists pt2 v', optimize_shares xn 0 rt_par 5 (1 # 2) 0 [((fun _ => 7 # 1), (fun l => if (l =? 20)%Z then 100 else 0))] (copy_p 0 rt_pt) = Ok pt2 /\
     generate_detour xn 0 (copy_p 2 pt2) (rt_sign (-1) 1) = Ok v' /\ vm_detour v' = 20%Z).
Proof.
  split; [eexists; split; [vm_compute; reflexivity|split; [reflexivity|split; vm_compute; reflexivity]]|].
  split; [eexists; split; [vm_compute; reflexivity|reflexivity]|]. split; [vm_compute; auto|]. split; [vm_compute; auto|].
  apply (C138_sign_recommends_first_link xn 0 rt_par 5 (1 # 2) rt_dem _ rt_pt (rt_sign (-1) 1) 20 [25%Z]); try reflexivity; try lra; try lia;
    auto using rt_dem_pos, rt_ok, rt_bufs, rt_routes, rt_demands; try discriminate.
  intros avg flow [E | []] l. injection E as <- <-. split; [apply rt_par_pos|]. split; [reflexivity|]. destruct (l =? 20)%Z; lra.
Qed.

(** * C139: averages of a pass *)
Theorem C139_average_is_mean_refuted : forall N D ut m sp assign w avg x, (0 < m)%Z -> (0 < sp)%Z ->
  gradient_pass N D ut m sp assign w avg = Ok x ->
  (sp <= m)%Z /\ exists f, let q := (m / sp)%Z in let samples := filter (sampled q) (seq 0 (Z.to_nat m)) in
   pass_states N D ut m sp assign (Z.to_nat m) (pass_start w avg) f /\ f (Z.to_nat m) = x /\
   (forall l, pa_avg x l == avg l + sumQ (map (fun j => mt_tt (pa_m (f (S j))) l) samples) / inject_Z sp) /\
   Zlen samples = (m / q)%Z /\ (sp <= m / q)%Z.
Proof.
  intros N D ut m sp assign w avg x Hm Hsp H. unfold gradient_pass in H. destruct (pass_trace _ _ _ _ _ _ _ _ _ H) as (f & PS & E).
  assert (ZQ : Z.quot m sp = (m / sp)%Z) by (apply Z.quot_div_nonneg; lia).
  assert (QN : (m / sp)%Z <> 0%Z).
  { destruct PS as (_ & F1). destruct (pass_step_avg _ _ _ _ _ _ _ _ _ (F1 0%nat ltac:(lia))) as (HS & _). destruct (sample_ok _ _ _ _ _ _ HS) as (_ & Q & _). now rewrite ZQ in Q. }
  assert (Q0 : (0 < m / sp)%Z) by (pose proof (Z.div_pos m sp); lia).
  split; [destruct (Z_lt_le_dec m sp) as [L|L]; [rewrite Z.div_small in QN by lia; congruence|exact L]|].
  exists f. cbn zeta. split; [exact PS|]. split; [exact E|]. split; [|split].
  - intros l. rewrite <- E, (pass_avg _ _ _ _ _ _ _ _ _ PS l), ZQ. cbn [pass_start pa_avg].
    set (s := filter _ _). clearbody s. induction s as [|j s IH]; sq; [field; apply inject_Z_nz; lia|]. 
    transitivity ((avg l + sumQ (map (fun j => mt_tt (pa_m (f (S j))) l / inject_Z sp) s)) + mt_tt (pa_m (f (S j))) l / inject_Z sp); [ring|]. rewrite IH. field. apply inject_Z_nz. lia.
  - rewrite count_multiples by exact Q0. f_equal. lia.
  - apply Z.div_le_lower_bound; [exact Q0|]. rewrite Z.mul_comm. apply Z.mul_div_le. lia.
Qed.
Print Assumptions C139_average_is_mean_refuted.

(** If a link takes the same time [T] throughout, the result is what the caller left
    there before plus [T] times (number of samples / sp) >= 1. *)
Theorem C139_constant_time : forall N D ut m sp assign w avg x f T l, (0 < m)%Z -> (0 < sp)%Z ->
  pass_states N D ut m sp assign (Z.to_nat m) (pass_start w avg) f -> f (Z.to_nat m) = x ->
  (forall j, (j <= Z.to_nat m)%nat -> mt_tt (pa_m (f j)) l == T) ->
  pa_avg x l == avg l + T * (inject_Z (m / (m / sp)) / inject_Z sp).
Proof.
  intros N D ut m sp assign w avg x f T l Hm Hsp PS E HT.
  assert (ZQ : Z.quot m sp = (m / sp)%Z) by (apply Z.quot_div_nonneg; lia).
  assert (QN : (m / sp)%Z <> 0%Z).
  { destruct PS as (_ & F1). destruct (pass_step_avg _ _ _ _ _ _ _ _ _ (F1 0%nat ltac:(lia))) as (HS & _). destruct (sample_ok _ _ _ _ _ _ HS) as (_ & Q & _). now rewrite ZQ in Q. }
  assert (Q0 : (0 < m / sp)%Z) by (pose proof (Z.div_pos m sp); lia).
  rewrite <- E, (pass_avg _ _ _ _ _ _ _ _ _ PS l), ZQ. cbn [pass_start pa_avg].
  pose proof (count_multiples _ Q0 (Z.to_nat m)) as CM. rewrite Z2Nat.id in CM by lia. rewrite <- CM. apply Qplus_comp; [reflexivity|].
  assert (HS : forall j, In j (filter (sampled (m / sp)) (seq 0 (Z.to_nat m))) -> mt_tt (pa_m (f (S j))) l == T).
  { intros j I. apply filter_In in I as (I & _). apply in_seq in I. apply HT. lia. }
  clear CM. revert HS. generalize (filter (sampled (m / sp)) (seq 0 (Z.to_nat m))). induction l0 as [|j s IH]; intros HS; sq; [unfold Zlen; cbn; field; apply inject_Z_nz; lia|].
  rewrite IH by (intros; apply HS; now right). rewrite (HS j) by now left. unfold Zlen. cbn [length]. rewrite Nat2Z.inj_succ. unfold Z.succ. rewrite inject_Z_plus. change (inject_Z 1) with 1. field. apply inject_Z_nz. lia.
Qed.
Print Assumptions C139_constant_time.

(** Links without a measurement keep the difference of an earlier call. *)
Theorem C139_stale_differences : forall par avg speeds diff l,
  (~ In l (map fst speeds) -> differences par avg speeds diff l = diff l) /\
  (NoDup (map fst speeds) -> forall s, In (l, s) speeds -> differences par avg speeds diff l = avg l - p_len (par l) / s).
Proof.
  intros par avg speeds. unfold differences. induction speeds as [|[k s0] speeds IH]; intros diff l; cbn [fold_left map fst snd].
  - split; [reflexivity|intros _ s []].
  - destruct (IH (upd diff k (avg k - p_len (par k) / s0)) l) as (A & B). split.
    + intros NI. rewrite A by (intros I; apply NI; now right). rewrite upd_other; [reflexivity|intros ->; apply NI; now left].
    + intros ND s I. inversion ND as [|? ? NI ND']; subst. destruct I as [I|I]; [|auto]. injection I as -> ->. rewrite A by exact NI. now rewrite upd_same.
Qed.
Print Assumptions C139_stale_differences.

(** * C144: measured travel times *)
Theorem C144_measured_times_positive : forall N D ut m sp assign w avg x, 0 <= ut -> (0 < m)%Z -> (0 < sp)%Z ->
  (forall l, par_pos (l_par (w_link w l))) -> gradient_pass N D ut m sp assign w avg = Ok x ->
  forall l, 0 < mt_tt (pa_m x) l /\ avg l < pa_avg x l.
Proof.
  intros N D ut m sp assign w avg x Hu Hm Hsp HP H l. destruct (C139_average_is_mean_refuted _ _ _ _ _ _ _ _ _ Hm Hsp H) as (_ & f & PS & E & A & C & C2).
  pose proof (pass_pos N D ut m sp assign f Hu _ (pass_start w avg) (meter_init_ok w HP) PS) as PP. rewrite <- E. split; [apply PP; lia|]. rewrite E, A.
  set (s := filter _ _) in *. assert (0 < sumQ (map (fun j => mt_tt (pa_m (f (S j))) l) s)).
  { assert (SP : forall j, In j s -> 0 < mt_tt (pa_m (f (S j))) l) by (intros j I; apply filter_In in I as (I & _); apply in_seq in I; apply PP; lia).
    assert (NE : s <> []) by (intros Es; rewrite Es in C; cbn in C; lia). clear C C2 A. destruct s as [|j s]; [congruence|]. sq.
    pose proof (SP j (or_introl eq_refl)). assert (0 <= sumQ (map (fun j => mt_tt (pa_m (f (S j))) l) s)); [|lra].
    apply sumQ_nonneg. intros y Iy. apply in_map_iff in Iy as (i & <- & Iy). apply Qlt_le_weak, SP. now right. }
  assert (0 < inject_Z sp) by (change 0 with (inject_Z 0); rewrite <- Zlt_Qlt; lia).
  assert (0 < sumQ (map (fun j => mt_tt (pa_m (f (S j))) l) s) / inject_Z sp) by (apply Qlt_shift_div_l; lra). lra.
Qed.
Print Assumptions C144_measured_times_positive.

(** The time of a link changes only through a vehicle that was last seen entering it
    and now enters another link; what vehicles spend on the last link of their trip is
    never measured. *)
Theorem C144_measured_on_leaving_only : forall N ut t w m m' l, 0 <= ut -> mt_ok t m ->
  NoDup (concat (map (fun l => l_in (w_link w l)) (n_links N))) -> meter_update N ut t w m = Ok m' -> mt_tt m' l <> mt_tt m l ->
  exists a v t0, In a (n_links N) /\ In v (l_in (w_link w a)) /\ mt_rec m v = Some (Some l, t0) /\ (t0 <= t)%Z /\
    ((0 < v_fin (w_veh w v))%Z \/ v_cur (w_veh w v) <> Some l).
Proof.
  intros N ut t w m m' l Hu M ND H HN. rewrite meter_flat in H. destruct (meter_fold ut t w Hu _ _ _ ND M H) as (_ & _ & C).
  destruct (C l) as [E | (v & t0 & I & R & V)]; [contradiction|]. apply in_concat in I as (vs & I & Iv). apply in_map_iff in I as (a & <- & I).
  exists a, v, t0. split; [exact I|]. split; [exact Iv|]. split; [exact R|]. split; [eapply M; eauto|exact V].
Qed.
Print Assumptions C144_measured_on_leaving_only.

(** a pass over five intervals with three samples: five times are added *)
Definition rt_net : net :=
  {| n_fs := n_fs xn; n_nodes := n_nodes xn; n_out := n_out xn; n_in := n_in xn; n_links := n_links xn; n_to := n_to xn; n_origins := n_origins xn; n_dests := n_dests xn;
     n_freq := n_freq xn; n_total_assign := n_total_assign xn; n_start_assign := 0; n_total_int := -1; n_routing := RFixed; n_rfreq := -1; n_rlen := 2 |}.
Definition rt_world : world := set_pt xn_world rt_pt.
Definition rt_pass : res pass := gradient_pass rt_net (fun _ => xn_draws) 5 5 3 0 rt_world (fun _ => 0).
Definition rt_end : pass := match rt_pass with Ok x => x | Err _ => pass_start rt_world (fun _ => 0) end.
Example C139_C144_case : rt_pass = Ok rt_end /\ (forall l, par_pos (l_par (w_link rt_world l))) /\
  map (fun l => (l, Qred (mt_tt (pa_m rt_end) l), Qred (pa_avg rt_end l))) (n_links rt_net) =
  [(30%Z, 20 # 3, 100 # 9); (10%Z, 245 # 48, 325 # 36); (20%Z, 20, 100 # 3); (50%Z, 65 # 12, 85 # 9); (25%Z, 45 # 4, 25)] /\
  gradient_pass rt_net (fun _ => xn_draws) 5 2 3 0 rt_world (fun _ => 0) = Err EUB /\
  differences rt_par (pa_avg rt_end) [(20%Z, 10)] (fun _ => 77) 25%Z = 77.
Proof.
  split; [|split; [exact rt_par_pos|repeat split; vm_compute; reflexivity]].
  assert (O : is_ok rt_pass = true) by (vm_compute; reflexivity). unfold rt_end. destruct rt_pass; [reflexivity|discriminate O].
Qed.

(** * C140: one step of the route shares *)
Theorem C140_update_keeps_shares : forall col step pt, table_ok pt -> 0 <= step -> step <= 9999 ->
  exists pt', update_path_p col step pt = Ok pt' /\ table_ok pt' /\
  Forall2 (fun x x' : (Z * Z) * list pentry => fst x' = fst x /\ exists c, 0 < c /\
     Forall2 (fun e e' => e_path e' = e_path e /\ e_buf e' = e_buf e /\
                e_p e' == c * (if Qlt_le_dec 0 (nth col (e_buf e) 0) then e_p e / (1 + step) else e_p e * (1 + step))) (snd x) (snd x')) pt pt'.
Proof.
  intros col step pt T S0 S1. unfold update_path_p. induction pt as [|[k es] pt IH]; [exists []; split; [reflexivity|split; [intros ? ? []|constructor]]|].
  cbn [mapM fst snd]. destruct IH as (pt' & E & T' & F); [intros ? ? I; eapply T; right; eauto|].
  assert (SO : shares_ok es) by (apply (T k); now left). destruct (update_reweight col step es SO S0 S1) as (es' & E1 & R). rewrite E1. cbn [bind]. rewrite E. cbn [bind].
  assert (FP : forall e, In e es -> 0 < factor step (get_col col e)) by (intros; now apply factor_pos).
  eexists. split; [reflexivity|]. split.
  { intros k0 es0 [I|I]; [|eapply T'; eauto]. injection I as <- <-. exact (reweighted_ok _ es es' SO FP R). }
  constructor; [|exact F]. cbn [fst snd]. split; [reflexivity|]. exists (/ sumQ (map (fun e => e_p e * factor step (get_col col e)) es)).
  assert (SP : 0 < sumQ (map (fun e => e_p e * factor step (get_col col e)) es)).
  { destruct SO as (_ & HP & HS). apply sumQ_pos_of; [exact HP|exact FP|]. rewrite HS. reflexivity. }
  split; [now apply Qinv_lt_0_compat|]. unfold reweighted in R. set (sm := sumQ _) in *. clearbody sm. clear - R S0 SP.
  induction R as [|e e' l l' (A & B & C) R IH]; constructor; [|exact IH]. split; [exact A|]. split; [exact B|]. rewrite C. unfold factor, get_col.
  destruct (Qltb_spec 0 (nth col (e_buf e) 0)), (Qlt_le_dec 0 (nth col (e_buf e) 0)); try lra; unfold Qdiv; ring.
Qed.
Print Assumptions C140_update_keeps_shares.

(** The size of the gradients does not matter, only their signs. *)
Theorem C140_only_signs_matter : forall col step es es' r,
  Forall2 (fun e e' => e_path e' = e_path e /\ e_p e' = e_p e /\ e_buf e' = e_buf e \/
                       e_path e' = e_path e /\ e_p e' = e_p e /\ (0 < nth col (e_buf e) 0 <-> 0 < nth col (e_buf e') 0)) es es' ->
  update_set col step es = Ok r -> exists r', update_set col step es' = Ok r' /\ Forall2 (fun e e' => e_path e' = e_path e /\ e_p e' = e_p e) r r'.
Proof.
  intros col step es es' r F H. unfold update_set, normalize_set in *. rewrite map_map in *. cbn [e_p] in *.
  assert (EM : map (fun x => nudge step (get_col col x) (e_p x)) es' = map (fun x => nudge step (get_col col x) (e_p x)) es).
  { clear H. induction F as [|e e' l l' X F IH]; [reflexivity|]. cbn [map]. f_equal; [|exact IH]. unfold nudge, get_col. destruct X as [(_ & -> & ->)|(_ & -> & X)]; [reflexivity|].
    replace (Qltb 0 (nth col (e_buf e') 0)) with (Qltb 0 (nth col (e_buf e) 0)); [reflexivity|]. destruct (Qltb_spec 0 (nth col (e_buf e) 0)) as [A|A], (Qltb_spec 0 (nth col (e_buf e') 0)) as [B|B]; tauto. }
  rewrite EM. apply bind_ok in H as (ps & HP & H). rewrite HP. cbn [bind]. apply Ok_inj in H as <-. eexists. split; [reflexivity|]. clear EM HP.
  unfold set_ps. revert ps. induction F as [|e e' l l' X F IH]; intros ps; [constructor|]. cbn [map combine]. destruct ps as [|q ps]; [constructor|]. cbn [map fst snd e_path e_p e_buf].
  constructor; [|apply IH]. cbn. split; [|reflexivity]. destruct X as [(-> & _)|(-> & _)]; reflexivity.
Qed.
Print Assumptions C140_only_signs_matter.

(** The engine starts with equal shares. *)
Theorem C140_initial_shares : forall pt, (forall k es, In (k, es) pt -> es <> []) ->
  exists pt', init_shares pt = Ok pt' /\ table_ok pt' /\ bufs 4 pt' /\
  Forall2 (fun x x' : (Z * Z) * list pentry => fst x' = fst x /\
     Forall2 (fun e e' => e_path e' = e_path e /\ e_p e' == 1 / inject_Z (Zlen (snd x))) (snd x) (snd x')) pt pt'.
Proof.
  intros pt NE. unfold init_shares, normalize_table. induction pt as [|[k es] pt IH]; [exists []; split; [reflexivity|split; [intros ? ? []|split; [intros ? ? ? []|constructor]]]|].
  destruct IH as (pt' & E & T & B & F); [intros ? ? I; eapply NE; right; eauto|]. cbn [map mapM fst snd]. pose proof (NE k es (or_introl eq_refl)) as NEe.
  set (es0 := map (fun e => {| e_path := e_path e; e_p := 0; e_buf := [0; 0; 0; 0] |}) es).
  assert (EQ : normalize_set es0 = Ok (map (fun e => {| e_path := e_path e; e_p := 1 / inject_Z (Zlen es); e_buf := [0; 0; 0; 0] |}) es)).
  { unfold normalize_set. assert (M : map e_p es0 = map (fun _ => 0) es) by (unfold es0; rewrite map_map; reflexivity). rewrite M.
    rewrite normalize_ok by (intros p I; apply in_map_iff in I as (? & <- & _); lra).
    assert (FZ : Qeq_bool (fold_left (fun t p => t + (p - 0)) (map (fun _ : pentry => 0) es) 0) 0 = true).
    { apply Qeq_bool_iff. assert (G : forall a, a == 0 -> fold_left (fun t p => t + (p - 0)) (map (fun _ : pentry => 0) es) a == 0); [|apply G; reflexivity].
      clear. induction es as [|e es IH]; intros a A; cbn [map fold_left]; [exact A|]. apply IH. rewrite A. reflexivity. }
    rewrite FZ. cbn [bind]. f_equal. unfold set_ps, es0. rewrite map_map, map_length.
    change (Z.of_nat (length es)) with (Zlen es). generalize (1 / inject_Z (Zlen es)). intros c. clear. induction es as [|e es IH]; [reflexivity|]. cbn [map combine fst snd e_path e_p e_buf]. f_equal. exact IH. }
  rewrite EQ. cbn [bind]. rewrite E. cbn [bind]. eexists. split; [reflexivity|].
  assert (LP : (0 < Zlen es)%Z) by (destruct es; [congruence|unfold Zlen; cbn [length]; lia]).
  assert (SH : sumQ (map e_p (map (fun e => {| e_path := e_path e; e_p := 1 / inject_Z (Zlen es); e_buf := [0; 0; 0; 0] |}) es)) == 1).
  { rewrite map_map. cbn [e_p]. transitivity (inject_Z (Zlen es) * (1 / inject_Z (Zlen es))); [|field; now apply inject_Z_nz].
    generalize (1 / inject_Z (Zlen es)). intros c. clear. induction es as [|e es IH]; [reflexivity|]. sq. rewrite IH. unfold Zlen. cbn [length]. rewrite Nat2Z.inj_succ. unfold Z.succ. rewrite inject_Z_plus. change (inject_Z 1) with 1. ring. }
  split; [|split].
  - intros k0 e0 [I|I]; [|eapply T; eauto]. injection I as <- <-. split; [destruct es; [congruence|discriminate]|]. split; [|exact SH].
    intros e I. apply in_map_iff in I as (x & <- & _). cbn. apply Qle_shift_div_l; [change 0 with (inject_Z 0); rewrite <- Zlt_Qlt; exact LP|]. lra.
  - intros k0 e0 e [I|I] J; [|eapply B; eauto]. injection I as <- <-. apply in_map_iff in J as (x & <- & _). reflexivity.
  - constructor; [|exact F]. cbn [fst snd]. split; [reflexivity|]. generalize (1 / inject_Z (Zlen es)). intros c. clear. induction es; constructor; auto. cbn. split; reflexivity.
Qed.
Print Assumptions C140_initial_shares.
Definition rt_grad : ptable := [((1, 4)%Z, [rt_entry 0 [10; 20; 30]%Z (1 # 4) [0; 5; 0; 0]; rt_entry 1 [10; 25; 30]%Z (3 # 4) [0; -2 # 1; 0; 0]])].
Example C140_case : table_ok rt_grad /\
  (exists pt', update_path_p 1 1 rt_grad = Ok pt' /\ map (fun x => map (fun e => Qred (e_p e)) (snd x)) pt' = [[1 # 13; 12 # 13]]) /\
  (exists pt', init_shares rt_pt = Ok pt' /\ map (fun x => map (fun e => Qred (e_p e)) (snd x)) pt' = [[1 # 2; 1 # 2]; [1]]).
Proof.
  split; [|split; eexists; (split; [vm_compute; reflexivity|vm_compute; reflexivity])].
  intros k es [E | []]; injection E as <- <-; (split; [discriminate|]); (split; [|reflexivity]). intros e [<- | [<- | []]]; cbn; lra.
Qed.

(** * C141: the optimisation *)
Theorem C141_optimisation_improves_refuted : forall N assign par n step dem obs i pt, (0 < n)%Z -> 0 <= step -> step <= 9999 -> (forall k, 0 <= dem k) -> (0 <= i)%Z ->
  (forall avg flow, In (avg, flow) obs -> forall l, par_pos (par l) /\ 0 < avg l /\ 0 <= flow l) ->
  table_ok pt -> bufs 4 pt -> routes_ok (fun ls => ls <> []) pt -> demands_are N assign pt dem ->
  exists pt', optimize_shares N assign par n step i obs pt = Ok pt' /\ same_table pt pt'.
Proof.
  intros N assign par n step dem obs i pt Hn S0 S1 DP Hi HO T B R D. destruct (optimize_kept N assign par n step dem Hn S0 S1 DP obs i pt Hi HO T B R D) as (pt' & E & K).
  exists pt'. split; [exact E|]. eapply kept_same_t; eauto.
Qed.
Print Assumptions C141_optimisation_improves_refuted.
(** route 0 is ten times slower than route 1 and still keeps its share over two iterations *)
Definition rt_obs : list ((Z -> Q) * (Z -> Q)) := [((fun l => if (l =? 20)%Z then 100 else 10), (fun _ => 3)); ((fun l => if (l =? 20)%Z then 100 else 10), (fun _ => 4))].
Example C141_case : (exists pt', optimize_shares xn 0 rt_par 5 (1 # 2) 0 rt_obs rt_pt = Ok pt' /\ map (fun x => map (fun e => Qred (e_p e)) (snd x)) pt' = [[1 # 4; 3 # 4]; [1]]) /\
  table_ok rt_pt /\ bufs 4 rt_pt /\ routes_ok (fun ls => ls <> []) rt_pt /\ demands_are xn 0 rt_pt rt_dem /\
  (forall avg flow, In (avg, flow) rt_obs -> forall l, par_pos (rt_par l) /\ 0 < avg l /\ 0 <= flow l).
Proof.
  split; [eexists; split; vm_compute; reflexivity|]. split; [apply rt_ok|]. split; [apply rt_bufs|]. split; [apply rt_routes|]. split; [apply rt_demands|].
  intros avg flow [E | [E | []]] l; injection E as <- <-; (split; [apply rt_par_pos|]); (split; [destruct (l =? 20)%Z; lra|lra]).
Qed.

(** * C142: copies of the network state *)
Open Scope Z_scope.
(** Copying works exactly if every vehicle to be copied has a current link, a next
    link and a tracked route. *)
Theorem C142_when_copying_works : forall N src,
  ((forall l v, In l (n_links N) -> In v (copied (w_link src l)) -> ready src v) -> exists w, make_screenshot N src = Ok w) /\
  (forall l v, In l (n_links N) -> In v (copied (w_link src l)) -> ~ ready src v -> make_screenshot N src = Err EUB).
Proof.
  intros N src. destruct (copy_fold_verdict src (n_links N) (empty_shot src)) as (V1 & V2). split.
  - intros H. apply V1. intros l I v J. eapply H; eauto.
  - intros l v I J NR. apply V2. intros H. apply NR. eapply H; eauto.
Qed.
Print Assumptions C142_when_copying_works.

(** The copy: on each link the same trips in the same order, numbered 1, 2, ...;
    nothing of a link queue, of the origins and of the destinations. *)
Theorem C142_copy_keeps_vehicles_refuted : forall N src w, NoDup (n_links N) -> make_screenshot N src = Ok w ->
  (forall l, In l (n_links N) -> l_par (w_link w l) = l_par (w_link src l) /\ Forall2 (same_trip src w) (copied (w_link src l)) (on_link (w_link w l))) /\
  Permutation (on_links N w) (ids (f_num (w_fac w))) /\
  f_num (w_fac w) = Zlen (concat (map (fun l => copied (w_link src l)) (n_links N))) /\
  (forall o, w_oq w o = []) /\ (forall d, w_dq w d = []) /\ f_done (w_fac w) = [].
Proof.
  intros N src w ND H. destruct (copy_fold src _ _ _ ND H) as (G & _ & F & NN & P).
  split; [|split; [|split; [|split; [|split]]]].
  - intros l I. destruct (F l I) as (A & _ & _ & C). split; [exact A|]. unfold copies_of in C. clear - C. induction C as [|? ? ? ? (X & _) C IH]; constructor; auto.
  - rewrite ids_range by (rewrite NN; cbn; unfold Zlen; lia). unfold on_links. rewrite NN. cbn [empty_shot w_fac f_num] in *. rewrite P. unfold Zlen. rewrite Z.add_0_l, Nat2Z.id. reflexivity.
  - rewrite NN. reflexivity.
  - intros o. rewrite (gr_oq _ _ G). reflexivity.
  - intros d. rewrite (gr_dq _ _ G). reflexivity.
  - rewrite (gr_done _ _ G). reflexivity.
Qed.
Print Assumptions C142_copy_keeps_vehicles_refuted.

(** The recorded volumes are not copied: whatever is on a link, the copy offers the
    supply of an empty link, and its flow counts only vehicles ready to leave a CTM link. *)
Theorem C142_copy_looks_empty : forall N src w l, NoDup (n_links N) -> make_screenshot N src = Ok w -> In l (n_links N) ->
  link_supply (w_link w l) = link_supply (blank (w_link src l)) /\
  link_flow (w_link w l) = (inject_Z (match l_body (w_link src l) with BCtm _ => Zlen (l_fin (w_link src l)) | _ => 0 end) / p_fs (l_par (w_link src l)))%Q.
Proof.
  intros N src w l ND H I. destruct (copy_fold src _ _ _ ND H) as (_ & _ & F & _ & _). destruct (F l I) as (A & B & C & _).
  destruct (copy_flow _ _ A C B) as (X & Y). auto.
Qed.
Print Assumptions C142_copy_looks_empty.

(** after three intervals vehicle 3 is on link 30, vehicle 1 on the link queue 25,
    four vehicles on the CTM link 20 *)
Definition rt_shot (k : nat) : world := match make_screenshot xn (s_w (xn_at k)) with Ok w => w | Err _ => xn_world end.
Example C142_case : NoDup (n_links xn) /\ make_screenshot xn (s_w (xn_at 2)) = Ok (rt_shot 2) /\
  map (fun l => (l, on_link (w_link (s_w (xn_at 2)) l))) (n_links xn) = [(30, []); (10, []); (20, [6; 5; 4; 2]); (50, []); (25, [3; 1])] /\
  map (fun l => (l, on_link (w_link (rt_shot 2) l))) (n_links xn) = [(30, []); (10, []); (20, [1; 2; 3; 4]); (50, []); (25, [5])] /\
  (link_flow (w_link (s_w (xn_at 2)) 20) == 4)%Q /\ (link_flow (w_link (rt_shot 2) 20) == 0)%Q /\
  make_screenshot xn (set_trk (s_w (xn_at 2)) 4 None) = Err EUB.
Proof.
  split; [vm_compute; repeat constructor; cbn; intuition discriminate|].
  assert (O : is_ok (make_screenshot xn (s_w (xn_at 2))) = true) by (vm_compute; reflexivity).
  split; [unfold rt_shot; destruct (make_screenshot xn (s_w (xn_at 2))); [reflexivity|discriminate O]|]. repeat split; vm_compute; reflexivity.
Qed.

(** * C143: prediction *)
Theorem C143_prediction_loads_demand_refuted : forall N D k a w s', net_ok N -> (forall t, draws_valid (D t)) -> paired (w_cc w) ->
  predict N D k (a, w) = Ok s' ->
  (Z.of_nat k < n_freq N -> f_num (w_fac (snd s')) = f_num (w_fac w)) /\
  f_finished (w_fac (snd s')) = f_finished (w_fac w) /\ f_done (w_fac (snd s')) = f_done (w_fac w) /\ f_tt (w_fac (snd s')) = f_tt (w_fac w).
Proof.
  intros N D k a w s' K DV P H. destruct (predict_eff N D K DV k (a, w) s' P H) as (_ & A & B & C & _). cbn [snd] in *.
  split; [intros L; destruct (predict_early N D K DV k (a, w) s' P H L) as (E & _); cbn in E; now rewrite E|]. auto.
Qed.
Print Assumptions C143_prediction_loads_demand_refuted.

(** The demand interval advances once per completed assignment interval and starts
    over after the last. *)
Theorem C143_demand_interval : forall N D k a w s', net_ok N -> (forall t, draws_valid (D t)) -> paired (w_cc w) ->
  0 < n_freq N -> 0 < n_total_assign N -> 0 <= a -> predict N D k (a, w) = Ok s' ->
  let r := Z.of_nat k / n_freq N in fst s' = if r =? 0 then a else (a + r - 1) mod (n_total_assign N) + 1.
Proof. intros N D k a w s' K DV P Hf Ht Ha H r. apply (predict_counter N D K DV Hf Ht k (a, w) s' P Ha H). Qed.
Print Assumptions C143_demand_interval.
(** assignment intervals of three loading intervals, two of them *)
Definition rt_next (k : nat) : Z * world := match predict rt_net (fun _ => xn_draws) k (0, rt_world) with Ok s => s | Err _ => (0, rt_world) end.
Example C143_case : n_freq rt_net = 3 /\ n_total_assign rt_net = 2 /\ paired (w_cc rt_world) /\ net_ok rt_net /\
  map (fun k => is_ok (predict rt_net (fun _ => xn_draws) k (0, rt_world))) [2; 3; 10]%nat = [true; true; true] /\
  map (fun k => (fst (rt_next k), f_num (w_fac (snd (rt_next k))), f_finished (w_fac (snd (rt_next k))))) [2; 3; 10]%nat = [(0, 0, 0); (1, 6, 0); (1, 15, 0)].
Proof.
  split; [reflexivity|]. split; [reflexivity|]. split; [intros l; cbn; split; discriminate|].
  split; [|split; [vm_compute; reflexivity|]].
  - destruct xn_net_ok. constructor; assumption.
  - vm_compute. reflexivity.
Qed.
