(** C01, C02, C15, C31, C32, C44: conservation, accounting, curves and release over
    whole loading runs. *)
From Verif Require Import Base Base_lemmas Model_Num Proof_Num Spec_Path Proof_Path Model_CC Spec_CC Proof_CC Model_Path Model_Link Spec_Link Spec_Node
  Proof_Link Proof_Link3 Proof_Link4 Proof_Link5 Model_World Model_Node Model_Sim Spec_Sim Proof_Sim1 Proof_Sim2 Proof_Sim3 Proof_Sim4 Proof_Sim5 Proof_Sim6 Ex_Net Prop_Node.
Local Open Scope Z_scope.

(** C01: after any number of intervals, for any network, node and link types, routing
    and random numbers, every ID given out so far is in exactly one place, once. *)
Theorem C01_vehicles_conserved : forall N D k s, net_ok N -> reached N D k s ->
  Permutation (at_origins N (s_w s) ++ on_links N (s_w s) ++ at_dests N (s_w s) ++ arrived (s_w s)) (ids (f_num (w_fac (s_w s)))).
Proof.
  intros N D k s K R. pose proof (reached_sinv _ _ _ _ K R) as I. apply perm_cnt. intros v. apply Nat2Z.inj. fold (zc v (ids (f_num (w_fac (s_w s))))).
  rewrite ids_count by apply I. rewrite <- (i_count _ _ I), zcount_places. fold (zc v (at_origins N (s_w s) ++ on_links N (s_w s) ++ at_dests N (s_w s) ++ arrived (s_w s))).
  rewrite !zc_app. lia.
Qed.
Print Assumptions C01_vehicles_conserved.

(** C02: counters and the enroute series. *)
Theorem C02_counters : forall N D w0 k s, net_ok N -> fresh_world N w0 -> (forall t, draws_valid (D t)) -> run N D k (init_state N w0) = Ok s ->
  f_num (w_fac (s_w s)) = f_enroute (w_fac (s_w s)) + f_finished (w_fac (s_w s)) /\
  f_finished (w_fac (s_w s)) = Zlen (arrived (s_w s)) /\
  length (s_enroute s) = k /\
  (forall j sj, (j < k)%nat -> run N D (S j) (init_state N w0) = Ok sj ->
     nth_error (s_enroute s) j = Some (f_num (w_fac (s_w sj)) - Zlen (arrived (s_w sj)))).
Proof.
  intros N D w0 k s K F DV H. pose proof (reached_sinv N D k s K (ex_intro _ w0 (conj F (conj DV H)))) as I.
  destruct (enroute_record N D w0 F DV k s H) as (L & R).
  split; [apply I|]. split; [unfold arrived; rewrite Zlen_map; apply I|]. split; [exact L|].
  intros j sj Hj Hs. replace j with (S j - 1)%nat at 1 by lia. rewrite (R (S j) sj ltac:(lia) Hs). f_equal.
  pose proof (reached_sinv N D (S j) sj K (ex_intro _ w0 (conj F (conj DV Hs)))) as Ij.
  pose proof (i_enr _ _ Ij). pose proof (i_fin _ _ Ij). unfold arrived. rewrite Zlen_map. lia.
Qed.
Print Assumptions C02_counters.

(** C02: the total travel time is the sum over finished trips of arrival interval
    minus departure interval, each at least one ... *)
Theorem C02_total_travel_time : forall N D k s, net_ok N -> reached N D k s ->
  (f_tt (w_fac (s_w s)) == inject_Z (sumZ (map (fun d => snd (snd d) - fst (snd d))%Z (f_done (w_fac (s_w s))))))%Q /\
  Forall (fun d => 1 <= snd (snd d) - fst (snd d)) (f_done (w_fac (s_w s))).
Proof. intros N D k s K R. pose proof (reached_sinv _ _ _ _ K R) as I. split; apply I. Qed.
Print Assumptions C02_total_travel_time.

(** ... where the departure interval of a logged trip is the one in which the ID was
    given out and the arrival interval the one in which it joined the finished ones. *)
Theorem C02_trip_times : forall N D w0 k s v a b, net_ok N -> fresh_world N w0 -> (forall t, draws_valid (D t)) ->
  run N D k (init_state N w0) = Ok s -> In (v, (a, b)) (f_done (w_fac (s_w s))) ->
  exists i j si si' sj sj', a = Z.of_nat i /\ b = Z.of_nat j /\ (i < j < k)%nat /\
    run N D i (init_state N w0) = Ok si /\ run N D (S i) (init_state N w0) = Ok si' /\
    f_num (w_fac (s_w si)) < v <= f_num (w_fac (s_w si')) /\
    run N D j (init_state N w0) = Ok sj /\ run N D (S j) (init_state N w0) = Ok sj' /\
    ~ In v (arrived (s_w sj)) /\ In v (arrived (s_w sj')).
Proof.
  intros N D w0 k s v a b K F DV H I.
  destruct (done_times N D w0 K F DV k s v a b H I) as (Ea & j & sj & sj' & Eb & Lj & J1 & J2 & J3 & J4 & J5).
  destruct (start_time N D w0 K F DV k s v H J5) as (i & si & si' & Ei & Li & I1 & I2 & I3).
  destruct (C02_total_travel_time N D k s K (ex_intro _ w0 (conj F (conj DV H)))) as [_ G]. rewrite Forall_forall in G. specialize (G _ I). cbn [fst snd] in G.
  exists i, j, si, si', sj, sj'. split; [congruence|]. split; [exact Eb|]. split; [lia|]. auto 8.
Qed.
Print Assumptions C02_trip_times.

(** C15: whenever both curves of a link are installed, their last values differ by the
    number of vehicles on the link (and either both or none are installed). *)
Theorem C15_curves_count_vehicles : forall N D k s l, net_ok N -> reached N D k s -> In l (n_links N) ->
  (cc_Nin (w_cc (s_w s)) l = None /\ cc_Nout (w_cc (s_w s)) l = None) \/
  (exists cin cout, cc_Nin (w_cc (s_w s)) l = Some cin /\ cc_Nout (w_cc (s_w s)) l = Some cout /\
    ((last_value cin - last_value cout) * n_fs N == inject_Z (Zlen (on_link (w_link (s_w s) l))))%Q).
Proof.
  intros N D k s l K R Hl. pose proof (reached_sinv _ _ _ _ K R) as I. pose proof (i_paired _ _ I l) as P.
  destruct (cc_Nin (w_cc (s_w s)) l) as [cin|] eqn:E1; destruct (cc_Nout (w_cc (s_w s)) l) as [cout|] eqn:E2.
  - right. exists cin, cout. split; [reflexivity|]. split; [reflexivity|]. eapply i_bal; eauto.
  - destruct P as [_ P]. specialize (P eq_refl). discriminate.
  - destruct P as [P _]. specialize (P eq_refl). discriminate.
  - left. auto.
Qed.
Print Assumptions C15_curves_count_vehicles.

(** C31: in a release interval every origin-destination pair gets its demand, rounded. *)
Theorem C31_release_matches_demand : forall N D w0 k s s', net_ok N -> demands_ok N -> 0 < n_freq N -> fresh_world N w0 ->
  (forall t, draws_valid (D t)) -> run N D k (init_state N w0) = Ok s -> run N D (S k) (init_state N w0) = Ok s' -> release_time N k ->
  (forall o d dem, In o (n_origins N) -> In (d, dem) (o_demand o) ->
    let x := (dem (assign_at N k) * n_fs N)%Q in let n := Zlen (released_for (o_node o) d (s_w s) (s_w s')) in
    (0 <= x)%Q -> (x - 1 < inject_Z n < x + 1)%Q /\ (forall z, (x == inject_Z z)%Q -> n = z)) /\
  (forall v, In v (new_ids (s_w s) (s_w s')) ->
    v_start (w_veh (s_w s') v) = Z.of_nat k /\
    exists o dem, In o (n_origins N) /\ v_org (w_veh (s_w s') v) = o_node o /\ In (v_dst (w_veh (s_w s') v), dem) (o_demand o)).
Proof.
  intros N D w0 k s s' K Dm Hf F DV H H' RT. pose proof (reached_sinv N D k s K (ex_intro _ w0 (conj F (conj DV H)))) as I.
  pose proof (reached_assign N D k s Hf (ex_intro _ w0 (conj F (conj DV H)))) as EA.
  destruct (st_step N D w0 F DV _ _ _ H H') as (E & _). rewrite EA in E.
  pose proof E as E0. unfold load_once in E0. apply bind_ok in E0 as (w1 & R1 & _).
  destruct (load_once_after_release _ _ _ _ _ _ _ K (DV _) I R1 E) as (EN & ES).
  destruct (release_all_new _ _ _ _ _ _ K Dm Hf (Zle_0_nat k) R1) as (_ & _ & X & _). destruct (X RT) as (P & C).
  split.
  - intros o d dem Ho Hd x n Hx.
    assert (En : n = Z.max 0 (rround (d_rel (D (Z.of_nat k)) (o_node o) d) x)).
    { unfold n, x. rewrite <- (C o d dem Ho Hd). f_equal. unfold released_for.
      replace (new_ids (s_w s) (s_w s')) with (new_ids (s_w s) w1) by (unfold new_ids; unfold num in EN; now rewrite EN).
      apply filter_ext. intros v. apply stat_od, ES. }
    destruct (DV (Z.of_nat k)) as (Hr & _). destruct (Hr (o_node o) d) as [Hr0 _].
    rewrite Z.max_r in En by (apply rround_nonneg; exact Hx). rewrite En. split; [split; [now apply rround_gt|now apply rround_lt]|].
    intros z Ez. rewrite (rround_comp _ _ _ Ez). now apply rround_int.
  - intros v Hv. apply new_ids_In in Hv. rewrite EN in Hv. destruct (P v Hv) as (o & Ho & A1 & A2 & A3 & _).
    pose proof (ES v) as Es. unfold stat in Es. injection Es as E1 E2 E3 E4 E5. rewrite E1, E2, E4. split; [exact A3|].
    apply in_map_iff in A2 as ([d dem] & Ed & Id). cbn [fst] in Ed. exists o, dem. rewrite <- Ed. auto.
Qed.
Print Assumptions C31_release_matches_demand.

(** C31: otherwise (between release intervals, before interval 0 of the demand, after
    the last one) nothing is released. *)
Theorem C31_nothing_released_otherwise : forall N D w0 k s s', net_ok N -> demands_ok N -> 0 < n_freq N -> fresh_world N w0 ->
  (forall t, draws_valid (D t)) -> run N D k (init_state N w0) = Ok s -> run N D (S k) (init_state N w0) = Ok s' -> ~ release_time N k ->
  new_ids (s_w s) (s_w s') = [] /\ f_num (w_fac (s_w s')) = f_num (w_fac (s_w s)).
Proof.
  intros N D w0 k s s' K Dm Hf F DV H H' RT. pose proof (reached_sinv N D k s K (ex_intro _ w0 (conj F (conj DV H)))) as I.
  pose proof (reached_assign N D k s Hf (ex_intro _ w0 (conj F (conj DV H)))) as EA.
  destruct (st_step N D w0 F DV _ _ _ H H') as (E & _). rewrite EA in E.
  pose proof E as E0. unfold load_once in E0. apply bind_ok in E0 as (w1 & R1 & _).
  destruct (load_once_after_release _ _ _ _ _ _ _ K (DV _) I R1 E) as (EN & ES).
  destruct (release_all_new _ _ _ _ _ _ K Dm Hf (Zle_0_nat k) R1) as (_ & _ & _ & X). rewrite (X RT) in EN. unfold num in EN.
  split; [|exact EN]. unfold new_ids. rewrite EN, Z.sub_diag. reflexivity.
Qed.
Print Assumptions C31_nothing_released_otherwise.

(** C32: the share a user expects to hold for the vehicles of one OD pair *)
Definition share_of (N : net) (o : origin) (d a : Z) : Q := match o_ratio o d with Some f => f a | None => base_ratio (n_routing N) end.

Lemma ratio_at_none o a r ds d : (forall x, In x (map fst ds) -> o_ratio o x = None) -> ratio_at o a r ds d = r.
Proof.
  revert r. induction ds as [|[x dem] ds IH]; intros r H; simpl; [reflexivity|]. rewrite (H x) by (now left).
  destruct (x =? d); [reflexivity|]. apply IH. intros y Hy. apply H. now right.
Qed.
Lemma ratio_at_some o a r ds d : In d (map fst ds) -> (forall x, In x (map fst ds) -> o_ratio o x <> None) ->
  exists f, o_ratio o d = Some f /\ ratio_at o a r ds d = f a.
Proof.
  revert r. induction ds as [|[x dem] ds IH]; intros r I H; [destruct I|]. simpl.
  destruct (Z.eqb_spec x d) as [->|Ne].
  - destruct (o_ratio o d) as [f|] eqn:E; [eauto|]. exfalso. apply (H d); [now left|exact E].
  - destruct I as [E|I]; [contradiction|]. apply IH; [exact I|]. intros y Hy. apply H. now right.
Qed.

(** C32 holds when an origin has a share of its own for all its destinations or for
    none; it is false in general (next theorem). *)
Theorem C32_share_applied_partial : forall N D w0 k s s', net_ok N -> demands_ok N -> 0 < n_freq N -> fresh_world N w0 ->
  (forall t, draws_valid (D t)) -> run N D k (init_state N w0) = Ok s -> run N D (S k) (init_state N w0) = Ok s' -> release_time N k ->
  (forall o, In o (n_origins N) -> (forall d, In d (map fst (o_demand o)) -> o_ratio o d = None) \/
                                   (forall d, In d (map fst (o_demand o)) -> o_ratio o d <> None)) ->
  forall v o, In v (new_ids (s_w s) (s_w s')) -> In o (n_origins N) -> v_org (w_veh (s_w s') v) = o_node o ->
  ((share_of N o (v_dst (w_veh (s_w s') v)) (assign_at N k) == 0)%Q -> v_adapt (w_veh (s_w s') v) = false) /\
  ((share_of N o (v_dst (w_veh (s_w s') v)) (assign_at N k) == 1)%Q -> v_adapt (w_veh (s_w s') v) = true).
Proof.
  intros N D w0 k s s' K Dm Hf F DV H H' RT U v o Hv Ho Eo. pose proof (reached_sinv N D k s K (ex_intro _ w0 (conj F (conj DV H)))) as I.
  pose proof (reached_assign N D k s Hf (ex_intro _ w0 (conj F (conj DV H)))) as EA.
  destruct (st_step N D w0 F DV _ _ _ H H') as (E & _). rewrite EA in E.
  pose proof E as E0. unfold load_once in E0. apply bind_ok in E0 as (w1 & R1 & _).
  destruct (load_once_after_release _ _ _ _ _ _ _ K (DV _) I R1 E) as (EN & ES).
  destruct (release_all_new _ _ _ _ _ _ K Dm Hf (Zle_0_nat k) R1) as (_ & _ & X & _). destruct (X RT) as (P & _).
  apply new_ids_In in Hv. rewrite EN in Hv. destruct (P v Hv) as (o2 & Ho2 & A1 & A2 & A3 & A4 & A5 & _).
  pose proof (ES v) as Es. unfold stat in Es. injection Es as E1 E2 E3 E4 E5. rewrite E1 in Eo. rewrite E2, E3, A5.
  assert (o2 = o).
  { assert (NDo := no_origins N K). rewrite A1 in Eo. clear - NDo Ho Ho2 Eo. induction (n_origins N) as [|x l IH]; [destruct Ho|].
    cbn [map] in NDo. apply NoDup_cons_iff in NDo as [Nx NDo]. destruct Ho as [->|Ho], Ho2 as [->|Ho2]; auto.
    - exfalso. apply Nx. rewrite <- Eo. now apply in_map. - exfalso. apply Nx. rewrite Eo. now apply in_map. }
  subst o2. set (dd := v_dst (w_veh w1 v)) in *. set (r := d_adapt (D (Z.of_nat k)) v).
  assert (ER : ratio_at o (assign_at N k) (base_ratio (n_routing N)) (o_demand o) dd = share_of N o dd (assign_at N k)).
  { unfold share_of. destruct (U o Ho) as [U1|U1].
    - rewrite (U1 dd A2). now apply ratio_at_none.
    - destruct (ratio_at_some o (assign_at N k) (base_ratio (n_routing N)) (o_demand o) dd A2 U1) as (f & -> & ->). reflexivity. }
  rewrite ER. set (sh := share_of N o dd (assign_at N k)). unfold pick_adaptive. split; intros Es'.
  - rewrite (proj2 (Qeq_bool_iff _ _) Es'). reflexivity.
  - destruct (Qeq_bool sh 0) eqn:Z0; [apply Qeq_bool_iff in Z0; exfalso; lra|]. rewrite (proj2 (Qeq_bool_iff _ _) Es'). reflexivity.
Qed.
Print Assumptions C32_share_applied_partial.

(** C44: the loop runs consecutive intervals; it serves all demand; it stops at the
    configured total (or when the demand is served, if that is later), or, without a
    total, when all vehicles have arrived. *)
Theorem C44_loading_loop : forall N D w0 fuel s, net_ok N -> 0 < n_freq N -> fresh_world N w0 -> (forall t, draws_valid (D t)) ->
  loading N D fuel (init_state N w0) = Ok s ->
  exists k, run N D k (init_state N w0) = Ok s /\ s_cur s = Z.of_nat k /\
    let need := (n_total_assign N - n_start_assign N) * n_freq N in
    need <= Z.of_nat k /\
    (0 < n_total_int N -> Z.of_nat k = Z.max (n_total_int N) need) /\
    (n_total_int N <= 0 -> at_origins N (s_w s) ++ on_links N (s_w s) ++ at_dests N (s_w s) = [] /\ 1 <= Z.of_nat k).
Proof.
  intros N D w0 fuel s K Hf F DV H. apply loading_run in H as (k & R & C & B). exists k. split; [exact R|].
  assert (RE : reached N D k s) by (exists w0; auto). pose proof (reached_cur _ _ _ _ RE) as EC. split; [exact EC|].
  pose proof (reached_assign _ _ _ _ Hf RE) as EA. cbv zeta.
  unfold loop_cond in C. apply orb_false_iff in C as [C1 C2]. apply negb_false_iff in C1. apply Z.ltb_ge in C2. rewrite EA in C2.
  assert (Need : (n_total_assign N - n_start_assign N) * n_freq N <= Z.of_nat k).
  { destruct (Z_lt_ge_dec (Z.of_nat k) ((n_total_assign N - n_start_assign N) * n_freq N)) as [L|]; [|lia]. apply (assign_lt N k Hf) in L. lia. }
  split; [exact Need|]. unfold finished_loading in C1. rewrite EC in C1. split.
  - intros Ht. rewrite (proj2 (Z.ltb_lt _ _) Ht) in C1. apply Z.leb_le in C1.
    destruct (Z.eq_dec (Z.of_nat k) (Z.max (n_total_int N) ((n_total_assign N - n_start_assign N) * n_freq N))) as [E|NE]; [exact E|].
    exfalso. destruct k as [|k]; [lia|]. pose proof R as R'. apply run_S in R' as (s1 & R1 & _). specialize (B k s1 ltac:(lia) R1).
    assert (RE1 : reached N D k s1) by (exists w0; auto).
    unfold loop_cond, finished_loading in B. rewrite (reached_cur _ _ _ _ RE1), (reached_assign _ _ _ _ Hf RE1), (proj2 (Z.ltb_lt _ _) Ht) in B.
    apply orb_true_iff in B as [B|B].
    + apply negb_true_iff, Z.leb_gt in B. lia.
    + apply Z.ltb_lt in B. apply (assign_lt N k Hf) in B. lia.
  - intros Ht. rewrite (proj2 (Z.ltb_ge _ _) Ht) in C1. apply negb_true_iff, orb_false_iff in C1 as [C1 C3]. apply Z.eqb_neq in C3. split; [|lia].
    unfold running in C1. apply negb_false_iff, Z.eqb_eq in C1. pose proof (reached_sinv _ _ _ _ K RE) as I.
    pose proof (Permutation_length (C01_vehicles_conserved N D k s K RE)) as P. rewrite !app_length in P. unfold ids in P. rewrite map_length, seq_length in P.
    pose proof (i_fin _ _ I) as Fi. unfold arrived in P. rewrite map_length in P. unfold Zlen in Fi.
    assert (length (at_origins N (s_w s) ++ on_links N (s_w s) ++ at_dests N (s_w s)) = 0)%nat by (rewrite !app_length; lia).
    now apply length_zero_iff_nil.
Qed.
Print Assumptions C44_loading_loop.

(** C44: each assignment interval has exactly one release interval, inside the run. *)
Theorem C44_each_interval_released_once : forall N a, 0 < n_freq N -> 0 <= a -> n_start_assign N <= a < n_total_assign N ->
  exists j, release_time N j /\ assign_at N j = a /\ Z.of_nat j < (n_total_assign N - n_start_assign N) * n_freq N /\
    (forall j', release_time N j' -> assign_at N j' = a -> j' = j).
Proof.
  intros N a Hf Ha0 Ha. set (f := n_freq N) in *. exists (Z.to_nat ((a - n_start_assign N) * f)).
  assert (E : Z.of_nat (Z.to_nat ((a - n_start_assign N) * f)) = (a - n_start_assign N) * f) by (rewrite Z2Nat.id; nia).
  assert (EA : assign_at N (Z.to_nat ((a - n_start_assign N) * f)) = a).
  { unfold assign_at. rewrite E. fold f. rewrite Z.div_mul by lia. lia. }
  split; [split; [rewrite E; fold f; apply Z.mod_mul; lia|lia]|]. split; [exact EA|]. split; [rewrite E; nia|].
  intros j' [M _] A. unfold assign_at in A. fold f in A, M. pose proof (Z.div_mod (Z.of_nat j') f ltac:(lia)). apply Nat2Z.inj. rewrite E. nia.
Qed.
Print Assumptions C44_each_interval_released_once.

(** * Concrete cases *)

Lemma xn_fresh : fresh_world xn xn_world.
Proof.
  constructor; try reflexivity; auto.
  - intros l Hl. cbn in Hl. destruct Hl as [<-|[<-|[<-|[<-|[<-|[]]]]]].
    + exists (xn_par KPq 10 100). reflexivity.
    + exists (xn_par KPq 10 100). reflexivity.
    + exists (xn_par KCtm (1 # 2) 300). vm_compute. reflexivity.
    + exists (xn_par KPq 10 100). reflexivity.
    + exists (xn_par KLq (1 # 2) 300). vm_compute. reflexivity.
Qed.
Lemma xn_net_ok : net_ok xn.
Proof.
  assert (D2 : forall (P : Z -> Prop) l, Forall P l -> forall x, In x l -> P x) by (intros P l F; now apply Forall_forall).
  assert (INL : forall n l, In l (n_in xn n) -> In (n, l) [(2,10);(2,50);(3,20);(3,25);(4,30)]).
  { intros n l. cbn [n_in xn]. destruct (Z.eqb_spec n 2); [|destruct (Z.eqb_spec n 3); [|destruct (Z.eqb_spec n 4); [|intros []]]]; subst; cbn [In]; intuition subst; auto 10. }
  assert (OUTL : forall n l, In l (n_out xn n) -> In (n, l) [(1,10);(5,50);(2,20);(2,25);(3,30)]).
  { intros n l. cbn [n_out xn]. destruct (Z.eqb_spec n 1); [|destruct (Z.eqb_spec n 5); [|destruct (Z.eqb_spec n 2); [|destruct (Z.eqb_spec n 3); [|intros []]]]]; subst; cbn [In]; intuition subst; auto 10. }
  constructor.
  - reflexivity.
  - cbn. repeat constructor; cbn; intuition discriminate.
  - cbn. repeat constructor; cbn; intuition discriminate.
  - cbn. repeat constructor; cbn; intuition discriminate.
  - cbn. repeat constructor; cbn; intuition discriminate.
  - intros n. split; [|split].
    + cbn [n_in xn]. destruct (n =? 2), (n =? 3), (n =? 4); repeat constructor; cbn; intuition discriminate.
    + cbn [n_out xn]. destruct (n =? 1), (n =? 5), (n =? 2), (n =? 3); repeat constructor; cbn; intuition discriminate.
    + intros l H1 H2. apply INL in H1. apply OUTL in H2. cbn [In] in H1, H2. intuition congruence.
  - intros n l H. apply INL in H. cbn [In] in H. intuition (match goal with H : (_, _) = (_, _) |- _ => injection H as <- <- end; cbn; auto 10).
  - intros n l H. apply OUTL in H. cbn [In] in H. intuition (match goal with H : (_, _) = (_, _) |- _ => injection H as <- <- end; cbn; auto 10).
  - intros n n' l H1 H2. apply OUTL in H1, H2. cbn [In] in H1, H2. intuition congruence.
  - intros n H. cbn in H |- *. intuition congruence.
  - intros n H. cbn in H |- *. intuition congruence.
Qed.
Lemma xn_reached k s : xn_run k = Ok s -> reached xn (fun _ => xn_draws) k s.
Proof. intros H. exists xn_world. split; [apply xn_fresh|]. split; [intros; apply xn_draws_valid|exact H]. Qed.
Lemma xn_demands : demands_ok xn.
Proof. intros o H. cbn in H. destruct H as [<-|[<-|[]]]; repeat constructor; intros []. Qed.
Definition is_ok {A} (r : res A) : bool := match r with Ok _ => true | Err _ => false end.
Lemma xn_run_at k : is_ok (xn_run k) = true -> xn_run k = Ok (xn_at k).
Proof. unfold xn_at. destruct (xn_run k); [reflexivity|discriminate]. Qed.
Lemma is_ok_ex {A} (r : res A) : is_ok r = true -> exists a, r = Ok a.
Proof. destruct r; [eauto|discriminate]. Qed.


(** After 4 intervals vehicles are on several links and one has arrived. *)
Example C01_C15_case : net_ok xn /\ reached xn (fun _ => xn_draws) 4 (xn_at 4) /\
  map (fun l => (l, on_link (w_link (s_w (xn_at 4)) l))) (n_links xn) = [(30, [1]); (10, [8; 7]); (20, [6; 5; 4; 2]); (50, [9]); (25, [])] /\
  arrived (s_w (xn_at 4)) = [3] /\ f_num (w_fac (s_w (xn_at 4))) = 9 /\
  cc_Nin (w_cc (s_w (xn_at 4))) 20 <> None.
Proof.
  split; [apply xn_net_ok|]. split; [apply xn_reached, xn_run_at; vm_compute; reflexivity|].
  split; [vm_compute; reflexivity|]. split; [vm_compute; reflexivity|]. split; [vm_compute; reflexivity|]. vm_compute. discriminate.
Qed.
Example C02_case : fresh_world xn xn_world /\ (forall t : Z, draws_valid ((fun _ => xn_draws) t)) /\
  xn_run 10 = Ok (xn_at 10) /\ s_enroute (xn_at 10) = [6; 6; 6; 8; 7; 7; 2; 2; 2; 0] /\
  f_done (w_fac (s_w (xn_at 10))) = [(3,(0,3));(1,(0,4));(7,(3,6));(6,(0,6));(5,(0,6));(4,(0,6));(2,(0,6));(9,(3,9));(8,(3,9))].
Proof.
  split; [apply xn_fresh|]. split; [intros; apply xn_draws_valid|]. split; [apply xn_run_at; vm_compute; reflexivity|].
  split; vm_compute; reflexivity.
Qed.
Example C31_case : demands_ok xn /\ release_time xn 0 /\ release_time xn 3 /\ ~ release_time xn 4 /\ ~ release_time xn 6 /\
  (exists s s', xn_run 3 = Ok s /\ xn_run 4 = Ok s' /\ new_ids (s_w s) (s_w s') = [7; 8; 9] /\ released_for 1 4 (s_w s) (s_w s') = [7; 8]) /\
  (exists s s', xn_run 0 = Ok s /\ xn_run 1 = Ok s' /\ released_for 1 4 (s_w s) (s_w s') = [1; 2; 3; 4]).
Proof.
  split; [apply xn_demands|]. split; [vm_compute; intuition discriminate|]. split; [vm_compute; intuition discriminate|].
  split; [vm_compute; intuition discriminate|]. split; [intros [_ [_ H]]; vm_compute in H; discriminate|]. split.
  - exists (xn_at 3), (xn_at 4). split; [apply xn_run_at; vm_compute; reflexivity|]. split; [apply xn_run_at; vm_compute; reflexivity|].
    split; vm_compute; reflexivity.
  - exists (xn_at 0), (xn_at 1). split; [apply xn_run_at; vm_compute; reflexivity|]. split; [apply xn_run_at; vm_compute; reflexivity|].
    vm_compute; reflexivity.
Qed.
Example C44_case : 0 < n_freq xn /\ n_total_int xn <= 0 /\ exists s, loading xn (fun _ => xn_draws) 30 (init_state xn xn_world) = Ok s /\ s_cur s = 10 /\
  at_origins xn (s_w s) ++ on_links xn (s_w s) ++ at_dests xn (s_w s) = [].
Proof.
  split; [reflexivity|]. split; [vm_compute; discriminate|].
  assert (E : is_ok (loading xn (fun _ => xn_draws) 30 (init_state xn xn_world)) = true) by (vm_compute; reflexivity).
  set (r := loading xn (fun _ => xn_draws) 30 (init_state xn xn_world)) in *. exists (match r with Ok s => s | Err _ => init_state xn xn_world end).
  split; [destruct r; [reflexivity|discriminate]|]. split; vm_compute; reflexivity.
Qed.

(** * C32 is false in general *)

(** Origin 1 serves destinations 2 and 3 over connectors 10 and 11.  All vehicles are
    to be adaptive, except those for destination 2, whose own share is 0. *)
Definition sn (ratio : Z -> option (Z -> Q)) : net :=
  {| n_fs := 1; n_nodes := [(1, NOrigin); (2, NDest); (3, NDest)];
     n_out := fun n => if n =? 1 then [10; 11] else []; n_in := fun n => if n =? 2 then [10] else if n =? 3 then [11] else [];
     n_links := [10; 11]; n_to := fun l => if l =? 10 then 2 else 3;
     n_origins := [{| o_node := 1; o_demand := [(2, fun _ => 1%Q); (3, fun _ => 1%Q)]; o_ratio := ratio |}];
     n_dests := [2; 3]; n_freq := 1; n_total_assign := 1; n_start_assign := 0; n_total_int := -1;
     n_routing := RHybrid 1; n_rfreq := -1; n_rlen := -1 |}.
Definition sn_pt : ptable :=
  [((1, 2), [{| e_path := {| r_id := 0; r_links := [10] |}; e_p := 1%Q; e_buf := [] |}]);
   ((1, 3), [{| e_path := {| r_id := 1; r_links := [11] |}; e_p := 1%Q; e_buf := [] |}])].
Definition sn_world : world := set_pt xn_world sn_pt.
Definition sn_draws : draws :=
  {| d_rel := d_rel xn_draws; d_adapt := d_adapt xn_draws; d_oshuf := d_oshuf xn_draws; d_route := d_route xn_draws; d_orig := d_orig xn_draws;
     d_node := d_node xn_draws; d_pick := d_pick xn_draws; d_fuel := 100; d_inshuf := d_inshuf xn_draws; d_grj := d_grj xn_draws;
     d_cell := d_cell xn_draws; d_tree := fun d _ => if d =? 2 then 10 else 11; d_any := fun _ => 0%nat |}.
Definition sn_one : Z -> option (Z -> Q) := fun d => if d =? 2 then Some (fun _ => 0%Q) else None.
Definition sn_both : Z -> option (Z -> Q) := fun d => if d =? 2 then Some (fun _ => 0%Q) else Some (fun _ => 1%Q).

Lemma sn_net_ok r : net_ok (sn r).
Proof.
  assert (INL : forall n l, In l (n_in (sn r) n) -> (n = 2 /\ l = 10) \/ (n = 3 /\ l = 11)).
  { intros n l. cbn [n_in sn]. destruct (Z.eqb_spec n 2); [|destruct (Z.eqb_spec n 3); [|intros []]]; subst; cbn [In]; intuition subst; auto 10. }
  assert (OUTL : forall n l, In l (n_out (sn r) n) -> n = 1 /\ (l = 10 \/ l = 11)).
  { intros n l. cbn [n_out sn]. destruct (Z.eqb_spec n 1); [|intros []]; subst; cbn [In]; intuition subst; auto 10. }
  constructor.
  - reflexivity.
  - cbn. repeat constructor; cbn; intuition discriminate.
  - cbn. repeat constructor; cbn; intuition discriminate.
  - cbn. repeat constructor; cbn; intuition discriminate.
  - cbn. repeat constructor; cbn; intuition discriminate.
  - intros n. split; [|split].
    + cbn [n_in sn]. destruct (n =? 2), (n =? 3); repeat constructor; cbn; intuition discriminate.
    + cbn [n_out sn]. destruct (n =? 1); repeat constructor; cbn; intuition discriminate.
    + intros l H1 H2. apply INL in H1. apply OUTL in H2. lia.
  - intros n l H. apply INL in H. destruct H as [[-> ->]|[-> ->]]; cbn; auto.
  - intros n l H. apply OUTL in H. destruct H as [-> [->| ->]]; cbn; auto.
  - intros n n' l H1 H2. apply OUTL in H1, H2. lia.
  - intros n H. cbn in H |- *. intuition congruence.
  - intros n H. cbn in H |- *. intuition congruence.
Qed.
Lemma sn_draws_valid : draws_valid sn_draws. Proof. exact xn_draws_valid. Qed.
Lemma sn_fresh r : fresh_world (sn r) sn_world.
Proof.
  constructor; try reflexivity; auto.
  - intros l [<-|[<-|[]]]; exists (xn_par KPq 10 100); reflexivity.
Qed.

Definition sn_after (r : Z -> option (Z -> Q)) : lstate :=
  match run (sn r) (fun _ => sn_draws) 1 (init_state (sn r) sn_world) with Ok s => s | Err _ => init_state (sn r) sn_world end.
Lemma sn_after_ok r : is_ok (run (sn r) (fun _ => sn_draws) 1 (init_state (sn r) sn_world)) = true ->
  run (sn r) (fun _ => sn_draws) 1 (init_state (sn r) sn_world) = Ok (sn_after r).
Proof. unfold sn_after. destruct (run _ _ _ _); [reflexivity|discriminate]. Qed.
(** C32 refuted: the vehicle for destination 3 (no share of its own, so share 1
    applies) is routed statically, because the share 0 of destination 2 sticks. *)
Theorem C32_share_leaks_refuted : exists N D w0 s s' v o,
  net_ok N /\ demands_ok N /\ 0 < n_freq N /\ fresh_world N w0 /\ (forall t, draws_valid (D t)) /\
  run N D 0 (init_state N w0) = Ok s /\ run N D 1 (init_state N w0) = Ok s' /\ release_time N 0 /\
  In v (new_ids (s_w s) (s_w s')) /\ In o (n_origins N) /\ v_org (w_veh (s_w s') v) = o_node o /\
  (share_of N o (v_dst (w_veh (s_w s') v)) (assign_at N 0) == 1)%Q /\ v_adapt (w_veh (s_w s') v) = false.
Proof.
  exists (sn sn_one), (fun _ => sn_draws), sn_world, (init_state (sn sn_one) sn_world), (sn_after sn_one), 2, (hd {| o_node := 0; o_demand := []; o_ratio := fun _ => None |} (n_origins (sn sn_one))).
  split; [apply sn_net_ok|]. split; [intros o [<-|[]]; repeat constructor; cbn; intuition discriminate|]. split; [reflexivity|].
  split; [apply sn_fresh|]. split; [intros; apply sn_draws_valid|]. split; [reflexivity|]. split; [apply sn_after_ok; vm_compute; reflexivity|].
  split; [split; [reflexivity|vm_compute; split; [discriminate|reflexivity]]|].
  split; [replace (new_ids _ _) with [1; 2] by (vm_compute; reflexivity); cbn; auto|]. split; [now left|]. split; vm_compute; auto.
Qed.
Print Assumptions C32_share_leaks_refuted.

(** With a share for both destinations the theorem applies. *)
Example C32_case : let s' := sn_after sn_both in
  run (sn sn_both) (fun _ => sn_draws) 1 (init_state (sn sn_both) sn_world) = Ok s' /\ release_time (sn sn_both) 0 /\
  (forall o, In o (n_origins (sn sn_both)) -> forall d, In d (map fst (o_demand o)) -> o_ratio o d <> None) /\
  map (fun v => (v_dst (w_veh (s_w s') v), v_adapt (w_veh (s_w s') v))) (new_ids sn_world (s_w s')) = [(2, false); (3, true)].
Proof.
  cbv zeta. split; [apply sn_after_ok; vm_compute; reflexivity|]. split; [split; [reflexivity|vm_compute; split; [discriminate|reflexivity]]|]. split.
  - intros o [<-|[]] d [<-|[<-|[]]]; discriminate.
  - vm_compute. reflexivity.
Qed.
