(** C104-C107: fuel and exhaust totals. *)
From Coq Require Import Lia Lqa QArith Qround.
From Verif Require Import Base Base_lemmas Spec_Path Model_Num Proof_Num Model_CC Spec_CC Model_Path Model_Link Spec_Link Spec_Node Model_McLink Spec_McLink Model_World Model_Node Model_Sim Spec_Sim
  Model_McNode Model_McSim Spec_McSim Proof_Link Proof_Link4 Proof_GRJ Ex_Net Ex_McNet Prop_Node Prop_Sim Prop_McSim Model_Emission Spec_Emission Proof_Emission Proof_Emission2 Proof_Emission3.
Local Open Scope Q_scope.

(** C104: at every speed from 5 to 65 miles per hour the rates are those of the
    published curves and stay between fixed positive bounds. *)
Theorem C104_rates : forall v, 5 <= v <= 65 -> exists r, rates v = Ok r /\ forall p, r p == car_rate p v /\ least p < r p < most p /\ 0 < least p.
Proof.
  intros v H. destruct (rates_ok v H) as (r & E & R). exists r. split; [exact E|]. intros p. split; [apply R|]. rewrite R. split; [now apply car_rate_bounds|]. destruct p; reflexivity.
Qed.
Print Assumptions C104_rates.
(** C104: a truck pollutes 1.5 to 8 times as much as a car, and the factor by speed
    band is that of the table. *)
Theorem C104_truck_rates : forall v, 5 <= v <= 65 -> exists r, truck_rates v = Ok r /\
  forall p, r p == truck_rate p v /\ 1.5 * car_rate p v <= r p <= 8 * car_rate p v.
Proof.
  intros v H. destruct (truck_rates_ok v H) as (r & E & R). exists r. split; [exact E|]. intros p. split; [apply R|]. rewrite R. unfold truck_rate.
  pose proof (car_rate_bounds p v H) as B. assert (L : 0 < least p) by (destruct p; reflexivity).
  set (i := if Qlt_le_dec v 25 then 0%nat else if Qlt_le_dec v 55 then 1%nat else 2%nat).
  assert (I : (i < 3)%nat) by (unfold i; destruct (Qlt_le_dec v 25), (Qlt_le_dec v 55); lia).
  pose proof (truck_multiple_range p i I). split; nra.
Qed.
Print Assumptions C104_truck_rates.
(** C104: whatever the speed of a link, the rates are those of the nearest speed in
    that range, so the update never divides by zero. *)
Theorem C104_clamped : forall v, exists r r', rates (em_mph v) = Ok r /\ truck_rates (em_mph v) = Ok r' /\
  (v * 3600 / 1600 <= 5 -> em_mph v == 5) /\ (65 <= v * 3600 / 1600 -> em_mph v == 65) /\ (5 <= v * 3600 / 1600 <= 65 -> em_mph v == v * 3600 / 1600).
Proof.
  intros v. destruct (rates_ok _ (em_mph_range v)) as (r & E & _). destruct (truck_rates_ok _ (em_mph_range v)) as (r' & E' & _). exists r, r'. split; [exact E|]. split; [exact E'|].
  unfold em_mph. repeat split; intros H.
  - rewrite Q.max_r by exact H. apply Q.min_l. lra.
  - rewrite Q.max_l by lra. apply Q.min_r. exact H.
  - rewrite Q.max_l by lra. apply Q.min_l. lra.
Qed.
Print Assumptions C104_clamped.
Example C104_case : 5 <= 30 <= 65 /\ (exists r, rates 30 = Ok r /\ 31.5 < / r Fuel < 31.6 /\ 281 < r CO2 < 282 /\ 0.87 < r HC < 0.88) /\
  (exists r, truck_rates 30 = Ok r /\ 422 < r CO2 < 423) /\ em_mph 20 == 45 /\ em_mph 1 == 5 /\ em_mph 40 == 65.
Proof. split; [lra|]. split; [eexists; split; [vm_compute; reflexivity|repeat split; vm_compute; reflexivity]|]. split; [eexists; split; [vm_compute; reflexivity|split; vm_compute; reflexivity]|]. repeat split; vm_compute; reflexivity. Qed.

(** C105: keeping the totals does not disturb the simulation, and on usable roads it
    never fails. *)
Theorem C105_same_run : forall N D ut f ev E k s c s' c', run_em N D ut f ev E k s c = Ok (s', c') -> run N D k s = Ok s'.
Proof. exact em_same_run. Qed.
Print Assumptions C105_same_run.
Theorem C105_never_fails : forall N D w0 ut f ev E k s, net_ok N -> fresh_world N w0 -> (forall t, draws_valid (D t)) ->
  (forall l, In l E -> road_ok (l_par (w_link w0 l))) -> run N D k (init_state N w0) = Ok s ->
  exists c, run_em N D ut f ev E k (init_state N w0) (0%Z, em_zero) = Ok (s, c).
Proof. intros N D w0 ut f ev E k s K F DV R H. exact (em_total N D w0 ut f ev E K F DV R k s _ H). Qed.
Print Assumptions C105_never_fails.
(** C105: after [k] intervals the totals are the sums, over the intervals since they
    last started again and over the registered links, of rate times miles times
    vehicles; all vehicles past the entrance of the link are counted once. *)
Theorem C105_totals : forall N D ut f ev E k s s' n x, run_em N D ut f ev E k s (0%Z, em_zero) = Ok (s', (n, x)) ->
  n = Z.of_nat (since f k) /\
  exists G, observed N D ev E s k G /\ totals car_rate ut (concat (map G (seq (k - since f k) (since f k)))) x.
Proof. exact em_totals. Qed.
Print Assumptions C105_totals.
(** C105: as the simulation calls it ([f] is 0) the totals are never reset. *)
Theorem C105_never_reset : forall N D ut ev E k s s' n x, run_em N D ut 0 ev E k s (0%Z, em_zero) = Ok (s', (n, x)) ->
  n = Z.of_nat k /\ exists G, observed N D ev E s k G /\ totals car_rate ut (concat (map G (seq 0 k))) x.
Proof.
  intros N D ut ev E k s s' n x H. destruct (em_totals _ _ _ _ _ _ _ _ _ _ _ H) as (En & G & Ob & T). split; [exact En|]. exists G. split; [exact Ob|].
  unfold recent, since in T. cbn [Z.leb Z.compare] in T. rewrite Nat.sub_diag in T. exact T.
Qed.
Print Assumptions C105_never_reset.
(** C105: the totals are consistent: nothing is negative, electric miles are part of
    all miles, CO2 is 8887 grams per gallon, and every pollutant is between its least
    and its most per mile driven with an engine. *)
Theorem C105_consistent : forall N D w0 ut f ev E k s n x, net_ok N -> fresh_world N w0 -> (forall t, draws_valid (D t)) -> 0 < ut ->
  (forall l, In l E -> road_ok (l_par (w_link w0 l)) /\ 0 < p_fs (l_par (w_link w0 l))) ->
  run_em N D ut f ev E k (init_state N w0) (0%Z, em_zero) = Ok (s, (n, x)) ->
  0 <= em_vmt_ev x /\ em_vmt_ev x <= em_vmt x /\ em_tot x CO2 == 8887 * em_tot x Fuel /\
  forall p, 0 <= em_tot x p /\ least p * (em_vmt x - em_vmt_ev x) <= em_tot x p <= most p * (em_vmt x - em_vmt_ev x).
Proof.
  intros N D w0 ut f ev E k s n x K F DV U R H. destruct (em_totals _ _ _ _ _ _ _ _ _ _ _ H) as (_ & G & Ob & T1 & T2 & T3).
  pose proof (recent_pos f k G (observed_pos N D ev E w0 k G K F DV R Ob)) as P. pose proof (fun p => sums_pos ut p _ U P) as Q. rewrite T2, T3.
  destruct (Q Fuel) as (A & B & _). split; [exact A|]. split; [exact B|]. split; [rewrite !T1; apply co2_fuel|]. intros p. rewrite T1, T2, T3. destruct (Q p) as (_ & _ & C). split; [|exact C].
  assert (L : 0 < least p) by (destruct p; reflexivity). nra.
Qed.
Print Assumptions C105_consistent.
(** C105: between resets no total ever decreases. *)
Theorem C105_monotone : forall N D w0 ut ev E k s n x s' n' x', net_ok N -> fresh_world N w0 -> (forall t, draws_valid (D t)) -> 0 < ut ->
  (forall l, In l E -> road_ok (l_par (w_link w0 l)) /\ 0 < p_fs (l_par (w_link w0 l))) ->
  run_em N D ut 0 ev E k (init_state N w0) (0%Z, em_zero) = Ok (s, (n, x)) -> run_em N D ut 0 ev E (S k) (init_state N w0) (0%Z, em_zero) = Ok (s', (n', x')) ->
  (forall p, em_tot x p <= em_tot x' p) /\ em_vmt x <= em_vmt x' /\ em_vmt_ev x <= em_vmt_ev x'.
Proof.
  intros N D w0 ut ev E k s n x s' n' x' K F DV U R H H'. pose proof (em_same_run _ _ _ _ _ _ _ _ _ _ _ H) as R1.
  apply em_step in H' as (s1 & [n1 x1] & w & H1 & (Mv & _) & _ & H3). rewrite H in H1. apply Ok_pair in H1 as [E1 E2]. injection E2 as E2 E3. subst s1 n1 x1.
  unfold em_update in H3. cbv zeta in H3. cbn [fst snd] in H3. apply bind_ok in H3 as (x2 & H4 & H3).
  destruct (em_totals _ _ _ _ _ _ _ _ _ _ _ H) as (En & _). unfold since in En. cbn [Z.leb Z.compare] in En.
  assert (Q : (n + 1 =? 0)%Z = false) by (apply Z.eqb_neq; lia). rewrite Q in H3. apply Ok_pair in H3 as [_ E3]. subst x'.
  destruct (links_sees _ _ _ _ _ H4) as (G & S1 & A & B & C). destruct (run_par N D w0 K F DV _ _ R1) as [I P]. pose proof (load_links_par _ _ _ _ _ _ K (DV _) I Mv) as P2.
  assert (GP : Forall gpos G).
  { clear - S1 P P2 R. revert G S1. induction E as [|l E IH]; intros G S1; cbn [map] in S1; inversion S1; subst; constructor.
    - destruct (R l (or_introl eq_refl)) as [R1 R2]. eapply sees_pos; [rewrite P2, P; exact R1|rewrite P2, P; exact R2|eassumption].
    - apply IH; [intros; apply R; now right|assumption]. }
  split; [|destruct (sums_pos ut Fuel G U GP) as (X & Y & _); split; [rewrite B|rewrite C]; lra].
  intros p. rewrite A. destruct (sums_pos ut p G U GP) as (X & Y & Z1 & _). assert (L : 0 < least p) by (destruct p; reflexivity). nra.
Qed.
Print Assumptions C105_monotone.
(** a fresh network, two registered links, electric vehicles are the even ones *)
Definition xn_em (f : Z) (k : nat) : res (lstate * (Z * emission)) := run_em xn (fun _ => xn_draws) 5 f Z.even [20; 25]%Z k (init_state xn xn_world) (0%Z, em_zero).
Definition em_figures (r : res (lstate * (Z * emission))) : option (Z * Q * Q) :=
  match r with Ok (_, (n, x)) => Some (n, Qred (em_vmt x), Qred (em_vmt_ev x)) | Err _ => None end.
Example C105_case : net_ok xn /\ fresh_world xn xn_world /\ (forall t : Z, draws_valid ((fun _ => xn_draws) t)) /\ 0 < 5 /\
  (forall l, In l [20; 25]%Z -> road_ok (l_par (w_link xn_world l)) /\ 0 < p_fs (l_par (w_link xn_world l))) /\
  em_figures (xn_em 0 10) = Some (10%Z, 21 # 16, 3 # 4) /\ em_figures (xn_em 4 6) = Some (2%Z, 27 # 64, 15 # 64).
Proof.
  split; [apply xn_net_ok|]. split; [apply xn_fresh|]. split; [intros; apply xn_draws_valid|]. split; [lra|]. split.
  - intros l [<-|[<-|[]]]; (split; [split; [vm_compute; discriminate|split; vm_compute; reflexivity]|vm_compute; reflexivity]).
  - split; vm_compute; reflexivity.
Qed.

(** C106 (refuted): "a vehicle adds the length of a link to the miles when it crosses
    it".  A vehicle that stands at the exit of a free-flowing link is counted as
    moving at the speed of the link: one vehicle on one link adds any number of
    lengths. *)
Definition stop_p : lparam := {| p_kind := KCtm; p_hold := 1 # 8; p_flow := 1 # 2; p_lanes := 1; p_len := 80; p_ffs := 16; p_ut := 5; p_fs := 1 |}.
Definition stop_cell (vol : Z) : cell := {| c_hold := 6400 # 640; c_flow := 5 # 2; c_wr := Some (20480 # 61440); c_vol := vol; c_q := [] |}.
Definition stop_link (n : nat) : link :=
  match n with
  | O => {| l_par := stop_p; l_in := []; l_fin := []; l_body := BCtm [stop_cell 0] |}
  | _ => {| l_par := stop_p; l_in := []; l_fin := [1%Z]; l_body := BCtm [stop_cell 1] |}
  end.
Theorem C106_miles_refuted : params_ok stop_p /\ forall n, exists s arr x, fresh_link stop_p (s 0%nat) /\ history (S n) s arr /\ arrivals (S n) arr = [1%Z] /\
  foldM (em_link (p_ut stop_p) (fun _ => false)) em_zero (map s (seq 1 n)) = Ok x /\ em_vmt x == inject_Z (Z.of_nat n) * (p_len stop_p / 1600).
Proof.
  split; [repeat split; vm_compute; try reflexivity; discriminate|]. intros n. exists stop_link, (fun i => match i with O => [1%Z] | _ => [] end).
  assert (X : forall n a x0, exists x, foldM (em_link (p_ut stop_p) (fun _ => false)) x0 (map stop_link (seq (S a) n)) = Ok x /\ em_vmt x == em_vmt x0 + inject_Z (Z.of_nat n) * (p_len stop_p / 1600)).
  { clear n. induction n as [|n IH]; intros a x0; cbn [seq map foldM].
    - exists x0. split; [reflexivity|]. change (inject_Z (Z.of_nat 0)) with 0. ring.
    - assert (Y : exists x1, em_link (p_ut stop_p) (fun _ => false) x0 (stop_link (S a)) = Ok x1 /\ em_vmt x1 == em_vmt x0 + (p_len stop_p / 1600)).
      { change (stop_link (S a)) with (stop_link 1). unfold em_link.
        replace (link_tt (stop_link 1)) with (@Ok Q (80 / 16)) by (vm_compute; reflexivity). cbn [bind].
        change (negb (Qeq_bool (80 / 16) 0)) with true. cbn [guard bind]. cbv zeta.
        destruct (rates_ok _ (em_mph_range (p_len (l_par (stop_link 1)) / (80 / 16)))) as (r & -> & _). cbn [bind].
        destruct (link_emission (fun _ => false) (stop_link 1)) as [a1 b1] eqn:Le. eexists. split; [reflexivity|]. unfold em_add. cbv zeta. cbn [em_vmt].
        assert (L1 : a1 == 1 /\ b1 == 0) by (vm_compute in Le; injection Le as <- <-; split; reflexivity). destruct L1 as [-> ->]. vm_compute (p_len _). change (p_ut stop_p) with 5. field. }
      destruct Y as (x1 & -> & E1). cbn [bind]. destruct (IH (S a) x1) as (x & Ex & V). exists x. split; [exact Ex|]. rewrite V, E1, Nat2Z.inj_succ, <- Z.add_1_r, inject_Z_plus. ring. }
  destruct (X n 0%nat em_zero) as (x & Ex & V). exists x. split; [vm_compute; reflexivity|]. split.
  - intros i Hi. exists (match i with O => [] | _ => [1%Z] end), (fun _ => 1 # 2), (fun _ => true). destruct i as [|i].
    + eexists. split; [constructor|]. split; [intros; split; vm_compute; discriminate|]. split; [reflexivity|vm_compute; reflexivity].
    + eexists. split; [repeat constructor|]. split; [intros; split; vm_compute; discriminate|]. split; [reflexivity|vm_compute; reflexivity].
  - split; [unfold arrivals; cbn [seq map concat]|].
    + assert (Z0 : forall n a, concat (map (fun i => match i with O => [1%Z] | S _ => [] end) (seq (S a) n)) = []) by (clear; induction n as [|n IH]; intros a; [reflexivity|cbn [seq map concat]; apply IH]). rewrite Z0. reflexivity.
    + split; [exact Ex|]. rewrite V. cbn [em_zero em_vmt]. ring.
Qed.
Print Assumptions C106_miles_refuted.
(** C106: what is counted: every vehicle past the entrance, also those that stand at
    the exit, at the speed of the link. *)
Theorem C106_counted : forall ev l g ut, sees ev l g ->
  g_fuelled g + g_electric g == inject_Z (Zlen (l_fin l) + Zlen (inside (l_body l))) / p_fs (l_par l) /\
  (forall x x', em_link ut ev x l = Ok x' -> em_vmt x' - em_vmt x == g_speed g * ut / 1600 * (g_fuelled g + g_electric g)).
Proof.
  intros ev l g ut S. assert (E : forall f (vs : list Z), (Zlen (filter (fun v => negb (f v)) vs) + Zlen (filter f vs))%Z = Zlen vs).
  { intros f vs. unfold Zlen. induction vs as [|v vs IH]; [reflexivity|]. cbn [filter]. destruct (f v); cbn [negb length]; lia. }
  split.
  - destruct S as (t & _ & _ & _ & -> & ->). unfold count. rewrite <- Zlen_app, <- (E ev (l_fin l ++ inside (l_body l))%list), inject_Z_plus. unfold Qdiv. ring.
  - intros x x' H. destruct (em_link_sees _ _ _ _ _ H) as (g' & S' & _ & B & _). rewrite B.
    destruct S as (t & Et & _ & A & F1 & F2), S' as (t' & Et' & _ & A' & F1' & F2'). rewrite Et in Et'. apply Ok_inj in Et' as <-.
    unfold g_miles. rewrite A, A', F1, F1', F2, F2'. ring.
Qed.
Print Assumptions C106_counted.
Example C106_case : exists g, sees Z.even (stop_link 5) g /\ g_speed g == 16 /\ g_fuelled g == 1 /\ g_electric g == 0.
Proof.
  exists {| g_speed := 16; g_fuelled := 1; g_electric := 0 |}. split; [|repeat split]. exists (80 / 16). split; [|split; [vm_compute; discriminate|split; [|split]]]; vm_compute; reflexivity.
Qed.

(** C107: the number of trips of a class is the number of different addresses of the
    vehicles of the class that were on a registered link: never more than the number
    of those vehicles, and exactly that number if no address is used twice. *)
Theorem C107_trips : forall M D ut ev addr E c k s s' x vs, mrun_em M D ut ev addr E k s me_zero = Ok (s', x) ->
  NoDup vs -> (forall v, In v vs <-> on_some M D E s c k v) ->
  (me_trips x c <= Zlen vs)%Z /\ ((forall u v, In u vs -> In v vs -> addr u = addr v -> u = v) -> me_trips x c = Zlen vs).
Proof.
  intros M D ut ev addr E c k s s' x vs H ND V. destruct (me_trips_set _ _ _ _ _ _ c _ _ _ _ H) as [NS I].
  assert (I' : forall a, In a (me_set x c) <-> exists v, In v vs /\ addr v = a). { intros a. rewrite I. split; intros (v & Hv & Ha); exists v; (split; [now apply V|exact Ha]). }
  split; [apply (trips_le addr); [exact NS|intros a Ha; now apply I']|]. intros Inj. now apply (trips_eq addr).
Qed.
Print Assumptions C107_trips.
(** C107: the totals of each class are those of its own vehicles and rates, and the
    hours are the time spent on the registered links. *)
Theorem C107_totals : forall M D ut ev addr E c k s s' x, mrun_em M D ut ev addr E k s me_zero = Ok (s', x) ->
  mrun M D k s = Ok s' /\
  exists G, mobserved M D ev E s c k G /\ totals (class_rate c) ut (concat (map G (seq 0 k))) (me_by x c) /\ me_vht x c == hours ut (concat (map G (seq 0 k))).
Proof. intros M D ut ev addr E c k s s' x H. split; [eapply me_same_run; exact H|exact (me_totals M D ut ev addr E c k s s' x H)]. Qed.
Print Assumptions C107_totals.

(** the network of C97 with departures every six intervals: the second departures
    find the first vehicles gone *)
Definition ym_slow : mnet :=
  {| mn_fs := mn_fs ym; mn_pcu := mn_pcu ym; mn_nodes := mn_nodes ym; mn_out := mn_out ym; mn_in := mn_in ym; mn_links := mn_links ym; mn_to := mn_to ym;
     mn_origins := mn_origins ym; mn_dests := mn_dests ym; mn_freq := 6; mn_total_assign := mn_total_assign ym; mn_start_assign := mn_start_assign ym;
     mn_total_int := mn_total_int ym; mn_routing := mn_routing ym; mn_rfreq := mn_rfreq ym; mn_rlen := mn_rlen ym |}.
Lemma ym_slow_ok : mnet_ok ym_slow.
Proof. pose proof (ym_net_ok (MRBiclass 0 0) ym_os eq_refl) as []. constructor; assumption. Qed.
Lemma ym_slow_fresh : mfresh_world ym_slow ym_world.
Proof. pose proof (ym_fresh (MRBiclass 0 0) ym_os) as []. constructor; assumption. Qed.
Definition ym_em (addr : Z -> Z) (k : nat) : res (mlstate * memis) :=
  mrun_em ym_slow (fun _ => ym_draws) 5 (fun c v => Z.even v) addr [20; 25]%Z k (minit ym_slow ym_world) me_zero.
Lemma ym_em_eq addr k : ym_em addr k = mrun_em ym_slow (fun _ => ym_draws) 5 (fun c v => Z.even v) addr [20; 25]%Z k (minit ym_slow ym_world) me_zero.
Proof. reflexivity. Qed.
(** vehicles seen by class, hours and miles of trucks *)
Definition em_of (r : res (mlstate * memis)) : option (list Z * list Z * Q * Q) :=
  match r with Ok (_, x) => Some (me_set x true, me_set x false, Qred (me_vht x true), Qred (em_vmt (me_by x true))) | Err _ => None end.
(** trucks 12 and 14 get the memory of trucks 5 and 6, which have arrived *)
Definition ym_addr (v : Z) : Z := if (v =? 12)%Z then 5%Z else if (v =? 14)%Z then 6%Z else v.
Definition live_at (M : mnet) (D : Z -> mdrawsI) (s : mlstate) (j : nat) : list Z :=
  match mrun M D j s with
  | Ok sj => match mload_links M (D (ms_cur sj)) (ms_cur sj) (ms_assign sj) (ms_w sj) with Ok w => f_live (mw_fac w) | Err _ => [] end
  | Err _ => []
  end.
Definition distinct_at (addr : Z -> Z) (vs : list Z) : bool := forallb (fun u => forallb (fun v => negb (addr u =? addr v)%Z || (u =? v)%Z) vs) vs.
Lemma distinct_addresses M D s k addr : forallb (fun j => distinct_at addr (live_at M D s j)) (seq 0 k) = true -> addresses_ok M D s k addr.
Proof.
  intros H j sj w Hj Hr (Hm & _) u v Hu Hv E. rewrite forallb_forall in H. specialize (H j). unfold live_at in H. rewrite Hr, Hm in H.
  assert (Q : distinct_at addr (f_live (mw_fac w)) = true) by (apply H, in_seq; lia). unfold distinct_at in Q. rewrite forallb_forall in Q. specialize (Q u Hu).
  rewrite forallb_forall in Q. specialize (Q v Hv). rewrite (proj2 (Z.eqb_eq _ _) E) in Q. now apply Z.eqb_eq.
Qed.
Lemma em_of_ok (r : res (mlstate * memis)) a b q m : em_of r = Some (a, b, q, m) -> exists s x, r = Ok (s, x) /\ me_set x true = a.
Proof. destruct r as [[s x]|]; [|discriminate]. intros H. exists s, x. split; [reflexivity|]. cbn [em_of] in H. injection H as <- _ _ _. reflexivity. Qed.
Lemma ym_em_own : em_of (ym_em (fun v => v) 12) = Some ([15; 14; 12; 9; 6; 5]%Z, [13; 11; 10; 7; 1; 8; 4; 3; 2]%Z, 1 # 36, 15 # 16).
Proof. vm_compute. reflexivity. Qed.
Lemma ym_em_shared : exists b q m, em_of (ym_em ym_addr 12) = Some ([15; 9; 6; 5]%Z, b, q, m).
Proof. do 3 eexists. vm_compute. reflexivity. Qed.
(** C107 (refuted): "the number of trips is the number of vehicles that used the
    registered links": it is smaller when a vehicle is allocated where an arrived one
    of its class was. *)
Theorem C107_trips_refuted : exists M D w0 ut ev addr E c k s x vs, mnet_ok M /\ mfresh_world M w0 /\ (forall t : Z, mdraws_valid (D t)) /\
  addresses_ok M D (minit M w0) k addr /\ mrun_em M D ut ev addr E k (minit M w0) me_zero = Ok (s, x) /\
  NoDup vs /\ (forall v, In v vs <-> on_some M D E (minit M w0) c k v) /\ me_trips x c = 4%Z /\ Zlen vs = 6%Z.
Proof.
  destruct ym_em_shared as (b & q & m & O1). destruct (em_of_ok _ _ _ _ _ O1) as (s & x & E1 & T1). destruct (em_of_ok _ _ _ _ _ ym_em_own) as (s2 & x2 & E2 & T2).
  rewrite ym_em_eq in E1. rewrite ym_em_eq in E2.
  destruct (me_trips_set _ _ _ _ _ _ true _ _ _ _ E2) as [ND I].
  exists ym_slow, (fun _ => ym_draws), ym_world, 5, (fun c v => Z.even v), ym_addr, [20; 25]%Z, true, 12%nat, s, x, (me_set x2 true).
  split; [exact ym_slow_ok|]. split; [exact ym_slow_fresh|]. split; [intros; exact ym_draws_valid|]. split; [apply distinct_addresses; vm_compute; reflexivity|]. split; [exact E1|].
  split; [exact ND|]. split; [|split; [unfold me_trips; rewrite T1; reflexivity|rewrite T2; reflexivity]]. intros v. rewrite I. split; [intros (u & Hu & <-); exact Hu|intros H; exists v; auto].
Qed.
Print Assumptions C107_trips_refuted.
Example C107_case : em_of (ym_em (fun v => v) 12) = Some ([15; 14; 12; 9; 6; 5]%Z, [13; 11; 10; 7; 1; 8; 4; 3; 2]%Z, 1 # 36, 15 # 16).
Proof. exact ym_em_own. Qed.
