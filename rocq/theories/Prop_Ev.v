(** Electric vehicles and charging stations (C126-C134). *)
From Verif Require Import Base Base_lemmas Model_Num Model_CC Model_Path Model_Link Spec_Link Proof_Link Proof_Link4 Model_World Model_Node Proof_Node Proof_CC Proof_Num
  Model_Ev Spec_Ev Proof_Ev Proof_Ev2 Ex_Net Ex_Ev.
Local Open Scope Z_scope.

(** * Histories of the concrete station *)
Lemma distinct_NoDup l : distinct l = true -> NoDup l.
Proof. induction l as [|v l IH]; cbn; intros D; constructor; apply andb_prop in D as [D1 D2]; [|now apply IH]. apply negb_true_iff, memb_false in D1. exact D1. Qed.
Lemma ex_history slots time sched n : forallb (ex_check slots time sched) (seq 0 n) = true ->
  history 9 1 5 slots time 2 [1] [2] 10 (ex_b slots time sched) (ex_a slots time sched) n.
Proof.
  intros CH. rewrite forallb_forall in CH.
  assert (CK : forall k, (k < n)%nat -> ex_check slots time sched k = true) by (intros k K; apply CH, in_seq; lia). constructor.
  - reflexivity.
  - constructor; [intros []|constructor].
  - intros k K. exists [1]. split; [apply Permutation_refl|]. specialize (CK k K). unfold ex_check in CK. apply andb_prop in CK as [CK _]. apply andb_prop in CK as [CK _].
    unfold ex_a, ex_after. destruct (station_evolve [1] [2] (10 + Z.of_nat k) (ex_b slots time sched k)); [reflexivity|discriminate].
  - intros k K. split; [reflexivity|]. intros v Hv. split; reflexivity.
  - intros k K. specialize (CK k K). unfold ex_check in CK. apply andb_prop in CK as [CK _]. apply andb_prop in CK as [_ CK]. now apply distinct_NoDup.
  - intros k v e K Hv E. specialize (CK k K). unfold ex_check in CK. apply andb_prop in CK as [_ CK]. rewrite forallb_forall in CK. specialize (CK v Hv). rewrite E in CK. lia.
Qed.
Lemma ex_two_history : history 9 1 5 2 2 2 [1] [2] 10 (ex_b 2 2 ex_two) (ex_a 2 2 ex_two) 9.
Proof. apply ex_history. vm_compute. reflexivity. Qed.
Lemma ex_one_history : history 9 1 5 1 2 2 [1] [2] 10 (ex_b 1 2 ex_one) (ex_a 1 2 ex_one) 16.
Proof. apply ex_history. vm_compute. reflexivity. Qed.
Example ex_two_run : map (fun k => s_pool (sw_st (ex_a 2 2 ex_two k))) (seq 0 9) =
  [[[1]; []]; [[1]; [2]]; [[]; [2]]; [[3; 4]; []]; [[3; 4]; []]; [[4]; []]; [[4]; []]; [[4]; []]; [[]; []]].
Proof. vm_compute. reflexivity. Qed.
Example ex_one_run : map (fun k => s_pool (sw_st (ex_a 1 2 ex_one k))) (seq 0 16) =
  [[[1; 2; 3]]; [[1; 2; 3]]; [[2; 3; 4]]; [[2; 3; 4]]; [[2; 3; 4]]; [[3; 4]]; [[3; 4]]; [[3; 4]]; [[4]]; [[4; 5]]; [[4; 5]]; [[5]]; [[5]]; [[5]]; [[]]; [[]]].
Proof. vm_compute. reflexivity. Qed.

(** * C126: a station loses and invents no vehicle *)
Lemma grown_counted fs k c c' : grown fs k c c' -> counted fs k c c'.
Proof. destruct c, c'; cbn; auto. intros E. change last_value with final_value in E. rewrite E. unfold Qdiv. ring. Qed.

Theorem C126_interval_conserves order outs t x y :
  NoDup order -> NoDup (at_station x ++ arriving order x) -> station_evolve order outs t x = Ok y ->
  exists gone,
    Permutation (gone ++ at_station y) (at_station x ++ arriving order x) /\
    (length gone <= length (s_pool (sw_st x)))%nat /\ length (s_pool (sw_st y)) = length (s_pool (sw_st x)) /\
    (forall l, l_fin (w_link (sw_w y) l) = if in_dec Z.eq_dec l order then [] else l_fin (w_link (sw_w x) l)) /\
    (forall l, l_in (w_link (sw_w y) l) = l_in (w_link (sw_w x) l) ++ filter (heading (sw_w x) l) gone) /\
    (forall v, In v gone -> charged (sw_ev y v) /\ v_cur (w_veh (sw_w y) v) = v_next (w_veh (sw_w x) v) /\ v_next (w_veh (sw_w x) v) <> None) /\
    (forall v, ~ In v gone -> w_veh (sw_w y) v = w_veh (sw_w x) v) /\
    (forall l, counted (s_fs (sw_st x)) (Zlen (filter (heading (sw_w x) l) gone)) (cc_Nin (w_cc (sw_w x)) l) (cc_Nin (w_cc (sw_w y)) l)) /\
    (forall l, counted (s_fs (sw_st x)) (Zlen (filter (coming (sw_w x) l) gone)) (cc_Nout (w_cc (sw_w x)) l) (cc_Nout (w_cc (sw_w y)) l)) /\
    counted (s_fs (sw_st x)) (Zlen gone) (Some (s_cc (sw_st x))) (Some (s_cc (sw_st y))) /\
    w_oq (sw_w y) = w_oq (sw_w x) /\ w_dq (sw_w y) = w_dq (sw_w x) /\ w_fac (sw_w y) = w_fac (sw_w x).
Proof.
  intros NO ND E. destruct (evolve_stepped _ _ _ _ _ NO ND E) as (p & S). pose proof (joins_ok _ _ _ (sp_join _ _ _ _ _ _ S)) as (L & PX & _).
  pose proof (gone_kept_perm x p) as GK. destruct (sp_move _ _ _ _ _ _ S) as (w1 & MV & V1 & C1 & O1 & D1 & F1 & I1 & K1 & N1).
  destruct (mo_rest _ _ _ _ MV) as (O2 & D2 & F2 & _).
  assert (GE : forall l, goes w1 l = heading (sw_w x) l) by (intros l; unfold goes, heading; now rewrite V1).
  assert (CE : forall l, comes w1 l = coming (sw_w x) l) by (intros l; unfold comes, coming; now rewrite V1).
  exists (concat (map (gone_q x) p)).
  split; [unfold at_station at 1; rewrite (sp_pool _ _ _ _ _ _ S), GK; exact PX|].
  split. { rewrite <- L. clear. induction p as [|q p IH]; [cbn; lia|]. cbn [map concat length]. rewrite app_length. assert (length (gone_q x q) <= 1)%nat; [|lia]. destruct q as [|v r]; cbn; [lia|]. destruct (full_timer x v); cbn; lia. }
  split; [rewrite (sp_pool _ _ _ _ _ _ S), map_length; exact L|].
  split; [intros l; rewrite (mo_fin _ _ _ _ MV); apply N1|].
  split; [intros l; rewrite (mo_in _ _ _ _ MV), I1, GE; reflexivity|].
  split. { intros v Hv. pose proof (mo_next _ _ _ _ MV v Hv) as [_ NX]. rewrite V1 in NX. split; [|split; [|exact NX]].
    - assert (HV : In v (concat (map head_q p)) /\ full_timer x v = true).
      { apply in_concat in Hv as (q' & Hq & Hv). apply in_map_iff in Hq as (q & <- & Hq). destruct q as [|u r]; [contradiction|]. cbn in Hv. destruct (full_timer x u) eqn:FT; [|contradiction]. destruct Hv as [<-|[]]. split; [|exact FT].
        apply in_concat. exists [u]. split; [|now left]. apply in_map_iff. exists (u :: r). split; [reflexivity|exact Hq]. }
      destruct HV as [HV FT]. pose proof (sp_some _ _ _ _ _ _ S v HV) as SM. unfold charged. rewrite (sp_ev _ _ _ _ _ _ S). destruct (in_dec Z.eq_dec v (concat (map head_q p))); [|contradiction].
      destruct (sw_ev x v) as [e|]; [|congruence]. exists (served_ev x v e). split; [reflexivity|]. unfold served_ev. rewrite FT. repeat split.
    - rewrite (mo_veh _ _ _ _ MV), V1. destruct (in_dec Z.eq_dec v (concat (map (gone_q x) p))); [reflexivity|contradiction]. }
  split. { intros v Hv. rewrite (mo_veh _ _ _ _ MV), V1. destruct (in_dec Z.eq_dec v (concat (map (gone_q x) p))); [contradiction|reflexivity]. }
  split; [intros l; apply grown_counted; rewrite <- GE, <- C1; apply (mo_Nin _ _ _ _ MV)|].
  split; [intros l; apply grown_counted; rewrite <- CE, <- C1; apply (mo_Nout _ _ _ _ MV)|].
  split; [apply grown_counted; apply (sp_cc _ _ _ _ _ _ S)|]. rewrite O2, D2, F2. auto.
Qed.
Print Assumptions C126_interval_conserves.

(** everything that ever arrived is still there or has left, and its counter says how many left *)
Theorem C126_history_conserves node fs unit slots time price ins outs t0 b a n k :
  history node fs unit slots time price ins outs t0 b a n -> (k < n)%nat ->
  exists gone, Permutation (gone ++ at_station (a k)) (concat (map (fun i => arriving ins (b i)) (seq 0 (S k)))) /\
    (final_value (s_cc (sw_st (a k))) == inject_Z (Zlen gone) / fs)%Q.
Proof.
  intros H K. destruct (conserved _ _ _ _ _ _ _ _ _ _ _ _ H k K) as (g & P & G). exists g. split; [exact P|]. apply grown_counted in G. cbn in G. rewrite G. ring.
Qed.
Print Assumptions C126_history_conserves.
Example C126_witness : final_value (s_cc (sw_st (ex_a 1 2 ex_one 8))) == 3 /\ at_station (ex_a 1 2 ex_one 8) = [4] /\
  map (fun k => length (l_in (w_link (sw_w (ex_a 1 2 ex_one k)) 2))) [1; 2; 5; 8]%nat = [0; 1; 2; 3]%nat.
Proof. vm_compute. auto. Qed.

(** * C127: when a vehicle leaves *)

(** after interval [k], the vehicle at place [m] of a queue whose head has been charging for
    [c] intervals leaves in interval k + 1 + (T - c) + m (T + 1) *)
Theorem C127_time_left node fs unit slots time price ins outs t0 b a n k i q m v :
  history node fs unit slots time price ins outs t0 b a n -> (k < n)%nat ->
  nth_error (s_pool (sw_st (a k))) i = Some q -> nth_error q m = Some v ->
  0 <= head_since (a k) q <= Z.max 0 time /\
  leaves_in a n (Z.of_nat k) v (Z.of_nat k + 1 + (Z.max 0 time - head_since (a k) q) + Z.of_nat m * (Z.max 0 time + 1)).
Proof. intros H. now apply (inside_leaves _ _ _ _ _ _ _ _ _ _ _ _ H). Qed.
Print Assumptions C127_time_left.

(** whoever arrives leaves, not before its charging time and after a bounded time *)
Theorem C127_everyone_leaves node fs unit slots time price ins outs t0 b a n k v :
  history node fs unit slots time price ins outs t0 b a n -> (k < n)%nat -> In v (arriving ins (b k)) ->
  exists d, Z.of_nat k + Z.max 0 time <= d <=
      Z.of_nat k + Z.max 0 time + (Z.max 0 time + 1) * (Zlen (at_station (b k)) + Zlen (arriving ins (b k)) - 1) /\
    leaves_in a n (Z.of_nat k) v d.
Proof. intros H. now apply (arrival_leaves _ _ _ _ _ _ _ _ _ _ _ _ H). Qed.
Print Assumptions C127_everyone_leaves.

(** the only vehicle that arrives in an interval enters the first shortest queue *)
Theorem C127_lone_arrival node fs unit slots time price ins outs t0 b a n k v :
  history node fs unit slots time price ins outs t0 b a n -> (k < n)%nat -> arriving ins (b k) = [v] ->
  exists q, In q (s_pool (sw_st (b k))) /\ (forall q', In q' (s_pool (sw_st (b k))) -> (length q <= length q')%nat) /\
    leaves_in a n (Z.of_nat k) v (Z.of_nat k + (Z.max 0 time - head_since (b k) q) + Z.of_nat (length q) * (Z.max 0 time + 1)).
Proof.
  intros H K AR. destruct (lone_arrival _ _ _ _ _ _ _ _ _ _ _ _ H k v K AR) as (i & q & _ & Eq & M & _ & LV). exists q. split; [eapply nth_error_In; eauto|]. split; [exact M|exact LV].
Qed.
Print Assumptions C127_lone_arrival.

(** two vehicles one behind the other leave one charging time and one interval apart *)
Theorem C127_apart node fs unit slots time price ins outs t0 b a n k q m u v :
  history node fs unit slots time price ins outs t0 b a n -> (k < n)%nat ->
  In q (s_pool (sw_st (a k))) -> nth_error q m = Some u -> nth_error q (S m) = Some v ->
  exists d, leaves_in a n (Z.of_nat k) u d /\ leaves_in a n (Z.of_nat k) v (d + (Z.max 0 time + 1)).
Proof.
  intros H K Hq Em En. apply In_nth_error in Hq as (i & Ei). destruct (C127_time_left _ _ _ _ _ _ _ _ _ _ _ _ _ _ _ _ _ H K Ei Em) as [_ L1].
  destruct (C127_time_left _ _ _ _ _ _ _ _ _ _ _ _ _ _ _ _ _ H K Ei En) as [_ L2]. eexists. split; [exact L1|].
  match goal with L : leaves_in _ _ _ v ?d |- leaves_in _ _ _ v ?e => replace e with d by (rewrite Nat2Z.inj_succ; unfold Z.succ; ring) end. exact L2.
Qed.
Print Assumptions C127_apart.

(** "a slot serves one waiting vehicle per charging time": at a slot of two intervals the
    vehicles 1 and 2, there since interval 0, leave in intervals 2 and 5 *)
Theorem C127_one_per_charging_time_refuted :
  ~ (forall node fs unit slots time price ins outs t0 b a n k q m u v d, 0 < time ->
       history node fs unit slots time price ins outs t0 b a n -> (k < n)%nat ->
       In q (s_pool (sw_st (a k))) -> nth_error q m = Some u -> nth_error q (S m) = Some v ->
       leaves_in a n (Z.of_nat k) u d -> leaves_in a n (Z.of_nat k) v (d + time)).
Proof.
  intros CL. destruct (C127_time_left _ _ _ _ _ _ _ _ _ _ _ _ 0%nat 0%nat [1; 2; 3] 0%nat 1 ex_one_history ltac:(lia) ltac:(vm_compute; reflexivity) eq_refl) as [_ L].
  assert (T2 : 0 < 2) by lia. apply (CL _ _ _ _ _ _ _ _ _ _ _ _ O [1; 2; 3] O 1 2 _ T2 ex_one_history) in L; [|lia|vm_compute; auto|reflexivity|reflexivity].
  destruct L as [_ L]. destruct (L 4%nat) as [L' _]; [lia|vm_compute; reflexivity|]. apply L'. vm_compute. auto.
Qed.
Print Assumptions C127_one_per_charging_time_refuted.
Example C127_witness : leaves_in (ex_a 1 2 ex_one) 16 9 5 14 /\ leaves_in (ex_a 1 2 ex_one) 16 2 4 11.
Proof.
  split; [destruct (C127_lone_arrival _ _ _ _ _ _ _ _ _ _ _ _ 9%nat 5 ex_one_history ltac:(lia) ltac:(vm_compute; reflexivity)) as (q & Hq & _ & L)
         |destruct (C127_lone_arrival _ _ _ _ _ _ _ _ _ _ _ _ 2%nat 4 ex_one_history ltac:(lia) ltac:(vm_compute; reflexivity)) as (q & Hq & _ & L)].
  - assert (Eq : s_pool (sw_st (ex_b 1 2 ex_one 9)) = [[4]]) by (vm_compute; reflexivity). rewrite Eq in Hq. destruct Hq as [<-|[]].
    assert (Ec : charging_since (ex_b 1 2 ex_one 9) 4 = 0) by (vm_compute; reflexivity). cbn [head_since] in L. rewrite Ec in L. exact L.
  - assert (Eq : s_pool (sw_st (ex_b 1 2 ex_one 2)) = [[1; 2; 3]]) by (vm_compute; reflexivity). rewrite Eq in Hq. destruct Hq as [<-|[]].
    assert (Ec : charging_since (ex_b 1 2 ex_one 2) 1 = 2) by (vm_compute; reflexivity). cbn [head_since] in L. rewrite Ec in L. exact L.
Qed.

(** * C128: the estimated waiting time *)

(** [y] is the estimate on record for the interval in which [v] arrives alone; it leaves after
    waiting y + m - c and charging, where [m] vehicles are in front of it and the first of
    them has been charging for [c] intervals *)
Theorem C128_estimate_error node fs unit slots time price ins outs t0 b a n k v y :
  history node fs unit slots time price ins outs t0 b a n -> (S k < n)%nat -> 0 <= t0 -> 0 <= time ->
  In (t0 + Z.of_nat k + 1, y) (s_rec (sw_st (a k))) -> arriving ins (b (S k)) = [v] ->
  exists m c, y = m * time /\ 0 <= m /\ 0 <= c <= time /\ (m = 0 -> c = 0) /\
    leaves_in a n (Z.of_nat (S k)) v (Z.of_nat (S k) + (y + m - c) + time).
Proof. intros H. now apply (estimate_wait _ _ _ _ _ _ _ _ _ _ _ _ H). Qed.
Print Assumptions C128_estimate_error.
Theorem C128_estimate_recorded node fs unit slots time price ins outs t0 b a n k :
  history node fs unit slots time price ins outs t0 b a n -> (k < n)%nat -> 0 <= t0 ->
  exists y, In (t0 + Z.of_nat k + 1, y) (s_rec (sw_st (a k))).
Proof. intros H. now apply (recorded_ex _ _ _ _ _ _ _ _ _ _ _ _ H). Qed.
Print Assumptions C128_estimate_recorded.
(** "... is the time the vehicle then waits": after interval 1 the estimate is 6, the vehicle
    that arrives in interval 2 leaves in 11, 2 + 7 + 2 *)
Theorem C128_exact_refuted :
  ~ (forall node fs unit slots time price ins outs t0 b a n k v y, 0 <= t0 -> 0 <= time ->
       history node fs unit slots time price ins outs t0 b a n -> (S k < n)%nat ->
       In (t0 + Z.of_nat k + 1, y) (s_rec (sw_st (a k))) -> arriving ins (b (S k)) = [v] ->
       leaves_in a n (Z.of_nat (S k)) v (Z.of_nat (S k) + y + time)).
Proof.
  intros CL. assert (R : In (10 + Z.of_nat 1 + 1, 6) (s_rec (sw_st (ex_a 1 2 ex_one 1)))) by (vm_compute; auto).
  assert (T0 : 0 <= 10) by lia. assert (T2 : 0 <= 2) by lia. pose proof (CL _ _ _ _ _ _ _ _ _ _ _ _ 1%nat 4 6 T0 T2 ex_one_history ltac:(lia) R ltac:(vm_compute; reflexivity)) as [_ L].
  destruct (L 10%nat) as [L' _]; [lia|vm_compute; reflexivity|]. apply L'. vm_compute. auto.
Qed.
Print Assumptions C128_exact_refuted.

(** * C129: idle slots *)
Theorem C129_idle_slot_is_used node fs unit slots time price ins outs t0 b a n k v :
  history node fs unit slots time price ins outs t0 b a n -> (k < n)%nat ->
  (length (arriving ins (b k)) <= idle_slots (b k))%nat -> In v (arriving ins (b k)) ->
  leaves_in a n (Z.of_nat k) v (Z.of_nat k + Z.max 0 time).
Proof. intros H. now apply (idle_arrivals _ _ _ _ _ _ _ _ _ _ _ _ H). Qed.
Print Assumptions C129_idle_slot_is_used.
Example C129_witness : leaves_in (ex_a 2 2 ex_two) 9 1 2 3.
Proof. apply (C129_idle_slot_is_used _ _ _ _ _ _ _ _ _ _ _ _ 1%nat 2 ex_two_history); [lia|vm_compute; lia|vm_compute; auto]. Qed.
(** "no slot is idle while a vehicle waits" *)
Theorem C129_no_idle_slot_refuted :
  ~ (forall node fs unit slots time price ins outs t0 b a n k q, history node fs unit slots time price ins outs t0 b a n -> (k < n)%nat ->
       In q (s_pool (sw_st (b k))) -> (2 <= length q)%nat -> idle_slots (b k) = 0%nat).
Proof.
  intros CL. assert (I : In [3; 4] (s_pool (sw_st (ex_b 2 2 ex_two 4)))) by (vm_compute; auto).
  pose proof (CL _ _ _ _ _ _ _ _ _ _ _ _ 4%nat _ ex_two_history ltac:(lia) I ltac:(cbn; lia)) as Z0. vm_compute in Z0. discriminate.
Qed.
Print Assumptions C129_no_idle_slot_refuted.

(** * C130: how many vehicles can charge at the same time *)
Theorem C130_number_of_queues node fs unit slots time price ins outs t0 b a n k :
  history node fs unit slots time price ins outs t0 b a n -> (k < n)%nat ->
  length (s_pool (sw_st (b k))) = Z.to_nat (slots * trunc fs) /\ length (s_pool (sw_st (a k))) = Z.to_nat (slots * trunc fs).
Proof.
  intros H K. pose proof (good_all _ _ _ _ _ _ _ _ _ _ _ _ H k K) as G. split; [apply G|]. destruct (good_after _ _ _ _ _ _ _ _ _ _ _ _ H k K G) as [GA _]. apply GA.
Qed.
Print Assumptions C130_number_of_queues.
(** a station without a queue ends the simulation in its first interval *)
Theorem C130_no_queue order outs t x y : NoDup order -> NoDup (at_station x ++ arriving order x) ->
  s_pool (sw_st x) = [] -> station_evolve order outs t x <> Ok y.
Proof.
  intros NO ND P E. destruct (evolve_stepped _ _ _ _ _ NO ND E) as (p & S). pose proof (joins_ok _ _ _ (sp_join _ _ _ _ _ _ S)) as (L & _). rewrite P in L. destruct p; [|discriminate].
  destruct (sp_rec _ _ _ _ _ _ S) as (k & EK & _). unfold estimate in EK. rewrite (sp_pool _ _ _ _ _ _ S) in EK. discriminate.
Qed.
Print Assumptions C130_no_queue.
(** "a station with a slot can be simulated": not when less than one vehicle is released per
    vehicle of demand *)
Theorem C130_any_station_runs_refuted :
  ~ (forall node fs unit slots time price w e outs t, (0 < fs)%Q -> 0 < slots -> 0 < unit -> 0 <= time ->
       arriving [1] {| sw_w := w; sw_ev := e; sw_st := new_station node fs unit slots time price |} = [] ->
       exists y, station_evolve [1] outs t {| sw_w := w; sw_ev := e; sw_st := new_station node fs unit slots time price |} = Ok y).
Proof.
  intros CL. destruct (CL 9 (1 # 2) 5 4 2 2%Q ex_world (fun _ => None) [2] 0) as (y & E); try reflexivity; [lia|].
  apply C130_no_queue in E; [contradiction|constructor; [intros []|constructor]|vm_compute; constructor|reflexivity].
Qed.
Print Assumptions C130_any_station_runs_refuted.

(** * C131: who may enter a station *)
Theorem C131_only_its_own_vehicles order outs t x y v :
  NoDup order -> NoDup (at_station x ++ arriving order x) -> station_evolve order outs t x = Ok y -> In v (arriving order x) -> welcome outs x v.
Proof.
  intros NO ND E Hv. destruct (evolve_stepped _ _ _ _ _ NO ND E) as (p & S). pose proof (sp_adm _ _ _ _ _ _ S) as A. rewrite Forall_forall in A. destruct (A v Hv) as (N & AD & EV). split; [exact AD|]. split; [exact EV|exact N].
Qed.
Print Assumptions C131_only_its_own_vehicles.
(** "other vehicles pass a station": an electric vehicle on its way to station 7 that comes
    through this one ends the run *)
Theorem C131_others_pass_refuted :
  ~ (forall order outs t x, NoDup order -> NoDup (at_station x ++ arriving order x) -> s_pool (sw_st x) <> [] ->
       (forall v, In v (arriving order x) -> exists b, v_next (w_veh (sw_w x) v) = Some b /\ In b outs) ->
       exists y, station_evolve order outs t x = Ok y).
Proof.
  intros CL. set (x := ex_feed {| sw_w := ex_world; sw_ev := fun _ => Some (set_at (Some 7) ex_ev); sw_st := new_station 9 1 5 1 2 2 |} [1]).
  destruct (CL [1] [2] 0 x) as (y & E).
  - constructor; [intros []|constructor].
  - vm_compute. constructor; [intros []|constructor].
  - vm_compute. discriminate.
  - intros v Hv. exists 2. split; [reflexivity|now left].
  - vm_compute in E. discriminate.
Qed.
Print Assumptions C131_others_pass_refuted.
Example C131_witness : (exists y, station_evolve [1] [2] 13 (ex_b 2 2 ex_two 3) = Ok y) /\ arriving [1] (ex_b 2 2 ex_two 3) = [3; 4].
Proof.
  split; [|vm_compute; reflexivity]. destruct (station_evolve [1] [2] 13 (ex_b 2 2 ex_two 3)) as [y|e] eqn:E; [eauto|].
  assert (X : match station_evolve [1] [2] 13 (ex_b 2 2 ex_two 3) with Ok _ => true | Err _ => false end = true) by (vm_compute; reflexivity). rewrite E in X. discriminate.
Qed.

(** * C132: the range at the start *)
Definition low (e : ev) : Prop := (e_range e - e_after e <= (1 # 10) * e_full e)%Q.
Definition ev_inv (me : Q * ev) : Prop := e_road (snd me) = false /\ e_at (snd me) = None \/ e_road (snd me) = true /\ (e_at (snd me) = None \/ low (snd me)).
Lemma ev_inv_node me n : ev_inv me -> exists r, route_at_node n (fst me) (snd me) = Ok r.
Proof.
  destruct me as [m e]. cbn [fst snd]. unfold ev_inv, low, route_at_node, need_charging. cbn [fst snd]. intros [[R A]|[R [A|L]]].
  - rewrite R, A. cbn. eauto.
  - rewrite R, A. destruct (_ && _); cbn; eauto.
  - apply Qle_bool_iff in L. rewrite R, L, orb_true_r. cbn. eauto.
Qed.
Lemma ev_inv_drive me pq len : (0 <= len)%Q -> ev_inv me -> ev_inv (ev_drive pq len me).
Proof.
  intros L. destruct me as [m e]. unfold ev_inv, low, ev_drive. cbn [fst snd e_road e_at e_range e_after e_full]. intros [H|[R [A|H]]]; [now left|right; auto|]. right. split; [exact R|]. right.
  assert (0 <= (if pq then 0 else len / 1600))%Q by (destruct pq; [lra|unfold Qdiv; change (/ 1600)%Q with (1 # 1600)%Q; lra]). lra.
Qed.

(** a trip that starts low, or the trip of a delivery vehicle, never trips the assertion *)
Theorem C132_low_start_is_safe tour road start_road start_home full home travel :
  tour = true \/ (start_road <= (1 # 10) * full)%Q -> Forall at_home home -> Forall on_road travel ->
  exists me, foldM happen (0%Q, new_ev tour road start_road start_home full) (home ++ travel) = Ok me.
Proof.
  intros ST HH HT.
  set (e0 := new_ev tour road start_road start_home full).
  assert (A : exists e, foldM happen (0%Q, e0) home = Ok (0%Q, e) /\ ev_inv (0%Q, e)).
  { assert (G : forall e, ev_inv (0%Q, e) -> e_tour e = tour -> e_road e = road -> e_range e = e_range e0 -> e_after e = 0%Q -> e_full e = full ->
      exists e', foldM happen (0%Q, e) home = Ok (0%Q, e') /\ ev_inv (0%Q, e')).
    { induction HH as [|h home Hh HH IH]; intros e I T R RG AF FU; [exists e; split; [reflexivity|exact I]|]. destruct h as [best| | |]; try contradiction. cbn [foldM happen bind fst snd]. apply IH; unfold route_at_origin;
        destruct (need_charging 0 e) eqn:NC; try assumption; destruct best as [s|]; try assumption.
      unfold need_charging in NC. apply andb_prop in NC as [NC1 NC2]. right. split; [exact NC1|]. right. unfold low. cbn [fst snd set_at e_range e_after e_full]. destruct ST as [TT|LO].
      - rewrite T, TT in NC2. cbn in NC2. apply Qle_bool_iff in NC2. exact NC2.
      - rewrite RG, AF, FU. unfold e0. cbn [new_ev e_range]. rewrite R in NC1. rewrite NC1. lra. }
    apply G; try reflexivity. destruct road eqn:RE; [right|left]; unfold e0; cbn; auto. }
  destruct A as (e & E & I). rewrite foldM_app, E. cbn [bind]. revert I. generalize (0%Q, e). clear -HT. induction HT as [|h travel Hh HT IH]; intros me I; [exists me; reflexivity|].
  destruct h as [best|nd|pq len|]; cbn [foldM happen]; [contradiction| | |].
  - destruct (ev_inv_node me nd I) as (r & ->). cbn [bind]. now apply IH.
  - cbn [bind]. apply IH. now apply ev_inv_drive.
  - cbn [bind]. apply IH. destruct me as [m x]. destruct I as [[R A]|[R _]]; [left|right]; cbn; auto.
Qed.
Print Assumptions C132_low_start_is_safe.
Example C132_witness : exists me, foldM happen (0%Q, new_ev false true 9 80 100) ([HOrigin (Some 9); HOrigin (Some 9)] ++ [HDrive true 500; HNode 3; HDrive false 3200; HNode 9; HCharge; HNode 9; HDrive false 1600; HNode 4]) = Ok me
  /\ (fst me == 3)%Q /\ (e_after (snd me) == 1)%Q.
Proof. eexists. split; [vm_compute; reflexivity|]. split; vm_compute; reflexivity. Qed.
(** "any starting range up to the full range works" *)
Theorem C132_any_start_refuted :
  ~ (forall tour road start_road start_home full home travel, (0 < full)%Q -> (0 <= start_road <= full)%Q -> (0 <= start_home <= full)%Q ->
       Forall at_home home -> Forall on_road travel ->
       exists me, foldM happen (0%Q, new_ev tour road start_road start_home full) (home ++ travel) = Ok me).
Proof.
  intros CL. destruct (CL false true 20%Q 80%Q 100%Q [HOrigin (Some 9)] [HDrive true 500%Q; HNode 3; HDrive false 1600%Q; HNode 4]) as (me & E).
  - reflexivity.
  - split; vm_compute; discriminate.
  - split; vm_compute; discriminate.
  - repeat constructor.
  - repeat constructor; vm_compute; discriminate.
  - vm_compute in E. discriminate.
Qed.
Print Assumptions C132_any_start_refuted.

(** * C133: range and miles *)
Theorem C133_charge_fills e : e_range (charge e) = e_full e /\ e_full (charge e) = e_full e /\ e_after (charge e) = 0%Q /\ e_at (charge e) = None /\
  ((0 < e_full e)%Q -> forall m, (0 < m)%Q -> need_charging m (charge e) = false).
Proof.
  repeat split. intros F m M. unfold need_charging, charge. cbn [e_road e_tour e_range e_after e_full].
  assert (X1 : Qle_bool m 0 = false) by (apply not_true_iff_false; intros X; apply Qle_bool_iff in X; lra).
  assert (X2 : Qle_bool (e_full e - 0) ((1 # 10) * e_full e) = false) by (apply not_true_iff_false; intros X; apply Qle_bool_iff in X; lra).
  rewrite X1, X2, andb_false_r. apply andb_false_r.
Qed.
Print Assumptions C133_charge_fills.
(** between two charges both counters grow by the miles of the links driven, point queues not counted *)
Theorem C133_miles_counted hs me me' : Forall (fun h => h <> HCharge) hs -> foldM happen me hs = Ok me' ->
  (fst me' == fst me + sumQ (map miles_of hs))%Q /\ (e_after (snd me') == e_after (snd me) + sumQ (map miles_of hs))%Q /\ e_range (snd me') = e_range (snd me).
Proof.
  intros F. revert me. induction F as [|h hs Hh F IH]; intros me E.
  - apply Ok_inj in E as ->. cbn [map]. change (sumQ []) with 0%Q. repeat split; lra.
  - cbn [foldM] in E. apply bind_ok in E as (m1 & E1 & E). apply IH in E as (A & B & C).
    assert (X : (fst m1 == fst me + miles_of h)%Q /\ (e_after (snd m1) == e_after (snd me) + miles_of h)%Q /\ e_range (snd m1) = e_range (snd me)).
    { destruct me as [m e]. destruct h as [best|nd|pq len|]; cbn [happen] in E1; [| | |congruence].
      - apply Ok_inj in E1 as <-. cbn [fst snd miles_of]. unfold route_at_origin. destruct (need_charging m e); [destruct best|]; cbn; repeat split; lra.
      - apply bind_ok in E1 as (r & _ & E1). apply Ok_inj in E1 as <-. cbn [fst snd miles_of]. repeat split; lra.
      - apply Ok_inj in E1 as <-. unfold ev_drive. destruct pq; cbn [fst snd miles_of e_after e_range]; repeat split; lra. }
    destruct X as (X1 & X2 & X3). cbn [map]. change (sumQ (miles_of h :: map miles_of hs)) with (miles_of h + sumQ (map miles_of hs))%Q. repeat split; [lra|lra|congruence].
Qed.
Print Assumptions C133_miles_counted.
Example C133_witness : Forall (fun h => h <> HCharge) [HOrigin (Some 9); HDrive true 500; HDrive false 3200; HNode 9] /\
  exists me, foldM happen (0%Q, new_ev false true 9 80 100) [HOrigin (Some 9); HDrive true 500; HDrive false 3200; HNode 9] = Ok me.
Proof. split; [repeat constructor; discriminate|]. eexists. vm_compute. reflexivity. Qed.
(** "an electric vehicle never drives further than its range": nothing stops it, whether it charges
    at home or on the road *)
Theorem C133_within_range_refuted :
  ~ (forall tour road start_road start_home full home travel me, (0 < full)%Q -> (0 <= start_road <= (1 # 10) * full)%Q -> (0 <= start_home <= full)%Q ->
       Forall at_home home -> Forall on_road travel ->
       foldM happen (0%Q, new_ev tour road start_road start_home full) (home ++ travel) = Ok me -> (e_after (snd me) <= e_range (snd me))%Q).
Proof.
  intros CL. assert (X : exists me, foldM happen (0%Q, new_ev false true 10 80 100) ([HOrigin (Some 9)] ++ [HDrive false 1600; HNode 9; HCharge; HNode 9; HDrive false 240000; HNode 4]) = Ok me /\
    Qltb (e_range (snd me)) (e_after (snd me)) = true) by (eexists; split; vm_compute; reflexivity).
  destruct X as (me & E & L). apply CL in E.
  - apply Qltb_lt in L. lra.
  - reflexivity.
  - split; vm_compute; discriminate.
  - split; vm_compute; discriminate.
  - repeat constructor.
  - repeat constructor; vm_compute; discriminate.
Qed.
Print Assumptions C133_within_range_refuted.

(** * C134: the best station *)
Lemma best_station_ok to from cand : forall best, (forall b, best = Some b -> (snd b == from (fst b) + to (fst b))%Q) ->
  match best_station to from best cand with
  | None => best = None /\ cand = []
  | Some (s, c) => (c == from s + to s)%Q /\ ((In s cand) \/ exists b, best = Some b /\ fst b = s) /\ (forall b, best = Some b -> (c <= snd b)%Q) /\ forall s', In s' cand -> (c <= from s' + to s')%Q
  end.
Proof.
  induction cand as [|s cand IH]; intros best B; cbn [best_station].
  - destruct best as [[s c]|]; [|auto]. split; [now apply (B (s, c))|]. split; [right; exists (s, c); auto|]. split; [intros b [= <-]; cbn; lra|intros s' []].
  - set (best' := match best with None => Some (s, (from s + to s)%Q) | Some (b, cb) => if Qltb (from s + to s) cb then Some (s, (from s + to s)%Q) else best end).
    assert (B' : forall b, best' = Some b -> (snd b == from (fst b) + to (fst b))%Q).
    { intros b. unfold best'. destruct best as [[s0 c0]|]; [destruct (Qltb _ _)|]; [intros [= <-]; cbn; lra|now apply B|intros [= <-]; cbn; lra]. }
    specialize (IH best' B'). destruct (best_station to from best' cand) as [[r c]|].
    + destruct IH as (E & IN & LB & MIN).
      assert (L1 : (c <= from s + to s)%Q /\ forall b, best = Some b -> (c <= snd b)%Q).
      { unfold best' in LB. destruct best as [[s0 c0]|].
        - destruct (Qltb (from s + to s) c0) eqn:QL.
          + apply Qltb_lt in QL. specialize (LB _ eq_refl). cbn in LB. split; [exact LB|]. intros b [= <-]. cbn. lra.
          + apply Qltb_ge in QL. specialize (LB _ eq_refl). cbn in LB. split; [lra|]. intros b [= <-]. exact LB.
        - specialize (LB _ eq_refl). split; [exact LB|]. intros b [=]. }
      destruct L1 as [L1 L2]. split; [exact E|]. split.
      * destruct IN as [IN|(b & EB & <-)]; [left; now right|]. unfold best' in EB. destruct best as [[s0 c0]|]; [destruct (Qltb _ _)|]; injection EB as <-; [left; now left|right; eauto|left; now left].
      * split; [exact L2|]. intros s' [<-|Hs]; [exact L1|now apply MIN].
    + destruct IH as [IH _]. unfold best' in IH. destruct best as [[s0 c0]|]; [destruct (Qltb _ _)|]; discriminate.
Qed.
Theorem C134_best_station_is_cheapest to from cand :
  (cand = [] /\ best_station to from None cand = None) \/
  exists s c, best_station to from None cand = Some (s, c) /\ In s cand /\ forall s', In s' cand -> (from s + to s <= from s' + to s')%Q.
Proof.
  pose proof (best_station_ok to from cand None ltac:(discriminate)) as H. destruct (best_station to from None cand) as [[s c]|] eqn:E.
  - right. exists s, c. destruct H as (A & [I|(b & [=] & _)] & _ & M). split; [reflexivity|]. split; [exact I|]. intros s' Hs. rewrite <- A. now apply M.
  - left. destruct H as [_ ->]. auto.
Qed.
Print Assumptions C134_best_station_is_cheapest.
Example C134_witness : best_station (fun s => inject_Z s) (fun s => inject_Z (10 - 2 * s)) None [3; 5; 4] = Some (5, 5%Q).
Proof. vm_compute. reflexivity. Qed.
(** "the vehicle is sent where time and price are least": [road s] is the cost of the roads to
    and from station [s], [pay s] what waiting, charging and price cost there; the cost used
    is [road] plus [station_cost] *)
Theorem C134_least_expense_refuted :
  ~ (forall (st : Z -> station) (vot : Q) (road amp : Z -> Q) cand s c,
       (forall s', In s' cand -> station_cost vot (st s') = Ok (amp s')) ->
       best_station (fun s' => (road s' + amp s')%Q) (fun _ => 0%Q) None cand = Some (s, c) ->
       forall s' w w', In s' cand -> estimate (st s) = Ok w -> estimate (st s') = Ok w' ->
         (road s + (vot * inject_Z (w + s_charge (st s)) * inject_Z (s_unit (st s)) + s_price (st s))
          <= road s' + (vot * inject_Z (w' + s_charge (st s')) * inject_Z (s_unit (st s')) + s_price (st s')))%Q).
Proof.
  intros CL. pose (st := fun s => new_station s 1 5 2 6 (if s =? 1 then 4 else 3)%Q). pose (road := fun s => (if s =? 1 then 20 else 25)%Q).
  pose (amp := fun s => match station_cost (1 # 10) (st s) with Ok q => q | Err _ => 0%Q end).
  assert (A : forall s', In s' [1; 2] -> station_cost (1 # 10) (st s') = Ok (amp s')) by (intros s' [<-|[<-|[]]]; vm_compute; reflexivity).
  assert (Z0 : best_station (fun s' => (road s' + amp s')%Q) (fun _ => 0%Q) None [1; 2] = Some (2, (0 + (25 + amp 2%Z))%Q)) by (vm_compute; reflexivity).
  assert (I1 : In 1 [1; 2]) by now left. assert (E2 : estimate (st 2) = Ok 0) by (vm_compute; reflexivity). assert (E1 : estimate (st 1) = Ok 0) by (vm_compute; reflexivity).
  pose proof (CL st (1 # 10)%Q road amp [1; 2] 2 _ A Z0 1 0 0 I1 E2 E1) as X. vm_compute in X. apply X. reflexivity.
Qed.
Print Assumptions C134_least_expense_refuted.
