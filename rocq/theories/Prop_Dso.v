(** C108-C112: queue dissipation times, marginal link costs, path costs of the system
    optimum, tables of repeated runs. *)
From Verif Require Import Base Base_lemmas Model_Num Proof_Num Model_CC Spec_CC Model_Link Proof_Link4 Model_World Model_Node Proof_Node2 Proof_Node4 Proof_Safe2 Spec_Grad Model_Grad Proof_Grad1 Prop_Grad
  Model_Dso Spec_Dso Proof_Dso Proof_Dso2.
Local Open Scope Z_scope.

Lemma mapM_nth {A B} (f : A -> res B) : forall l r i a, mapM f l = Ok r -> nth_error l i = Some a -> exists b, f a = Ok b /\ nth_error r i = Some b.
Proof.
  intros l. induction l as [|x l IH]; intros r i a H E; [destruct i; discriminate|]. cbn [mapM] in H. apply bind_ok in H as (y & Ey & H). apply bind_ok in H as (ys & Eys & H). injection H as <-.
  destruct i as [|i]; [injection E as <-; exists y; auto|]. apply (IH ys i a Eys E).
Qed.
Lemma ints_nth a n i : (i < n)%nat -> nth_error (ints a n) i = Some (a + Z.of_nat i).
Proof. intros H. unfold ints. rewrite nth_error_map, (nth_error_nth' _ 0%nat) by (rewrite seq_length; lia). cbn [option_map]. now rewrite seq_nth by lia. Qed.
Lemma ints_length a n : length (ints a n) = n.
Proof. unfold ints. now rewrite map_length, seq_length. Qed.

(** C108: after the tables of a link were built, the dissipation times are defined for
    every interval.  A congested interval gets the first later interval at which its queue
    is gone (the number of intervals if it stays), an uncongested one that is not critical
    itself, a critical one the end of the next queue. *)
Theorem C108_dissipation : forall ut fs nin nout l fft vot toll T r0 r, recorded_curve nout -> ctm_or_pq l -> link_fftt l = Ok fft -> 0 <= fft -> 0 < T ->
  T <= Zlen (r_tt r0) -> T <= Zlen (r_cost r0) -> T <= Zlen (r_cong r0) ->
  build_rows nin (Some nout) (inject_Z fft) vot toll T r0 = Ok r ->
  exists ds, queue_times ut fs (Some nout) l T r = Ok ds /\ Zlen ds = T /\
    (forall i, 0 <= i < T -> exists t, nth_error (r_tt r) (Z.to_nat i) = Some t /\ (inject_Z fft <= t)%Q /\ (cong_at (r_cong r) i = true <-> (inject_Z fft < t)%Q)) /\
    forall i, 0 <= i < T -> exists d, nth_error ds (Z.to_nat i) = Some d /\ i <= d <= T /\ clears ut fs nout l fft T T (r_cong r) i d.
Proof.
  intros ut fs nin nout l fft vot toll T r0 r Ho K Ef Hf HT A B C H. assert (HT0 : 0 <= T) by lia. pose proof (filled_marks _ _ _ _ _ (build_filled _ _ _ _ _ _ _ _ HT0 A B C H)) as M.
  unfold queue_times. rewrite (proj2 (Z.ltb_lt 0 T) HT), Ef. cbn [guard bind].
  destruct (mapM_total (dissipated ut fs (Some nout) l fft T T (r_tt r) (r_cong r)) (fun _ _ => True) (ints 0 (Z.to_nat T))) as (ds & E & F2).
  { intros i Hi. apply ints_In in Hi. destruct (dissipated_ok ut fs nout l fft T T (r_tt r) (r_cong r) i Ho K M Hf ltac:(lia) ltac:(lia)) as (d & Ed & _). eauto. }
  exists ds. split; [exact E|]. assert (N : forall i, 0 <= i < T -> exists d, nth_error ds (Z.to_nat i) = Some d /\ i <= d <= T /\ clears ut fs nout l fft T T (r_cong r) i d).
  { intros i Hi. destruct (dissipated_ok ut fs nout l fft T T (r_tt r) (r_cong r) i Ho K M Hf ltac:(lia) ltac:(lia)) as (d & Ed & Cd & Bd). exists d.
    destruct (mapM_nth _ _ _ (Z.to_nat i) (0 + Z.of_nat (Z.to_nat i)) E) as (d' & Ed' & En); [apply ints_nth; lia|]. replace (0 + Z.of_nat (Z.to_nat i)) with i in Ed' by lia.
    rewrite Ed in Ed'. injection Ed' as <-. split; [exact En|]. split; [lia|exact Cd]. }
  split; [|split; [apply M|exact N]]. apply Forall2_len in F2. unfold Zlen. rewrite <- F2, ints_length. lia.
Qed.
Print Assumptions C108_dissipation.

(** curves with one record per listed count, at times 0, 1, 2, ... *)
Definition counts (vs : list Q) : curve := combine (map (fun k => inject_Z (Z.of_nat k)) (seq 0 (length vs))) vs.
Definition blank (T : nat) : rows := {| r_tt := repeat 0%Q T; r_cost := repeat 0%Q T; r_cong := repeat false T |}.
Definition slow_pq : link := {| l_par := {| p_kind := KPq; p_hold := 1; p_flow := 1; p_lanes := 1; p_len := 50; p_ffs := 10; p_ut := 5; p_fs := 1 |}; l_in := []; l_fin := []; l_body := BPq 1 [] 0 |}.
Example C108_case : exists r, build_rows (Some (counts [0; 2; 4; 4; 4; 4; 4])%Q) (Some (counts [0; 0; 1; 2; 3; 4; 4])%Q) 1 1 0 6 (blank 6) = Ok r /\
  map Qred (r_tt r) = [2; 3; 2; 1; 1; 1]%Q /\ r_cong r = [true; true; true; false; false; false] /\
  queue_times 5 1 (Some (counts [0; 0; 1; 2; 3; 4; 4])%Q) slow_pq 6 r = Ok [3; 3; 3; 3; 4; 5].
Proof. eexists. split; [vm_compute; reflexivity|]. repeat split; vm_compute; reflexivity. Qed.
(** a link with room for exactly one vehicle per interval of one second (two at half a
    vehicle each) *)
Definition one_per_second (fs : Q) : lparam := {| p_kind := KCtm; p_hold := 3 # 16; p_flow := 1 # 2; p_lanes := 2; p_len := 10; p_ffs := 10; p_ut := 1; p_fs := fs |}.
Definition made (p : lparam) : link := match make_ctm p with Ok l => l | Err _ => slow_pq end.
Lemma counts_rec vs : (forall i k a b, (i < k)%nat -> nth_error vs i = Some a -> nth_error vs k = Some b -> (a <= b)%Q) -> vs <> [] -> recorded_curve (counts vs).
Proof.
  intros H N.
  assert (E : forall i r, nth_error (counts vs) i = Some r -> fst r = inject_Z (Z.of_nat i) /\ nth_error vs i = Some (snd r)).
  { intros i r E. unfold counts in E. assert (Hi : (i < length vs)%nat). { assert (X : (i < length (counts vs))%nat) by (apply nth_error_Some; unfold counts; congruence). unfold counts in X. rewrite combine_length in X. lia. }
    destruct (nth_error vs i) as [v|] eqn:Ev; [|apply nth_error_None in Ev; lia].
    assert (X : nth_error (combine (map (fun k => inject_Z (Z.of_nat k)) (seq 0 (length vs))) vs) i = Some (inject_Z (Z.of_nat i), v)).
    { rewrite (nth_error_nth' _ (0%Q, 0%Q)) by (rewrite combine_length, map_length, seq_length; lia). rewrite combine_nth by (rewrite map_length, seq_length; reflexivity). f_equal. f_equal; [|now apply nth_error_nth].
      change 0%Q with ((fun k => inject_Z (Z.of_nat k)) 0%nat). rewrite map_nth, seq_nth by lia. reflexivity. }
    rewrite X in E. injection E as <-. auto. }
  constructor.
  - destruct vs as [|v vs]; [congruence|]. exists v. unfold counts. cbn [length seq map combine]. eauto.
  - intros i k ri rk L Ei Ek. destruct (E _ _ Ei) as [-> _]. destruct (E _ _ Ek) as [-> _]. rewrite <- Zlt_Qlt. lia.
  - intros i k ri rk L Ei Ek. destruct (E _ _ Ei) as [_ Ei']. destruct (E _ _ Ek) as [_ Ek']. eapply H; eauto.
Qed.
Fixpoint sorted_b (vs : list Q) : bool := match vs with a :: ((b :: _) as r) => Qle_bool a b && sorted_b r | _ => true end.
Lemma sorted_le vs : sorted_b vs = true -> forall i k a b, (i < k)%nat -> nth_error vs i = Some a -> nth_error vs k = Some b -> (a <= b)%Q.
Proof.
  induction vs as [|v vs IH]; intros H i k a b L Ei Ek; [destruct i; discriminate|]. destruct k as [|k]; [lia|]. cbn [nth_error] in Ek.
  destruct vs as [|w vs]; [destruct k; discriminate|]. cbn [sorted_b] in H. apply andb_prop in H as [H1 H2]. apply Qle_bool_iff in H1. specialize (IH H2).
  destruct i as [|i]; [|apply (IH i k); [lia|exact Ei|exact Ek]]. injection Ei as <-. destruct k as [|k]; [injection Ek as <-; exact H1|].
  pose proof (IH 0%nat (S k) w b ltac:(lia) eq_refl Ek). lra.
Qed.
Ltac rec_curve := apply counts_rec; [apply sorted_le; vm_compute; reflexivity|discriminate].

(** C108 (refuted): "a link that is never congested reports no queue".  An interval in
    which it discharges at capacity is reported to queue until the end. *)
Theorem C108_no_queue_refuted : exists p l nin nout T r ds, make_ctm p = Ok l /\ recorded_curve nin /\ recorded_curve nout /\
  build_rows (Some nin) (Some nout) 1 1 0 T (blank (Z.to_nat T)) = Ok r /\ link_fftt l = Ok 1 /\
  (forall i, 0 <= i < T -> cong_at (r_cong r) i = false) /\
  queue_times (p_ut p) (p_fs p) (Some nout) l T r = Ok ds /\ nth_error ds 0 = Some T /\ T = 5.
Proof.
  exists (one_per_second 1), (made (one_per_second 1)), (counts [0; 1; 1; 1; 1; 1])%Q, (counts [0; 0; 1; 1; 1; 1])%Q, 5. do 2 eexists. split; [vm_compute; reflexivity|]. split; [rec_curve|]. split; [rec_curve|].
  split; [vm_compute; reflexivity|]. split; [vm_compute; reflexivity|]. split.
  - intros i Hi. assert (D : i = 0 \/ i = 1 \/ i = 2 \/ i = 3 \/ i = 4) by lia. repeat (destruct D as [->|D]; [vm_compute; reflexivity|]). subst i. vm_compute. reflexivity.
  - split; [vm_compute; reflexivity|]. split; reflexivity.
Qed.
Print Assumptions C108_no_queue_refuted.

(** C109: after the tables of a link were built, its marginal costs are defined for every
    interval [i].  With [u] the first interval from [i] on that has room, and [d] when the
    queue that [u] meets is gone, the cost is [d - u] plus the free-flow time.  They are
    computed from the travel times and marks as built, although they overwrite them. *)
Theorem C109_marginal_cost : forall ut fs nin nout l fft vot toll T r0 r, recorded_curve nin -> recorded_curve nout -> ctm_or_pq l -> link_fftt l = Ok fft -> 0 <= fft -> 0 < T ->
  T <= Zlen (r_tt r0) -> T <= Zlen (r_cost r0) -> T <= Zlen (r_cong r0) ->
  build_rows (Some nin) (Some nout) (inject_Z fft) vot toll T r0 = Ok r ->
  exists r', marginal_rows ut fs (Some nin) (Some nout) l T r = Ok r' /\ r_cong r' = r_cong r /\
    forall i, 0 <= i < T -> exists u d, first_room (has_room ut fs nin l) T i u /\
      (u = T /\ d = 2 * T \/ u < T /\ clears ut fs nout l fft T (2 * T) (r_cong r) u d) /\
      nth_error (r_tt r') (Z.to_nat i) = Some (inject_Z (d - u + fft)) /\ nth_error (r_cost r') (Z.to_nat i) = Some (inject_Z (d - u + fft)) /\
      fft <= d - u + fft <= 2 * T + fft.
Proof.
  intros ut fs nin nout l fft vot toll T r0 r Hi Ho K Ef Hf HT A B C H. assert (HT0 : 0 <= T) by lia.
  pose proof (build_filled _ _ _ _ _ _ _ _ HT0 A B C H) as F. pose proof (filled_marks _ _ _ _ _ F) as M. destruct F as (_ & F & _).
  destruct (marginal_ok ut fs nin nout l fft T r Hi Ho K M F Hf HT Ef) as (r' & E & _ & _ & Cg & D & _). exists r'. split; [exact E|]. split; [exact Cg|].
  intros i Hin. destruct (D i Hin) as (x & E1 & E2 & u & d & U & X & Bd & ->). exists u, d. repeat (split; [assumption|]). destruct U as (Bu & _). lia.
Qed.
Print Assumptions C109_marginal_cost.
Example C109_case : exists r r', build_rows (Some (counts [0; 2; 4; 4; 4; 4; 4])%Q) (Some (counts [0; 0; 1; 2; 3; 4; 4])%Q) 1 1 0 6 (blank 6) = Ok r /\
  marginal_rows 5 1 (Some (counts [0; 2; 4; 4; 4; 4; 4])%Q) (Some (counts [0; 0; 1; 2; 3; 4; 4])%Q) slow_pq 6 r = Ok r' /\ r_tt r' = [4; 3; 2; 1; 1; 1]%Q.
Proof. do 2 eexists. split; [vm_compute; reflexivity|]. split; vm_compute; reflexivity. Qed.

(** C109 (refuted): "the marginal costs can be computed again": the second computation
    takes the first one's results for travel times and throws. *)
Theorem C109_again_refuted : exists p l nin nout T r r', make_ctm p = Ok l /\ recorded_curve nin /\ recorded_curve nout /\
  build_rows (Some nin) (Some nout) 1 1 0 T (blank (Z.to_nat T)) = Ok r /\ marginal_rows (p_ut p) (p_fs p) (Some nin) (Some nout) l T r = Ok r' /\
  marginal_rows (p_ut p) (p_fs p) (Some nin) (Some nout) l T r' = Err EThrow.
Proof.
  exists (one_per_second 2), (made (one_per_second 2)), (counts [0; 3 # 2; 2; 2; 2; 2])%Q, (counts [0; 0; 1; 2; 2; 2])%Q, 5. do 2 eexists. split; [vm_compute; reflexivity|]. split; [rec_curve|]. split; [rec_curve|].
  split; [vm_compute; reflexivity|]. split; vm_compute; reflexivity.
Qed.
Print Assumptions C109_again_refuted.

(** C110: the flow limit of a cell is per interval, but is taken for one per second: with
    intervals of two seconds or more, no flow within the limit is ever found to use it.
    Every interval has "room" and none is critical. *)
Theorem C110_limit_never_met : forall p l l' cs nin nout fft, make_ctm p = Ok l -> (0 < p_fs p)%Q -> (2 <= p_ut p)%Q -> l_body l = BCtm cs -> cs <> [] ->
  l_body l' = BCtm cs -> recorded_curve nin -> recorded_curve nout ->
  (let limit := Qmax (inject_Z (p_lanes (l_par l)) * p_flow (l_par l) * p_ut (l_par l)) (1 / p_fs p) in
   (forall j x, counted_in nin j x -> x <= limit) /\ (forall j x, counted_in nout j x -> x <= limit))%Q ->
  forall j, has_room (p_ut p) (p_fs p) nin l' j /\ ~ critical (p_ut p) (p_fs p) nout l' fft j.
Proof.
  intros p l l' cs nin nout fft H Hfs Hut B Hne B' Hi Ho F j. cbv zeta in F. destruct F as [F1 F2].
  pose proof (fun c I => ctm_caps p l cs c H Hfs B I) as C.
  assert (Hcap : forall c, In c cs -> (1 <= c_flow c * p_fs p)%Q).
  { intros c I. rewrite (C c I). pose proof (Q.le_max_r (inject_Z (p_lanes (l_par l)) * p_flow (l_par l) * p_ut (l_par l)) (1 / p_fs p)) as X.
    assert (E : ((1 / p_fs p) * p_fs p == 1)%Q) by (field; lra). nra. }
  split.
  - apply (always_room (p_ut p) (p_fs p) l' cs B' Hne Hut Hfs Hcap nin j Hi). intros c x I X. rewrite (C c I). eapply F1; eauto.
  - apply (never_critical (p_ut p) (p_fs p) l' cs B' Hut Hfs Hcap nout fft j Ho). intros c x I X. rewrite (C c I). eapply F2; eauto.
Qed.
Print Assumptions C110_limit_never_met.

(** two vehicles per interval of five seconds *)
Definition two_per_interval : lparam := {| p_kind := KCtm; p_hold := 3 # 16; p_flow := 2 # 5; p_lanes := 1; p_len := 50; p_ffs := 10; p_ut := 5; p_fs := 1 |}.
(** C110 (refuted): "an interval whose inflow uses the whole capacity, like all later ones,
    has no room for one more vehicle": its marginal cost is the free-flow time. *)
Theorem C110_capacity_refuted : exists p l nin nout T r r', make_ctm p = Ok l /\ recorded_curve nin /\ recorded_curve nout /\ link_fftt l = Ok 1 /\
  build_rows (Some nin) (Some nout) 1 1 0 T (blank (Z.to_nat T)) = Ok r /\ marginal_rows (p_ut p) (p_fs p) (Some nin) (Some nout) l T r = Ok r' /\ T = 4 /\
  forall i, 0 <= i < T -> (exists x, counted_in nin i x /\ (x == inject_Z (p_lanes p) * p_flow p * p_ut p)%Q) /\ nth_error (r_tt r') (Z.to_nat i) = Some 1%Q.
Proof.
  exists two_per_interval, (made two_per_interval), (counts [0; 2; 4; 6; 8])%Q, (counts [0; 0; 2; 4; 6])%Q, 4. do 2 eexists. split; [vm_compute; reflexivity|]. split; [rec_curve|]. split; [rec_curve|].
  split; [vm_compute; reflexivity|]. split; [vm_compute; reflexivity|]. split; [vm_compute; reflexivity|]. split; [reflexivity|].
  intros i Hi. assert (D : i = 0 \/ i = 1 \/ i = 2 \/ i = 3) by lia.
  repeat (destruct D as [->|D]; [split; [exists 2%Q; split; [|vm_compute; reflexivity]; eexists; split; [vm_compute; reflexivity|]; right; split; [vm_compute; discriminate|]; do 2 eexists; split; [vm_compute; reflexivity|]; split; vm_compute; reflexivity|vm_compute; reflexivity]|]).
  subst i. split; [exists 2%Q; split; [|vm_compute; reflexivity]; eexists; split; [vm_compute; reflexivity|]; right; split; [vm_compute; discriminate|]; do 2 eexists; split; [vm_compute; reflexivity|]; split; vm_compute; reflexivity|vm_compute; reflexivity].
Qed.
Print Assumptions C110_capacity_refuted.
Lemma small_counts vs m : recorded_curve (counts vs) -> Forall (fun v => 0 <= v <= m)%Q vs -> (0 <= m)%Q -> forall j x, counted_in (counts vs) j x -> (x <= m)%Q.
Proof.
  intros Hc F Hm j x (e & _ & [[_ E]|(_ & a & b & A & B & E)]); [lra|].
  assert (V : forall t v, get_result (counts vs) t = Ok v -> (0 <= v <= m)%Q).
  { intros t v G. destruct (get_result_total _ Hc t) as (r & I & G'). rewrite G in G'. injection G' as ->. rewrite Forall_forall in F. destruct r as [y w]. unfold counts in I. apply in_combine_r in I. now apply F. }
  pose proof (V _ _ A). pose proof (V _ _ B). lra.
Qed.
Example C110_case : exists cs, l_body (made two_per_interval) = BCtm cs /\ cs <> [] /\ make_ctm two_per_interval = Ok (made two_per_interval) /\
  forall j, has_room 5 1 (counts [0; 2; 2])%Q (made two_per_interval) j /\ ~ critical 5 1 (counts [0; 0; 2])%Q (made two_per_interval) 1 j.
Proof.
  assert (H : exists cs, l_body (made two_per_interval) = BCtm cs) by (eexists; vm_compute; reflexivity). destruct H as (cs & B). exists cs. split; [exact B|].
  assert (N : cs <> []). { intros ->. vm_compute in B. discriminate. } split; [exact N|]. assert (M : make_ctm two_per_interval = Ok (made two_per_interval)) by (vm_compute; reflexivity). split; [exact M|].
  assert (R1 : recorded_curve (counts [0; 2; 2])%Q) by rec_curve. assert (R2 : recorded_curve (counts [0; 0; 2])%Q) by rec_curve.
  apply (C110_limit_never_met two_per_interval (made two_per_interval) (made two_per_interval) cs (counts [0; 2; 2])%Q (counts [0; 0; 2])%Q 1 M eq_refl ltac:(vm_compute; discriminate) B N B R1 R2).
  cbv zeta. assert (E : (Qmax (inject_Z (p_lanes (l_par (made two_per_interval))) * p_flow (l_par (made two_per_interval)) * p_ut (l_par (made two_per_interval))) (1 / p_fs two_per_interval) == 2)%Q) by (vm_compute; reflexivity).
  split; intros j x X; rewrite E; revert j x X; apply small_counts; auto; try lra; repeat (constructor; [lra|]); constructor.
Qed.

(** * Path costs *)

Definition tt_table (tabs : Z -> option rows) : table := fun l => match tabs l with Some r => Some (r_tt r) | None => None end.
(** C111: the cost of a path is the sum of marginal costs of its links, each at the
    interval reached by adding up the marginal costs of the links before it. *)
Theorem C111_path_cost : forall tabs T links t, 1 <= T -> 0 <= t ->
  (forall l, In l links -> exists r, tabs l = Some r /\ Zlen (r_tt r) = T /\ forall x, In x (r_tt r) -> exists n, 1 <= n /\ x = inject_Z n) ->
  exists ts e, drive (fun l t n => exists r, tabs l = Some r /\ nth_error (r_tt r) (Z.to_nat (at_or_last T t)) = Some (inject_Z n)) links t ts e /\
    dso_path_cost tabs T links (inject_Z t) = Ok (inject_Z e - inject_Z t)%Q.
Proof.
  intros tabs T links t HT Ht H. destruct (C39_path_time_chains (tt_table tabs) T links t HT Ht) as (ts & e & D & E & _).
  { intros l I. destruct (H l I) as (r & Er & L & _). exists (r_tt r). unfold tt_table. rewrite Er. auto. }
  exists ts, e. split; [|exact E]. clear E. induction D as [|l ls t0 n ts e (row & x & Er & En & Rn) D IH]; [constructor|].
  destruct (H l (or_introl eq_refl)) as (r & Et & L & W). unfold tt_table in Er. rewrite Et in Er. injection Er as <-. destruct (W x (nth_error_In _ _ En)) as (m & Hm & ->).
  assert (X : round_up_time (inject_Z m) tol = Ok m) by (apply round_up_time_int; [exact Hm|unfold tol; lra]). rewrite X in Rn. injection Rn as <-.
  refine (drive_cons _ l ls t0 m ts e _ _); [exists r; auto|]. apply IH; [lia|]. intros l' I. apply H. right. exact I.
Qed.
Print Assumptions C111_path_cost.

(** two links, each one interval long when empty; a queue of four vehicles on the first *)
Definition in1 : curve := counts [0; 2; 4; 4; 4; 4; 4]%Q.
Definition out1 : curve := counts [0; 0; 1; 2; 3; 4; 4]%Q.
Definition in2 : curve := counts [0; 0; 0; 1; 1; 1; 1]%Q.
Definition out2 : curve := counts [0; 0; 0; 0; 0; 1; 1]%Q.
Definition ok_rows (x : res rows) : rows := match x with Ok r => r | Err _ => blank 0 end.
Definition built1 : rows := ok_rows (build_rows (Some in1) (Some out1) 1 1 0 6 (blank 6)).
Definition built2 : rows := ok_rows (build_rows (Some in2) (Some out2) 1 1 0 6 (blank 6)).
Definition priced1 : rows := ok_rows (marginal_rows 5 1 (Some in1) (Some out1) slow_pq 6 built1).
Definition priced2 : rows := ok_rows (marginal_rows 5 1 (Some in2) (Some out2) slow_pq 6 built2).
(** C111 (refuted): "the cost of a path is the sum of the marginal costs of its links when a
    vehicle departing then enters them".  Link 1 is entered at 0 and left at 2, at which
    time link 2 costs 2; the path is charged 1 for it. *)
Theorem C111_path_cost_refuted :
  build_rows (Some in1) (Some out1) 1 1 0 6 (blank 6) = Ok built1 /\ build_rows (Some in2) (Some out2) 1 1 0 6 (blank 6) = Ok built2 /\
  marginal_rows 5 1 (Some in1) (Some out1) slow_pq 6 built1 = Ok priced1 /\ marginal_rows 5 1 (Some in2) (Some out2) slow_pq 6 built2 = Ok priced2 /\
  exists t1 c1 c2 c, nth_error (r_tt built1) 0 = Some t1 /\ (t1 == 2)%Q /\ nth_error (r_cost priced1) 0 = Some c1 /\ (c1 == 4)%Q /\ nth_error (r_cost priced2) 2 = Some c2 /\ (c2 == 2)%Q /\
    dso_path_cost (fun l => if l =? 1 then Some priced1 else if l =? 2 then Some priced2 else None) 6 [1; 2] 0 = Ok c /\ (c == 5)%Q /\ ~ (c == c1 + c2)%Q.
Proof.
  do 4 (split; [vm_compute; reflexivity|]). exists 2%Q, 4%Q, 2%Q, 5%Q. repeat (split; [vm_compute; reflexivity|]). intros H. discriminate H.
Qed.
Print Assumptions C111_path_cost_refuted.

(** * Tables of repeated runs *)

(** C112: tables filled after a run of [T1] intervals can be filled again after any run of at
    most [T1] intervals; after a longer run the filling writes past their end. *)
Theorem C112_refill : forall f1 nin1 nout1 bi1 bo1 f2 nin2 nout2 bi2 bo2 ff vot toll T1 T2, (0 <= ff)%Q -> 0 <= T1 -> 0 <= T2 ->
  counting_curve f1 nin1 -> counting_curve f1 nout1 -> last_opt nin1 = Some bi1 -> last_opt nout1 = Some bo1 -> (fst bi1 <= inject_Z T1)%Q -> (fst bo1 <= inject_Z T1)%Q -> (snd bo1 <= snd bi1)%Q ->
  counting_curve f2 nin2 -> counting_curve f2 nout2 -> last_opt nin2 = Some bi2 -> last_opt nout2 = Some bo2 -> (fst bi2 <= inject_Z T2)%Q -> (fst bo2 <= inject_Z T2)%Q -> (snd bo2 <= snd bi2)%Q ->
  exists r1, build_rows (Some nin1) (Some nout1) ff vot toll T1 (alloc_rows None T1) = Ok r1 /\
    (T2 <= T1 -> exists r2, build_rows (Some nin2) (Some nout2) ff vot toll T2 (alloc_rows (Some r1) T2) = Ok r2) /\
    (T1 < T2 -> build_rows (Some nin2) (Some nout2) ff vot toll T2 (alloc_rows (Some r1) T2) = Err EUB).
Proof.
  intros f1 nin1 nout1 bi1 bo1 f2 nin2 nout2 bi2 bo2 ff vot toll T1 T2 Hff H1 H2 I1 O1 BI1 BO1 A1 A2 A3 I2 O2 BI2 BO2 B1 B2 B3.
  destruct (travel_time_unfold f1 nin1 nout1 bi1 bo1 ff T1 I1 O1 BI1 BO1 A1 A2 A3 Hff) as (L1 & _ & _ & _ & _ & U1).
  destruct (travel_time_unfold f2 nin2 nout2 bi2 bo2 ff T2 I2 O2 BI2 BO2 B1 B2 B3 Hff) as (L2 & _ & _ & _ & _ & U2).
  assert (V1 : forall s, (0 <= s)%Q -> exists t, travel_time (Some nin1) (Some nout1) ff (-1 # 1) s T1 = Ok (t, L1) /\ travel_time (Some nin1) (Some nout1) ff L1 s T1 = Ok (t, L1)).
  { intros s Hs. destruct (U1 s Hs) as (t & _ & X & Y). eauto. }
  assert (V2 : forall s, (0 <= s)%Q -> exists t, travel_time (Some nin2) (Some nout2) ff (-1 # 1) s T2 = Ok (t, L2) /\ travel_time (Some nin2) (Some nout2) ff L2 s T2 = Ok (t, L2)).
  { intros s Hs. destruct (U2 s Hs) as (t & _ & X & Y). eauto. }
  assert (S0 : sized L1 T1 ((-1)%Q, alloc_rows None T1)).
  { split; [left; reflexivity|]. cbn [snd alloc_rows r_tt r_cost r_cong]. unfold Zlen. rewrite !repeat_length. lia. }
  destruct (fold_in _ _ ff vot toll L1 T1 V1 T1 (Z.to_nat T1) 0 _ S0 ltac:(lia) ltac:(lia)) as ((q1 & r1) & E1 & _ & S1).
  exists r1. unfold build_rows. rewrite E1. split; [reflexivity|]. cbn [alloc_rows].
  assert (S2 : sized L2 T1 ((-1)%Q, r1)) by (split; [left; reflexivity|exact S1]).
  split; intros H.
  - destruct (fold_in _ _ ff vot toll L2 T2 V2 T1 (Z.to_nat T2) 0 _ S2 ltac:(lia) ltac:(lia)) as ((q2 & r2) & E2 & _). exists r2. rewrite E2. reflexivity.
  - rewrite (fold_out _ _ ff vot toll L2 T2 V2 T1 (Z.to_nat T2) 0 _ S2 ltac:(lia) ltac:(lia)). reflexivity.
Qed.
Print Assumptions C112_refill.
(** C112 (refuted): "the costs of every run of a series can be tabulated" *)
Theorem C112_refill_refuted : exists nin1 nout1 nin2 nout2 r1, build_rows (Some nin1) (Some nout1) 1 1 0 4 (alloc_rows None 4) = Ok r1 /\
  build_rows (Some nin2) (Some nout2) 1 1 0 5 (alloc_rows None 5) <> Err EUB /\ build_rows (Some nin2) (Some nout2) 1 1 0 5 (alloc_rows (Some r1) 5) = Err EUB.
Proof.
  exists (counts [0; 1; 2; 2]%Q), (counts [0; 0; 1; 2]%Q), (counts [0; 1; 2; 2; 2]%Q), (counts [0; 0; 1; 1; 2]%Q), (ok_rows (build_rows (Some (counts [0; 1; 2; 2]%Q)) (Some (counts [0; 0; 1; 2]%Q)) 1 1 0 4 (alloc_rows None 4))).
  split; [vm_compute; reflexivity|]. split; [vm_compute; discriminate|vm_compute; reflexivity].
Qed.
Print Assumptions C112_refill_refuted.
Example C112_case : exists r1, build_rows (Some ex_in) (Some ex_out) 1 1 0 8 (alloc_rows None 8) = Ok r1 /\
  (exists r2, build_rows (Some ex_in) (Some ex_out2) 1 1 0 8 (alloc_rows (Some r1) 8) = Ok r2) /\ build_rows (Some ex_in) (Some ex_out2) 1 1 0 9 (alloc_rows (Some r1) 9) = Err EUB.
Proof.
  destruct (C112_refill 1 ex_in ex_out _ _ 1 ex_in ex_out2 _ _ 1 1 0 8 8 ltac:(lra) ltac:(lia) ltac:(lia) ex_in_counting ex_out_counting eq_refl eq_refl ltac:(vm_compute; discriminate) ltac:(vm_compute; discriminate) ltac:(vm_compute; discriminate)
    ex_in_counting ex_out2_counting eq_refl eq_refl ltac:(vm_compute; discriminate) ltac:(vm_compute; discriminate) ltac:(vm_compute; discriminate)) as (r1 & E1 & H1 & _).
  destruct (C112_refill 1 ex_in ex_out _ _ 1 ex_in ex_out2 _ _ 1 1 0 8 9 ltac:(lra) ltac:(lia) ltac:(lia) ex_in_counting ex_out_counting eq_refl eq_refl ltac:(vm_compute; discriminate) ltac:(vm_compute; discriminate) ltac:(vm_compute; discriminate)
    ex_in_counting ex_out2_counting eq_refl eq_refl ltac:(vm_compute; discriminate) ltac:(vm_compute; discriminate) ltac:(vm_compute; discriminate)) as (r1' & E1' & _ & H2).
  rewrite E1 in E1'. injection E1' as <-. exists r1. split; [exact E1|]. split; [apply H1; lia|apply H2; lia].
Qed.
