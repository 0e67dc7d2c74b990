(** Travel times, path times, inflows and assignment ratios read from the curves
    (C38-C41, C52). *)
From Verif Require Import Base Base_lemmas Model_Num Proof_Num Model_CC Spec_CC Proof_CC Proof_CC2 Proof_CC3 Model_Link Spec_Link Proof_Link4 Prop_Link Spec_Grad Model_Grad
  Proof_Grad1 Proof_Grad2 Proof_Grad3 Proof_Grad4 Proof_Grad5 Proof_Grad6.
Local Open Scope Q_scope.

(** C38: no reported link travel time is below the free-flow time (in whole intervals). *)
Theorem C38_freeflow_floor : forall nin nout ff cache start T t lv,
  travel_time nin nout ff cache start T = Ok (t, lv) -> inject_Z (trunc ff) <= t.
Proof. exact travel_time_floor. Qed.
Print Assumptions C38_freeflow_floor.

Lemma travel_time_unfold f nin nout bi bo ff T :
  counting_curve f nin -> counting_curve f nout -> last_opt nin = Some bi -> last_opt nout = Some bo ->
  fst bi <= inject_Z T -> fst bo <= inject_Z T -> snd bo <= snd bi -> 0 <= ff ->
  exists L (y : Z), L == inject_Z y /\ 0 <= L <= inject_Z T /\ (0 < L -> forall v, get_result nin L = Ok v -> v <= snd bo) /\
    forall s, 0 <= s -> exists t, travel_time_cc s nin nout L (inject_Z (trunc ff)) false = Ok t /\
      travel_time (Some nin) (Some nout) ff (-1 # 1) s T = Ok (t, L) /\ travel_time (Some nin) (Some nout) ff L s T = Ok (t, L).
Proof.
  intros Hi Ho Hbi Hbo Ti To Hle Hff. destruct (last_valid_spec f nin nout Hi Ho bi bo Hbi Hbo T Ti To Hle) as (L & EL & B & (y & Y) & C).
  exists L, y. split; [exact Y|]. split; [exact B|].
  assert (HL : 0 < L -> forall v, get_result nin L = Ok v -> v <= snd bo).
  { intros P v Hv. destruct C as [[C _]|[[_ C]|[C _]]]; [lra| |auto].
    destruct (get_result_total nin Hi L) as (r & R & G). rewrite G in Hv. injection Hv as <-. pose proof (rc_last_max nin Hi bi r Hbi R). lra. }
  split; [exact HL|]. intros s Hs. pose proof (injZ_nonneg (trunc ff) (trunc_nonneg ff Hff)) as P.
  destruct (tt_total f nin nout Hi Ho bo L (inject_Z (trunc ff)) P HL s Hs) as (t & Et). exists t. split; [exact Et|].
  unfold travel_time. change (Qltb (-1 # 1) 0) with true. cbv iota. rewrite EL. cbn [bind].
  destruct (Qltb_spec L 0) as [X|_]; [lra|]. cbn [bind]. rewrite (proj2 (Qle_bool_iff 0 L)) by apply B. cbn [guard bind].
  assert (E2 : (if Qle_bool L 0 then Ok (inject_Z (trunc ff)) else travel_time_cc s nin nout L (inject_Z (trunc ff)) false) = Ok t).
  { destruct (Qle_bool L 0) eqn:Z; [|exact Et]. rewrite <- Et. unfold travel_time_cc. now rewrite Z. }
  rewrite E2. split; reflexivity.
Qed.

(** C38: for curves that count vehicles, the travel time is defined for every entry time,
    does not depend on whether the cached "last valid time" is used, and whoever enters
    later leaves no earlier. *)
Theorem C38_first_in_first_out : forall f nin nout bi bo ff T,
  counting_curve f nin -> counting_curve f nout -> last_opt nin = Some bi -> last_opt nout = Some bo ->
  fst bi <= inject_Z T -> fst bo <= inject_Z T -> snd bo <= snd bi -> 0 <= ff ->
  exists L, forall s1 s2, 0 <= s1 -> s1 <= s2 -> exists t1 t2,
    travel_time (Some nin) (Some nout) ff (-1 # 1) s1 T = Ok (t1, L) /\ travel_time (Some nin) (Some nout) ff L s1 T = Ok (t1, L) /\
    travel_time (Some nin) (Some nout) ff (-1 # 1) s2 T = Ok (t2, L) /\ s1 + t1 <= s2 + t2.
Proof.
  intros f nin nout bi bo ff T Hi Ho Hbi Hbo Ti To Hle Hff.
  destruct (travel_time_unfold f nin nout bi bo ff T Hi Ho Hbi Hbo Ti To Hle Hff) as (L & y & _ & _ & HL & H). exists L. intros s1 s2 H0 H12.
  destruct (H s1 H0) as (t1 & E1 & A1 & B1). destruct (H s2) as (t2 & E2 & A2 & _); [lra|]. exists t1, t2. split; [exact A1|]. split; [exact B1|]. split; [exact A2|].
  pose proof (injZ_nonneg (trunc ff) (trunc_nonneg ff Hff)) as P.
  exact (tt_fifo f nin nout Hi Ho bo Hbo L (inject_Z (trunc ff)) P HL s1 s2 t1 t2 H0 H12 E1 E2).
Qed.
Print Assumptions C38_first_in_first_out.

(** C38: the last valid time is the last whole interval at which everybody who had entered
    has left (the horizon when all have left; 0 when nobody who entered after the start
    has). *)
Theorem C38_last_valid_time : forall f nin nout bi bo T,
  counting_curve f nin -> counting_curve f nout -> last_opt nin = Some bi -> last_opt nout = Some bo ->
  fst bi <= inject_Z T -> fst bo <= inject_Z T -> snd bo <= snd bi ->
  exists L, last_valid_time nin nout T = Ok L /\ 0 <= L <= inject_Z T /\ (exists y : Z, L == inject_Z y) /\
    ((L == 0 /\ forall v l, nin = (0, v) :: l -> snd bo <= v) \/
     (L == inject_Z T /\ snd bo == snd bi) \/
     ((forall v, get_result nin L = Ok v -> v <= snd bo) /\ forall v, get_result nin (L + 1) = Ok v -> snd bo < v)).
Proof. intros f nin nout bi bo T Hi Ho Hbi Hbo. apply (last_valid_spec f nin nout Hi Ho bi bo Hbi Hbo). Qed.
Print Assumptions C38_last_valid_time.

(** C52: when the outflow count takes exactly the value the inflow count has on entry, the
    reported travel time is the time until that count is first reached, or free flow if
    that is longer. *)
Theorem C52_exact_when_count_is_hit : forall f nin nout bi bo ff T,
  counting_curve f nin -> counting_curve f nout -> last_opt nin = Some bi -> last_opt nout = Some bo ->
  fst bi <= inject_Z T -> fst bo <= inject_Z T -> snd bo <= snd bi -> 0 <= ff ->
  exists L, last_valid_time nin nout T = Ok L /\
  forall s cc, 0 < L -> 0 <= s <= L -> get_result nin s = Ok cc -> dbl_eps < cc ->
    (exists r, In r nout /\ snd r == cc) -> (forall v l, nout = (0, v) :: l -> v < cc) ->
    exists i ri t, nth_error nout i = Some ri /\ snd ri == cc /\ (forall k rk, (k < i)%nat -> nth_error nout k = Some rk -> snd rk < cc) /\
      travel_time (Some nin) (Some nout) ff (-1 # 1) s T = Ok (t, L) /\ t == Qmax (inject_Z (trunc ff)) (fst ri - s).
Proof.
  intros f nin nout bi bo ff T Hi Ho Hbi Hbo Ti To Hle Hff.
  destruct (travel_time_unfold f nin nout bi bo ff T Hi Ho Hbi Hbo Ti To Hle Hff) as (L & y & _ & _ & HL & H).
  destruct (last_valid_spec f nin nout Hi Ho bi bo Hbi Hbo T Ti To Hle) as (L' & EL & _).
  assert (L' = L) as ->. { destruct (H 0 ltac:(lra)) as (t & _ & A & _). unfold travel_time in A. change (Qltb (-1 # 1) 0) with true in A. cbv iota in A. rewrite EL in A. cbn [bind] in A.
    apply bind_ok in A as (u & _ & A). apply bind_ok in A as (x & _ & A). apply Ok_pair in A. symmetry. apply A. }
  exists L. split; [exact EL|]. intros s cc PL Hs G Ce R V. pose proof (injZ_nonneg (trunc ff) (trunc_nonneg ff Hff)) as P.
  destruct (tt_exact f nin nout Hi Ho bo L (inject_Z (trunc ff)) P HL s cc PL Hs G Ce R V) as (i & ri & t & N & Q & Fs & Et & Eq).
  destruct (H s) as (t' & Et' & A & _); [lra|]. rewrite Et in Et'. injection Et' as <-. exists i, ri, t. auto 6.
Qed.
Print Assumptions C52_exact_when_count_is_hit.


(** Example curves: two vehicles enter at 1 and 2; they leave together at 5, or at 4 and 6. *)
Definition ex_in : curve := [(0, 0); (1, 1); (2, 2)].
Definition ex_out : curve := [(0, 0); (5, 2)].
Definition ex_out2 : curve := [(0, 0); (4, 1); (6, 2)].
Lemma ex_in_counting : counting_curve 1 ex_in.
Proof.
  destruct (built_counting 1 [(1, 1); (2, 1)]) as (c & E & H); [reflexivity| | | |reflexivity|].
  - intros [|[|i]] [|[|k]] ri rk L Ei Ek; try lia; cbn in *; try (destruct k; discriminate); try (destruct i; discriminate); injection Ei as <-; injection Ek as <-; cbn; lra.
  - intros r [<-|[<-|[]]]; [exists 1%Z|exists 2%Z]; split; try lia; reflexivity.
  - intros r [<-|[<-|[]]]; exists 1%Z; split; try lia; reflexivity.
  - vm_compute in E. injection E as <-. exact H.
Qed.
Lemma ex_out_counting : counting_curve 1 ex_out.
Proof.
  destruct (built_counting 1 [(5, 2)]) as (c & E & H); [reflexivity| | | |reflexivity|].
  - intros [|i] [|k] ri rk L Ei Ek; try lia; cbn in *; try (destruct k; discriminate); try (destruct i; discriminate); injection Ei as <-; injection Ek as <-; cbn; lra.
  - intros r [<-|[]]; exists 5%Z; split; try lia; reflexivity.
  - intros r [<-|[]]; exists 2%Z; split; try lia; reflexivity.
  - vm_compute in E. injection E as <-. exact H.
Qed.
Lemma ex_out2_counting : counting_curve 1 ex_out2.
Proof.
  destruct (built_counting 1 [(4, 1); (6, 1)]) as (c & E & H); [reflexivity| | | |reflexivity|].
  - intros [|[|i]] [|[|k]] ri rk L Ei Ek; try lia; cbn in *; try (destruct k; discriminate); try (destruct i; discriminate); injection Ei as <-; injection Ek as <-; cbn; lra.
  - intros r [<-|[<-|[]]]; [exists 4%Z|exists 6%Z]; split; try lia; reflexivity.
  - intros r [<-|[<-|[]]]; exists 1%Z; split; try lia; reflexivity.
  - vm_compute in E. injection E as <-. exact H.
Qed.
Example C38_example : travel_time (Some ex_in) (Some ex_out2) (3 # 1) (-1 # 1) 1 10 = Ok (3, 10) /\ travel_time (Some ex_in) (Some ex_out2) (3 # 1) (-1 # 1) 2 10 = Ok (4, 10).
Proof. split; vm_compute; reflexivity. Qed.
Example C38_example_not_all_left : last_valid_time ex_in [(0, 0); (4, 1)] 10 = Ok 1.
Proof. vm_compute. reflexivity. Qed.

(** C52 REFUTED: two vehicles enter at 1 and 2 and both leave at 5, after a free-flow time
    of one interval.  Read on the curves, the first one spends 4 intervals on the link: the
    departure count is below 1 until time 5.  The reported time is 1. *)
Theorem C52_skipped_count_refuted :
  counting_curve 1 ex_in /\ counting_curve 1 ex_out /\
  get_result ex_in 1 = Ok 1 /\ get_result ex_out 4 = Ok 0 /\ get_result ex_out 5 = Ok 2 /\
  travel_time (Some ex_in) (Some ex_out) 1 (-1 # 1) 1 10 = Ok (1, 10).
Proof. split; [exact ex_in_counting|]. split; [exact ex_out_counting|]. repeat split; vm_compute; reflexivity. Qed.
Print Assumptions C52_skipped_count_refuted.

(** C39: a path's travel time is the arrival time of a vehicle that drives its links one
    after the other - entering each at the interval it left the previous one, for the
    tabulated time rounded up, the last interval standing for everything later - minus the
    start; it is at least one interval per link. *)
Theorem C39_path_time_chains : forall tt T links t,
  (1 <= T)%Z -> (0 <= t)%Z -> (forall l, In l links -> exists row, tt l = Some row /\ Z.of_nat (length row) = T) ->
  exists ts e, drive (fun l t n => exists row x, tt l = Some row /\ nth_error row (Z.to_nat (at_or_last T t)) = Some x /\ round_up_time x tol = Ok n) links t ts e /\
    path_travel_time tt T links (inject_Z t) = Ok (inject_Z e - inject_Z t) /\ (t + Z.of_nat (length links) <= e)%Z.
Proof.
  intros tt T links t HT Ht Hr. destruct (chain_tb_spec tt T links t HT Ht Hr) as (ts & e & E & D & L). exists ts, e. split; [exact D|]. split; [|exact L].
  unfold path_travel_time. rewrite cround_Z, E. reflexivity.
Qed.
Print Assumptions C39_path_time_chains.

(** C39: the path's cost is the sum of its links' costs at the intervals at which that
    vehicle enters them. *)
Theorem C39_path_cost_sums : forall tt co T links t,
  (1 <= T)%Z -> (0 <= t)%Z ->
  (forall l, In l links -> (exists row, tt l = Some row /\ Z.of_nat (length row) = T) /\ exists row, co l = Some row /\ Z.of_nat (length row) = T) ->
  exists ts e cs c, drive (fun l t n => exists row x, tt l = Some row /\ nth_error row (Z.to_nat (at_or_last T t)) = Some x /\ round_up_time x tol = Ok n) links t ts e /\
    length ts = length links /\
    Forall2 (fun lt x => exists row, co (fst lt) = Some row /\ nth_error row (Z.to_nat (at_or_last T (snd lt))) = Some x) (combine links ts) cs /\
    path_travel_cost tt co T links (inject_Z t) = Ok c /\ c == sumQ cs.
Proof.
  intros tt co T links t HT Ht Hr. destruct (chain_cost_spec tt co T links t 0 HT Ht Hr) as (ts & e & cs & c & D & _ & F & L & E & Q). exists ts, e, cs, c.
  split; [exact D|]. split; [exact L|]. split; [exact F|]. split; [unfold path_travel_cost; rewrite cround_Z; exact E|]. rewrite Q. ring.
Qed.
Print Assumptions C39_path_cost_sums.

Definition ex_tt : table := fun l => if Z.eqb l 7 then Some [2; 5 # 2; 1; 1] else if Z.eqb l 8 then Some [1; 1; 9; 4] else None.
Definition ex_co : table := fun l => if Z.eqb l 7 then Some [10; 20; 30; 40] else if Z.eqb l 8 then Some [1; 2; 3; 4] else None.
Example C39_example : path_travel_time ex_tt 4 [7; 8]%Z 0 = Ok 11 /\ path_travel_time ex_tt 4 [7; 8]%Z 1 = Ok 7 /\ path_travel_cost ex_tt ex_co 4 [7; 8]%Z 0 = Ok 13.
Proof. repeat split; vm_compute; reflexivity. Qed.

Lemma drive_fifo0 (time : Z -> Z -> Z -> Prop) links :
  (forall l t n t' n', (0 <= t)%Z -> In l links -> time l t n -> time l t' n' -> (t <= t')%Z -> (1 <= n)%Z /\ (t + n <= t' + n')%Z) ->
  forall t t' ts ts' e e', (0 <= t)%Z -> (t <= t')%Z -> drive time links t ts e -> drive time links t' ts' e' -> (e <= e')%Z.
Proof.
  induction links as [|l ls IH]; intros H t t' ts ts' e e' H0 L D D'; inversion D; inversion D'; subst; [exact L|].
  destruct (H l t n t' n0 H0 (or_introl eq_refl)) as (N1 & Le); [assumption|assumption|exact L|].
  refine (IH _ (t + n)%Z (t' + n0)%Z _ _ e e' _ Le _ _); [|lia|eassumption|eassumption].
  intros k a b a' b' Ha Hk. apply H; [exact Ha|right; exact Hk].
Qed.

(** C39: read from counting curves with a free-flow time of at least one interval on each
    link, path travel times are defined for every start and first in first out. *)
Definition curve_tt (nin nout : Z -> curve) (ff : Z -> Q) (T : Z) (l : Z) (t : Q) : res Q :=
  do r <- travel_time (Some (nin l)) (Some (nout l)) (ff l) (-1 # 1) t T; Ok (fst r).
Theorem C39_path_first_in_first_out : forall f nin nout ff T links,
  (forall l, In l links -> counting_curve f (nin l) /\ counting_curve f (nout l) /\ 1 <= ff l /\
     exists bi bo, last_opt (nin l) = Some bi /\ last_opt (nout l) = Some bo /\ fst bi <= inject_Z T /\ fst bo <= inject_Z T /\ snd bo <= snd bi) ->
  forall t t', (0 <= t)%Z -> (t <= t')%Z -> exists x x',
    path_travel_time_cc (curve_tt nin nout ff T) links (inject_Z t) = Ok x /\
    path_travel_time_cc (curve_tt nin nout ff T) links (inject_Z t') = Ok x' /\
    inject_Z t + x <= inject_Z t' + x' /\ inject_Z (Z.of_nat (length links)) <= x.
Proof.
  intros f nin nout ff T links H t t' Ht Htt.
  assert (Tot : forall l s, In l links -> 0 <= s -> exists x, curve_tt nin nout ff T l s = Ok x).
  { intros l s Hl Hs. destruct (H l Hl) as (Hi & Ho & Hf & bi & bo & B1 & B2 & T1 & T2 & Le).
    destruct (travel_time_unfold f _ _ bi bo (ff l) T Hi Ho B1 B2 T1 T2 Le) as (L & y & _ & _ & _ & U); [lra|]. destruct (U s Hs) as (x & _ & E & _).
    exists x. unfold curve_tt. rewrite E. reflexivity. }
  destruct (chain_cc_spec (curve_tt nin nout ff T) links Tot t Ht) as (ts & e & E & D & L).
  destruct (chain_cc_spec (curve_tt nin nout ff T) links Tot t' ltac:(lia)) as (ts' & e' & E' & D' & L').
  exists (inject_Z e - inject_Z t), (inject_Z e' - inject_Z t'). unfold path_travel_time_cc. rewrite !cround_Z, E, E'. split; [reflexivity|]. split; [reflexivity|].
  split; [|rewrite Zle_Qle, inject_Z_plus in L; lra]. 
  assert (e <= e')%Z as G; [|rewrite Zle_Qle in G; lra].
  assert (Fifo : forall l t n t' n', (0 <= t)%Z -> In l links -> cc_time (curve_tt nin nout ff T) l t n -> cc_time (curve_tt nin nout ff T) l t' n' -> (t <= t')%Z -> (1 <= n)%Z /\ (t + n <= t' + n')%Z).
  { clear - H. intros l t n t' n' H0 Hl (x & E & R) (x' & E' & R') Le. destruct (H l Hl) as (Hi & Ho & Hf & bi & bo & B1 & B2 & T1 & T2 & Lo).
    destruct (travel_time_unfold f _ _ bi bo (ff l) T Hi Ho B1 B2 T1 T2 Lo) as (L & y & Y & _ & HL & U); [lra|].
    assert (P1 : (1 <= trunc (ff l))%Z) by (apply trunc_ge1; exact Hf).
    assert (P : 0 <= inject_Z (trunc (ff l))) by (apply injZ_nonneg; lia).
    assert (K : forall s q m, (0 <= s)%Z -> curve_tt nin nout ff T l (inject_Z (s + 1)) = Ok q -> round_up_time q tol = Ok m ->
      travel_time_cc (inject_Z (s + 1)) (nin l) (nout l) L (inject_Z (trunc (ff l))) false = Ok q /\ q == inject_Z m /\ (1 <= m)%Z).
    { intros s q m Hs Eq Rq. destruct (U (inject_Z (s + 1))) as (q' & C & E1 & _); [apply injZ_nonneg; lia|]. unfold curve_tt in Eq. rewrite E1 in Eq. cbn [bind fst] in Eq. injection Eq as <-.
      split; [exact C|]. destruct (tt_whole f _ _ Hi Ho bo B2 L (inject_Z (trunc (ff l))) P HL y (trunc (ff l)) (s + 1) q' Y eq_refl ltac:(lia) C) as (k & Ek).
      pose proof (travel_time_floor _ _ _ _ _ _ _ _ E1) as Fl. rewrite Ek in Fl. rewrite <- Zle_Qle in Fl.
      assert (Hk : (1 <= k)%Z) by lia. pose proof (round_up_time_int k tol Hk ltac:(vm_compute; discriminate)) as Rk.
      assert (k = m) as ->; [|split; [exact Ek|exact Hk]].
      assert (T0 : 0 <= tol) by (vm_compute; discriminate).
      assert (G1 : q' <= inject_Z k) by lra. assert (G2 : inject_Z k <= q') by lra.
      pose proof (round_up_time_mono _ _ tol _ _ T0 G1 Rq Rk). pose proof (round_up_time_mono _ _ tol _ _ T0 G2 Rk Rq). lia. }
    destruct (K t x n H0 E R) as (C & Q1 & N1). destruct (K t' x' n' ltac:(lia) E' R') as (C' & Q1' & _). split; [exact N1|].
    pose proof (tt_fifo f _ _ Hi Ho bo B2 L (inject_Z (trunc (ff l))) P HL (inject_Z (t + 1)) (inject_Z (t' + 1)) x x') as G.
    assert (G' : inject_Z (t + 1) + x <= inject_Z (t' + 1) + x'). { apply G; [apply injZ_nonneg; lia|rewrite <- Zle_Qle; lia|exact C|exact C']. }
    rewrite Q1, Q1', <- !inject_Z_plus, <- Zle_Qle in G'. lia. }
  exact (drive_fifo0 _ _ Fifo t t' ts ts' e e' Ht Htt D D').
Qed.
Print Assumptions C39_path_first_in_first_out.

Example C39_fifo_example : let nin := fun _ : Z => ex_in in let nout := fun _ : Z => ex_out2 in
  path_travel_time_cc (curve_tt nin nout (fun _ => 3) 10) [1; 2]%Z 0 = Ok 6 /\ path_travel_time_cc (curve_tt nin nout (fun _ => 3) 10) [1; 2]%Z 1 = Ok 7.
Proof. split; vm_compute; reflexivity. Qed.

(** C40: the flow entering (or leaving) between two times is defined and not negative, and
    the flows of consecutive windows add up. *)
Theorem C40_window_flow : forall c a b, recorded_curve c -> a <= b ->
  exists x, link_flow_between (Some c) a b = Ok x /\ 0 <= x.
Proof. exact flow_between. Qed.
Print Assumptions C40_window_flow.
Theorem C40_windows_add_up : forall c a b d, recorded_curve c -> exists x y z,
  link_flow_between (Some c) a b = Ok x /\ link_flow_between (Some c) b d = Ok y /\ link_flow_between (Some c) a d = Ok z /\ z == x + y.
Proof.
  intros c a b d R. destruct (get_result_total c R a) as (ra & _ & A). destruct (get_result_total c R b) as (rb & _ & B). destruct (get_result_total c R d) as (rd & _ & D).
  exists (snd rb - snd ra), (snd rd - snd rb), (snd rd - snd ra). unfold link_flow_between. rewrite A, B, D. cbn [bind]. repeat (split; [reflexivity|]). ring.
Qed.
Print Assumptions C40_windows_add_up.
(** C40: for a curve built by the loading, the window flow is exactly what was added after
    the start and until the end. *)
Theorem C40_window_counts : forall incs c a b,
  times_nondecreasing incs -> (forall r, In r incs -> whole_time (fst r)) -> foldM add_increment fresh_curve incs = Ok c ->
  whole_time a -> whole_time b ->
  exists x, link_flow_between (Some c) a b = Ok x /\ x == amount_until incs b - amount_until incs a.
Proof.
  intros incs c a b Hm Hw E Ha Hb. destruct (curve_lookup incs Hm Hw) as (c' & E' & Hl & _). rewrite E in E'. injection E' as <-.
  destruct (Hl a Ha) as (x & Ea & Qa). destruct (Hl b Hb) as (y & Eb & Qb). exists (y - x). unfold link_flow_between. rewrite Ea, Eb. split; [reflexivity|]. lra.
Qed.
Print Assumptions C40_window_counts.
Example C40_example : link_flow_between (Some ex_in) 0 1 = Ok 1 /\ link_flow_between (Some ex_in) 1 3 = Ok 1 /\ link_flow_between (Some ex_in) 0 3 = Ok 2.
Proof. repeat split; vm_compute; reflexivity. Qed.

(** C41: the records of one link and window.  [ops] lists the vehicle entries: (path,
    departure interval), time, amount (whole vehicles over the flow scalar [f]).  There is
    one record per path and departure interval that has flow in the window, with exactly
    that flow, and the records add up to the flow of the registered paths. *)
Theorem C41_records : forall f ops t paths l s e acc,
  0 < f -> f * dbl_eps < 1 -> foldM apply_op [] ops = Ok t -> times_nondecreasing (map snd ops) ->
  (forall o, In o ops -> whole_time (fst (snd o))) -> (forall o, In o ops -> units f (snd (snd o))) ->
  whole_time s -> whole_time e -> s <= e ->
  exists new, add_dar_records acc paths l (Some t) s e = Ok (acc ++ new) /\
    NoDup (map (fun r => (da_path r, da_int r)) new) /\
    (forall r, In r new -> da_link r = l /\ da_start r = s /\ paths (da_path r) = true /\ 0 < da_flow r /\
       da_flow r == amount_until (ops_of (da_path r, da_int r) ops) e - amount_until (ops_of (da_path r, da_int r) ops) s) /\
    sumQ (map da_flow new) == amount_until (map snd (filter (fun o => paths (fst (fst o))) ops)) e - amount_until (map snd (filter (fun o => paths (fst (fst o))) ops)) s.
Proof. exact dar_total. Qed.
Print Assumptions C41_records.

(** C41: when every path is registered and the link's inflow curve is built from the same
    entries, the records add up to the link's inflow of the window. *)
Theorem C41_records_add_up_to_inflow : forall f ops t c paths l s e acc,
  0 < f -> f * dbl_eps < 1 -> foldM apply_op [] ops = Ok t -> foldM add_increment fresh_curve (map snd ops) = Ok c ->
  times_nondecreasing (map snd ops) ->
  (forall o, In o ops -> whole_time (fst (snd o))) -> (forall o, In o ops -> units f (snd (snd o))) ->
  (forall o, In o ops -> paths (fst (fst o)) = true) ->
  whole_time s -> whole_time e -> s <= e ->
  exists new x, add_dar_records acc paths l (Some t) s e = Ok (acc ++ new) /\ link_flow_between (Some c) s e = Ok x /\ sumQ (map da_flow new) == x.
Proof.
  intros f ops t c paths l s e acc F Fe E Ec Hm Hw Hu Hp Hs He L.
  destruct (dar_total f ops t paths l s e acc F Fe E Hm Hw Hu Hs He L) as (new & A & _ & _ & S1).
  destruct (C40_window_counts (map snd ops) c s e Hm) as (x & Ex & Qx); [|exact Ec|exact Hs|exact He|].
  { intros r Hr. apply in_map_iff in Hr as (o & <- & Ho). auto. }
  exists new, x. split; [exact A|]. split; [exact Ex|]. rewrite S1, Qx.
  assert (filter (regop paths) ops = ops) as ->; [|reflexivity].
  clear - Hp. induction ops as [|o ops IH]; [reflexivity|]. cbn [filter]. unfold regop at 1. rewrite (Hp o (or_introl eq_refl)), IH; [reflexivity|]. intros o' Ho'. apply Hp. right. exact Ho'.
Qed.
Print Assumptions C41_records_add_up_to_inflow.

(** C41: the sparse matrix has one entry per record: row link + links * interval, column
    path + paths * departure interval, value record flow / path flow. *)
Theorem C41_matrix_entries : forall pm s e li ii ne np fl t l,
  (forall x, In x t -> recorded_curve (snd x)) ->
  (forall x pi, In x t -> pm (fst (fst x)) = Some pi ->
     (0 <= pi + np * snd (fst x))%Z /\ exists fy, nth_error fl (Z.to_nat (pi + np * snd (fst x))) = Some fy /\ ~ fy == 0) ->
  forall acc, exists new recs, add_dar_records_eigen acc pm (Some t) s e li ii ne np fl = Ok (acc ++ new) /\
    add_dar_records [] (fun p => match pm p with Some _ => true | None => false end) l (Some t) s e = Ok recs /\
    Forall2 (fun z r => exists pi fy, pm (da_path r) = Some pi /\ nth_error fl (Z.to_nat (pi + np * da_int r)) = Some fy /\
      z = ((li + ne * ii)%Z, (pi + np * da_int r)%Z, da_flow r / fy)) new recs.
Proof.
  intros pm s e li ii ne np fl t l R Hf acc. destruct (eigen_fold pm s e li ii ne np fl t l R Hf acc []) as (new & recs & A & B & C).
  exists new, recs. split; [exact A|]. split; [exact B|exact C].
Qed.
Print Assumptions C41_matrix_entries.
(** C41: different (path, departure interval) pairs get different columns. *)
Theorem C41_columns_distinct : forall np pi pi' i i',
  (0 <= pi < np)%Z -> (0 <= pi' < np)%Z -> (pi + np * i = pi' + np * i')%Z -> pi = pi' /\ i = i'.
Proof. 
  intros np pi pi' i i' H H' E. assert (i = i') as ->; [|lia].
  assert (I : (forall x y a b, 0 <= a < np -> 0 <= b < np -> a + np * x = b + np * y -> x <= y)%Z).
  { intros x y a b Ha Hb Eq. destruct (Z.le_gt_cases x y) as [|G]; [assumption|]. assert (np * (y + 1) <= np * x)%Z by (apply Z.mul_le_mono_nonneg_l; lia). lia. }
  pose proof (I i i' pi pi' H H' E). pose proof (I i' i pi' pi H' H (eq_sym E)). lia.
Qed.
Print Assumptions C41_columns_distinct.

Definition ex_ops : list flow_op := [((3, 0)%Z, (1, 1)); ((4, 0)%Z, (1, 1)); ((3, 1)%Z, (2, 1)); ((3, 0)%Z, (2, 1))].
Example C41_example : exists t, foldM apply_op [] ex_ops = Ok t /\
  add_dar_records [] (fun _ => true) 9 (Some t) 1 2 =
    Ok [{| da_path := 3; da_int := 0; da_link := 9; da_start := 1; da_flow := 1 |}; {| da_path := 3; da_int := 1; da_link := 9; da_start := 1; da_flow := 1 |}] /\
  add_dar_records_eigen [] (fun p => Some (p - 3)%Z) (Some t) 1 2 5 0 10 2 [4; 4; 2] = Ok [(5, 0, 1 # 4); (5, 2, 1 # 2)]%Z.
Proof. eexists. split; [vm_compute; reflexivity|]. split; vm_compute; reflexivity. Qed.

(** C53: cell and point-queue links report their free-flow time in loading intervals. *)
Theorem C53_pq_ctm_in_intervals : forall p l, make_pq p = Ok l \/ make_ctm p = Ok l -> 0 < p_ut p -> link_fftt l = Ok (freeflow_intervals p).
Proof.
  intros p l [E|E] Hu; [|apply C05_reported_free_flow_time; assumption].
  unfold make_pq in E. apply bind_ok in E as (? & B & E). unfold base_checks in B. apply bind_ok in B as (? & B1 & B). apply bind_ok in B as (? & _ & B3). apply guard_ok, negb_true_iff in B1, B3.
  cbv zeta in E. cbn [p_ffs p_ut p_len] in E. apply bind_ok in E as (? & G & E). apply guard_ok, negb_true_iff in G.
  apply bind_ok in E as (m & M & E). apply Ok_inj in E. rewrite <- E. unfold link_fftt. cbn [l_body]. f_equal.
  destruct (Qltb_spec (p_ffs p) 0) as [|B1']; [discriminate|]. destruct (Qltb_spec (p_len p) 0) as [|B3']; [discriminate|].
  assert (S0 : 0 < p_ffs p * p_ut p). { destruct (Qeqb_spec (p_ffs p * p_ut p) 0) as [|Z]; [discriminate|]. assert (0 <= p_ffs p * p_ut p) by nra. lra. }
  assert (X0 : 0 <= p_len p / (p_ffs p * p_ut p)) by (apply Qle_shift_div_l; lra).
  destruct (round_down_time_total (p_len p / (p_ffs p * p_ut p))) as (k & K & K1 & K2). rewrite K in M. apply Ok_inj in M as <-.
  unfold freeflow_intervals. generalize dependent (p_len p / (p_ffs p * p_ut p)). intros y X0 K K2.
  destruct (Qlt_le_dec y 1) as [L|L].
  - rewrite (proj2 K2) by lra. assert (Qfloor y <= 0)%Z; [|lia].
    pose proof (Qfloor_le y). assert (inject_Z (Qfloor y) < inject_Z 1) by (change (inject_Z 1) with 1; lra). rewrite injZ_lt in *. lia.
  - rewrite (proj1 K2) by lra. assert (1 <= Qfloor y)%Z; [|lia]. change 1%Z with (Qfloor 1). apply Qfloor_resp_le. exact L.
Qed.
Print Assumptions C53_pq_ctm_in_intervals.

(** C53 REFUTED for link-queue links: the reported time is in seconds.  A link of 100 m at
    10 m/s needs 10 s, two intervals of 5 s; the link reports 10 intervals, and then every
    travel time read from its curves is at least 10 intervals. *)
Definition ex_lq : lparam := {| p_kind := KLq; p_hold := 1; p_flow := 1; p_lanes := 1; p_len := 100; p_ffs := 10; p_ut := 5; p_fs := 1 |}.
Theorem C53_lq_in_seconds_refuted : exists l, make_lq ex_lq = Ok l /\ freeflow_intervals ex_lq = 2%Z /\ link_fftt l = Ok 10%Z /\
  forall nin nout cache start T t lv, travel_time nin nout (inject_Z 10) cache start T = Ok (t, lv) -> 10 <= t.
Proof.
  eexists. split; [vm_compute; reflexivity|]. split; [vm_compute; reflexivity|]. split; [vm_compute; reflexivity|].
  intros nin nout cache start T t lv E. exact (travel_time_floor _ _ _ _ _ _ _ _ E).
Qed.
Print Assumptions C53_lq_in_seconds_refuted.
Example C53_example : exists l, make_pq {| p_kind := KPq; p_hold := 1; p_flow := 1; p_lanes := 1; p_len := 100; p_ffs := 10; p_ut := 5; p_fs := 1 |} = Ok l /\ link_fftt l = Ok 2%Z.
Proof. eexists. split; vm_compute; reflexivity. Qed.
