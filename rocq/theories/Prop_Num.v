(** Property theorems: rounding helpers (C33, C34). *)
From Verif Require Import Base Model_Num Proof_Num.
Local Open Scope Q_scope.

(** C33.  [r] is the random draw rand()/RAND_MAX. *)
Theorem C33_round_floor_or_next : forall r x, 0 <= x ->
  (rround r x = Qfloor x \/ rround r x = (Qfloor x + 1)%Z) /\
  (rround r x = (Qfloor x + 1)%Z <-> r < x - inject_Z (Qfloor x)).
Proof.
  intros r x H. rewrite <- (trunc_floor x H). split; [apply rround_cases|apply rround_up].
Qed.
Print Assumptions C33_round_floor_or_next.

Theorem C33_round_exact_on_integers : forall r z, 0 <= r -> rround r (inject_Z z) = z.
Proof. exact rround_int. Qed.
Print Assumptions C33_round_exact_on_integers.

Theorem C33_round_within_one : forall r x, 0 <= x -> 0 <= r ->
  x - 1 < inject_Z (rround r x) /\ inject_Z (rround r x) < x + 1.
Proof. intros r x H1 H2. split; [now apply rround_gt|now apply rround_lt]. Qed.
Print Assumptions C33_round_within_one.

Example C33_case_down : rround (1#2) (5#2) = 2%Z. Proof. reflexivity. Qed.
Example C33_case_up : rround (49#100) (5#2) = 3%Z. Proof. reflexivity. Qed.
Example C33_case_bounds : 0 <= 5#2 /\ 0 <= 1#2. Proof. split; lra. Qed.

(** C34 *)
Theorem C34_round_up_time : forall t p, 0 <= p -> 0 <= t ->
  exists n, round_up_time t p = Ok n /\ (1 <= n)%Z /\
    t - p * t <= inject_Z n /\ (inject_Z n < t + 1 \/ (t < 1 /\ n = 1%Z)).
Proof.
  intros t p Hp Ht. destruct (round_up_time_total t p) as (n & E & H1).
  exists n. split; [exact E|]. split; [exact H1|]. split; [now apply round_up_time_lower|now apply (round_up_time_bounds t p)].
Qed.
Print Assumptions C34_round_up_time.

Theorem C34_round_up_time_exact : forall n p, (1 <= n)%Z -> 0 <= p -> round_up_time (inject_Z n) p = Ok n.
Proof. exact round_up_time_int. Qed.
Print Assumptions C34_round_up_time_exact.

Theorem C34_round_up_time_monotone : forall t1 t2 p n1 n2, 0 <= p -> t1 <= t2 ->
  round_up_time t1 p = Ok n1 -> round_up_time t2 p = Ok n2 -> (n1 <= n2)%Z.
Proof. exact round_up_time_mono. Qed.
Print Assumptions C34_round_up_time_monotone.

Theorem C34_round_down_time : forall t, exists n, round_down_time t = Ok n /\ (1 <= n)%Z /\
  (1 <= t -> n = Qfloor t) /\ (t < 1 -> n = 1%Z).
Proof. exact round_down_time_total. Qed.
Print Assumptions C34_round_down_time.

Theorem C34_round_down_time_monotone : forall t1 t2 n1 n2, t1 <= t2 ->
  round_down_time t1 = Ok n1 -> round_down_time t2 = Ok n2 -> (n1 <= n2)%Z.
Proof. exact round_down_time_mono. Qed.
Print Assumptions C34_round_down_time_monotone.

(** The tolerance is relative: from 10000 intervals on a travel time can be
    rounded *down* by a noticeable fraction of an interval. *)
Theorem C34_round_up_can_lose_half_interval_refuted :
  exists t n, round_up_time t tol = Ok n /\ inject_Z n + (1#2) <= t.
Proof. exists (20001 # 2), 10000%Z. split; [reflexivity|]. vm_compute. discriminate. Qed.
Print Assumptions C34_round_up_can_lose_half_interval_refuted.

Example C34_case : round_up_time (5#2) tol = Ok 3%Z /\ round_up_time (1#3) tol = Ok 1%Z /\ round_down_time (5#2) = Ok 2%Z.
Proof. repeat split. Qed.
