(** Vocabulary for queue dissipation and marginal costs. *)
From Verif Require Import Base Model_CC Model_Link Spec_CC Spec_Grad.
Local Open Scope Z_scope.

(** vehicles counted by curve [c] in interval [j]: nothing after its last record *)
Definition counted_in (c : curve) (j : Z) (x : Q) : Prop :=
  exists e, last_opt c = Some e /\
    ((fst e < inject_Z j /\ x == 0)%Q \/
     (inject_Z j <= fst e)%Q /\ exists a b, get_result c (inject_Z j) = Ok a /\ get_result c (inject_Z (j + 1)) = Ok b /\ (x == b - a)%Q).

(** is interval [j] congested? *)
Definition cong_at (c : list bool) (j : Z) : bool := nth (Z.to_nat j) c false.
(** a queue is there before interval [j] and gone at [j] *)
Definition gone_at (c : list bool) (j : Z) : Prop := cong_at c (j - 1) = true /\ cong_at c j = false.
(** the queue that stands at [i] is gone at [k]; [stop] if it lasts to the end *)
Definition queue_until (c : list bool) (T stop i k : Z) : Prop :=
  (i < k < T /\ (forall j, i <= j < k -> cong_at c j = true) /\ cong_at c k = false) \/
  (k = stop /\ forall j, i <= j < T -> cong_at c j = true).
(** [k] is the first interval after [i] at which some queue is gone; [stop] if no queue
    ends after [i] *)
Definition some_queue_until (c : list bool) (T stop i k : Z) : Prop :=
  (i < k < T /\ gone_at c k /\ forall j, i < j < k -> ~ gone_at c j) \/
  (k = stop /\ forall j, i < j < T -> ~ gone_at c j).

(** what tables of travel times [tt] and congestion marks [cong] over [T] intervals say *)
Definition marks (fft T : Z) (tt : list Q) (cong : list bool) : Prop :=
  T <= Zlen tt /\ T <= Zlen cong /\
  forall i, 0 <= i < T -> exists t, nth_error tt (Z.to_nat i) = Some t /\ (inject_Z fft <= t)%Q /\ (cong_at cong i = true <-> (inject_Z fft < t)%Q).

(** [cap * ut * fs] simulated vehicles, rounded down; "equal" and "below" up to the
    relative tolerance 1e-4 *)
Definition whole_capacity (cap ut fs : Q) : Q := inject_Z (Qfloor (cap * ut * fs)).
Definition about_equal (x y : Q) : Prop := (Qabs (x - y) <= (1 # 10000) * Qmax (Qabs x) (Qabs y))%Q.
Definition clearly_below (x y : Q) : Prop := (x + (1 # 10000) * Qmax (Qabs x) (Qabs y) < y)%Q.

(** interval [j] has room for one more vehicle: always on a point-queue link *)
Definition has_room (ut fs : Q) (nin : curve) (l : link) (j : Z) : Prop :=
  (exists m q v, l_body l = BPq m q v) \/
  (exists c cs x, l_body l = BCtm (c :: cs) /\ counted_in nin j x /\ clearly_below (x * fs) (whole_capacity (c_flow c) ut fs)).
(** what enters in interval [j] at free flow leaves at capacity *)
Definition critical (ut fs : Q) (nout : curve) (l : link) (fft j : Z) : Prop :=
  exists cs c x, l_body l = BCtm (cs ++ [c]) /\ counted_in nout (j + fft) x /\ about_equal (x * fs) (whole_capacity (c_flow c) ut fs).
(** links with marginal costs *)
Definition ctm_or_pq (l : link) : Prop := match l_body l with BCtm cs => cs <> [] | BPq _ _ _ => True | BLq _ _ => False end.

(** [u] is the first interval from [i] on in which [room] holds; [T] if there is none *)
Definition first_room (room : Z -> Prop) (T i u : Z) : Prop :=
  i <= u <= T /\ (forall j, i <= j < u -> ~ room j) /\ (u < T -> room u).
(** [d] is when the queue that interval [u] meets is gone *)
Definition clears (ut fs : Q) (nout : curve) (l : link) (fft T stop : Z) (cong : list bool) (u d : Z) : Prop :=
  (cong_at cong u = true /\ queue_until cong T stop u d) \/
  (cong_at cong u = false /\ critical ut fs nout l fft u /\ some_queue_until cong T stop u d) \/
  (cong_at cong u = false /\ ~ critical ut fs nout l fft u /\ d = u).
