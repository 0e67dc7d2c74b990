(** Vocabulary for travel times read from cumulative curves. *)
From Verif Require Import Base Model_CC Spec_CC.
Local Open Scope Q_scope.

(** the shape of every curve recorded by a loading: starts at time 0, times strictly
    increase, counts never decrease *)
Record recorded_curve (c : curve) : Prop := {
  rc_start : exists v l, c = (0, v) :: l;
  rc_times : times_increase c;
  rc_values : values_nondecrease c }.

(** [c] counts fewer than 10000 vehicles of size 1/f, at whole interval numbers below
    10000 (the range in which the comparison tolerance 1e-4 is harmless) *)
Record counting_curve (f : Q) (c : curve) : Prop := {
  cc_rec :> recorded_curve c;
  cc_scale : 0 < f;
  cc_counts : forall r, In r c -> exists z : Z, (0 <= z < 10000)%Z /\ snd r == inject_Z z / f;
  cc_whole : forall r, In r c -> whole_time (fst r) }.

(** [drive time links t entries e]: entering the first link at interval [t] and each next
    link when the previous one is left, the links are entered at [entries] and the last is
    left at [e]; [time l t n]: link [l] takes [n] intervals when entered at [t] *)
Inductive drive (time : Z -> Z -> Z -> Prop) : list Z -> Z -> list Z -> Z -> Prop :=
| drive_nil t : drive time [] t [] t
| drive_cons l ls t n ts e : time l t n -> drive time ls (t + n)%Z ts e -> drive time (l :: ls) t (t :: ts) e.
(** tables cover intervals 0..T-1; later entries use the last one *)
Definition at_or_last (T t : Z) : Z := Z.min t (T - 1).
