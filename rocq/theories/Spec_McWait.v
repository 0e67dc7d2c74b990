(** Specification for waiting times of a two-class run. *)
From Verif Require Import Base Model_Num Model_CC Model_Link Model_McLink Model_McNode Model_McSim Spec_McNode Spec_McSim.
Local Open Scope Q_scope.

(** the states [s 0], ..., [s n] at the ends of the intervals of one run *)
Definition one_run (M : mnet) (D : Z -> mdrawsI) (n : nat) (s : nat -> mlstate) : Prop :=
  exists w0, mfresh_world M w0 /\ (forall t, mdraws_valid (D t)) /\ forall i, (i <= n)%nat -> mrun M D i (minit M w0) = Ok (s i).
(** no vehicle is at the end of link [l] when two intervals in a row end: each leaves at its first chance *)
Definition never_held (s : nat -> mlstate) (n : nat) (l : Z) : Prop :=
  forall i v, (i < n)%nat -> In v (ml_fin (mw_link (ms_w (s i)) l)) -> ~ In v (ml_fin (mw_link (ms_w (s (S i))) l)).
(** link [l] works with the scaling of the run and an interval length of [u] seconds *)
Definition link_scale (M : mnet) (w : mworld) (l : Z) (u : Q) : Prop :=
  mp_fs (ml_par (mw_link w l)) == mn_fs M /\ mp_ut (ml_par (mw_link w l)) == u /\ 0 <= u.
(** what a curve has counted in all *)
Definition counted (c : option curve) (n : Q) : Prop := exists x, c = Some x /\ cum_total x == n.
