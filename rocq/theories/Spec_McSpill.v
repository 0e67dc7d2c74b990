(** Specification for spill-back of a two-class run. *)
From Verif Require Import Base Model_Num Model_CC Model_Link Model_McLink Spec_McLink Model_McNode Model_McSim Spec_McNode Spec_McSim.
Local Open Scope Q_scope.

(** more passenger-car equivalents per metre on link [l] than the jam density of cars *)
Definition overfull (w : mworld) (l : Z) : Prop :=
  let x := mw_link w l in m_jam (ml_par x) < pcu_load (mw_cls w) x / mp_fs (ml_par x) / mp_len (ml_par x).
(** the numbers of the link make sense *)
Definition sane_numbers (w : mworld) (l : Z) : Prop :=
  let p := ml_par (mw_link w l) in 0 <= mp_pcu p /\ 0 < mp_fs p /\ 0 < mp_len p.
