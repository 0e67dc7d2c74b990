(** Loading with time-dependent attributes: what a user can see. *)
From Coq Require Import Permutation.
From Verif Require Import Base Model_Num Model_Link Model_World Model_Sim Model_McLink Model_McNode Model_McSim Spec_McSim Model_Text Model_Io Model_Mio Model_McAttr.
Local Open Scope Z_scope.

(** one row per link and interval; the hash map may give them in any order *)
Record rows_ok (ord : list (Z * tdrow) -> list (Z * tdrow)) (T : tdtable) : Prop := {
  ro_ord : forall l, Permutation l (ord l); ro_one : forall t, NoDup (map fst (T t)) }.

(** the state after [j] intervals of a loading on a fresh world with tolls [tl0] *)
Definition areached (M : mnet) ord (T : tdtable) (D : Z -> mdrawsI) (w0 : mworld) (tl0 : Z -> tolls) (j : nat) (a : astate) : Prop :=
  mfresh_world M w0 /\ (forall t, mdraws_valid (D t)) /\ attr_run M ord T D j {| a_s := minit M w0; a_toll := tl0 |} = Ok a.

(** the row of link [k] that was given last before interval [j], and that there is none *)
Definition given_last (T : tdtable) (k : Z) (j : nat) (r : tdrow) : Prop :=
  exists i, (i < j)%nat /\ In (k, r) (T (Z.of_nat i)) /\ forall i' r', (i < i' < j)%nat -> ~ In (k, r') (T (Z.of_nat i')).
Definition never_given (T : tdtable) (k : Z) (j : nat) : Prop := forall i r, (i < j)%nat -> ~ In (k, r) (T (Z.of_nat i)).

(** a link that works with the values of a row *)
Definition body_kind (b : mbody) : Model_McLink.mkind := match b with MCtm _ _ => MKCtm | MLq _ _ _ _ _ _ => MKLq | MPq _ _ _ _ => MKPq end.
(** the fundamental diagram in use is the one a new link with these values gets *)
Definition diagram (b : mbody) : option fd := match b with MCtm f _ => Some f | MLq f _ _ _ _ _ => Some f | MPq _ _ _ _ => None end.
Definition diagram_of (l : mlink) : Prop :=
  match body_kind (ml_body l) with
  | MKCtm => diagram (ml_body l) = Some (mctm_fd (ml_par l))
  | MKLq => exists f, mlq_fd (ml_par l) = Ok f /\ diagram (ml_body l) = Some f
  | MKPq => True
  end.
Definition works_with (l : mlink) (a : mprop) : Prop :=
  let p := ml_par l in
  mp_lanes p = mr_lanes a /\ mp_ffs_c p = mr_ffs_c a /\ mp_ffs_t p = mr_ffs_t a /\
  (body_kind (ml_body l) <> MKCtm -> mp_len p = mr_len a) /\
  (body_kind (ml_body l) = MKLq -> mp_hold_c p = mr_hold_c a /\ mp_hold_t p = mr_hold_t a /\ mp_flow_c p = mr_flow_c a /\ mp_flow_t p = mr_flow_t a) /\
  diagram_of l.
