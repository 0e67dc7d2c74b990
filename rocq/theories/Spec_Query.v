(** What the questions should be answered with. *)
From Verif Require Import Base Model_Num Model_Graph Spec_Io Model_World Model_Sim Model_McLink Model_McNode Model_McSim Spec_McSim Model_Query.
Local Open Scope Z_scope.

(** two nodes that follow each other in a list *)
Definition consecutive (ns : list Z) (i : nat) (a b : Z) : Prop := nth_error ns i = Some a /\ nth_error ns (S i) = Some b.
Definition joined (g : graph) (a b : Z) : Prop := exists l, get_endpoints g l = Ok (a, b).
(** no two links lead from the same node to the same node *)
Definition no_parallel (g : graph) : Prop := forall l l' e, get_endpoints g l = Ok e -> get_endpoints g l' = Ok e -> l = l'.

(** the state with its records after [j] loading intervals of a run on the fresh world [w0] *)
Definition qreached (M : mnet) (D : Z -> mdrawsI) (w0 : mworld) (j : nat) (x : qstate) : Prop :=
  mfresh_world M w0 /\ (forall t, mdraws_valid (D t)) /\ qrun M D j (qinit M w0) = Ok x.
(** the vehicles waiting at the end of their link, except on connectors *)
Definition waiting (M : mnet) (w : mworld) : list Z :=
  concat (map (fun l => match ml_body (mw_link w l) with MPq _ _ _ _ => [] | _ => ml_fin (mw_link w l) end) (mn_links M)).
(** [w] is the situation in interval [i] when the queues are recorded *)
Definition situation (M : mnet) (D : Z -> mdrawsI) (w0 : mworld) (i : nat) (w : mworld) : Prop :=
  exists y, qreached M D w0 i y /\ to_record M (D (Z.of_nat i)) (Z.of_nat i) (ms_assign (q_run y)) (ms_w (q_run y)) = Ok w.
(** a number between two others *)
Definition within (lo hi : Q) (x : val) : Prop := match x with VNum q => (lo <= q <= hi)%Q | _ => False end.
