(** Independent vocabulary for routes through observed links. *)
From Verif Require Import Base Model_Graph Spec_Graph Spec_SP Model_Pathset Spec_Pathset.
Local Open Scope Z_scope.

(** one of the OD pairs can be travelled through the link *)
Definition coverable (P : pnet) (ods : list (Z * Z)) (l : Z) : Prop :=
  exists o d a b, In (o, d) ods /\ get_endpoints (pn_g P) l = Ok (a, b) /\ connected P o a /\ connected P b d.

(** the link lies on one of the paths *)
Definition covered (ps : list path) (l : Z) : Prop := exists p, In p ps /\ In l (snd p).

Definition drive_time (P : pnet) (ls : list Z) : Q := sumQ (map (pn_tt P) ls).
(** fastest route between two nodes *)
Definition fastest (P : pnet) (u : Z) (ls : list Z) (v : Z) : Prop :=
  route (pn_g P) u ls v /\ forall ls', route (pn_g P) u ls' v -> (drive_time P ls <= drive_time P ls')%Q.

(** [p] leads from [o] to [d] through the link [l]: a fastest route to it, the link, a fastest
    route from it; its nodes are those it visits *)
Definition route_through (P : pnet) (l o d : Z) (p : path) : Prop :=
  exists a b pre post, get_endpoints (pn_g P) l = Ok (a, b) /\ snd p = pre ++ l :: post /\
    fastest P o pre a /\ fastest P b post d /\ visits (pn_g P) o (snd p) (fst p).
