(** Independent vocabulary for lowest-cost path queries. *)
From Verif Require Import Base Model_Num Model_Graph Spec_Graph Model_Due.

(** the answer shows flag [b], number [c] and the path [ns], [ls]: first columns
    of the first two rows, then the nodes, then the links (one fewer than nodes) *)
Definition shows (rows : list (list Z)) (b c : Z) (ns ls : list Z) : Prop :=
  exists r0 r1, rows = [r0; r1; ns; ls ++ [-1]] /\ hd_error r0 = Some b /\ hd_error r1 = Some c /\
    length r0 = length ns /\ length r1 = length ns /\ length ns = S (length ls) /\
    (forall x, In x (tl r0 ++ tl r1) -> x = -1).
(** a path with these links is in the set *)
Definition listed (ps : list dpath) (ls : list Z) : Prop := exists p, In p ps /\ dp_links p = ls.
(** the whole part of a non-negative cost *)
Definition whole (c : Q) (z : Z) : Prop := (inject_Z z <= c /\ c < inject_Z (z + 1))%Q.
(** every travel time is positive *)
Definition takes_time (g : graph) (M : Z) (tt : Z -> Z -> Q) : Prop :=
  forall l e t, get_endpoints g l = Ok e -> 0 <= t < M -> (0 < tt l t)%Q.
