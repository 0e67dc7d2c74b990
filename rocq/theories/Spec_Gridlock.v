(** Directed cycles of a graph. *)
From Verif Require Import Base Model_Graph Spec_Graph.
(** a non-empty walk along links that returns to the node it started from *)
Definition cyclic (g : graph) : Prop := exists u ls, ls <> [] /\ route g u ls u.
