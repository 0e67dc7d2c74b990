(** Independent specification of a directed multigraph: two lists. *)
From Verif Require Import Base Model_Graph.

Record agraph := { a_nodes : list Z; a_links : list (Z * (Z * Z)) (* id, (from, to), oldest first *) }.
Definition a_empty : agraph := {| a_nodes := []; a_links := [] |}.

(** which calls must be accepted *)
Definition a_accepts (a : agraph) (o : gop) : bool :=
  match o with
  | GNode id => negb (memb id (a_nodes a))
  | GLink f t id => memb f (a_nodes a) && memb t (a_nodes a) &&
                    negb (memb id (map fst (a_links a))) && negb (f =? t)
  end.
Definition a_step (a : agraph) (o : gop) : agraph :=
  if a_accepts a o then
    match o with
    | GNode id => {| a_nodes := a_nodes a ++ [id]; a_links := a_links a |}
    | GLink f t id => {| a_nodes := a_nodes a; a_links := a_links a ++ [(id, (f, t))] |}
    end
  else a.
Definition a_build (ops : list gop) : agraph := fold_left a_step ops a_empty.

(** the end of a link at which it is listed: outgoing links are listed at their
    start node, incoming links at their end node *)
Definition listed_at (d : direction) (e : Z * Z) : Z :=
  match d with Incoming => snd e | Outgoing => fst e end.
Definition other_end (d : direction) (e : Z * Z) : Z :=
  match d with Incoming => fst e | Outgoing => snd e end.

(** links of a node, most recent first *)
Definition a_connections (a : agraph) (n : Z) (d : direction) : list Z :=
  rev (map fst (filter (fun l => listed_at d (snd l) =? n) (a_links a))).

(** [route g u ls v]: following the links [ls] head to tail leads from u to v *)
Inductive route (g : graph) : Z -> list Z -> Z -> Prop :=
| route_nil u : route g u [] u
| route_cons u l w ls v : get_endpoints g l = Ok (u, w) -> route g w ls v -> route g u (l :: ls) v.
