(** Independent vocabulary for shortest-path properties. *)
From Verif Require Import Base Model_Graph Spec_Graph.

(** total cost of a link sequence; infinite ([None]) as soon as one link is *)
Definition total_cost (cost : Z -> option Q) (ls : list Z) : option Q :=
  fold_right (fun l acc => match cost l, acc with Some x, Some y => Some (x + y)%Q | _, _ => None end)
             (Some 0%Q) ls.

(** [d] is the least cost from [u] to [v] *)
Definition least_cost (g : graph) (cost : Z -> option Q) (u v : Z) (d : Q) : Prop :=
  (exists ls c, route g u ls v /\ total_cost cost ls = Some c /\ (c == d)%Q) /\
  (forall ls c, route g u ls v -> total_cost cost ls = Some c -> (d <= c)%Q).

(** no way of finite cost *)
Definition unreachable (g : graph) (cost : Z -> option Q) (u v : Z) : Prop :=
  forall ls, route g u ls v -> total_cost cost ls = None.

(** nodes visited by a route *)
Inductive visits (g : graph) : Z -> list Z -> list Z -> Prop :=
| visits_nil u : visits g u [] [u]
| visits_cons u l w ls ns : get_endpoints g l = Ok (u, w) -> visits g w ls ns -> visits g u (l :: ls) (u :: ns).

(** [ls] is what one gets by following the tree [out] from [u] to [v] *)
Inductive follows (g : graph) (out : Z -> option Z) : Z -> list Z -> Z -> Prop :=
| follows_nil u : follows g out u [] u
| follows_cons u l w ls v : out u = Some l -> l <> -1 -> get_endpoints g l = Ok (u, w) ->
    follows g out w ls v -> follows g out u (l :: ls) v.

(** costs of all links of the graph are known and nonnegative *)
Definition costs_ok (g : graph) (cm : Z -> option (option Q)) : Prop :=
  forall l e, get_endpoints g l = Ok e ->
    exists c, cm l = Some c /\ match c with Some q => (0 <= q)%Q | None => True end.
Definition cost_of (cm : Z -> option (option Q)) (l : Z) : option Q :=
  match cm l with Some c => c | None => None end.
