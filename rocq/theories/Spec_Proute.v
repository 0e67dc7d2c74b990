(** What a user expects of travellers with fixed routes. *)
From Verif Require Import Base Model_Num Spec_Path Model_Proute.
Local Open Scope Z_scope.

(** A route to node [goal]: it has a link, never the same link twice in a row, and exactly its last
    link ends at [goal]. *)
Definition route_to (to : Z -> Z) (goal : Z) (ls : list Z) : Prop :=
  ls <> [] /\ (forall pre a b post, ls = pre ++ a :: b :: post -> a <> b) /\
  (forall pre l post, ls = pre ++ l :: post -> (to l = goal <-> post = [])).

(** Everybody listed at an origin (or parking lot) is on no link; everybody listed at the end of a
    link is on that link. *)
Definition standing {A} (s : trip A) (waiting : list Z) (ends : list (Z * list Z)) : Prop :=
  (forall v, In v waiting -> k_cur s v = None) /\
  (forall l vs v, In (l, vs) ends -> In v vs -> k_cur s v = Some l).

(** Everything that can happen: rounds of routing [pass], travellers moving onto their next link,
    and paths given to travellers that are not under way yet ([give v a]: path [a] may be given to
    traveller [v]; a park-and-ride passenger gets the transit part of the path of its car).  [tr v] lists the links onto which
    traveller [v] has moved so far. *)
Inductive story {A} (give : Z -> A -> Prop) (pass : trip A -> trip A -> Prop) : trip A -> (Z -> list Z) -> Prop :=
| St_start : forall s, (forall v, k_que s v = None /\ k_cur s v = None /\ k_nxt s v = None /\ forall a, k_path s v = Some a -> give v a) -> story give pass s (fun _ => [])
| St_pass : forall s tr s', story give pass s tr -> pass s s' -> story give pass s' tr
| St_go : forall s tr v l, story give pass s tr -> k_nxt s v = Some l -> k_cur s v <> Some l -> story give pass (go s v) (upd tr v (tr v ++ [l]))
| St_give : forall s tr v a, story give pass s tr -> k_que s v = None -> give v a -> story give pass (nominal s v a) tr.

(** The links travelled, then the next link if the traveller has not moved onto it yet, then the
    links still queued make up the route [ls]. *)
Definition on_way {A} (s : trip A) (done : list Z) (v : Z) (ls : list Z) : Prop :=
  exists q, k_que s v = Some q /\
    ((exists l, k_nxt s v = Some l /\ k_cur s v = Some l /\ ls = done ++ q) \/
     (exists l, k_nxt s v = Some l /\ k_cur s v <> Some l /\ ls = done ++ l :: q) \/
     (k_nxt s v = None /\ ls = done)).

(** the paths of a table, whatever their shares *)
Definition paths_of {A} (t : shares_of A) : list ((Z * Z) * list A) := map (fun x => (fst x, map s_path (snd x))) t.
(** [a] is one of the paths of the pair of nodes *)
Definition offered_path {A} (t : shares_of A) (o d : Z) (a : A) : Prop :=
  exists es e, In ((o, d), es) t /\ In e es /\ s_path e = a.

(** every pair of nodes of the table has paths, with shares that make a distribution *)
Definition fair {A} (t : shares_of A) : Prop :=
  forall o d es, In ((o, d), es) t -> es <> [] /\ (forall e, In e es -> 0 <= s_p e)%Q /\ (sumQ (map s_p es) == 1)%Q.

(** rounds of routing of the three kinds; [t0] gives the paths, the shares may differ in every round *)
Definition bus_round tbl known to I (s s' : trip (list Z)) : Prop :=
  exists origins ends, standing s origins ends /\ bus_pass tbl known to I origins ends s = Ok s'.
Definition pnr_round (t0 : shares_of pnr) known to I R (s s' : trip pnr) : Prop :=
  exists t origins ends, paths_of t = paths_of t0 /\ standing s origins ends /\ pnr_pass t known to I R origins ends s = Ok s'.
Definition pas_round (t0 : shares_of (list Z)) known to kind I R (s s' : trip (list Z)) : Prop :=
  exists t origins lots ends stops, paths_of t = paths_of t0 /\ standing s (origins ++ lots) ends /\
    pas_pass t known to kind I R origins lots ends stops s = Ok s'.

(** The links of a passenger's path: a walk ends at a stop or at the destination, a ride goes from
    stop to stop and never ends at the destination node. *)
Definition legal (kind : Z -> tlink) (to : Z -> Z) (goal : Z) (ls : list Z) : Prop :=
  forall l, In l ls -> match kind l with
                       | Walk e => (to l = goal -> e = SDest) /\ (e = SPhysical \/ e = SVirtual \/ e = SDest)
                       | Ride b e => b = SPlain /\ e = SPlain /\ to l <> goal
                       end.

(** The interval whose shares are in force at [time] *)
Definition interval_at (freq len time : Z) : Z := Z.min (time / freq) (len - 1).
