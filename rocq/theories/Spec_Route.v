(** Routes and observed itineraries of vehicles. *)
From Verif Require Import Base Spec_Path Model_CC Model_Path Model_Link Spec_Link Model_World Spec_Node Model_Sim Spec_Sim.

(** [p] is listed in the table for trips from [o] to [d]. *)
Definition is_route (pt : ptable) (o d : Z) (p : rpath) : Prop :=
  exists es e, In ((o, d), es) pt /\ In e es /\ e_path e = p.
(** No link directly follows itself. *)
Definition no_repeat (l : list Z) : Prop := forall pre a b post, l = pre ++ a :: b :: post -> a <> b.
Definition routes_ok (pt : ptable) : Prop := forall o d p, is_route pt o d p -> no_repeat (r_links p).

(** The link a vehicle is on, if any. *)
Definition link_of (N : net) (w : world) (v : Z) : option Z :=
  find (fun l => existsb (fun u => u =? v) (on_link (w_link w l))) (n_links N).

(** Links on which [v] was seen at the end of intervals 0, 1, ..., k-1, in order,
    consecutive sightings on the same link counted once. *)
Definition sight (h : list Z) (l : option Z) : list Z :=
  match l with
  | None => h
  | Some x => if match last_opt h with Some y => y =? x | None => false end then h else h ++ [x]
  end.
Fixpoint visited (N : net) (D : Z -> draws) (w0 : world) (v : Z) (k : nat) : list Z :=
  match k with
  | O => []
  | S k' => match run N D k (init_state N w0) with
            | Ok s => sight (visited N D w0 v k') (link_of N (s_w s) v)
            | Err _ => visited N D w0 v k'
            end
  end.
