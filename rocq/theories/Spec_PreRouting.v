(** What a table of route flows says, read off the table itself. *)
From Verif Require Import Base Model_PreRouting.
Local Open Scope Z_scope.

(** [carries T o d p i x]: in interval [i], path [p] of the pair (o, d) carries the flow [x] *)
Definition carries (T : rtable) (o d p : Z) (i : nat) (x : Q) : Prop :=
  exists f a, In ((o, d), f) T /\ In (p, a) f /\ nth_error a i = Some x.
(** the paths of a pair *)
Definition has_path (T : rtable) (o d p : Z) : Prop := exists f a, In ((o, d), f) T /\ In (p, a) f.
(** total flow of a pair in an interval, over all its paths *)
Definition pair_total (f : flows) (i : nat) : Q := sumQ (map (fun e => nth i (snd e) 0%Q) f).
Definition od_total (T : rtable) (o d : Z) (i : nat) : Q :=
  sumQ (map (fun e => pair_total (snd e) i) (filter (fun e => (fst (fst e) =? o) && (snd (fst e) =? d)) T)).
(** no pair and no path of a pair is listed twice (they are keys of hash maps) *)
Definition table_ok (T : rtable) : Prop :=
  NoDup (map fst T) /\ forall k f, In (k, f) T -> NoDup (map fst f).
Definition no_negative_flow (T : rtable) : Prop := forall o d p i x, carries T o d p i x -> (0 <= x)%Q.

(** one shift of flow: pair, target path, interval, fraction *)
Record shift := { sh_o : Z; sh_d : Z; sh_p : Z; sh_i : nat; sh_lam : Q }.
