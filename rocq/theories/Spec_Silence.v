(** What silencing should do. *)
From Verif Require Import Base Model_Silence.
Local Open Scope Z_scope.

(** two numbers can still be given out *)
Definition room (o : os) : Prop := exists i j, (i < j < lim o)%nat /\ tab o (Z.of_nat i) = None /\ tab o (Z.of_nat j) = None.
(** a block that leaves the descriptors alone that are open when it starts (it may open more) *)
Definition polite {X} (body : os * X -> os * X * bool) : Prop :=
  forall s x d, tab (fst s) x = Some d -> tab (fst (fst (body s))) x = Some d.
(** what a list of writes sends to file [f], those to descriptor [fd] left out *)
Definition sent (o : os) (fd f : Z) (ws : list (Z * list Z)) : list Z :=
  concat (map (fun w => if fst w =? fd then [] else match tab o (fst w) with Some (File g) => if g =? f then snd w else [] | _ => [] end) ws).
