(** src/gridlock_checker.cpp: class MNM_Gridlock_Checker. *)
From Verif Require Import Base Model_Graph.
Local Open Scope Z_scope.

(** src/gridlock_checker.cpp:48 [*(_remained_link_set.begin ())]: the smallest element of the
    ordered set of remaining links *)
Fixpoint smallest (x : Z) (l : list Z) : Z :=
  match l with [] => x | y :: l' => smallest (Z.min x y) l' end.
(** src/gridlock_checker.cpp:52 [erase] *)
Definition erase (l : Z) (s : list Z) : list Z := filter (fun x => negb (x =? l)) s.
(** src/gridlock_checker.cpp:56-69: push the out-links; [None] is the [return false] *)
Fixpoint push_all (rem q out : list Z) : option (list Z) :=
  match out with
  | [] => Some q
  | l :: out' => if memb l rem then push_all rem (q ++ [l]) out' else None
  end.
(** src/gridlock_checker.cpp:46-72: one unit of fuel per outer or inner iteration *)
Fixpoint cycle_loop (fuel : nat) (g : graph) (rem q : list Z) : res bool :=
  match fuel with
  | O => Err EFuel
  | S fuel' =>
      match q with
      | [] => match rem with
              | [] => Ok true
              | x :: rem' => cycle_loop fuel' g rem [smallest x rem']
              end
      | l :: q' =>
          let rem' := erase l rem in
          do e <- get_endpoints g l;
          do out <- connections g (snd e) Outgoing;
          match push_all rem' q' out with
          | None => Ok false
          | Some q2 => cycle_loop fuel' g rem' q2
          end
      end
  end.
(** src/gridlock_checker.cpp:35-73 [has_cycle]; the set of remaining links is a list without
    repetition *)
Definition has_cycle (fuel : nat) (g : graph) : res bool := cycle_loop fuel g (g_lids g) [].
(** src/gridlock_checker.cpp:75-79 [is_gridlocked]; the argument stands for the whole state *)
Definition is_gridlocked {S} (s : S) : bool := false.
