(** Independent vocabulary for the Tdsp class. *)
From Coq Require Import Qround.
From Verif Require Import Base Model_Num Model_Graph Spec_Graph Spec_TDSP.

(** the array a list of rows gives to a link: the last row with its number *)
Definition given {A} (d : A) (rows : list (Q * list A)) (l : Z) : option (Z -> A) :=
  match find (fun r => trunc (fst r) =? l) (rev rows) with
  | Some r => Some (fun t => nth (Z.to_nat t) (snd r) d)
  | None => None
  end.

(** a rectangular array with [n] rows of one leading column and [M] values *)
Definition shaped {A} (n M : Z) (rows : list (Q * list A)) : Prop :=
  Z.of_nat (length rows) = n /\ forall r, In r rows -> Z.of_nat (length (snd r)) = M.

(** the returned table: nodes, links followed by -1; cost and travel time in the
    first row, -1 below *)
Definition displays (rows : list (Z * Z * option Q * Q)) (ns ls : list Z) (c : option Q) (x : Q) : Prop :=
  map (fun r => fst (fst (fst r))) rows = ns /\ map (fun r => snd (fst (fst r))) rows = ls ++ [-1] /\
  map (fun r => snd (fst r)) rows = c :: repeat (Some (-1)%Q) (length ls) /\
  map snd rows = x :: repeat (-1)%Q (length ls).

(** [mwalk … u t ls ts c]: the walk [ls] from [u] at interval [t] to [dest]
    reaches the ends of its links at the intervals [ts]; [c] is the cost of its
    links at the intervals of entering plus that of its movements at the
    intervals in which they begin.  A movement lasts its time rounded up. *)
Definition move_at (nc : Z -> Z -> option (Z -> Q)) (l : Z) (ls : list Z) (t : Z) : Q :=
  match ls with
  | o :: _ => match nc l o with Some f => f t | None => 0%Q end
  | [] => 0%Q
  end.
Definition move_end (ntt : Z -> Z -> option (Z -> Q)) (M l : Z) (ls : list Z) (t : Z) : Z :=
  Z.min (t + Qceiling (move_at ntt l ls t)) (M - 1).
Inductive mwalk (g : graph) (cost : Z -> Z -> option Q) (nc : Z -> Z -> option (Z -> Q)) (tt : Z -> Z -> Q)
    (ntt : Z -> Z -> option (Z -> Q)) (M dest : Z) : Z -> Z -> list Z -> list Z -> Q -> Prop :=
| mw_nil t : mwalk g cost nc tt ntt M dest dest t [] [] 0
| mw_cons u t l w a ls ts k c : get_endpoints g l = Ok (u, w) -> cost l t = Some k -> next_interval M t (tt l t) a ->
    mwalk g cost nc tt ntt M dest w (move_end ntt M l ls a) ls ts c ->
    mwalk g cost nc tt ntt M dest u t (l :: ls) (a :: ts) (k + move_at nc l ls a + c).
