(** What the recorded statistics should be, in terms of the series of observed values. *)
From Verif Require Import Base.
Local Open Scope Z_scope.

(** f (a+1) + ... + f (a+k) *)
Fixpoint total (f : Z -> Q) (a : Z) (k : nat) : Q :=
  match k with O => 0%Q | S k' => (total f a k' + f (a + Z.of_nat k)%Z)%Q end.
(** mean of the [n] values at the intervals t-n+1 .. t *)
Definition mean (n : Z) (f : Z -> Q) (t : Z) : Q := (total f (t - n)%Z (Z.to_nat n) / inject_Z n)%Q.
(** value recorded at a multiple [t] of [n] *)
Definition recorded (n : Z) (f : Z -> Q) (t : Z) : Q := if t <=? 0 then f t else mean n f t.
(** last record time up to [t] *)
Definition last_record (n t : Z) : Z := n * (t / n).
(** rows of a file, up to equality of rationals *)
Definition same_rows (a b : list (Z * list Q)) : Prop := Forall2 (fun x y => fst x = fst y /\ Forall2 Qeq (snd x) (snd y)) a b.
