(** Independent vocabulary for cumulative-curve properties. *)
From Verif Require Import Base.

(** records are listed with strictly increasing times *)
Definition times_increase (c : list (Q * Q)) : Prop :=
  forall i k ri rk, (i < k)%nat -> nth_error c i = Some ri -> nth_error c k = Some rk ->
    (fst ri < fst rk)%Q.
(** ... and non-decreasing values *)
Definition values_nondecrease (c : list (Q * Q)) : Prop :=
  forall i k ri rk, (i < k)%nat -> nth_error c i = Some ri -> nth_error c k = Some rk ->
    (snd ri <= snd rk)%Q.

(** sum of the amounts of all increments whose time is at most [t] *)
Definition amount_until (incs : list (Q * Q)) (t : Q) : Q :=
  sumQ (map snd (filter (fun r => Qle_bool (fst r) t) incs)).
(** sum of all amounts *)
Definition total_amount (incs : list (Q * Q)) : Q := sumQ (map snd incs).

(** [t] is a whole number of intervals in 0..9999, the range in which the
    relative tolerance 1e-4 cannot confuse two different whole times *)
Definition whole_time (t : Q) : Prop := exists z : Z, (0 <= z < 10000)%Z /\ (t == inject_Z z)%Q.

Definition times_nondecreasing (incs : list (Q * Q)) : Prop :=
  forall i k ri rk, (i < k)%nat -> nth_error incs i = Some ri -> nth_error incs k = Some rk ->
    (fst ri <= fst rk)%Q.

(** value of the most recent record at or before [t]; [d] when there is none *)
Fixpoint value_at (d : Q) (c : list (Q * Q)) (t : Q) : Q :=
  match c with
  | [] => d
  | x :: l => if Qle_bool (fst x) t then value_at (snd x) l t else value_at d l t
  end.

(** [a] and [b] are equal or further apart than the relative tolerance *)
Definition separated (a b : Q) : Prop :=
  (a == b \/ (1 # 10000) * Qmax (Qabs a) (Qabs b) < Qabs (a - b))%Q.
