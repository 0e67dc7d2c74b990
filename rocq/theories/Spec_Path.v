(** Independent vocabulary for path properties. *)
From Verif Require Import Base.

(** [subseq l l']: l is obtained from l' by deleting elements, keeping the order *)
Inductive subseq {A} : list A -> list A -> Prop :=
| ss_nil l : subseq [] l
| ss_keep x l l' : subseq l l' -> subseq (x :: l) (x :: l')
| ss_skip x l l' : subseq l l' -> subseq l (x :: l').
