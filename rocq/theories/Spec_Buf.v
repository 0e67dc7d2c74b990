(** What saving and loading shares means. *)
From Coq Require Import Ascii String Qabs.
From Verif Require Import Base Model_Num Model_Graph Model_Text Model_Io Spec_Io Spec_Conf Model_Buf.
Local Open Scope Z_scope.
Local Open Scope list_scope.

(** [stof] reads decimal numerals with relative error at most [eps] (single precision: 2^-24) *)
Definition reads_numerals (stof : text -> res Q) (eps : Q) : Prop :=
  forall t q, numeral t q -> exists q', stof t = Ok q' /\ (Qabs (q' - q) <= eps * Qabs q)%Q.
(** equal up to half of the sixth decimal and the error of [stof] *)
Definition near (eps a b : Q) : Prop := (Qabs (a - b) <= (1 # 2000000) + eps * (Qabs b + (1 # 2000000)))%Q.
(** the numbers of a line of the buffer file *)
Definition line_numbers (stof : text -> res Q) (l : text) (qs : list Q) : Prop :=
  exists r ws, stripped l r /\ words r ws /\ Forall2 (fun w q => exists w', stripped w w' /\ stof w' = Ok q) ws qs.
