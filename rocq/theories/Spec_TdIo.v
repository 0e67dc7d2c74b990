(** What the text files with time-dependent costs say. *)
From Coq Require Import Ascii String.
From Verif Require Import Base Model_Num Model_Graph Model_Text Model_Io Spec_Io Spec_Mio.
Local Open Scope list_scope.

(** a word, blanks such as tabs around it left out, that is a whole number, a number *)
Definition whole (w : text) (z : Z) : Prop := exists r, stripped w r /\ reads_as r z.
Definition number (stof : text -> res Q) (w : text) (q : Q) : Prop := exists r, stripped w r /\ stof r = Ok q.
(** a link and its [n] costs *)
Definition says_lcost (stof : text -> res Q) (n : nat) (l : text) (x : Z * list Q) : Prop :=
  exists w ws, words l (w :: ws) /\ length ws = n /\ whole w (fst x) /\ Forall2 (number stof) ws (snd x).
(** a node, of whatever name, an incoming and an outgoing link and the [n] costs of the movement *)
Definition says_ncost (stof : text -> res Q) (n : nat) (l : text) (x : (Z * Z) * list Q) : Prop :=
  exists w wi wo ws, words l (w :: wi :: wo :: ws) /\ length ws = n /\ whole wi (fst (fst x)) /\ whole wo (snd (fst x)) /\ Forall2 (number stof) ws (snd x).
(** [v] is in the last of the entries with key [k] *)
Definition last_entry {K} (xs : list (K * list Q)) (k : K) (v : list Q) : Prop :=
  exists a b, xs = a ++ (k, v) :: b /\ forall y, In y b -> fst y <> k.
