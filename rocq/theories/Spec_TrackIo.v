(** What the two files with the settings of vehicle tracking say. *)
From Coq Require Import Ascii String.
From Verif Require Import Base Model_Num Model_Graph Model_Text Model_Io Spec_Io Spec_Mio.
Local Open Scope list_scope.

(** the line has two words, the IDs of an origin and a destination *)
Definition says_od (l : text) (p : Z * Z) : Prop := exists w0 w1, words l [w0; w1] /\ reads_as w0 (fst p) /\ reads_as w1 (snd p).
(** the line has one word, a number *)
Definition says_interval (l : text) (t : Z) : Prop := exists w, words l [w] /\ reads_as w t.
(** the rows of a file below its header; a missing file has none *)
Definition below_header (file : option text) (ls : list text) : Prop :=
  match file with None => ls = [] | Some content => headed content ls end.
