(** What the file of message signs says. *)
From Coq Require Import Ascii String.
From Verif Require Import Base Model_Num Model_Graph Model_Text Model_Io Spec_Io Spec_Mio Spec_TdIo Model_VmsIo.
Local Open Scope list_scope.

(** two whole numbers, the ids of a sign and of its link *)
Definition says_sign (l : text) (x : Z * Z) : Prop := exists w0 w1, words l [w0; w1] /\ whole w0 (fst x) /\ whole w1 (snd x).
(** a link on which the traffic is slower than at free flow *)
Definition congested (x : linfo) : Prop := (li_len x / li_ffs x < li_tt x)%Q.
(** 60 miles per hour, a mile taken as 1600 metres *)
Definition fast (x : linfo) : Prop := (60 * 1600 / 3600 <= li_ffs x)%Q.
(** the message says that there is congestion ahead *)
Definition warns (t : message) : Prop := t <> MCare.
