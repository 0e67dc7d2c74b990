(** Independent vocabulary for configuration files. *)
From Coq Require Import Ascii String.
From Verif Require Import Base Model_Text.
Local Close Scope string_scope.
Local Open Scope list_scope.

(** blanks: space, tab, carriage return, newline *)
Definition is_blank (c : ascii) : Prop := In (nat_of_ascii c) [32; 9; 13; 10]%nat.
Definition blanks (s : text) : Prop := Forall is_blank s.
(** no blank at either end *)
Definition tight (s : text) : Prop :=
  (forall c r, s = c :: r -> ~ is_blank c) /\ (forall c r, s = r ++ [c] -> ~ is_blank c).
Definition chr (s : string) : ascii := hd zero (list_ascii_of_string s).

(** what a line says *)
Inductive item := Nothing | Section (s : text) | Setting (k v : text).
Inductive line_says : text -> item -> Prop :=
| says_blank w : blanks w -> line_says w Nothing
| says_comment w c t : blanks w -> c = chr "#" \/ c = chr ";" -> line_says (w ++ c :: t) Nothing
| says_section w1 w2 s w3 t : blanks w1 -> blanks w2 -> blanks w3 -> tight s -> ~ In (chr "]") s ->
    line_says (w1 ++ chr "[" :: w2 ++ s ++ w3 ++ chr "]" :: t) (Section s)
| says_setting w1 k w2 w3 v w4 : blanks w1 -> blanks w2 -> blanks w3 -> blanks w4 -> tight k -> tight v ->
    ~ In (chr "=") k -> (forall c r, k = c :: r -> c <> chr "#" /\ c <> chr ";" /\ c <> chr "[") ->
    line_says (w1 ++ k ++ w2 ++ chr "=" :: w3 ++ v ++ w4) (Setting k v).

(** the settings of a file with the section they are in, first line first *)
Fixpoint settings (section : text) (items : list item) : list (text * text * text) :=
  match items with
  | [] => []
  | Nothing :: r => settings section r
  | Section s :: r => settings s r
  | Setting k v :: r => (section, k, v) :: settings section r
  end.
(** [v] is the last value given to entry [k] of section [s] *)
Definition last_setting (l : list (text * text * text)) (s k v : text) : Prop :=
  exists a b, l = a ++ (s, k, v) :: b /\ forall v', ~ In (s, k, v') b.
(** the file consists of these lines; the newline of the last line may be missing *)
Inductive file_of : list text -> text -> Prop :=
| file_empty : file_of [] []
| file_last l : l <> [] -> ~ In ch_newline l -> file_of [l] l
| file_line l ls t : ~ In ch_newline l -> file_of ls t -> file_of (l :: ls) (l ++ ch_newline :: t).
Definition no_slash (s : text) : Prop := ~ In (chr "/") s.

(** decimal numerals: sign, whole part, fraction *)
Definition is_digit (c : ascii) : Prop := exists n, In n [0; 1; 2; 3; 4; 5; 6; 7; 8; 9]%nat /\ c = ascii_of_nat (48 + n).
Fixpoint digits_value (s : text) : Z :=
  match s with
  | [] => 0
  | c :: r => (Z.of_nat (nat_of_ascii c) - 48) * 10 ^ Z.of_nat (length r) + digits_value r
  end.
Definition signed (neg : bool) (q : Q) : Q := if neg then (- q)%Q else q.
Inductive numeral : text -> Q -> Prop :=
| numeral_whole (neg : bool) a : a <> [] -> Forall is_digit a ->
    numeral ((if neg then [chr "-"] else []) ++ a) (signed neg (inject_Z (digits_value a)))
| numeral_decimal (neg : bool) a b : a <> [] -> Forall is_digit a -> Forall is_digit b ->
    numeral ((if neg then [chr "-"] else []) ++ a ++ chr "." :: b)
      (signed neg (inject_Z (digits_value a) + inject_Z (digits_value b) / inject_Z (10 ^ Z.of_nat (length b)))).
(** does not continue a numeral *)
Definition no_more (t : text) : Prop :=
  forall c r, t = c :: r -> ~ is_digit c /\ c <> chr "." /\ c <> chr "e" /\ c <> chr "E".
(** begins with none of the characters a numeral may begin with, nor with a vertical tab or form feed *)
Definition not_numeric (t : text) : Prop :=
  forall c r, t = c :: r -> ~ is_digit c /\ c <> chr "." /\ c <> chr "-" /\ c <> chr "+" /\ ~ In (nat_of_ascii c) [11; 12]%nat.
