(** Configuration files: src/ults.cpp:150-320.  A text is a list of characters. *)
From Coq Require Import Ascii String.
From Verif Require Import Base Model_Num Model_Text.
Local Close Scope string_scope.
Local Open Scope list_scope.

(** the delimiters of src/ults.cpp:188 [trim]: space, tab, carriage return, newline *)
Definition delim (c : ascii) : bool :=
  let n := nat_of_ascii c in ((n =? 32) || (n =? 9) || (n =? 13) || (n =? 10))%nat.
(** src/ults.cpp:195-199: erase up to the first character that is no delimiter *)
Fixpoint cltrim (s : text) : text :=
  match s with
  | [] => []
  | c :: s' => if delim c then cltrim s' else s
  end.
(** src/ults.cpp:191-193: erase after the last such character; a text of
    delimiters only, which is left as it is there, becomes empty in [cltrim] *)
Definition crtrim (s : text) : text := rev (cltrim (rev s)).
(** src/ults.cpp:187-201 [trim] *)
Definition ctrim (s : text) : text := cltrim (crtrim s).

(** the lines that [while (std::getline (file, line))] goes through, src/ults.cpp:212 *)
Fixpoint file_lines (s : text) : list text :=
  match s with
  | [] => []
  | c :: s' => if Ascii.eqb c ch_newline then [] :: file_lines s'
               else match file_lines s' with [] => [[c]] | l :: ls => (c :: l) :: ls end
  end.

Definition ch_semicolon : ascii := ascii_of_nat 59.
Definition ch_open : ascii := ascii_of_nat 91.
Definition ch_close : ascii := ascii_of_nat 93.
Definition ch_equal : ascii := ascii_of_nat 61.
Definition ch_slash : ascii := ascii_of_nat 47.

(** current section and content_, the latest assignment first *)
Definition cstate := (text * list (text * text))%type.
(** src/ults.cpp:214-232: one line.  Without '=' posEqual is int (npos) = -1:
    both name and value are the whole line. *)
Definition conf_line (st : cstate) (line : text) : cstate :=
  let l := ctrim line in
  match l with
  | [] => st
  | c :: r =>
      if Ascii.eqb c ch_hash || Ascii.eqb c ch_semicolon then st
      else if Ascii.eqb c ch_open then
        (ctrim (match cut ch_close r with Some (a, _) => a | None => r end), snd st)
      else
        let '(name, value) := match cut ch_equal l with Some (a, b) => (ctrim a, ctrim b) | None => (ctrim l, ctrim l) end in
        (fst st, (fst st ++ ch_slash :: name, value) :: snd st)
  end.
(** src/ults.cpp:203-234: a file that cannot be opened has no lines *)
Definition conf_read (file : option text) : list (text * text) :=
  snd (fold_left conf_line (match file with Some t => file_lines t | None => [] end) ([], [])).

Fixpoint same_text (a b : text) : bool :=
  match a, b with
  | [], [] => true
  | x :: a', y :: b' => Ascii.eqb x y && same_text a' b'
  | _, _ => false
  end.
(** what [Value] may throw and what its callers may catch *)
Inductive thrown := XInvalidArgument | XCString.
(** src/ults.cpp:236-247 [Value (section, entry)], the string in the Chameleon *)
Definition conf_find (m : list (text * text)) (section entry : text) : text + thrown :=
  match find (fun kv => same_text (fst kv) (section ++ ch_slash :: entry)) m with
  | Some kv => inl (snd kv)
  | None => inr XInvalidArgument
  end.
Definition conf_value (m : list (text * text)) (section entry : text) : res text :=
  match conf_find m section entry with inl v => Ok v | inr _ => Err EThrow end.
(** src/ults.cpp:249-279 [Value] with a default: the handler is for [const char *];
    other exceptions pass through *)
Definition conf_value_default (m : list (text * text)) (section entry default : text) : res text :=
  match conf_find m section entry with
  | inl v => Ok v
  | inr XCString => Ok default
  | inr XInvalidArgument => Err EThrow
  end.

(** [atof]: white space, sign, digits, fraction, exponent; the rest is ignored,
    0 without digits.  Simplifications: exact value, no hexadecimal numbers,
    "inf" or "nan". *)
Fixpoint drop_digits (s : text) : text :=
  match s with
  | c :: s' => match digit_uint c with Some _ => drop_digits s' | None => s end
  | [] => []
  end.
Definition take_digits (s : text) : text := firstn (length s - length (drop_digits s)) s.
Definition nat_of_digits (s : text) : Z := fold_left (fun acc c => 10 * acc + (Z.of_nat (nat_of_ascii c) - 48))%Z s 0%Z.
Definition pow10 (e : Z) : Q := if (0 <=? e)%Z then inject_Z (10 ^ e) else (1 # Z.to_pos (10 ^ (- e))).
Definition exponent (s : text) : Z :=
  match s with
  | c :: r =>
      if (nat_of_ascii c =? 101)%nat || (nat_of_ascii c =? 69)%nat then
        let '(neg, r) := sign r in
        if (neg : bool) then (- nat_of_digits (take_digits r))%Z else nat_of_digits (take_digits r)
      else 0%Z
  | [] => 0%Z
  end.
Definition atof (s : text) : Q :=
  let '(neg, s) := sign (ltrim s) in
  let a := take_digits s in
  let r := drop_digits s in
  let '(b, r) := match r with
                 | c :: r' => if (nat_of_ascii c =? 46)%nat then (take_digits r', drop_digits r') else ([], r)
                 | [] => ([], []) end in
  match a ++ b with
  | [] => 0%Q
  | d => let v := (inject_Z (nat_of_digits d) * pow10 (exponent r - Z.of_nat (length b)))%Q in
         if (neg : bool) then (- v)%Q else v
  end.

(** src/ults.cpp:297-317 [get_int], [get_float], [get_string] of a reader for
    [section]; a double outside of int is undefined *)
Definition conf_string (m : list (text * text)) (section key : text) : res text := conf_value m section key.
Definition conf_float (m : list (text * text)) (section key : text) : res Q :=
  do v <- conf_value m section key; Ok (atof v).
Definition conf_int (m : list (text * text)) (section key : text) : res Z :=
  do v <- conf_value m section key;
  let z := trunc (atof v) in
  do _ <- guard ((int_min <=? z) && (z <=? int_max))%Z EUB; Ok z.
