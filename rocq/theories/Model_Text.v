(** Text input: characters, [trim], [split], number conversion, streams and the row loop of
    src/io.cpp.  A text is a list of characters. *)
From Coq Require Import Ascii String.
From Coq Require Import DecimalN DecimalPos DecimalFacts.
From Verif Require Import Base.
Local Close Scope string_scope.
Local Open Scope list_scope.

Definition text := list ascii.
(** literals *)
Definition txt (s : string) : text := list_ascii_of_string s.

Definition ch_newline : ascii := ascii_of_nat 10.
Definition ch_space : ascii := ascii_of_nat 32.
Definition ch_hash : ascii := ascii_of_nat 35.

(** [std::isspace] in the C locale: codes 9 to 13 and 32 *)
Definition isspace (c : ascii) : bool :=
  let n := nat_of_ascii c in ((9 <=? n) && (n <=? 13) || (n =? 32))%nat.

(** src/io.h:110-116 [ltrim], 119-125 [rtrim], 129 [trim] *)
Fixpoint ltrim (s : text) : text :=
  match s with
  | c :: s' => if isspace c then ltrim s' else s
  | [] => []
  end.
Definition rtrim (s : text) : text := rev (ltrim (rev s)).
Definition trim (s : text) : text := ltrim (rtrim s).

(** src/io.cpp:1240-1256 [split].  Positions are replaced by suffixes: [skip_sep] is
    [find_first_not_of], [cut] is [find] and the two [substr].  [fuel] bounds the while loop. *)
Fixpoint skip_sep (sep : ascii) (s : text) : text :=
  match s with
  | c :: s' => if Ascii.eqb c sep then skip_sep sep s' else s
  | [] => []
  end.
Fixpoint cut (sep : ascii) (s : text) : option (text * text) :=
  match s with
  | [] => None
  | c :: s' => if Ascii.eqb c sep then Some ([], s')
               else match cut sep s' with Some (a, b) => Some (c :: a, b) | None => None end
  end.
Fixpoint split_loop (fuel : nat) (sep : ascii) (s : text) : list text :=
  match fuel with
  | O => []
  | S fuel =>
      match cut sep s with
      | Some (w, r) => w :: split_loop fuel sep (skip_sep sep r)
      | None => match s with [] => [] | _ => [s] end
      end
  end.
Definition split (s : text) (sep : ascii) : list text := split_loop (S (length s)) sep (skip_sep sep s).

(** decimal digits *)
Definition digit_uint (c : ascii) : option (Decimal.uint -> Decimal.uint) :=
  match nat_of_ascii c with
  | 48 => Some Decimal.D0 | 49 => Some Decimal.D1 | 50 => Some Decimal.D2 | 51 => Some Decimal.D3
  | 52 => Some Decimal.D4 | 53 => Some Decimal.D5 | 54 => Some Decimal.D6 | 55 => Some Decimal.D7
  | 56 => Some Decimal.D8 | 57 => Some Decimal.D9 | _ => None
  end%nat.
(** the longest prefix of digits *)
Fixpoint read_digits (s : text) : Decimal.uint :=
  match s with
  | [] => Decimal.Nil
  | c :: s' => match digit_uint c with Some f => f (read_digits s') | None => Decimal.Nil end
  end.
Definition int_min : Z := -2147483648.
Definition int_max : Z := 2147483647.
(** [std::stoi]: leading white space, an optional sign, the longest prefix of digits; the rest is
    ignored; no digit or a value outside of int is an exception *)
Definition sign (s : text) : bool * text :=
  match s with
  | c :: r => if Ascii.eqb c (ascii_of_nat 45) then (true, r)
              else if Ascii.eqb c (ascii_of_nat 43) then (false, r) else (false, s)
  | [] => (false, [])
  end.
Definition stoi (s : text) : res Z :=
  let '(neg, s) := sign (ltrim s) in
  match read_digits s with
  | Decimal.Nil => Err EThrow
  | u => let v := Z.of_N (N.of_uint u) in
         let v := if (neg : bool) then (- v)%Z else v in
         if ((int_min <=? v) && (v <=? int_max))%Z then Ok v else Err EThrow
  end.
(** [std::to_string (int)] *)
Fixpoint print_uint (u : Decimal.uint) : text :=
  match u with
  | Decimal.Nil => []
  | Decimal.D0 u => ascii_of_nat 48 :: print_uint u | Decimal.D1 u => ascii_of_nat 49 :: print_uint u
  | Decimal.D2 u => ascii_of_nat 50 :: print_uint u | Decimal.D3 u => ascii_of_nat 51 :: print_uint u
  | Decimal.D4 u => ascii_of_nat 52 :: print_uint u | Decimal.D5 u => ascii_of_nat 53 :: print_uint u
  | Decimal.D6 u => ascii_of_nat 54 :: print_uint u | Decimal.D7 u => ascii_of_nat 55 :: print_uint u
  | Decimal.D8 u => ascii_of_nat 56 :: print_uint u | Decimal.D9 u => ascii_of_nat 57 :: print_uint u
  end.
Definition to_string (z : Z) : text :=
  if (z <? 0)%Z then ascii_of_nat 45 :: print_uint (N.to_uint (Z.to_N (- z))) else print_uint (N.to_uint (Z.to_N z)).

(** [std::ifstream]: unread characters, end-of-file bit and fail bit *)
Record stream := { st_rest : text; st_eof : bool; st_fail : bool }.
(** [open]: a missing file sets the fail bit *)
Definition open_file (content : option text) : stream :=
  match content with
  | Some t => {| st_rest := t; st_eof := false; st_fail := false |}
  | None => {| st_rest := []; st_eof := false; st_fail := true |}
  end.
(** [std::getline (stream, line)]: with the end-of-file or fail bit set the line is left as it is;
    otherwise characters are taken up to the newline; reaching the end sets the end-of-file bit,
    and the fail bit if nothing was taken *)
Definition getline (s : stream) (line : text) : stream * text :=
  if st_eof s || st_fail s then ({| st_rest := st_rest s; st_eof := st_eof s; st_fail := true |}, line)
  else match cut ch_newline (st_rest s) with
       | Some (l, r) => ({| st_rest := r; st_eof := false; st_fail := false |}, l)
       | None => match st_rest s with
                 | [] => ({| st_rest := []; st_eof := true; st_fail := true |}, [])
                 | l => ({| st_rest := []; st_eof := true; st_fail := false |}, l)
                 end
       end.

(** [_line.empty () || _line[0] == '#'] is false *)
Definition is_data (l : text) : bool :=
  match l with [] => false | c :: _ => negb (Ascii.eqb c ch_hash) end.

(** The loop [for (int i = 0; i < n;) { getline; trim; if (empty or comment) continue; ++i; ... }]
    of src/io.cpp:29-74, 110-178, 210-262, 555-591, 620-648, 859-940: [f] is what is done with a
    data row.  The line variable keeps its value when [getline] fails.  [fuel] bounds the number of
    lines looked at ([EFuel]: still running). *)
Fixpoint read_rows {A} (f : A -> text -> res A) (fuel n : nat) (s : stream) (line : text) (a : A)
  : res (A * (stream * text)) :=
  match n with
  | O => Ok (a, (s, line))
  | S n' =>
      match fuel with
      | O => Err EFuel
      | S fuel =>
          let '(s', l) := getline s line in
          let l := trim l in
          if is_data l then do a' <- f a l; read_rows f fuel n' s' l a'
          else read_rows f fuel n s' l a
      end
  end.
