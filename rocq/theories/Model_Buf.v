(** Path tables with shares (the buffer file): src/path.cpp:162-180, 703-780,
    src/io.cpp:818-961. *)
From Coq Require Import Ascii String.
From Verif Require Import Base Model_Num Model_Graph Model_Text Model_Io.
Local Open Scope Z_scope.
Local Open Scope list_scope.

(** [std::to_string (double)] is [printf] with "%f": six decimals, the nearest one, ties to even.
    No "inf", "nan" or negative zero. *)
Definition half_even (q : Q) : Z :=
  let f := Qfloor q in
  if Qltb (q - inject_Z f) (1#2) then f
  else if Qltb (1#2) (q - inject_Z f) then f + 1
  else if Z.even f then f else f + 1.
(** the last [k] decimal digits of [n] *)
Fixpoint pad (k : nat) (n : Z) : text :=
  match k with
  | O => []
  | S k => pad k (n / 10) ++ [ascii_of_nat (48 + Z.to_nat (n mod 10))]
  end.
Definition flt_string (q : Q) : text :=
  let n := half_even ((if Qltb q 0 then - q else q) * inject_Z 1000000)%Q in
  (if Qltb q 0 then [ascii_of_nat 45] else []) ++ to_string (n / 1000000) ++ [ascii_of_nat 46] ++ pad 6 (n mod 1000000).

(** src/path.cpp:162-180 [buffer_to_string]; [[]]: no buffer *)
Definition buffer_to_string (qs : list Q) : text :=
  match qs with
  | [] => [ch_newline]
  | _ => removelast (concat (map (fun q => flt_string q ++ [ch_space]) qs)) ++ [ch_newline]
  end.
(** the paths of the table in the order of the hash maps *)
Definition in_order (keys : list (Z * Z)) (T : ptable) : list lpath :=
  concat (map (fun k => match T (fst k) (snd k) with Some ps => ps | None => [] end) keys).
(** src/path.cpp:703-780 [save_path_table] with buffer: the path file and the buffer file; [B p]
    is m_buffer of path [p] *)
Definition save_buffered (keys : list (Z * Z)) (T : ptable) (B : lpath -> list Q) : res (text * text) :=
  do c <- save_path_table keys T;
  Ok (c, concat (map (fun p => buffer_to_string (B p)) (in_order keys T))).
(** ** Reading: src/io.cpp:866-936.  [stof] is [std::stof] (a word of the buffer file to a number
    or an exception).  The state is the table, the buffers by m_path_ID ([[]]: none) and the buffer
    file with the line variable.  The loop at 868-877 tests [_line], which is a data row, and not
    the line of the buffer file: exactly one line is taken. *)
Definition bstate := (ltable * (Z -> list Q) * (stream * text))%type.
Definition buf_row (stof : text -> res Q) (g : graph) (x : bstate) (l : text) : res bstate :=
  let '(T, L, (s, bl)) := x in
  let '(s', bl') := getline s bl in
  let bl' := trim bl' in
  do T' <- path_row g T l;
  if (2 <=? length (split l ch_space))%nat then
    match split bl' ch_space with
    | [] => Ok (T', L, (s', bl'))
    | ws => do qs <- mapR (fun w => stof (trim w)) ws; Ok (T', upd L (lt_count T) qs, (s', bl'))
    end
  else Ok (T', L, (s', bl')).
(** [load_path_table] with [w_buffer]; [bfile]: the buffer file, [None] if it is missing *)
Definition load_buffered (stof : text -> res Q) (fuel : nat) (g : graph) (num_path : Z) (file bfile : option text) : res (option (ptable * (Z -> list Q))) :=
  if num_path <=? 0 then Ok None
  else match file with
       | None => Err EThrow
       | Some _ => do r <- read_rows (buf_row stof g) fuel (Z.to_nat num_path) (open_file file) [] (no_paths, fun _ => [], (open_file bfile, []));
                   Ok (Some (lt_table (fst (fst (fst r))), snd (fst (fst r))))
       end.
