(** The text files with time-dependent costs of links and movements. *)
From Coq Require Import Ascii String.
From Verif Require Import Base Model_Num Model_Graph Model_Text Model_Io Model_Mio.
Local Open Scope list_scope.

(** The map from keys to arrays of src/io.cpp:1260-1262 and 1324-1326: a list of entries, keys of
    links are link ids, keys of movements pairs of link ids (a map of maps in the code). *)
Definition ctable (K : Type) := list (K * list Q).
Fixpoint kfind {K} (eqb : K -> K -> bool) (m : ctable K) (k : K) : option (list Q) :=
  match m with
  | [] => None
  | (k', v) :: m => if eqb k' k then Some v else kfind eqb m k
  end.
(** src/io.cpp:1264-1270 and 1328-1337: [memset] writes zeros to the first [n] places of every array;
    an array made with a smaller size is written beyond its end *)
Definition zero_all {K} (n : nat) (m : ctable K) : res (ctable K) :=
  if forallb (fun x => (n <=? length (snd x))%nat) m then Ok (map (fun x => (fst x, repeat 0%Q n ++ skipn n (snd x))) m) else Err EUB.
(** src/io.cpp:1294-1305 and 1362-1386: the array is made when there is none, then its first [n] places
    are written.  Old arrays have at least [n] places here because of [zero_all]. *)
Fixpoint put {K} (eqb : K -> K -> bool) (n : nat) (m : ctable K) (k : K) (v : list Q) : ctable K :=
  match m with
  | [] => [(k, v)]
  | (k', old) :: m => if eqb k' k then (k', v ++ skipn n old) :: m else (k', old) :: put eqb n m k v
  end.
(** src/io.cpp:1290-1311: a line of the link file *)
Definition lcost_row (stof : text -> res Q) (n : nat) (m : ctable Z) (l : text) : res (ctable Z) :=
  let ws := split l ch_space in
  if (length ws =? n + 1)%nat then
    do k <- stoi (trim (word ws 0));
    do v <- mapR (fun w => stof (trim w)) (skipn 1 ws);
    Ok (put Z.eqb n m k v)
  else Err EThrow.
(** src/io.cpp:1357-1392: a line of the movement file; its first word is not looked at *)
Definition pair_eqb (a b : Z * Z) : bool := (fst a =? fst b)%Z && (snd a =? snd b)%Z.
Definition ncost_row (stof : text -> res Q) (n : nat) (m : ctable (Z * Z)) (l : text) : res (ctable (Z * Z)) :=
  let ws := split l ch_space in
  if (length ws =? n + 3)%nat then
    do i <- stoi (trim (word ws 1));
    do o <- stoi (trim (word ws 2));
    do v <- mapR (fun w => stof (trim w)) (skipn 3 ws);
    Ok (put pair_eqb n m (i, o) v)
  else Err EThrow.
(** src/io.cpp:1272-1320 and 1339-1401.  num_timestamps is not negative. *)
Definition read_costs {K} (row : nat -> ctable K -> text -> res (ctable K)) (n : nat) (num_rows : Z) (file : option text) (m : ctable K) : res (ctable K) :=
  do m0 <- zero_all n m;
  match file with
  | None => Err EThrow
  | Some content => read_lines (row n) (Z.to_nat num_rows) (fst (skip_line content)) (snd (skip_line content)) m0
  end.
(** src/io.cpp:1258-1320 [read_td_link_cost] *)
Definition read_td_link_cost (stof : text -> res Q) := read_costs (lcost_row stof).
(** src/io.cpp:1322-1401 [read_td_node_cost] *)
Definition read_td_node_cost (stof : text -> res Q) := read_costs (ncost_row stof).
