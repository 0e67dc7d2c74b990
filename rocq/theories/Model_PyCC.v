(** The Python table of cumulative curves: macposts/dta.py:41-56 [_get_ccs], and
    [get_link_in_cc]/[get_link_out_cc] (macposts/_ext/dta.cpp:1960-2001), which copy the records.
    A table is the list of its columns, NaN is [None]. *)
From Verif Require Import Base Model_Num Model_CC Model_Node.
Local Open Scope Z_scope.

(** numpy index of an axis of length [rows]: negative counts from the end, otherwise IndexError *)
Definition np_index (rows : Z) (t : Z) : res nat :=
  let i := if t <? 0 then t + rows else t in
  if (0 <=? i) && (i <? rows) then Ok (Z.to_nat i) else Err EThrow.
Fixpoint set_cell (col : list (option Q)) (i : nat) (v : Q) : list (option Q) :=
  match col, i with
  | [], _ => []
  | _ :: c, O => Some v :: c
  | x :: c, S i' => x :: set_cell c i' v
  end.
(** dta.py:44-49: a column of NaN, then [ccs[ticks, col] = values] with
    [ticks = times.astype(int)]; for a repeated index the last value stays *)
Definition fill_column (rows : nat) (c : curve) : res (list (option Q)) :=
  foldM (fun col r => do i <- np_index (Z.of_nat rows) (trunc (fst r)); Ok (set_cell col i (snd r)))
    (repeat None rows) c.
(** dta.py:53-54: [where(~mask, arange, 0)] and the running maximum *)
Fixpoint fill_index (i best : nat) (col : list (option Q)) : list nat :=
  match col with
  | [] => []
  | x :: c => let b := Nat.max best (match x with Some _ => i | None => 0%nat end) in b :: fill_index (S i) b c
  end.
(** dta.py:52-55: masked cells take the value at the index found *)
Definition forward_fill (col : list (option Q)) : list (option Q) :=
  map (fun e => match fst e with Some v => Some v | None => nth (snd e) col None end)
    (combine col (fill_index 0 0 col)).
(** dta.py:41-56; [cc] is [get_link_in_cc] or [get_link_out_cc]: a link without installed curve
    throws (_ext/dta.cpp:1963-1966); [cur] is [get_cur_loading_interval] *)
Definition get_ccs (cc : Z -> option curve) (cur : Z) (links : list Z) : res (list (list (option Q))) :=
  do cols <- mapM (fun l => match cc l with None => Err EThrow | Some c => fill_column (Z.to_nat (cur + 1)) c end) links;
  Ok (map forward_fill cols).
