(** Cumulative curves: src/dlink.cpp:943-1308 (class MNM_Cumulative_Curve) and
    src/cc_tree.cpp (class MNM_Tree_Cumulative_Curve).  A curve is the content of
    [m_recorder] (src/dlink.h:26), a list of (timestamp, flow). *)
From Verif Require Import Base Model_Num.

Definition curve := list (Q * Q).

(** last element of a non-empty deque; [None] when empty *)
Definition last_opt {A} (l : list A) : option A := nth_error l (length l - 1).

(** src/dlink.cpp:998-1003 [add_record] *)
Definition add_record (c : curve) (r : Q * Q) : curve := c ++ [r].

(** src/dlink.cpp:64-80 [install_cumulative_curve]: a fresh curve holds (0,0) *)
Definition fresh_curve : curve := add_record [] (0%Q, 0%Q).

(** src/dlink.cpp:1019-1050 [add_increment] *)
Definition add_increment (c : curve) (r : Q * Q) : res curve :=
  match last_opt c with
  | None => Ok (add_record c r)
  | Some best =>
      if approx_lt (fst r) (fst best) tol then Err EThrow
      else if approx_eq (fst r) (fst best) tol
      then Ok (removelast c ++ [(fst best, (snd best + snd r)%Q)])
      else Ok (c ++ [(fst r, (snd r + snd best)%Q)])
  end.

(** src/dlink.cpp:1052-1079 [get_approximated_result].  The loop from i = 1:
    [prev] is m_recorder[i-1].  A zero time difference would divide by zero:
    [EUB]. *)
Fixpoint interp_scan (prev : Q * Q) (l : curve) (time : Q) : res Q :=
  match l with
  | [] => Ok (snd prev)
  | x :: l' =>
      if Qle_bool time (fst x) then
        if Qeq_bool (fst x - fst prev) 0 then Err EUB
        else Ok (snd prev + (snd x - snd prev) / (fst x - fst prev) * (time - fst prev))%Q
      else interp_scan x l' time
  end.
Definition get_approximated_result (c : curve) (time : Q) : res Q :=
  match c with
  | [] => Ok 0%Q
  | [x] => Ok (snd x)
  | x :: l => if Qle_bool time (fst x) then Ok (snd x) else interp_scan x l time
  end.

(** std::lower_bound as implemented by libstdc++ ([__lower_bound]): halving
    search for the first index in [first, first+len) where [comp] is false. *)
Fixpoint lower_bound_loop (fuel : nat) (comp : Q * Q -> bool) (c : curve)
    (first len : nat) : nat :=
  match fuel with
  | O => first
  | S fuel' =>
      if (len =? 0)%nat then first
      else
        let half := (len / 2)%nat in
        let mid := (first + half)%nat in
        match nth_error c mid with
        | None => first
        | Some x => if comp x then lower_bound_loop fuel' comp c (mid + 1) (len - half - 1)
                    else lower_bound_loop fuel' comp c first half
        end
  end.
Definition lower_bound (comp : Q * Q -> bool) (c : curve) (len : nat) : nat :=
  lower_bound_loop (S len) comp c 0 len.

(** src/dlink.cpp:1081-1149 [get_result]; the assert [j >= 1] is [EAssert]. *)
Definition get_result (c : curve) (time : Q) : res Q :=
  match c with
  | [] => Ok 0%Q
  | [x] => Ok (snd x)
  | x :: _ =>
      if Qle_bool time (fst x) then Ok (snd x)
      else
        let j := lower_bound (fun r => approx_lt (fst r) time tol) c (length c) in
        do _ <- guard (1 <=? j)%nat EAssert;
        match nth_error c j with
        | Some rj =>
            if approx_eq (fst rj) time tol then Ok (snd rj)
            else if Qltb time (fst rj)
            then match nth_error c (j - 1) with Some r => Ok (snd r) | None => Err EUB end
            else match last_opt c with Some r => Ok (snd r) | None => Err EUB end
        | None => match last_opt c with Some r => Ok (snd r) | None => Err EUB end
        end
  end.

(** src/dlink.cpp:1207-1294 [get_time].  With [rounding_up] the code reads
    m_recorder[j] without checking j < size: [EUB] when j is past the end. *)
Definition get_time (c : curve) (result : Q) (rounding_up : bool) : res Q :=
  match c with
  | [] => Ok (-1 # 1)%Q
  | [x] => Ok (-1 # 1)%Q
  | x :: _ =>
      if Qle_bool result (snd x) then Ok (-1 # 1)%Q
      else
        let j := lower_bound (fun r => approx_lt (snd r) result tol) c (length c) in
        do _ <- guard (1 <=? j)%nat EAssert;
        if rounding_up then
          match nth_error c j with Some r => Ok (fst r) | None => Err EUB end
        else
          match nth_error c j with
          | Some rj =>
              if approx_eq (snd rj) result tol then Ok (fst rj)
              else if Qltb result (snd rj) then
                match nth_error c (j - 1) with
                | None => Err EUB
                | Some rp =>
                    let i := lower_bound (fun r => approx_lt (snd r) (snd rp) tol) c j in
                    do _ <- guard (i <? j)%nat EAssert;
                    match nth_error c i with Some r => Ok (fst r) | None => Err EUB end
                end
              else Ok (-1 # 1)%Q
          | None => Ok (-1 # 1)%Q
          end
  end.

(** src/dlink.cpp:984-989 [arrange]: sort by time.  std::sort is not stable;
    insertion sort is used here, which coincides with it when times differ. *)
Fixpoint insert_by_time (r : Q * Q) (l : curve) : curve :=
  match l with
  | [] => [r]
  | x :: l' => if Qltb (fst r) (fst x) then r :: l else x :: insert_by_time r l'
  end.
Definition arrange (c : curve) : curve := fold_left (fun l r => insert_by_time r l) c [].

(** src/dlink.cpp:1005-1017 [shrink]: sort, then pop_back down to [number]
    records.  A negative [number] would pop from an empty deque: [EUB]. *)
Definition shrink (c : curve) (number : Z) : res curve :=
  if Z.of_nat (length c) >? number then
    if number <? 0 then Err EUB else Ok (firstn (Z.to_nat number) (arrange c))
  else Ok c.

(** src/cc_tree.cpp: the two-level map path -> departing interval -> curve as an
    association list keyed by (path id, departing interval). *)
Definition cctree := list ((Z * Z) * curve).
Definition key_eqb (a b : Z * Z) : bool := (fst a =? fst b) && (snd a =? snd b).
Fixpoint tree_find (t : cctree) (k : Z * Z) : option curve :=
  match t with
  | [] => None
  | (k', c) :: t' => if key_eqb k k' then Some c else tree_find t' k
  end.
Fixpoint tree_set (t : cctree) (k : Z * Z) (c : curve) : cctree :=
  match t with
  | [] => [(k, c)]
  | (k', c') :: t' => if key_eqb k k' then (k, c) :: t' else (k', c') :: tree_set t' k c
  end.
(** src/cc_tree.cpp:27-52 [add_flow] *)
Definition add_flow (t : cctree) (timestamp flow : Q) (path depart : Z) : res cctree :=
  let c := match tree_find t (path, depart) with Some c => c | None => fresh_curve end in
  do c' <- add_increment c (timestamp, flow);
  Ok (tree_set t (path, depart) c').
