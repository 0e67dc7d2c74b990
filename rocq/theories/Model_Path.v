(** src/path.cpp: cycle elimination, share normalisation, route draw, buffers. *)
From Verif Require Import Base Model_Num.

(** index of the last occurrence (std::find on reverse iterators,
    src/path.cpp:223-226); 0 when absent (cannot happen in the code) *)
Fixpoint last_occ (x : Z) (l : list Z) : nat :=
  match l with
  | [] => 0%nat
  | y :: l' => if memb x l' then S (last_occ x l') else 0%nat
  end.

(** loop state: _flg, _node_reserved, _link_reserved (vectors as functions of
    the index; all indices used are in range) *)
Definition estate := (bool * ((nat -> bool) * (nat -> bool)))%type.

(** src/path.cpp:212-236: one iteration *)
Definition elim_step (nodes : list Z) (st : estate) (i : nat) : res estate :=
  let '(flg, (nr, lr)) := st in
  if nr i then
    let j := last_occ (nth i nodes 0) nodes in
    if (i + 1 <=? j)%nat
    then Ok (true, ((fun k => if (i + 1 <=? k)%nat && (k <? j + 1)%nat then false else nr k),
                    (fun k => if (i <=? k)%nat && (k <? j)%nat then false else lr k)))
    else Ok st
  else do _ <- guard ((0 <? i)%nat && negb (lr (i - 1)%nat)) EAssert; Ok st.

(** entries whose flag is set, src/path.cpp:245-258 *)
Fixpoint keep (f : nat -> bool) (i : nat) (l : list Z) : list Z :=
  match l with
  | [] => []
  | x :: l' => if f i then x :: keep f (S i) l' else keep f (S i) l'
  end.

(** src/path.cpp:194-273 [eliminate_cycles] *)
Definition eliminate_cycles (nodes links : list Z) : res (list Z * list Z) :=
  do _ <- guard (length nodes =? S (length links))%nat EAssert;
  do st <- foldM (elim_step nodes) (false, ((fun _ => true), (fun _ => true))) (seq 0 (length nodes - 1));
  let '(flg, (nr, lr)) := st in
  let r := if flg then (keep nr 0 nodes, keep lr 0 links) else (nodes, links) in
  do _ <- guard (length (fst r) =? S (length (snd r)))%nat EAssert;
  Ok r.

(** src/path.cpp:301-341 [normalize_p] on the list of m_p.  The division by the
    number of paths happens only inside the loop over the paths. *)
Definition normalize_p (ps : list Q) : res (list Q) :=
  if existsb (fun p => Qltb p 0) ps then Err EThrow
  else
    let min_p := fold_left (fun m p => if Qltb p m then p else m) ps 0%Q in
    let tot := fold_left (fun t p => t + (p - min_p))%Q ps 0%Q in
    if Qeq_bool tot 0
    then Ok (map (fun _ => 1 / inject_Z (Z.of_nat (length ps)))%Q ps)
    else let true_total := fold_left (fun t p => t + p)%Q ps 0%Q in
         Ok (map (fun p => p / true_total)%Q ps).

(** src/routing.cpp:564-596 [register_veh]: index of the path drawn; [ps] are
    the shares m_p in vector order, [r] the random number *)
Fixpoint draw (ps : list Q) (r : Q) : res nat :=
  match ps with
  | [] => Err EThrow
  | p :: ps' => if negb (approx_lt p r tol) then Ok 0%nat
                else do i <- draw ps' (r - p)%Q; Ok (S i)
  end.
