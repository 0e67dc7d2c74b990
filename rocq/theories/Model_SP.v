(** Shortest path trees: src/shortest_path.cpp and extract_path of src/path.cpp.
    [ext] is a cost that may be +infinity ([None]).  Infinity only arises from
    std::numeric_limits<double>::infinity() in the code. *)
From Verif Require Import Base Model_Num Model_Graph.

Definition ext := option Q.
Definition eadd (a b : ext) : ext :=
  match a, b with Some x, Some y => Some (x + y)%Q | _, _ => None end.
(** [a < b] *)
Definition eltb (a b : ext) : bool :=
  match a, b with
  | Some x, Some y => Qltb x y
  | Some _, None => true
  | None, _ => false
  end.

(** cost_map: std::unordered_map<TInt, TFlt>; a missing key is [None] *)
Definition cost_map := Z -> option ext.

(** Search state: distances, output map, work list and in-queue flags.
    [s_dist] is total: the code's map has exactly the graph's nodes as keys and
    is only asked for link endpoints, which are nodes of the graph (C17).
    [s_out]: output_map, [None] = key absent. *)
Record sstate := { s_dist : Z -> ext; s_out : Z -> option Z; s_q : list Z; s_flag : Z -> bool }.

(** one pass of the inner loop body; src/shortest_path.cpp:73-83 (Dijkstra),
    130-141, 194-214 (FIFO), 258-277, 499-514 (LIFO).
    A missing cost dereferences end(): [EUB]. *)
Definition relax (push : list Z * (Z -> bool) -> Z -> list Z * (Z -> bool))
    (g : graph) (cm : cost_map) (dv : ext) (s : sstate) (l : Z) : res sstate :=
  do e <- get_endpoints g l;
  match cm l with
  | None => Err EUB
  | Some c =>
      let u := fst e in
      let alt := eadd dv c in
      if eltb alt (s_dist s u) then
        let qf := push (s_q s, s_flag s) u in
        Ok {| s_dist := upd (s_dist s) u alt; s_out := upd (s_out s) u (Some l);
              s_q := fst qf; s_flag := snd qf |}
      else Ok s
  end.

(** the while loop; [scan] lists the links examined for a popped node, [pop]
    removes one node from the work list ([i] counts the pops). *)
Fixpoint search_loop (fuel : nat) (scan : Z -> res (list Z))
    (push : list Z * (Z -> bool) -> Z -> list Z * (Z -> bool))
    (pop : nat -> list Z * (Z -> bool) -> option (Z * (list Z * (Z -> bool))))
    (g : graph) (cm : cost_map) (i : nat) (s : sstate) : res sstate :=
  match pop i (s_q s, s_flag s) with
  | None => Ok s
  | Some (v, qf) =>
      match fuel with
      | O => Err EFuel
      | S fuel' =>
          do ls <- scan v;
          do s' <- foldM (relax push g cm (s_dist s v))
                     {| s_dist := s_dist s; s_out := s_out s; s_q := fst qf; s_flag := snd qf |} ls;
          search_loop fuel' scan push pop g cm (S i) s'
      end
  end.

(** deque + m_Q_support, src/shortest_path.cpp:186-190, 206-213 *)
Definition push_back (qf : list Z * (Z -> bool)) (u : Z) : list Z * (Z -> bool) :=
  if snd qf u then qf else (fst qf ++ [u], upd (snd qf) u true).
(** src/shortest_path.cpp:507-511 *)
Definition push_front (qf : list Z * (Z -> bool)) (u : Z) : list Z * (Z -> bool) :=
  if snd qf u then qf else (u :: fst qf, upd (snd qf) u true).
Definition pop_front (_ : nat) (qf : list Z * (Z -> bool)) : option (Z * (list Z * (Z -> bool))) :=
  match fst qf with
  | [] => None
  | v :: q => Some (v, (q, upd (snd qf) v false))
  end.
(** std::priority_queue with duplicates, src/shortest_path.cpp:67-68, 80.  Which
    element is on top depends on the comparator [LessThanByCost] (>=, not a strict
    order): the model lets an arbitrary oracle [pick] choose any element. *)
Definition push_heap (qf : list Z * (Z -> bool)) (u : Z) : list Z * (Z -> bool) :=
  (fst qf ++ [u], snd qf).
Definition pop_heap (pick : nat -> nat) (i : nat) (qf : list Z * (Z -> bool))
  : option (Z * (list Z * (Z -> bool))) :=
  match fst qf with
  | [] => None
  | x :: _ =>
      let k := (pick i mod length (fst qf))%nat in
      Some (nth k (fst qf) x, (firstn k (fst qf) ++ skipn (S k) (fst qf), snd qf))
  end.

(** distances 0 at the destination, infinity elsewhere *)
Definition init_dist (dest : Z) : Z -> ext := fun n => if n =? dest then Some 0%Q else None.

(** src/shortest_path.cpp:150-222 and 224-285 [all_to_one_FIFO]: previous entries
    of the output map are reset to -1 for all nodes but the destination. *)
Definition fifo_init (g : graph) (dest : Z) (out0 : Z -> option Z) : sstate :=
  {| s_dist := init_dist dest;
     s_out := fun n => if memb n (g_nids g) && negb (n =? dest) then Some (-1) else out0 n;
     s_q := [dest]; s_flag := fun n => n =? dest |}.
Definition all_to_one_FIFO (fuel : nat) (g : graph) (dest : Z) (cm : cost_map)
    (out0 : Z -> option Z) : res sstate :=
  search_loop fuel (fun v => connections g v Incoming) push_back pop_front g cm 0 (fifo_init g dest out0).

(** src/shortest_path.cpp:20-89 [all_to_one_Dijkstra]: [output_map.insert] does
    not replace an existing entry. *)
Definition dijkstra_init (g : graph) (dest : Z) (out0 : Z -> option Z) : sstate :=
  {| s_dist := init_dist dest;
     s_out := fun n => if memb n (g_nids g) && negb (n =? dest)
                       then match out0 n with Some x => Some x | None => Some (-1) end else out0 n;
     s_q := [dest]; s_flag := fun _ => false |}.
Definition all_to_one_Dijkstra (fuel : nat) (pick : nat -> nat) (g : graph) (dest : Z)
    (cm : cost_map) (out0 : Z -> option Z) : res sstate :=
  search_loop fuel (fun v => connections g v Incoming) push_heap (pop_heap pick) g cm 0 (dijkstra_init g dest out0).

(** src/shortest_path.cpp:452-520 [all_to_one_LIFO]: line 498 scans all links of
    the graph, in the order [lids] of the hash map. *)
Definition all_to_one_LIFO (fuel : nat) (lids : list Z) (g : graph) (dest : Z) (cm : cost_map)
    (out0 : Z -> option Z) : res sstate :=
  search_loop fuel (fun _ => Ok lids) push_front pop_front g cm 0 (fifo_init g dest out0).

(** src/path.cpp:345-378 [extract_path]: [Ok None] is the null pointer.  Returns
    (node sequence, link sequence). *)
Fixpoint extract_path (fuel : nat) (g : graph) (dest : Z) (out : Z -> option Z) (cur : Z)
  : res (option (list Z * list Z)) :=
  if cur =? dest then Ok (Some ([cur], []))
  else
    match fuel with
    | O => Err EFuel
    | S fuel' =>
        match out cur with
        | None => Ok None
        | Some l =>
            if l =? -1 then Ok None
            else
              do e <- get_endpoints g l;
              do r <- extract_path fuel' g dest out (snd e);
              match r with
              | None => Ok None
              | Some (ns, ls) => Ok (Some (cur :: ns, l :: ls))
              end
        end
    end.
