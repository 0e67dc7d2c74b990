(** Time-dependent shortest path tree and searches with movement costs:
    src/shortest_path.cpp:287-450, 535-935. *)
From Verif Require Import Base Model_Num Model_Graph Model_SP.

(** link -> array over intervals (TFlt * in the code); array bounds are not
    modelled: every index used is proved to lie in [0, m_max_interval). *)
Definition td_cost := Z -> option (Z -> ext).
Definition td_tt := Z -> option (Z -> Q).

(** src/shortest_path.cpp:920-935 [round_time (start, tt, p)] with the default
    p = 1e-4 (src/shortest_path.h:110,121) *)
Definition round_time (M start : Z) (tt : Q) : res Z :=
  do n <- round_up_time tt tol;
  let e := start + n in
  do _ <- guard (start <? e) EAssert;
  if M - 1 <=? e then Ok (M - 1) else Ok e.

(** src/shortest_path.cpp:908-918 [round_time (time_stamp)] *)
Definition round_time_stamp (M : Z) (time : Q) : Z :=
  if Qle_bool (inject_Z (M - 1)) time then M - 1 else trunc time + 1.

(** m_dist, m_tree: node -> interval -> value *)
Record tdtree := { td_dist : Z -> Z -> ext; td_tree : Z -> Z -> Z }.
Definition set2 {A} (f : Z -> Z -> A) (n t : Z) (x : A) : Z -> Z -> A := upd f n (upd (f n) t x).

(** src/shortest_path.cpp:644-673: one link in the backward loop at interval t *)
Definition td_step (M : Z) (g : graph) (cost : td_cost) (tt : td_tt) (t : Z) (s : tdtree) (l : Z) : res tdtree :=
  do e <- get_endpoints g l;
  match cost l, tt l with
  | Some c, Some w =>
      match c t with
      | None => Ok s
      | Some k =>
          do a <- round_time M t (w t);
          let temp := eadd (Some k) (td_dist s (snd e) a) in
          if eltb temp (td_dist s (fst e) t)
          then Ok {| td_dist := set2 (td_dist s) (fst e) t temp; td_tree := set2 (td_tree s) (fst e) t l |}
          else Ok s
      end
  | _, _ => Err EUB
  end.

(** the loop t = M-2 .. 0; [n] counts the remaining intervals t = n-1, ..., 0.
    [lids] is the iteration order of graph.links(). *)
Fixpoint td_back (n : nat) (M : Z) (g : graph) (lids : list Z) (cost : td_cost) (tt : td_tt) (s : tdtree) : res tdtree :=
  match n with
  | O => Ok s
  | S n' => do s' <- foldM (td_step M g cost tt (Z.of_nat n')) s lids; td_back n' M g lids cost tt s'
  end.

(** src/shortest_path.cpp:598-678 [update_tree].  m_max_interval = 0 writes
    index -1: [EUB]. *)
Definition update_tree (fuel : nat) (g : graph) (lids : list Z) (dest M : Z) (cost : td_cost) (tt : td_tt) : res tdtree :=
  do _ <- guard (1 <=? M) EUB;
  do s <- all_to_one_FIFO fuel g dest (fun l => match cost l with Some c => Some (c (M - 1)) | None => None end) (fun _ => Some (-1));
  td_back (Z.to_nat (M - 1)) M g lids cost tt
    {| td_dist := fun n t => if t =? M - 1 then s_dist s n else init_dist dest n;
       td_tree := fun n t => if t =? M - 1 then match s_out s n with Some l => l | None => -1 end else -1 |}.

(** src/shortest_path.cpp:787-819 [get_tdsp]: returned travel time and the node
    and link sequences appended to the path.  A negative start indexes out of
    bounds: [EUB]. *)
Fixpoint td_follow (fuel : nat) (g : graph) (dest M : Z) (tt : td_tt) (s : tdtree) (cur t : Z) (acc : Q)
  (ns ls : list Z) : res (Q * (list Z * list Z)) :=
  if cur =? dest then Ok (acc, (ns ++ [dest], ls))
  else
    match fuel with
    | O => Err EFuel
    | S fuel' =>
        let l := td_tree s cur t in
        if l =? -1 then Ok ((-1)%Q, (ns ++ [cur], ls))
        else
          match tt l with
          | None => Err EUB
          | Some w =>
              do t' <- round_time M t (w t);
              do e <- get_endpoints g l;
              td_follow fuel' g dest M tt s (snd e) t' (acc + w t)%Q (ns ++ [cur]) (ls ++ [l])
          end
    end.
Definition get_tdsp (fuel : nat) (g : graph) (dest M : Z) (tt : td_tt) (s : tdtree) (src time : Z)
  : res (Q * (list Z * list Z)) :=
  do _ <- guard (0 <=? time) EUB;
  td_follow fuel g dest M tt s src (if time <? M then time else M - 1) 0%Q [] [].

(** src/shortest_path.cpp:535-555 [is_FIFO]; a missing cost array is [EUB] *)
Fixpoint fifo_rows (n : nat) (c : Z -> Q) (ut : Q) (i : Z) : bool :=
  match n with
  | O => true
  | S n' => if Qltb (ut + c (i + 1)) (c i) then false else fifo_rows n' c ut (i + 1)
  end.
Fixpoint is_FIFO (lids : list Z) (cost : Z -> option (Z -> Q)) (num_interval : Z) (unit_time : Q) : res bool :=
  match lids with
  | [] => Ok true
  | l :: rest =>
      match cost l with
      | None => Err EUB
      | Some c => if fifo_rows (Z.to_nat (num_interval - 1)) c unit_time 0 then is_FIFO rest cost num_interval unit_time else Ok false
      end
  end.

(** src/shortest_path.cpp:287-371 and 373-450: FIFO with movement costs;
    [nc in out] is node_cost_map[in][out], [None] when absent. *)
Definition relax_nc (g : graph) (cm : cost_map) (nc : Z -> Z -> option Q) (dest v : Z) (dv : ext) (s : sstate) (l : Z) : res sstate :=
  do e <- get_endpoints g l;
  match cm l with
  | None => Err EUB
  | Some c =>
      let u := fst e in
      let alt0 := eadd dv c in
      do alt <- (if v =? dest then Ok alt0 else
                 match s_out s v with
                 | None => Err EUB
                 | Some o => if o =? -1 then Ok alt0 else
                             match nc l o with None => Ok alt0 | Some x => Ok (eadd alt0 (Some x)) end
                 end);
      if eltb alt (s_dist s u) then
        let qf := push_back (s_q s, s_flag s) u in
        Ok {| s_dist := upd (s_dist s) u alt; s_out := upd (s_out s) u (Some l); s_q := fst qf; s_flag := snd qf |}
      else Ok s
  end.
Fixpoint nc_loop (fuel : nat) (g : graph) (cm : cost_map) (nc : Z -> Z -> option Q) (dest : Z) (s : sstate) : res sstate :=
  match pop_front 0 (s_q s, s_flag s) with
  | None => Ok s
  | Some (v, qf) =>
      match fuel with
      | O => Err EFuel
      | S fuel' =>
          do ls <- connections g v Incoming;
          do s' <- foldM (relax_nc g cm nc dest v (s_dist s v))
                     {| s_dist := s_dist s; s_out := s_out s; s_q := fst qf; s_flag := snd qf |} ls;
          nc_loop fuel' g cm nc dest s'
      end
  end.
Definition all_to_one_FIFO_nc (fuel : nat) (g : graph) (dest : Z) (cm : cost_map) (nc : Z -> Z -> option Q)
    (out0 : Z -> option Z) : res sstate := nc_loop fuel g cm nc dest (fifo_init g dest out0).
