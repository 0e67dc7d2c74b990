(** Dynamic user equilibrium on a path table: src/due.cpp:108-228, 230-312,
    325-395, 444-956.  Random numbers, printing and file output are absent;
    sums are taken in Q, so the order of addition does not matter.  Buffers are
    total functions of the assignment interval: every path of the table is given
    m_total_assign_inter entries (src/path.cpp:177-192) and every index used
    below lies in [0, m_total_assign_inter). *)
From Verif Require Import Base Model_Num Model_Graph Model_SP Model_TDSP Model_GRJ.

(** src/path.h:22-75 [MNM_Path]: m_link_vec, m_buffer, m_travel_disutility_vec
    (empty until src/due.cpp:361-385 fills it). *)
Record dpath := { dp_links : list Z; dp_buf : Z -> Q; dp_dis : list Q }.
Definition set_buf (p : dpath) (f : Z -> Q) : dpath := {| dp_links := dp_links p; dp_buf := f; dp_dis := dp_dis p |}.

(** src/path.h:40-51 [operator==]: same links in the same order *)
Fixpoint same_links (a b : list Z) : bool :=
  match a, b with
  | [], [] => true
  | x :: a', y :: b' => (x =? y) && same_links a' b'
  | _, _ => false
  end.

(** src/path.cpp:291-300 [MNM_Pathset::is_in] *)
Definition is_in (ps : list dpath) (best : list Z) : bool := existsb (fun p => same_links (dp_links p) best) ps.

(** src/path.cpp:177-192 [allocate_buffer] on a path made by get_tdsp, with the
    disutilities [dis] (empty unless update_one_path_cost was called) *)
Definition new_path (best : list Z) (dis : list Q) : dpath := {| dp_links := best; dp_buf := fun _ => 0%Q; dp_dis := dis |}.

(** assignment intervals 0 .. n-1, in loop order *)
Definition cols (n : nat) : list Z := map Z.of_nat (seq 0 n).

(** m_path_table: origin node -> destination node -> path set;
    m_demand: origin node -> destination node -> array, [None] when absent. *)
Definition ptable := Z -> Z -> option (list dpath).
Definition dmd := Z -> Z -> option (Z -> Q).
Definition set_pair {A} (t : Z -> Z -> option A) (o d : Z) (x : A) : Z -> Z -> option A := upd t o (upd (t o) d (Some x)).

(** src/due.cpp:121-134: the demand of one pair and interval *)
Definition path_sum (ps : list dpath) (c : Z) : Q := fold_left (fun s p => (s + dp_buf p c)%Q) ps 0%Q.

(** src/due.cpp:108-139 [update_demand_from_path_table]; [pairs] lists the keys of
    the path table, [n] = m_total_assign_inter.  m_demand[_dest] of a pair that is
    not in the demand is created by operator[] with a null array: [EUB]. *)
Definition update_demand (n : nat) (pairs : list (Z * Z)) (t : ptable) (dm : dmd) : res dmd :=
  foldM (fun dm od =>
    match t (fst od) (snd od) with
    | None => Ok dm
    | Some ps =>
        match dm (fst od) (snd od) with
        | None => match n with O => Ok dm | S _ => Err EUB end
        | Some a => Ok (set_pair dm (fst od) (snd od) (fold_left (fun a c => upd a c (path_sum ps c)) (cols n) a))
        end
    end) dm pairs.

(** src/due.cpp:141-151 [compute_total_demand] *)
Definition total_demand (n : nat) (a : Z -> Q) : Q := fold_left (fun s c => (s + a c)%Q) (cols n) 0%Q.

(** src/due.cpp:457-483: one path set of [init_path_flow] *)
Definition spread (n : nat) (a : option (Z -> Q)) (ps : list dpath) : res (list dpath) :=
  let len := inject_Z (Z.of_nat (length ps)) in
  do _ <- guard (Qle_bool 1 len) EAssert;
  Ok (map (fun p => set_buf p (fold_left (fun b c => upd b c (1 / len * match a with None => 0 | Some a => a c end)%Q) (cols n) (dp_buf p))) ps).
(** src/due.cpp:442-487 [init_path_flow] *)
Definition init_path_flow (n : nat) (pairs : list (Z * Z)) (dm : dmd) (t : ptable) : res ptable :=
  foldM (fun t od =>
    match t (fst od) (snd od) with
    | None => Ok t
    | Some ps => do ps' <- spread n (dm (fst od) (snd od)) ps; Ok (set_pair t (fst od) (snd od) ps')
    end) t pairs.

(** std::min *)
Definition qmin (a b : Q) : Q := if Qltb b a then b else a.

(** src/due.cpp:600-622: the inner loop over the intervals of one path;
    [stay] marks the interval that is left alone, result: buffer and total change *)
Definition drain (n : nat) (lim : Q) (stay : Z -> bool) (b : Z -> Q) (tot : Q) : (Z -> Q) * Q :=
  fold_left (fun s c => if stay c then s else
    let x := qmin (fst s c) lim in (upd (fst s) c (fst s c - x)%Q, (snd s + x)%Q)) (cols n) (b, tot).

(** src/due.cpp:627-633, 742-764: the flow [x] is added to the last path of the
    set equal to [best] *)
Fixpoint add_last (ps : list dpath) (best : list Z) (c : Z) (x : Q) : res (list dpath) :=
  match ps with
  | [] => Err EUB
  | p :: ps' =>
      if is_in ps' best then do r <- add_last ps' best c x; Ok (p :: r)
      else if same_links (dp_links p) best then Ok (set_buf p (upd (dp_buf p) c (dp_buf p c + x)%Q) :: ps')
      else Err EUB
  end.

(** src/due.cpp:596-655: one pair of [update_path_table].  [dem] =
    _tot_oneOD_demand, [best], [c] the route and assignment interval chosen. *)
Definition msa_pair (n : nat) (step : Q) (iter : Z) (dem : Q) (best : list Z) (c : Z) (ps : list dpath) : res (list dpath) :=
  let it := inject_Z (iter + 1) in
  if is_in ps best then
    let r := fold_left (fun s p =>
               let q := drain n (dem * step / it) (fun k => same_links (dp_links p) best && (k =? c)) (dp_buf p) (snd s) in
               (fst s ++ [set_buf p (fst q)], snd q)) ps ([], 0%Q) in
    add_last (fst r) best c (snd r)
  else
    let len := inject_Z (Z.of_nat (length ps)) in
    let p := new_path best [] in
    Ok (map (fun p => set_buf p (upd (dp_buf p) c (dp_buf p c - step / it / len)%Q)) ps
        ++ [set_buf p (upd (dp_buf p) c (dp_buf p c + step / it)%Q)]).

(** src/due.cpp:583-586: the assignment interval of a loading interval; integer
    division, a zero frequency is undefined behaviour *)
Definition assign_col (n frq time : Z) : res Z :=
  do _ <- guard (negb (frq =? 0)) EUB;
  let c := Z.quot time frq in Ok (if n <=? c then n - 1 else c).

(** src/due.cpp:556-690 [update_path_table]: the loops over destinations and
    origins; [pairs] lists them in iteration order, [route o d] is the result of
    get_best_route (links and loading interval). *)
Definition msa_table (n : nat) (frq : Z) (step : Q) (iter : Z) (route : Z -> Z -> res (list Z * Z)) (dm : dmd)
  (pairs : list (Z * Z)) (t : ptable) : res ptable :=
  foldM (fun t od =>
    match dm (fst od) (snd od) with
    | None => Ok t
    | Some a =>
        do r <- route (fst od) (snd od);
        do c <- assign_col (Z.of_nat n) frq (snd r);
        match t (fst od) (snd od) with
        | None => Err EThrow
        | Some ps => do ps' <- msa_pair n step iter (total_demand n a) (fst r) c ps; Ok (set_pair t (fst od) (snd od) ps')
        end
    end) t pairs.

(** src/due.cpp:735-764: one pair and interval of
    [update_path_table_fixed_departure_time_choice]; [root] = sqrt (iter + 1) *)
Definition fixed_col (step root : Q) (best : list Z) (c : Z) (ps : list dpath) : res (list dpath) :=
  let ps := if is_in ps best then ps else ps ++ [new_path best []] in
  let r := fold_left (fun s p =>
             if same_links (dp_links p) best then (fst s ++ [p], snd s)
             else let x := (dp_buf p c * step / root)%Q in
                  (fst s ++ [set_buf p (upd (dp_buf p) c (dp_buf p c - x)%Q)], (snd s + x)%Q)) ps ([], 0%Q) in
  add_last (fst r) best c (snd r).

(** src/due.cpp:692-780 and 782-956: the loops over the pairs and intervals;
    [route o d time] is the result of get_best_route_for_single_interval *)
Definition cols_table (n : nat) (frq : Z) (route : Z -> Z -> Z -> res (list Z)) (dm : dmd)
  (one : list Z -> Z -> list dpath -> res (list dpath)) (pairs : list (Z * Z)) (t : ptable) : res ptable :=
  foldM (fun t od =>
    match dm (fst od) (snd od) with
    | None => Ok t
    | Some _ =>
        match t (fst od) (snd od) with
        | None => Err EThrow
        | Some ps =>
            do ps' <- foldM (fun ps c => do best <- route (fst od) (snd od) (c * frq); one best c ps) ps (cols n);
            Ok (set_pair t (fst od) (snd od) ps')
        end
    end) t pairs.
Definition fixed_table n frq step root route dm := cols_table n frq route dm (fixed_col step root).

(** m_travel_disutility_vec[_col] *)
Definition dis_at (p : dpath) (c : Z) : res Q :=
  match nth_error (dp_dis p) (Z.to_nat c) with Some q => Ok q | None => Err EUB end.

(** src/due.cpp:855-880: number of active paths, their total disutility and the
    smallest positive flow ([None]: no positive flow, DBL_MAX in the code) *)
Definition active (best : list Z) (c : Z) (p : dpath) : bool := same_links (dp_links p) best || Qltb 0 (dp_buf p c).
Definition gp_scan (best : list Z) (c : Z) (ps : list dpath) : res (Z * Q * option Q) :=
  foldM (fun s p =>
    if active best c p then
      do k <- dis_at p c;
      let '(m, tot, mf) := s in
      Ok (m + 1, (tot + k)%Q,
          if Qltb 0 (dp_buf p c) && match mf with None => true | Some f => Qltb (dp_buf p c) f end
          then Some (dp_buf p c) else mf)
    else Ok s) (0, 0%Q, None) ps.
(** src/due.cpp:882-908: tau; [None] when _flg stays false.  A positive change
    with no positive flow multiplies DBL_MAX: [EUB] (needs two copies of a route
    with different disutilities). *)
Definition gp_tau (step : Q) (best : list Z) (c : Z) (avg : Q) (mf : option Q) (ps : list dpath) : res (option Q) :=
  foldM (fun tau p =>
    if active best c p then
      do k <- dis_at p c;
      let ch := (k - avg)%Q in
      if Qltb 0 ch then
        match mf with
        | None => Err EUB
        | Some f => let x := (step * f / ch)%Q in
                    Ok (if match tau with None => true | Some y => Qltb x y end then Some x else tau)
        end
      else Ok tau
    else Ok tau) None ps.
(** src/due.cpp:828-945: one pair and interval of
    [update_path_table_gp_fixed_departure_time_choice]; [cost best] is the
    disutility vector update_one_path_cost computes for a new route *)
Definition gp_col (step : Q) (cost : list Z -> list Q) (best : list Z) (c : Z) (ps : list dpath) : res (list dpath) :=
  let ps := if is_in ps best then ps else ps ++ [new_path best (cost best)] in
  do s <- gp_scan best c ps;
  let '(m, tot, mf) := s in
  do _ <- guard (0 <? m) EAssert;
  let avg := (tot / inject_Z m)%Q in
  do tau <- gp_tau step best c avg mf ps;
  match tau with
  | None => Ok ps
  | Some tau =>
      foldM (fun acc p =>
        if active best c p then
          do k <- dis_at p c;
          Ok (acc ++ [set_buf p (upd (dp_buf p) c (dp_buf p c - qmin (dp_buf p c) (tau * (k - avg)))%Q)])
        else Ok (acc ++ [p])) [] ps
  end.
Definition gp_table n frq step cost route dm := cols_table n frq route dm (gp_col step cost).

(** src/due.cpp:299-312 [get_disutility] *)
Record due_conf := { vot : Q; early : Q; late : Q; target : Q }.
Definition get_disutility (k : due_conf) (depart tt : Q) : Q :=
  let arr := (depart + tt)%Q in
  if Qle_bool (target k) arr then (vot k * tt + late k * (arr - target k))%Q
  else (vot k * tt + early k * (target k - arr))%Q.

(** src/due.cpp:324-330: m_link_cost_map from m_link_tt_map and the toll *)
Definition link_cost (k : due_conf) (tt : td_tt) (toll : Z -> Q) : td_cost :=
  fun l => match tt l with None => None | Some w => Some (fun t => Some (vot k * w t + toll l)%Q) end.

(** src/due.cpp:361-385 [update_one_path_cost]: [tt depart] = get_tt *)
Definition one_path_cost (k : due_conf) (n : nat) (frq : Z) (tt : Q -> Q) : list Q :=
  map (fun c => get_disutility k (inject_Z (c * frq)) (tt (inject_Z (c * frq)))) (cols n).

(** src/due.cpp:493-508: the search for the best loading interval over
    m_dist[o_node_ID]; an infinite distance is not below DBL_MAX *)
Definition scan_times (k : due_conf) (dist : Z -> ext) (times : list Z) : option (Q * Z) :=
  fold_left (fun cur i =>
    match dist i with
    | None => cur
    | Some w => let x := get_disutility k (inject_Z i) w in
                 if match cur with None => true | Some (y, _) => Qltb x y end then Some (x, i) else cur
    end) times None.
(** src/due.cpp:489-517 [get_best_route] on the tree [s] of the destination *)
Definition get_best_route (k : due_conf) (fuel : nat) (g : graph) (dest M : Z) (tt : td_tt) (s : tdtree) (o : Z) : res (list Z * Z) :=
  match scan_times k (td_dist s o) (cols (Z.to_nat M)) with
  | None => Err EAssert
  | Some (_, i) => do r <- get_tdsp fuel g dest M tt s o i; Ok (snd (snd r), i)
  end.
(** src/due.cpp:519-554 [get_best_route_for_single_interval] *)
Definition get_best_route_single (k : due_conf) (frq : Z) (fuel : nat) (g : graph) (dest M : Z) (tt : td_tt) (s : tdtree) (o i : Z)
  : res (list Z) :=
  do _ <- guard (i + frq <=? M) EAssert;
  match scan_times k (td_dist s o) [if i <? M then i else M - 1] with
  | None => Err EAssert
  | Some (_, _) => do r <- get_tdsp fuel g dest M tt s o i; Ok (snd (snd r))
  end.

(** src/due.cpp:190-208, 245-268: the lowest disutility over the given path and
    interval combinations; [None] stands for DBL_MAX *)
Definition lowest (l : list (dpath * Z)) : res (option Q) :=
  foldM (fun cur pc => do x <- dis_at (fst pc) (snd pc);
    Ok (if match cur with None => true | Some y => Qltb x y end then Some x else cur)) None l.
(** src/due.cpp:209-224: sum of (disutility - lowest) * flow; with [low] = DBL_MAX
    the loop body is never reached *)
Definition gap_sum (low : option Q) (l : list (dpath * Z)) (acc : Q) : res Q :=
  foldM (fun acc pc => do x <- dis_at (fst pc) (snd pc);
    match low with None => Err EUB | Some y => Ok (acc + (x - y) * dp_buf (fst pc) (snd pc))%Q end) acc l.
(** src/due.cpp:182-228 [compute_merit_function] *)
Definition all_uses (n : nat) (ps : list dpath) : list (dpath * Z) := flat_map (fun c => map (fun p => (p, c)) ps) (cols n).
Definition merit (n : nat) (pairs : list (Z * Z)) (t : ptable) : res Q :=
  foldM (fun acc od =>
    match t (fst od) (snd od) with
    | None => Ok acc
    | Some ps => do low <- lowest (all_uses n ps); gap_sum low (all_uses n ps) acc
    end) 0%Q pairs.
(** src/due.cpp:230-297 [compute_merit_function_fixed_departure_time_choice] *)
Definition used (ps : list dpath) (c : Z) : list (dpath * Z) :=
  map (fun p => (p, c)) (filter (fun p => Qltb 0 (dp_buf p c)) ps).
Definition low_cost (low : option Q) (l : list (dpath * Z)) (acc : Q) : Q :=
  match low with None => acc | Some y => fold_left (fun acc pc => acc + y * dp_buf (fst pc) (snd pc))%Q l acc end.
Definition merit_fixed (n : nat) (pairs : list (Z * Z)) (t : ptable) : res ieee :=
  do s <- foldM (fun acc od =>
    match t (fst od) (snd od) with
    | None => Ok acc
    | Some ps => foldM (fun acc c =>
        do low <- lowest (used ps c);
        do gap <- gap_sum low (used ps c) (fst acc);
        Ok (gap, low_cost low (used ps c) (snd acc))) acc (cols n)
    end) (0%Q, 0%Q) pairs;
  Ok (idiv (fst s) (snd s)).
