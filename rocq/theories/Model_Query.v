(** Questions to a finished two-class or multimodal loading: sequences of nodes and links
    (macposts/_ext/mmdta.cpp:3470-3624), averaged travel times and speeds of links
    (macposts/_ext/mcdta.cpp:1950-2020, 2073-2222; macposts/_ext/dta.cpp:1783-1854), vehicles
    under way and in queues (macposts/_ext/mcdta.cpp:3048-3135, src/multiclass.cpp:4492-4520). *)
From Verif Require Import Base Model_Num Model_Graph Model_Io Model_CC Model_Node Model_Grad Model_World Model_Link Model_Sim Model_McLink Model_McNode Model_McSim.
Local Open Scope Z_scope.

(** * Nodes and links of a route *)

(** macposts/_ext/mmdta.cpp:3470-3497 [link_seq_to_node_seq_driving], 3499-3526
    [link_seq_to_node_seq_bustransit] (the same on the other graph).  With an empty array
    links_ptr[0] is read out of bounds: [EUB]. *)
Definition link_seq_to_node_seq (g : graph) (links : list Z) : res (list Z) :=
  match links with
  | [] => Err EUB
  | l :: _ => do e <- get_endpoints g l; do r <- mapM (fun l => do e <- get_endpoints g l; Ok (snd e)) links; Ok (fst e :: r)
  end.
(** macposts/_ext/mmdta.cpp:3551-3572: the loop over the nodes ([first_to] is the loop over the
    outgoing links, 3553-3563).  The array of the result is not initialised: [mem i] is what its
    element [i] happens to contain. *)
Fixpoint node_seq_loop (g : graph) (mem : nat -> Z) (i : nat) (ns : list Z) : res (list Z) :=
  match ns with
  | a :: ((b :: _) as r) =>
      do ls <- connections g a Outgoing;
      do x <- first_to g ls b;
      let y := match x with Some l => l | None => mem i end in
      do _ <- guard (negb (y <? 0)) EThrow;
      do ys <- node_seq_loop g mem (S i) r;
      Ok (y :: ys)
  | _ => Ok []
  end.
(** macposts/_ext/mmdta.cpp:3528-3575 [node_seq_to_link_seq_driving], 3576-3624
    [node_seq_to_link_seq_bustransit] *)
Definition node_seq_to_link_seq (g : graph) (mem : nat -> Z) (ns : list Z) : res (list Z) :=
  do _ <- guard (2 <=? length ns)%nat EThrow;
  node_seq_loop g mem 0 ns.

(** * Average travel time over a window *)

(** a double of the result *)
Inductive val := VNum (q : Q) | VInf | VNan.
(** src/multiclass.cpp:4827-4844 [get_travel_time_car_robust], 4879-4897 (trucks),
    src/dta_gradient_utls.cpp:246-265; [f] is the travel time at a start time.  With no trials the
    average is 0/0, with a negative number 0 divided by it. *)
Definition average_tt (f : Q -> res Q) (s e : Q) (n : Z) : res val :=
  let k := robust_trials s e n in
  if k =? 0 then Ok VNan
  else do ts <- mapM (fun i => f (s + inject_Z (Z.of_nat i) * ((e - s) / inject_Z k))%Q) (seq 0 (Z.to_nat k));
       Ok (VNum (sumQ ts / inject_Z k)%Q).
(** macposts/_ext/mcdta.cpp:2005-2018, 2128-2141, macposts/_ext/dta.cpp:1832-1848: the bound is
    twenty times the free-flow time; comparisons with NaN are false *)
Definition cut_tt (ut len ffs : Q) (return_inf : bool) (x : val) : val :=
  match x with
  | VNum t => if Qltb (20 * (len / ffs)) (t * ut) then (if return_inf then VInf else VNum (20 * len / ffs)%Q) else VNum (t * ut)%Q
  | _ => x
  end.
(** a registered link: travel time at a curve time, length, free-flow speed of the class *)
Record qlink := { q_tt : Q -> res Q; q_len : Q; q_ffs : Q }.
(** macposts/_ext/mcdta.cpp:1980-2003: the checks for one window *)
Definition window_ok (cur : Z) (w : Q * Q) : res unit :=
  do _ <- guard (negb (Qle_bool (snd w) (fst w))) EThrow;
  do _ <- guard (negb (Qle_bool (inject_Z cur) (fst w))) EThrow;
  guard (negb (Qltb (inject_Z cur) (snd w))) EThrow.
(** macposts/_ext/mcdta.cpp:1949-2020 [get_car_link_tt_robust], 2072-2144
    [get_truck_link_tt_robust], macposts/_ext/dta.cpp:1782-1854 [get_link_tt_robust]: one column of
    the result for every window *)
Definition tt_robust (ut : Q) (cur n : Z) (return_inf : bool) (ls : list qlink) (starts ends : list Q) : res (list (list val)) :=
  do _ <- guard (Nat.eqb (length starts) (length ends)) EThrow;
  mapM (fun w => do _ <- window_ok cur w;
                 mapM (fun l => do x <- average_tt (q_tt l) (fst w + 1) (snd w + 1) n; Ok (cut_tt ut (q_len l) (q_ffs l) return_inf x)) ls)
       (combine starts ends).

(** * Speed *)

(** macposts/_ext/mcdta.cpp:2146-2183 [get_car_link_speed], 2185-2222 [get_truck_link_speed]: miles
    of 1600 m per hour, one column for every start; a travel time of zero gives infinity, or
    NaN for a link without length *)
Definition speed_of (ut len t : Q) : val := if Qeq_bool (t * ut) 0 then (if Qltb 0 len then VInf else VNan) else VNum (len / (t * ut) * 3600 / 1600)%Q.
Definition link_speed (ut : Q) (cur : Z) (ls : list qlink) (starts : list Q) : res (list (list val)) :=
  mapM (fun s => do _ <- guard (negb (Qle_bool (inject_Z cur) s)) EThrow;
                 mapM (fun l => do t <- q_tt l (s + 1)%Q; Ok (speed_of ut (q_len l) t)) ls) starts.

(** src/multiclass.cpp:4796-4825 [get_travel_time_car], 4846-4877 [get_travel_time_truck] ([k]): a
    link [l] with its curves; [cache] is m_last_valid_time or m_last_valid_time_truck, [T] the end of
    the loading.  What is kept in [cache] by one call equals what the next call would find. *)
Definition class_tt (k : bool) (l : mlink) (nin nout : option curve) (cache : Q) (T : Z) (t : Q) : res Q :=
  do ff <- (if k then mfftt_truck l else mfftt_car l);
  do r <- travel_time nin nout (inject_Z ff) cache t T;
  Ok (fst r).
Definition class_qlink (k : bool) (l : mlink) (nin nout : option curve) (cache : Q) (T : Z) : qlink :=
  {| q_tt := class_tt k l nin nout cache T; q_len := mp_len (ml_par l); q_ffs := if k then mp_ffs_t (ml_par l) else mp_ffs_c (ml_par l) |}.

(** * Vehicles under way and in queues *)

(** src/multiclass.cpp:4492-4520 [record_queue_vehicles] (src/dta.cpp:731-748): vehicles at the end
    of a link, of all links but point queues together, and of a class at the end of a link *)
Definition at_end (w : mworld) (l : Z) : Z := Zlen (ml_fin (mw_link w l)).
Definition at_end_class (w : mworld) (k : bool) (l : Z) : Z := Zlen (filter (fun v => Bool.eqb (mw_cls w v) k) (ml_fin (mw_link w l))).
Definition is_pq (l : mlink) : bool := match ml_body l with MPq _ _ _ _ => true | _ => false end.
Definition queue_total (M : mnet) (w : mworld) : Z := sumZ (map (fun l => if is_pq (mw_link w l) then 0 else at_end w l) (mn_links M)).
(** the records m_queue_veh_num, m_queue_veh_map, m_queue_veh_map_car/_truck with the state of the
    loop *)
Record qstate := { q_run : mlstate; q_num : list Z; q_map : Z -> list Z; q_cmap : bool -> Z -> list Z }.
(** src/dta.cpp:538-642: release, routing and nodes; then line 643 records the queues *)
Definition to_record (M : mnet) (D : mdrawsI) (t assign : Z) (w : mworld) : res mworld :=
  do w1 <- mrelease_all M D t assign w;
  do w2 <- mupdate_routing M D t w1;
  foldM (mnode_evolve (mn_fs M) (mn_pcu M) (mn_out M) (mn_in M) (r_node D) t) w2 (mn_nodes M).
(** src/dta.cpp:646-682: the rest *)
Definition from_record (M : mnet) (D : mdrawsI) (t : Z) (w : mworld) : res mworld :=
  do w4 <- foldM (mlink_step D) w (mn_links M);
  foldM (mreceive M t) w4 (mn_dests M).
(** src/dta.cpp:692-718: the body of the loop with the records *)
Definition qbody (M : mnet) (D : Z -> mdrawsI) (x : qstate) : res qstate :=
  let s := q_run x in
  do w3 <- to_record M (D (ms_cur s)) (ms_cur s) (ms_assign s) (ms_w s);
  do w <- from_record M (D (ms_cur s)) (ms_cur s) w3;
  let cur := ms_cur s + 1 in
  Ok {| q_run := {| ms_cur := cur; ms_assign := if Z.rem cur (mn_freq M) =? 0 then ms_assign s + 1 else ms_assign s;
                    ms_w := w; ms_enr := ms_enr s ++ [f_enroute (mw_fac w)] |};
        q_num := q_num x ++ [queue_total M w3];
        q_map := fun l => q_map x l ++ [at_end w3 l];
        q_cmap := fun k l => q_cmap x k l ++ [at_end_class w3 k l] |}.
Fixpoint qrun (M : mnet) (D : Z -> mdrawsI) (k : nat) (x : qstate) : res qstate :=
  match k with
  | O => Ok x
  | S k' => do y <- qrun M D k' x; qbody M D y
  end.
(** src/multiclass.cpp:4472-4482: empty records *)
Definition qinit (M : mnet) (w : mworld) : qstate := {| q_run := minit M w; q_num := []; q_map := fun _ => []; q_cmap := fun _ _ => [] |}.

(** macposts/_ext/mcdta.cpp:3048-3084 [get_enroute_and_queue_veh_stats_agg]: one row for every
    interval *)
Definition enroute_and_queue (M : mnet) (x : qstate) : res (list (Q * Q * Q)) :=
  do _ <- guard (Zlen (ms_enr (q_run x)) =? ms_cur (q_run x)) EThrow;
  do _ <- guard (Zlen (q_num x) =? ms_cur (q_run x)) EThrow;
  Ok (map (fun p => (inject_Z (fst p) / mn_fs M, inject_Z (snd p) / mn_fs M, inject_Z (fst p - snd p) / mn_fs M)%Q) (combine (ms_enr (q_run x)) (q_num x))).
(** macposts/_ext/mcdta.cpp:3086-3135 [get_queue_veh_each_link]: one column for every interval; a
    negative interval reads outside of the record: [EUB] *)
Definition queue_each_link (M : mnet) (x : qstate) (links intervals : list Z) : res (list (list Q)) :=
  mapM (fun t => do _ <- guard (t <? ms_cur (q_run x)) EThrow;
                 mapM (fun l => do _ <- guard (memb l (mn_links M)) EThrow;
                                if t <? 0 then Err EUB
                                else match nth_error (q_map x l) (Z.to_nat t) with
                                     | Some n => Ok (inject_Z n / mn_fs M)%Q
                                     | None => Err EUB
                                     end) links) intervals.
