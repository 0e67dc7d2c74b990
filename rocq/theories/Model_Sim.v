(** Release, routing, one loading interval and the loading loop: src/od.cpp,
    src/factory.cpp, src/routing.cpp (Fixed, Adaptive, Hybrid), src/dta.cpp. *)
From Verif Require Import Base Model_Num Model_CC Model_Path Model_Link Model_World Model_Node.

(** * Release *)

(** src/factory.cpp:28-39 [make_veh], then the assignments of
    src/od.cpp:169-180 (m_label is left out: only the delivery code reads it) *)
Definition make_veh (w : world) (start : Z) (adapt : bool) (org dst assign : Z) : world :=
  let id := f_num (w_fac w) + 1 in
  let v := {| v_org := org; v_dst := dst; v_adapt := adapt; v_start := start; v_fin := -1; v_assign := assign;
              v_cur := None; v_next := None; v_path := None; v_miles := 0%Q |} in
  let f := {| f_live := f_live (w_fac w) ++ [id]; f_num := id; f_enroute := f_enroute (w_fac w) + 1;
              f_finished := f_finished (w_fac w); f_tt := f_tt (w_fac w); f_done := f_done (w_fac w) |} in
  set_fac (set_vehs w (upd (w_veh w) id v)) f.

(** src/od.cpp:146-168: type of a new vehicle *)
Definition pick_adaptive (ratio r : Q) : bool :=
  if Qeq_bool ratio 0 then false else if Qeq_bool ratio 1 then true else Qle_bool r ratio.

(** src/od.cpp:144-181: [k] vehicles for one destination *)
Fixpoint release_n (k : nat) (D : draws) (cur assign : Z) (o d : Z) (ratio : Q) (w : world) : world :=
  match k with
  | O => w
  | S k' =>
      let id := f_num (w_fac w) + 1 in
      let w1 := make_veh w cur (pick_adaptive ratio (d_adapt D id)) o d assign in
      release_n k' D cur assign o d ratio (set_oq w1 o (w_oq w1 o ++ [id]))
  end.

(** src/od.cpp:135-181: the loop over destinations; the adaptive ratio is a by-value
    parameter that an override changes for the rest of the loop *)
Fixpoint release_dests (N : net) (D : draws) (cur assign : Z) (o : origin) (ratio : Q)
    (ds : list (Z * (Z -> Q))) (w : world) : world :=
  match ds with
  | [] => w
  | (d, dem) :: ds' =>
      let ratio' := match o_ratio o d with Some f => f assign | None => ratio end in
      let k := rround (d_rel D (o_node o) d) (dem assign * n_fs N) in
      let w' := release_n (Z.to_nat k) D cur (Z.quot cur (n_freq N)) (o_node o) d ratio' w in
      release_dests N D cur assign o ratio' ds' w'
  end.

(** src/od.cpp:126-184 [release_one_interval] *)
Definition release_one (N : net) (D : draws) (cur assign : Z) (ratio : Q) (w : world) (o : origin) : world :=
  if assign <? 0 then w
  else let w' := release_dests N D cur assign o ratio (o_demand o) w in
       set_oq w' (o_node o) (d_oshuf D (o_node o) (w_oq w' (o_node o))).

(** src/dta.cpp:561-640: step 1 of load_once.  [TFlt] ratios outside [0,1] are
    clipped (588-592). *)
Definition base_ratio (r : rtype) : Q :=
  match r with
  | RFixed => 0%Q | RAdaptive => 1%Q
  | RHybrid x => if Qltb 1 x then 1%Q else if Qltb x 0 then 0%Q else x
  end.
Definition release_all (N : net) (D : draws) (cur assign : Z) (w : world) : res world :=
  do _ <- guard (negb (n_freq N =? 0)) EUB;
  if Z.rem cur (n_freq N) =? 0
  then Ok (fold_left (release_one N D cur (if n_total_assign N <=? assign then -1 else assign)
                                  (base_ratio (n_routing N))) (n_origins N) w)
  else Ok w.

(** * Routing *)

(** src/path.cpp:880-898 [copy_buffer_to_p] for one path; the asserts are [EAssert] *)
Definition copy_entry (col : Z) (e : pentry) : res pentry :=
  do _ <- guard ((0 <=? col) && (col <? Z.of_nat (length (e_buf e)))) EAssert;
  Ok {| e_path := e_path e; e_p := nth (Z.to_nat col) (e_buf e) 0%Q; e_buf := e_buf e |}.

Definition set_ps (es : list pentry) (ps : list Q) : list pentry :=
  map (fun ep => {| e_path := e_path (fst ep); e_p := snd ep; e_buf := e_buf (fst ep) |}) (combine es ps).

(** src/routing.cpp:432-442 [change_choice_portion] with src/path.cpp:851-862
    [normalize_path_table_p] *)
Definition change_choice_portion (col : Z) (pt : ptable) : res ptable :=
  do pt1 <- mapM (fun x => do es <- mapM (copy_entry col) (snd x); Ok (fst x, es)) pt;
  mapM (fun x => do ps <- normalize_p (map e_p (snd x)); Ok (fst x, set_ps (snd x) ps)) pt1.

Fixpoint pt_find (pt : ptable) (k : Z * Z) : option (list pentry) :=
  match pt with
  | [] => None
  | (k', es) :: pt' => if key_eqb k k' then Some es else pt_find pt' k
  end.

(** src/routing.cpp:563-614 [register_veh]; an OD pair missing from the path table
    dereferences end (): [EUB] *)
Definition register_veh (D : draws) (w : world) (v : Z) (track : bool) : res world :=
  let x := w_veh w v in
  match pt_find (w_pt w) (v_org x, v_dst x) with
  | None => Err EUB
  | Some es =>
      do i <- draw (map e_p es) (d_route D v);
      match nth_error es i with
      | None => Err EThrow
      | Some e =>
          let w1 := if track then match w_trk w v with
                                  | None => set_trk w v (Some (r_links (e_path e)))
                                  | Some _ => w (* std::unordered_map::insert keeps the old entry *)
                                  end else w in
          Ok (set_vehs w1 (upd (w_veh w1) v (set_path (Some (e_path e)) (w_veh w1 v))))
      end
  end.

Definition veh_next (w : world) (v : Z) (x : option Z) : world :=
  set_vehs w (upd (w_veh w) v (set_next x (w_veh w v))).

(** [m_tracker.find (_veh)->second->front ()], set_next_link, pop_front.
    MNM_Link_Factory::get_link throws on an unknown ID (src/factory.cpp:192-202). *)
Definition advance (N : net) (w : world) (v : Z) : res world :=
  match w_trk w v with
  | Some (l :: rest) =>
      do _ <- guard (memb l (n_links N)) EThrow;
      Ok (set_trk (veh_next w v (Some l)) v (Some rest))
  | _ => Err EUB
  end.

(** src/routing.cpp:476-505: a vehicle waiting at its origin *)
Definition fixed_origin_veh (N : net) (D : draws) (w : world) (v : Z) : res world :=
  if v_adapt (w_veh w v)
  then match v_path (w_veh w v) with None => register_veh D w v false | Some _ => Ok w end
  else match w_trk w v with
       | Some _ => Ok w
       | None => do w1 <- register_veh D w v true; advance N w1 v
       end.

Definition opt_eqb (a b : option Z) : bool :=
  match a, b with Some x, Some y => x =? y | None, None => true | _, _ => false end.

(** src/routing.cpp:520-557: a vehicle ready to leave link [l] *)
Definition fixed_link_veh (N : net) (l : Z) (w : world) (v : Z) : res world :=
  if v_adapt (w_veh w v) then Ok w
  else if v_dst (w_veh w v) =? n_to N l
  then match w_trk w v with
       | None => Err EUB
       | Some rest => do _ <- guard (length rest =? 0)%nat EThrow; Ok (veh_next w v None)
       end
  else match w_trk w v with
       | None => Err EThrow
       | Some _ => if opt_eqb (v_cur (w_veh w v)) (v_next (w_veh w v)) then advance N w v else Ok w
       end.

(** src/routing.cpp:444-561 [MNM_Routing_Fixed::update_routing]; [n_rfreq = -1] or
    [n_rlen = -1] is m_buffer_as_p = false (363-385); a zero frequency divides by
    zero: [EUB] *)
Definition fixed_portion (N : net) (t : Z) (w : world) : res world :=
  if (n_rfreq N =? -1) || (n_rlen N =? -1) then Ok w
  else
    do _ <- guard (negb (n_rfreq N =? 0)) EUB;
    if (Z.rem t (n_rfreq N) =? 0) && (Z.quot t (n_rfreq N) <? n_rlen N)
    then do pt <- change_choice_portion (Z.quot t (n_rfreq N)) (w_pt w); Ok (set_pt w pt)
    else Ok w.
Definition fixed_routing (N : net) (D : draws) (t : Z) (w : world) : res world :=
  do w1 <- fixed_portion N t w;
  do w2 <- foldM (fun w o => foldM (fixed_origin_veh N D) w (w_oq w (o_node o))) w1 (n_origins N);
  foldM (fun w l => foldM (fixed_link_veh N l) w (l_fin (w_link w l))) w2 (n_links N).

(** src/routing.cpp:228-262: an adaptive vehicle at its origin.  A negative tree
    entry throws; a missing one is not modelled ([d_tree] is total). *)
Definition adaptive_origin_veh (N : net) (D : draws) (n : Z) (w : world) (v : Z) : res world :=
  if v_adapt (w_veh w v)
  then let k := d_tree D (v_dst (w_veh w v)) n in
       do _ <- guard (0 <=? k) EThrow;
       do _ <- guard (memb k (n_links N)) EThrow;
       Ok (veh_next w v (Some k))
  else Ok w.

(** src/routing.cpp:266-352: an adaptive vehicle ready to leave link [l].  When the
    tree has no entry a random out link is taken. *)
Definition adaptive_link_veh (N : net) (D : draws) (l : Z) (w : world) (v : Z) : res world :=
  if v_adapt (w_veh w v)
  then
    do _ <- guard (opt_eqb (Some l) (v_cur (w_veh w v))) EThrow;
    if v_dst (w_veh w v) =? n_to N l then Ok (veh_next w v None)
    else
      let k0 := d_tree D (v_dst (w_veh w v)) (n_to N l) in
      let outs := n_out N (n_to N l) in
      let k := if k0 =? -1 then nth (d_any D v mod length outs) outs (-1) else k0 in
      do _ <- guard (memb k (n_links N)) EThrow;
      do _ <- guard ((n_to N k =? v_dst (w_veh w v)) || negb (d_tree D (v_dst (w_veh w v)) (n_to N k) =? -1)) EThrow;
      Ok (veh_next w v (Some k))
  else Ok w.

(** src/routing.cpp:197-358 [MNM_Routing_Adaptive::update_routing], given the trees *)
Definition adaptive_routing (N : net) (D : draws) (w : world) : res world :=
  do w1 <- foldM (fun w o => foldM (adaptive_origin_veh N D (o_node o)) w (w_oq w (o_node o))) w (n_origins N);
  foldM (fun w l => foldM (adaptive_link_veh N D l) w (l_fin (w_link w l))) w1 (n_links N).

(** src/routing.cpp:690-697 [MNM_Routing_Hybrid::update_routing]; the adaptive part
    works when the configured ratio is positive (671) *)
Definition update_routing (N : net) (D : draws) (t : Z) (w : world) : res world :=
  match n_routing N with
  | RFixed => fixed_routing N D t w
  | RAdaptive => adaptive_routing N D w
  | RHybrid x =>
      do w1 <- (if Qltb 0 x then adaptive_routing N D w else Ok w);
      fixed_routing N D t w1
  end.

(** * Links *)

(** src/vehicle.cpp:45-49 [has_next_link] *)
Definition has_next (w : world) (v : Z) : bool := match v_next (w_veh w v) with Some _ => true | None => false end.

(** src/dta.cpp:660-676: step 4 for one link *)
Definition link_step (D : draws) (w : world) (l : Z) : res world :=
  do x <- link_clear (w_link w l);
  do y <- link_evolve (d_cell D l) (has_next w) x;
  Ok (set_link w l y).

(** * Arrival *)

(** src/od.cpp:213-241 [receive], one vehicle: finish; src/routing.cpp:616-629
    [remove_finished] (the adaptive routing has no tracker: src/routing.h:24);
    src/factory.cpp:41-67 [remove_finished_veh], del = true *)
Definition receive_veh (N : net) (t n : Z) (w : world) (v : Z) : res world :=
  do _ <- guard (v_dst (w_veh w v) =? n) EThrow;
  let x := set_vfin t (w_veh w v) in
  let w1 := set_vehs w (upd (w_veh w) v x) in
  do w2 <- match n_routing N with
           | RAdaptive => Ok w1
           | _ => do _ <- guard ((0 <? v_fin x) && (v_start x <? v_fin x)) EAssert;
                  match w_trk w1 v with
                  | None => Ok w1
                  | Some _ => do _ <- guard (negb (v_adapt x)) EAssert; Ok (set_trk w1 v None)
                  end
           end;
  let f := w_fac w2 in
  do _ <- guard (memb v (f_live f)) EThrow;
  do _ <- guard (v_start x <? v_fin x) EAssert;
  let f' := {| f_live := filter (fun y => negb (y =? v)) (f_live f); f_num := f_num f;
               f_enroute := f_enroute f - 1; f_finished := f_finished f + 1;
               f_tt := (f_tt f + inject_Z (v_fin x - v_start x))%Q;
               f_done := f_done f ++ [(v, (v_start x, v_fin x))] |} in
  do _ <- guard (f_num f' =? f_finished f' + f_enroute f') EAssert;
  Ok (set_fac w2 f').
Definition receive (N : net) (t : Z) (w : world) (n : Z) : res world :=
  do w1 <- foldM (receive_veh N t n) w (w_dq w n);
  Ok (set_dq w1 n []).

(** * One interval and the loop *)

(** src/dta.cpp:538-689 [load_once].  Left out: update_link_attribute, statistics
    (Model_Stat.v), emission, gridlock recorder, queue recorder, printing. *)
Definition load_once (N : net) (D : draws) (t assign : Z) (w : world) : res world :=
  do w1 <- release_all N D t assign w;
  do w2 <- update_routing N D t w1;
  do w3 <- foldM (node_evolve N D t) w2 (n_nodes N);
  do w4 <- foldM (link_step D) w3 (n_links N);
  foldM (receive N t) w4 (n_dests N).

(** src/dta.cpp:825-838 [has_running_vehicle], 766-781 [finished_loading] *)
Definition running (w : world) : bool := negb (f_num (w_fac w) =? f_finished (w_fac w)).
Definition finished_loading (N : net) (cur : Z) (w : world) : bool :=
  if 0 <? n_total_int N then n_total_int N <=? cur
  else negb (running w || (cur =? 0)).

(** Loop variables of [loading] (src/dta.cpp:692-718): interval, assignment
    interval, world, and m_enroute_veh_num (750-764, latest last) *)
Record lstate := { s_cur : Z; s_assign : Z; s_w : world; s_enroute : list Z }.
Definition init_state (N : net) (w : world) : lstate :=
  {| s_cur := 0; s_assign := n_start_assign N; s_w := w; s_enroute := [] |}.

(** the body of the while loop *)
Definition loop_body (N : net) (D : Z -> draws) (s : lstate) : res lstate :=
  do w <- load_once N (D (s_cur s)) (s_cur s) (s_assign s) (s_w s);
  let cur := s_cur s + 1 in
  Ok {| s_cur := cur; s_assign := if Z.rem cur (n_freq N) =? 0 then s_assign s + 1 else s_assign s;
        s_w := w; s_enroute := s_enroute s ++ [f_enroute (w_fac w)] |}.

(** the loop condition *)
Definition loop_cond (N : net) (s : lstate) : bool :=
  negb (finished_loading N (s_cur s) (s_w s)) || (s_assign s <? n_total_assign N).

(** [k] iterations of the body *)
Fixpoint run (N : net) (D : Z -> draws) (k : nat) (s : lstate) : res lstate :=
  match k with
  | O => Ok s
  | S k' => do s1 <- run N D k' s; loop_body N D s1
  end.

(** src/dta.cpp:692-729 [loading], at most [fuel] iterations *)
Fixpoint loading (N : net) (D : Z -> draws) (fuel : nat) (s : lstate) : res lstate :=
  if loop_cond N s
  then match fuel with
       | O => Err EFuel
       | S fuel' => do s1 <- loop_body N D s; loading N D fuel' s1
       end
  else Ok s.
