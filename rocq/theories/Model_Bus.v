(** Passengers, walking links, bus stops and buses: src/multimodal.cpp.  Cumulative curves of
    transit links are the numbers of passengers recorded on them (every record is one
    passenger, 1 / m_flow_scalar); the trees of curves, prices and labels are left out.
    What routing writes into a passenger's next link is an argument everywhere. *)
From Verif Require Import Base Model_Num.

(** src/multimodal.h:495-590: a transit link is a bus link of one route or a walking link,
    whose m_walking_type is "normal", "boarding" or "alighting" *)
Inductive lkind := Riding (route : Z) | Normal | Boarding | Alighting.
Definition is_walk (k : lkind) : bool := match k with Riding _ => false | _ => true end.
Definition is_boarding (k : lkind) : bool := match k with Boarding => true | _ => false end.
Definition is_alighting (k : lkind) : bool := match k with Alighting => true | _ => false end.
Definition is_normal (k : lkind) : bool := match k with Normal => true | _ => false end.
Definition on_route (r : Z) (k : lkind) : bool := match k with Riding r' => r' =? r | _ => false end.

(** Every container that holds passengers: m_incoming_array, m_passenger_queue and
    m_finished_array of a transit link (src/multimodal.h:528-531), m_passenger_pool of a bus
    (332), m_in_passenger_queue of an origin (442) and of a parking lot (201),
    m_out_passenger_queue of a destination (394) *)
Inductive place := PIn (l : Z) | PWay (l : Z) | PDone (l : Z) | PBus (b : Z) | POrg (o : Z) | PLot (k : Z) | PDst (d : Z).
Definition place_eqb (x y : place) : bool :=
  match x, y with
  | PIn a, PIn b | PWay a, PWay b | PDone a, PDone b | PBus a, PBus b | POrg a, POrg b | PLot a, PLot b | PDst a, PDst b => a =? b
  | _, _ => false
  end.

(** src/multimodal.h:233-266 [MNM_Passenger]; [None] in [p_wait] is a value never written
    (m_waiting_time is not initialised by the constructor, src/multimodal.cpp:1680-1697) *)
Record pas := { p_next : option Z; p_cur : option Z; p_wait : option Z; p_pnr : bool; p_start : Z; p_finish : Z; p_dest : Z }.

(** src/multimodal.h:301-333 [MNM_Veh_Multimodal]; the pool of passengers is in [PBus] *)
Record bus := { b_cap : Z; b_route : Z; b_dwell : Z; b_lost : Z; b_mal : Z; b_mbd : Z; b_stopped : Z }.

(** src/multimodal.h:92-139 [MNM_Busstop_Virtual] *)
Record vstop := { s_route : Z; s_in : option Z; s_out : option Z; s_board : option Z; s_alight : option Z; s_count : Z; s_queue : list Z }.

(** The state; [w_age] is the second component in m_passenger_queue, [w_nin] and [w_nout]
    count the passengers on the curves m_N_in and m_N_out of a link *)
Record tw := { w_at : place -> list Z; w_age : Z -> Z; w_pas : Z -> pas; w_bus : Z -> bus; w_stop : Z -> vstop; w_nin : Z -> Z; w_nout : Z -> Z }.

(** What does not change: kinds of links, m_flow_scalar, the rates of the stops
    (src/multimodal.h:132-133, for implicit buses) *)
Record tnet := { k_kind : Z -> lkind; k_fs : Q; k_mal : Z; k_mbd : Z }.

(** ** Writing parts of the state (no function of the code) *)
Definition set_places (f : place -> list Z) (w : tw) : tw :=
  {| w_at := f; w_age := w_age w; w_pas := w_pas w; w_bus := w_bus w; w_stop := w_stop w; w_nin := w_nin w; w_nout := w_nout w |}.
Definition set_at (x : place) (l : list Z) (w : tw) : tw :=
  set_places (fun y => if place_eqb y x then l else w_at w y) w.
Definition pop (x : place) (w : tw) : tw := set_at x (tl (w_at w x)) w.
Definition push (x : place) (p : Z) (w : tw) : tw := set_at x (w_at w x ++ [p]) w.
Definition set_age (p a : Z) (w : tw) : tw :=
  {| w_at := w_at w; w_age := upd (w_age w) p a; w_pas := w_pas w; w_bus := w_bus w; w_stop := w_stop w; w_nin := w_nin w; w_nout := w_nout w |}.
Definition set_pas (p : Z) (r : pas) (w : tw) : tw :=
  {| w_at := w_at w; w_age := w_age w; w_pas := upd (w_pas w) p r; w_bus := w_bus w; w_stop := w_stop w; w_nin := w_nin w; w_nout := w_nout w |}.
Definition set_bus (b : Z) (r : bus) (w : tw) : tw :=
  {| w_at := w_at w; w_age := w_age w; w_pas := w_pas w; w_bus := upd (w_bus w) b r; w_stop := w_stop w; w_nin := w_nin w; w_nout := w_nout w |}.
Definition set_stop (s : Z) (r : vstop) (w : tw) : tw :=
  {| w_at := w_at w; w_age := w_age w; w_pas := w_pas w; w_bus := w_bus w; w_stop := upd (w_stop w) s r; w_nin := w_nin w; w_nout := w_nout w |}.
Definition count_in (l : Z) (w : tw) : tw :=
  {| w_at := w_at w; w_age := w_age w; w_pas := w_pas w; w_bus := w_bus w; w_stop := w_stop w; w_nin := upd (w_nin w) l (w_nin w l + 1); w_nout := w_nout w |}.
Definition count_out (l : Z) (w : tw) : tw :=
  {| w_at := w_at w; w_age := w_age w; w_pas := w_pas w; w_bus := w_bus w; w_stop := w_stop w; w_nin := w_nin w; w_nout := upd (w_nout w) l (w_nout w l + 1) |}.

(** src/multimodal.cpp:1711-1754: setters of a passenger *)
Definition set_cur (c : option Z) (r : pas) : pas :=
  {| p_next := p_next r; p_cur := c; p_wait := p_wait r; p_pnr := p_pnr r; p_start := p_start r; p_finish := p_finish r; p_dest := p_dest r |}.
Definition set_nxt (x : option Z) (r : pas) : pas :=
  {| p_next := x; p_cur := p_cur r; p_wait := p_wait r; p_pnr := p_pnr r; p_start := p_start r; p_finish := p_finish r; p_dest := p_dest r |}.
Definition set_wait (x : Z) (r : pas) : pas :=
  {| p_next := p_next r; p_cur := p_cur r; p_wait := Some x; p_pnr := p_pnr r; p_start := p_start r; p_finish := p_finish r; p_dest := p_dest r |}.
(** src/multimodal.cpp:1756-1761 [finish] *)
Definition set_finish (t : Z) (r : pas) : pas :=
  {| p_next := p_next r; p_cur := p_cur r; p_wait := p_wait r; p_pnr := p_pnr r; p_start := p_start r; p_finish := t; p_dest := p_dest r |}.
Definition onto (l p : Z) (w : tw) : tw := set_pas p (set_cur (Some l) (w_pas w p)) w.

Definition set_stopped (k : Z) (b : bus) : bus :=
  {| b_cap := b_cap b; b_route := b_route b; b_dwell := b_dwell b; b_lost := b_lost b; b_mal := b_mal b; b_mbd := b_mbd b; b_stopped := k |}.
Definition set_count (k : Z) (s : vstop) : vstop :=
  {| s_route := s_route s; s_in := s_in s; s_out := s_out s; s_board := s_board s; s_alight := s_alight s; s_count := k; s_queue := s_queue s |}.
Definition set_queue (q : list Z) (s : vstop) : vstop :=
  {| s_route := s_route s; s_in := s_in s; s_out := s_out s; s_board := s_board s; s_alight := s_alight s; s_count := s_count s; s_queue := q |}.

Definition is_link (o : option Z) (l : Z) : bool := match o with Some x => x =? l | None => false end.

(** * Walking links and bus links *)

(** src/multimodal.cpp:3682-3705 [MNM_Walking_Link::clear_incoming_array], one passenger; a
    passenger already in the map is not inserted again.  One who has to wait stays in the
    array: put at the end, which leaves the order as it is after all have been visited. *)
Definition enter_walk (l : Z) (w : tw) (p : Z) : res tw :=
  let r := w_pas w p in
  do _ <- guard (is_link (p_cur r) l) EAssert;
  match p_wait r with
  | None => Err EUB
  | Some x =>
    if x <=? 0
    then let w1 := pop (PIn l) (set_pas p (set_wait 0 r) w) in
         Ok (if memb p (w_at w1 (PWay l)) then w1 else push (PWay l) p (set_age p 0 w1))
    else Ok (push (PIn l) p (pop (PIn l) (set_pas p (set_wait (x - 1) r) w)))
  end.
Definition clear_walk (l : Z) (w : tw) : res tw := foldM (enter_walk l) w (w_at w (PIn l)).

(** src/multimodal.cpp:3616-3631 [MNM_Bus_Link::clear_incoming_array] *)
Definition enter_ride (l : Z) (w : tw) (p : Z) : res tw :=
  let r := w_pas w p in
  do _ <- guard (is_link (p_cur r) l) EAssert;
  let w1 := pop (PIn l) (set_pas p (set_wait 0 r) w) in
  Ok (if memb p (w_at w1 (PWay l)) then w1 else push (PWay l) p (set_age p 0 w1)).
Definition clear_ride (l : Z) (w : tw) : res tw := foldM (enter_ride l) w (w_at w (PIn l)).

(** src/multimodal.cpp:3633-3657 and 3707-3739 [evolve] of a bus link and of a walking link.
    [ord] is the order in which the std::unordered_map is visited, [stamp] the number of
    intervals: 3636-3641 for a bus link, [walk_stamp] for a walking link. *)
Definition walk_on (l stamp : Z) (w : tw) (p : Z) : tw :=
  if Z.max 0 (stamp - 1) <=? w_age w p
  then push (PDone l) p (pop (PWay l) w)
  else push (PWay l) p (pop (PWay l) (set_age p (w_age w p + 1) w)).
Definition evolve_link (l stamp : Z) (ord : list Z -> list Z) (w : tw) : tw :=
  fold_left (walk_on l stamp) (ord (w_at w (PWay l))) (set_at (PWay l) (ord (w_at w (PWay l))) w).

(** src/multimodal.cpp:3711-3723: [max] is m_max_stamp, [hist] m_historical_bus_waiting_time *)
Definition walk_stamp (k : lkind) (max hist : Z) : Z :=
  match k with Normal => max | Boarding => hist | _ => 0 end.

(** src/multimodal.cpp:3677: m_max_stamp of a walking link, [round_down_time] of the time in
    seconds over the unit of time *)
Definition max_stamp (seconds unit : Q) : res Z := round_down_time (seconds / unit).

(** src/multimodal.cpp:3741-3753 [MNM_Walking_Link::get_link_tt], seconds *)
Definition walk_tt (k : lkind) (fftt hist unit : Q) : Q := if is_boarding k then (fftt + hist * unit)%Q else fftt.

(** * Nodes of the transit network *)

(** src/multimodal.cpp:74-317 [MNM_Busstop_Physical::evolve], one passenger of the finished
    array of [l]; [outs] are the walking links out of the stop and the boarding links.
    [alighting]: the second loop, with the test of the curves (248-257).  Pushing to the
    array being visited invalidates its iterators. *)
Definition through (n : tnet) (alighting : bool) (outs : list Z) (l : Z) (w : tw) (p : Z) : res tw :=
  match p_next (w_pas w p) with
  | None => Err EUB
  | Some x =>
    do _ <- guard (is_walk (k_kind n x)) EThrow;
    do _ <- guard (memb x outs) EThrow;
    do _ <- guard (negb (is_boarding (k_kind n x) && (x =? l))) EUB;
    let w1 := onto x p (pop (PDone l) w) in
    let w2 := push (if is_boarding (k_kind n x) then PDone x else PIn x) p w1 in
    let w3 := count_out l w2 in
    do _ <- guard (negb (alighting && approx_lt (inject_Z (w_nin w3 l) / k_fs n) (inject_Z (w_nout w3 l) / k_fs n) tol)) EThrow;
    Ok (count_in x w3)
  end.
Definition pass_link (n : tnet) (alighting : bool) (outs : list Z) (w : tw) (l : Z) : res tw :=
  foldM (through n alighting outs l) w (w_at w (PDone l)).
Definition physical_evolve (n : tnet) (ins alights outs : list Z) (w : tw) : res tw :=
  do w1 <- foldM (pass_link n false outs) w ins; foldM (pass_link n true outs) w1 alights.

(** src/multimodal.cpp:2561-2605 [MNM_Origin_Multimodal::evolve] *)
Definition leave_origin (n : tnet) (outs : list Z) (o : Z) (w : tw) (p : Z) : res tw :=
  match p_next (w_pas w p) with
  | None => Err EAssert
  | Some x =>
    do _ <- guard (is_walk (k_kind n x) && memb x outs) EAssert;
    Ok (count_in x (push (PIn x) p (onto x p (pop (POrg o) w))))
  end.
Definition origin_evolve (n : tnet) (outs : list Z) (o : Z) (w : tw) : res tw :=
  foldM (leave_origin n outs o) w (w_at w (POrg o)).

(** src/multimodal.cpp:1566-1625 [MNM_Parking_Lot::evolve] *)
Definition leave_lot (n : tnet) (outs : list Z) (k t : Z) (w : tw) (p : Z) : res tw :=
  do _ <- guard (p_start (w_pas w p) =? t) EAssert;
  match p_next (w_pas w p) with
  | None => Err EThrow
  | Some x =>
    do _ <- guard (is_walk (k_kind n x) && memb x outs) EThrow;
    let w1 := set_pas p (set_wait 0 (w_pas w p)) (pop (PLot k) w) in
    Ok (count_in x (push (PIn x) p (onto x p w1)))
  end.
Definition lot_evolve (n : tnet) (outs : list Z) (k t : Z) (w : tw) : res tw :=
  foldM (leave_lot n outs k t) w (w_at w (PLot k)).

(** src/multimodal.cpp:2304-2371 [MNM_Destination_Multimodal::evolve]: [outs] are the
    walking links out of the parking lot of the destination, none when it has no lot *)
Definition into_dest (n : tnet) (outs : list Z) (d l : Z) (w : tw) (p : Z) : res tw :=
  let r := w_pas w p in
  let w0 := pop (PDone l) w in
  match p_next r with
  | None =>
    do _ <- guard (p_dest r =? d) EAssert;
    Ok (count_out l (set_pas p (set_cur None r) (push (PDst d) p w0)))
  | Some x =>
    do _ <- guard (is_walk (k_kind n x) && negb (p_dest r =? d) && memb x outs) EThrow;
    Ok (count_out l (count_in x (onto x p (push (PIn x) p w0))))
  end.
Definition dest_evolve (n : tnet) (ins outs : list Z) (d : Z) (w : tw) : res tw :=
  foldM (fun w l => foldM (into_dest n outs d l) w (w_at w (PDone l))) w ins.

(** src/multimodal.cpp:2433-2501 [MNM_Destination_Multimodal::receive], the passengers *)
Definition receive_pas (d t : Z) (w : tw) (p : Z) : res tw :=
  do _ <- guard (p_dest (w_pas w p) =? d) EThrow;
  Ok (set_pas p (set_finish t (w_pas w p)) (pop (PDst d) w)).
Definition dest_receive (d t : Z) (w : tw) : res tw := foldM (receive_pas d t) w (w_at w (PDst d)).

(** * Buses at stops *)

(** src/multimodal.cpp:1905-2021: who gets off.  Visits the pool from the front and stops at
    the first passenger getting off beyond the limit; returns those staying and those off *)
Fixpoint alight_scan (n : tnet) (w : tw) (al : option Z) (lim c : Z) (pool : list Z) : res (list Z * list Z) :=
  match pool with
  | [] => Ok ([], [])
  | p :: pool' =>
    match p_next (w_pas w p) with
    | None => Err EUB
    | Some x =>
      if is_walk (k_kind n x) && is_link al x
      then if lim <=? c then Ok (pool, [])
           else do (stay, off) <- alight_scan n w al lim (c + 1) pool'; Ok (stay, p :: off)
      else do (stay, off) <- alight_scan n w al lim c pool'; Ok (p :: stay, off)
    end
  end.

(** src/multimodal.cpp:1945-2014: the passenger is put on the alighting link [x]; [il] is
    m_bus_in_link *)
Definition alight_one (x il : Z) (w : tw) (p : Z) : tw :=
  count_in x (count_out il (set_pas p (set_cur (Some x) (set_wait 0 (w_pas w p))) (push (PDone x) p w))).

(** src/multimodal.cpp:2043-2140: who boards, from the front of the finished array of the
    boarding link; [None] for a passenger who is not routed to the bus (2052-2059) *)
Fixpoint board_scan (n : tnet) (w : tw) (out : option Z) (route lim c : Z) (line : list Z) : res (list Z * list Z) :=
  match line with
  | [] => Ok ([], [])
  | p :: line' =>
    do _ <- guard (match p_next (w_pas w p) with Some x => on_route route (k_kind n x) && is_link out x | None => false end) EThrow;
    if lim <=? c then Ok ([], line)
    else do (on, rest) <- board_scan n w out route lim (c + 1) line'; Ok (p :: on, rest)
  end.
Definition board_one (b bl ol : Z) (w : tw) (p : Z) : tw :=
  count_in ol (count_out bl (onto ol p (push (PBus b) p w))).

(** src/multimodal.cpp:1899-2149 [board_and_alight]; [sh] is std::random_shuffle of the pool.
    A stop without in link where somebody gets off fails the assertion at 1955. *)
Definition room (n : tnet) (r : bus) (aboard : Z) : Z :=
  Z.min (trunc (inject_Z (b_cap r) * k_fs n) - aboard) (trunc (inject_Z (b_mbd r) * k_fs n)).
Definition alight_limit (n : tnet) (r : bus) : Z := b_mal r * trunc (k_fs n).

Definition do_alight (n : tnet) (b s : Z) (w : tw) : res tw :=
  let r := w_bus w b in let st := w_stop w s in
  do (stay, off) <- alight_scan n w (s_alight st) (alight_limit n r) 0 (w_at w (PBus b));
  match off with
  | [] => Ok w
  | _ =>
    match s_in st, s_alight st with
    | Some il, Some x => Ok (fold_left (alight_one x il) off (set_at (PBus b) stay w))
    | _, _ => Err EAssert
    end
  end.
Definition do_board (n : tnet) (b s : Z) (w : tw) : res tw :=
  let r := w_bus w b in let st := w_stop w s in
  let rm := room n r (Z.of_nat (length (w_at w (PBus b)))) in
  match s_board st with
  | Some bl =>
    if rm <=? 0 then Ok w
    else do (on, rest) <- board_scan n w (s_out st) (b_route r) rm 0 (w_at w (PDone bl));
         match s_out st with
         | Some ol => Ok (fold_left (board_one b bl ol) on (set_at (PDone bl) rest w))
         | None => Ok w
         end
  | None => Ok w
  end.
Definition board_and_alight (n : tnet) (sh : list Z -> list Z) (b s : Z) (w : tw) : res tw :=
  do _ <- guard (negb (b_route (w_bus w b) =? -1)) EAssert;
  do w1 <- do_alight n b s w;
  do w2 <- do_board n b s w1;
  Ok (set_at (PBus b) (sh (w_at w2 (PBus b))) w2).

(** src/multimodal.cpp:9515-9530 (buses) and 7877-7884 (implicit buses): passengers per
    interval from the configured seconds per passenger; round() of a positive number *)
Definition per_interval (unit seconds : Z) : Z := trunc (inject_Z unit / inject_Z seconds + (1 # 2)).

(** src/multimodal.cpp:423-446: how many passengers aboard want to get off here *)
Fixpoint want_off (n : tnet) (w : tw) (st : vstop) (pool : list Z) : res Z :=
  match pool with
  | [] => Ok 0
  | p :: pool' =>
    match p_next (w_pas w p) with
    | None => Err EUB
    | Some x =>
      if is_walk (k_kind n x)
      then do c <- want_off n w st pool'; Ok (c + if is_alighting (k_kind n x) && is_link (s_alight st) x then 1 else 0)
      else match s_out st with
           | None => Err EUB
           | Some y => do _ <- guard (x =? y) EThrow; want_off n w st pool'
           end
    end
  end.
(** src/multimodal.cpp:452-466: how many are waiting for this route *)
Fixpoint want_on (n : tnet) (w : tw) (st : vstop) (route : Z) (line : list Z) : res Z :=
  match line with
  | [] => Ok 0
  | p :: line' =>
    match p_next (w_pas w p) with
    | Some x =>
      if on_route route (k_kind n x)
      then match s_out st with
           | None => Err EUB
           | Some y => do _ <- guard (x =? y) EAssert; do c <- want_on n w st route line'; Ok (c + 1)
           end
      else want_on n w st route line'
    | None => want_on n w st route line'
    end
  end.

(** src/multimodal.cpp:366-542 [hold_bus]; [f] is int(m_flow_scalar) of the driving link.
    Moving the vehicle between the queues is left to the callers.  The two assertions at
    516-517 hold there by the tests before them. *)
Definition hold_bus (n : tnet) (f : Z) (b s : Z) (w : tw) : res (bool * tw) :=
  let r := w_bus w b in let st := w_stop w s in
  do _ <- guard (negb (b_route r =? -1) && (b_route r =? s_route st)) EAssert;
  do _ <- guard (memb b (s_queue st)) EThrow;
  do _ <- guard (negb (0 <? b_stopped r) || (s_count st =? f)) EThrow;
  if (s_count st <? f - 1) && (b_stopped r =? 0)
  then Ok (false, set_stop s (set_count (s_count st + 1) st) w)
  else if (s_count st =? f) && (b_stopped r =? 0) then Ok (true, w)
  else
    do off <- want_off n w st (w_at w (PBus b));
    let rem := b_cap r * f - Z.of_nat (length (w_at w (PBus b))) + off in
    do on <- match s_board st with
             | Some bl => if 0 <? rem then want_on n w st (b_route r) (w_at w (PDone bl)) else Ok 0
             | None => Ok 0
             end;
    let busy := (0 <? off) || ((0 <? on) && (0 <? rem)) in
    let d1 := if (0 <? b_dwell r) && (b_dwell r <? b_lost r) && busy then b_lost r else b_dwell r in
    let d2 := if (off =? 0) && (rem =? 0) && (b_stopped r =? 0) then 0 else d1 in
    do st1 <- (if b_stopped r =? 0
               then do _ <- guard (s_count st =? f - 1) EThrow; Ok (set_count (s_count st + 1) st)
               else do _ <- guard (s_count st =? f) EThrow; Ok st);
    if (b_stopped r <? d2) || busy
    then Ok (true, set_bus b (set_stopped (b_stopped r + 1) r) (set_stop s st1 w))
    else Ok (false, set_stop s (set_count 0 st1) w).

(** src/multimodal.cpp:559-639: a passenger staying aboard is put on the next bus link *)
Definition ride_on (ol : Z) (il : option Z) (w : tw) (p : Z) : res tw :=
  let r := w_pas w p in
  match p_next r with
  | None => Err EUB
  | Some x =>
    do _ <- guard (x =? ol) EThrow;
    match p_cur r with
    | None => Err EUB
    | Some c =>
      if c =? ol then Ok w
      else match il with
           | None => Err EAssert
           | Some i => do _ <- guard (c =? i) EAssert; Ok (onto ol p (count_out i (count_in ol w)))
           end
    end
  end.

(** src/multimodal.cpp:544-705 [release_bus]; the curves of buses are left out *)
Fixpoint remove_first (x : Z) (l : list Z) : list Z :=
  match l with [] => [] | y :: l' => if y =? x then l' else y :: remove_first x l' end.
Definition release_bus (b s : Z) (w : tw) : res tw :=
  let r := w_bus w b in let st := w_stop w s in
  do _ <- guard (negb (b_route r =? -1) && (b_route r =? s_route st)) EAssert;
  do w1 <- match s_out st with
           | Some ol => foldM (ride_on ol (s_in st)) w (w_at w (PBus b))
           | None => do _ <- guard (Z.of_nat (length (w_at w (PBus b))) =? 0) EThrow; Ok w
           end;
  do _ <- guard (memb b (s_queue st)) EAssert;
  Ok (set_stop s (set_queue (remove_first b (s_queue st)) st) w1).

(** src/multimodal.cpp:6256-6297 [update_routing_one_busstop]: passengers aboard the buses
    at the stop who are on its in link and have no other next link get the next link [rt p] *)
Definition reroute (il : option Z) (rt : Z -> option Z) (w : tw) (p : Z) : res tw :=
  let r := w_pas w p in
  match p_cur r, p_next r with
  | Some c, Some x => Ok (if (c =? x) && is_link il c then set_pas p (set_nxt (rt p) r) w else w)
  | _, _ => Err EUB
  end.
(** src/multimodal.cpp:707-796 [receive_bus] and 798-810 [update_routing_passenger] *)
Definition receive_bus (rt : Z -> option Z) (b s : Z) (w : tw) : res tw :=
  let st := w_stop w s in
  do _ <- guard (negb (b_route (w_bus w b) =? -1) && (b_route (w_bus w b) =? s_route st)) EAssert;
  let st1 := set_queue (s_queue st ++ [b]) st in
  foldM (fun w b' => foldM (reroute (s_in st) rt) w (w_at w (PBus b'))) (set_stop s st1 w) (s_queue st1).

(** * Buses on driving links *)

(** src/multimodal.cpp:3980-4008 and 4255-4313: a bus that may be at a stop [s]; held buses
    board and alight once they have been stopped longer than m_boarding_lost_intervals *)
Definition at_stop (n : tnet) (f : Z) (sh : list Z -> list Z) (b s : Z) (w : tw) : res (bool * tw) :=
  do (held, w1) <- hold_bus n f b s w;
  if held
  then if b_lost (w_bus w1 b) <? b_stopped (w_bus w1 b)
       then do w2 <- board_and_alight n sh b s w1; Ok (true, w2) else Ok (true, w1)
  else Ok (false, w1).

(** the first stop of the list for the route at position [x]; stops are given with their
    position, m_busstop_timeloc_map (3985-3989) or m_cell_ID (4284-4289) *)
Definition stop_here (w : tw) (stops : list (Z * Z)) (route x : Z) : option Z :=
  match find (fun sx => (s_route (w_stop w (fst sx)) =? route) && (snd sx =? x)) stops with
  | Some sx => Some (fst sx) | None => None
  end.

(** src/multimodal.cpp:4010-4040 and 4315-4368: a vehicle that is not held; released at the
    stop at [x], received at the stop at [x + 1] *)
Definition go_on (rt : Z -> option Z) (stops : list (Z * Z)) (x b : Z) (w : tw) : res tw :=
  let r := w_bus w b in
  let w1 := set_bus b (set_stopped 0 r) w in
  if (b_route r =? -1) then Ok w1
  else
    do w2 <- match stop_here w1 stops (b_route r) x with Some s => release_bus b s w1 | None => Ok w1 end;
    match stop_here w2 stops (b_route r) (x + 1) with Some s => receive_bus rt b s w2 | None => Ok w2 end.

(** One vehicle at position [x]: held, or moved on *)
Definition drive (n : tnet) (f : Z) (sh : list Z -> list Z) (rt : Z -> option Z) (stops : list (Z * Z)) (x b : Z) (w : tw) : res (bool * tw) :=
  do (held, w1) <- (if b_route (w_bus w b) =? -1 then Ok (false, w)
                    else match stop_here w stops (b_route (w_bus w b)) x with
                         | Some s => at_stop n f sh b s w
                         | None => Ok (false, w)
                         end);
  if held then Ok (true, w1) else do w2 <- go_on rt stops x b w1; Ok (false, w2).

(** src/multimodal.cpp:3960-4090 [MNM_Dlink_Pq_Multimodal::evolve]: m_veh_queue with the time
    every vehicle has been in the link; returns the queue and the vehicles that finish *)
Fixpoint pq_drive (n : tnet) (f : Z) (sh : list Z -> list Z) (rt : Z -> option Z) (stops : list (Z * Z)) (stamp : Z)
  (q : list (Z * Z)) (w : tw) : res (list (Z * Z) * list Z * tw) :=
  match q with
  | [] => Ok ([], [], w)
  | (b, x) :: q' =>
    do (held, w1) <- drive n f sh rt stops x b w;
    do (q1, fin, w2) <- pq_drive n f sh rt stops stamp q' w1;
    if held then Ok ((b, x) :: q1, fin, w2)
    else if Z.max 0 (stamp - 1) <=? x then Ok (q1, b :: fin, w2)
    else Ok ((b, x + 1) :: q1, fin, w2)
  end.

(** src/multimodal.cpp:4227-4382 [move_veh_queue_in_cell], cell [c]; returns the queue the
    vehicles came from, the vehicles moved and the state.  The clamping of the cell number
    (4240-4249) does nothing for the cells evolve calls it with (4653-4666). *)
Fixpoint cell_drive (n : tnet) (f : Z) (sh : list Z -> list Z) (rt : Z -> option Z) (stops : list (Z * Z)) (c num : Z)
  (from : list Z) (w : tw) : res (list Z * list Z * tw) :=
  if num <=? 0 then Ok (from, [], w)
  else match from with
  | [] => Ok ([], [], w)
  | b :: from' =>
    do (held, w1) <- drive n f sh rt stops c b w;
    do (q1, moved, w2) <- cell_drive n f sh rt stops c (if held then num else num - 1) from' w1;
    if held then Ok (b :: q1, moved, w2) else Ok (q1, b :: moved, w2)
  end.

(** * Implicit buses *)

(** src/multimodal.cpp:907-1063 [virtual_evolve], the finished array of the in link [il],
    whose passengers are [line].  Pushing to the array being visited invalidates its
    iterators. *)
Fixpoint implicit_off (n : tnet) (st : vstop) (il c : Z) (line : list Z) (w : tw) : res tw :=
  match line with
  | [] => Ok w
  | p :: line' =>
    match p_next (w_pas w p) with
    | None => Err EUB
    | Some x =>
      if negb (is_walk (k_kind n x))
      then do _ <- guard (is_link (s_out st) x) EAssert;
           implicit_off n st il c line' (count_in x (count_out il (onto x p (push (PIn x) p (pop (PDone il) w)))))
      else do _ <- guard (is_link (s_alight st) x) EAssert;
           if k_mal n * trunc (k_fs n) <=? c then Ok w
           else do _ <- guard (negb (x =? il)) EUB;
                implicit_off n st il (c + 1) line' (count_in x (count_out il (onto x p (push (PDone x) p (pop (PDone il) w)))))
    end
  end.
(** src/multimodal.cpp:1065-1294: the finished array of the boarding link [bl] *)
Fixpoint implicit_on (n : tnet) (st : vstop) (bl c : Z) (line : list Z) (w : tw) : res tw :=
  match line with
  | [] => Ok w
  | p :: line' =>
    match p_next (w_pas w p) with
    | None => Err EUB
    | Some x =>
      if negb (is_walk (k_kind n x))
      then do _ <- guard (is_link (s_out st) x) EAssert;
           if k_mbd n * trunc (k_fs n) <=? c then Ok w
           else implicit_on n st bl (c + 1) line' (count_in x (count_out bl (onto x p (push (PIn x) p (pop (PDone bl) w)))))
      else do _ <- guard (is_link (s_alight st) x) EAssert;
           do _ <- guard (negb (x =? bl)) EUB;
           implicit_on n st bl c line' (count_in x (count_out bl (onto x p (push (PDone x) p (pop (PDone bl) w)))))
    end
  end.
Definition virtual_evolve (n : tnet) (s : Z) (w : tw) : res tw :=
  let st := w_stop w s in
  do w1 <- match s_in st with Some il => implicit_off n st il 0 (w_at w (PDone il)) w | None => Ok w end;
  match s_board st with Some bl => implicit_on n st bl 0 (w_at w1 (PDone bl)) w1 | None => Ok w1 end.

(** * The passengers of a simulation *)

(** All that can happen to the passengers, in any order: src/multimodal.cpp:10465-10756
    [load_once] calls these one after the other.  [ENew]: make_passenger (1802-1814) at an
    origin (3074-3140) or a parking lot (1475-1494); [EReceive]: [dest_receive]; [ENext]:
    routing; [EDrive]: one vehicle of a driving link. *)
Inductive event :=
| ENew (x : place) (t : Z) (pnr : bool) (dest : Z)
| ENext (p : Z) (x : option Z)
| EOrigin (outs : list Z) (o : Z)
| ELot (outs : list Z) (k t : Z)
| EPhysical (ins alights outs : list Z)
| EDest (ins outs : list Z) (d : Z)
| EReceive (d t : Z)
| EClearWalk (l : Z)
| EClearRide (l : Z)
| EEvolve (l stamp : Z) (ord : list Z -> list Z)
| EVirtual (s : Z)
| EDrive (f : Z) (sh : list Z -> list Z) (rt : Z -> option Z) (stops : list (Z * Z)) (x b : Z).

(** m_num_passenger (src/multimodal.h:285), and the passengers received *)
Record sys := { y_w : tw; y_num : Z; y_gone : list Z }.

(** src/multimodal.cpp:1680-1697: a new passenger; m_waiting_time has no value *)
Definition new_pas (t : Z) (pnr : bool) (dest : Z) : pas :=
  {| p_next := None; p_cur := None; p_wait := None; p_pnr := pnr; p_start := t; p_finish := -1; p_dest := dest |}.

Definition lift (y : sys) (x : res tw) : res sys := do w <- x; Ok {| y_w := w; y_num := y_num y; y_gone := y_gone y |}.
Definition step (n : tnet) (y : sys) (e : event) : res sys :=
  let w := y_w y in
  match e with
  | ENew x t pnr d =>
    let p := y_num y + 1 in
    do _ <- guard (match x with POrg _ | PLot _ => true | _ => false end) EAssert;
    Ok {| y_w := push x p (set_pas p (new_pas t pnr d) w); y_num := p; y_gone := y_gone y |}
  | ENext p x => lift y (Ok (set_pas p (set_nxt x (w_pas w p)) w))
  | EOrigin outs o => lift y (origin_evolve n outs o w)
  | ELot outs k t => lift y (lot_evolve n outs k t w)
  | EPhysical ins als outs => lift y (physical_evolve n ins als outs w)
  | EDest ins outs d => lift y (dest_evolve n ins outs d w)
  | EReceive d t => do w1 <- dest_receive d t w; Ok {| y_w := w1; y_num := y_num y; y_gone := y_gone y ++ w_at w (PDst d) |}
  | EClearWalk l => lift y (clear_walk l w)
  | EClearRide l => lift y (clear_ride l w)
  | EEvolve l stamp ord => lift y (Ok (evolve_link l stamp ord w))
  | EVirtual s => lift y (virtual_evolve n s w)
  | EDrive f sh rt stops x b => lift y (do r <- drive n f sh rt stops x b w; Ok (snd r))
  end.
Definition run_events (n : tnet) (y : sys) (es : list event) : res sys := foldM (step n) y es.
