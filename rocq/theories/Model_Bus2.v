(** The rest of the multimodal simulation that is modelled: parking lots, the factory of
    passengers, the end of loading, lengths under bus links, waiting times for buses, point
    queues with buses.  src/multimodal.cpp. *)
From Verif Require Import Base Model_Num Model_Bus.

(** * Parking lots *)

(** A vehicle that reaches a destination with a parking lot: its class (0 a car), whether it
    is a park-and-ride car, and where it heads *)
Record arrival := { a_class : Z; a_pnr : bool; a_dest : Z }.

(** src/multimodal.h:163-205 [MNM_Parking_Lot]: capacity, average time to park (intervals),
    cars parked and cruising times recorded, newest first, with the interval of each *)
Record lot := { l_cap : Q; l_avg : Q; l_parked : Z; l_rec : list (Z * Q) }.

(** src/multimodal.cpp:1354-1388: a new lot *)
Definition new_lot (cap avg : Q) : lot := {| l_cap := cap; l_avg := avg; l_parked := 0; l_rec := [(0, avg)] |}.

(** src/multimodal.cpp:1551-1560: time to find a place; [occ] is m_occupancy *)
Definition cruise (cap avg occ : Q) : Q :=
  if Qle_bool cap occ then (10 * avg)%Q else (avg / (1 - occ / cap))%Q.

(** src/multimodal.cpp:1419-1564 [release_one_interval_passenger], lot at node [k], timestamp
    [t]; returns the destinations of the passengers made, in order, and the vehicles left in
    the queue.  _flow_scalar is the constant 1 (1429), so that every park-and-ride car makes
    a passenger.  Vehicles' routes and removal are left out. *)
Fixpoint park (k : Z) (q : list arrival) : res (Z * list Z * list arrival) :=
  match q with
  | [] => Ok (0, [], [])
  | a :: q' =>
    do _ <- guard (if (a_class a =? 0) && a_pnr a then negb (a_dest a =? k) else a_dest a =? k) EAssert;
    do (c, ps, rest) <- park k q';
    if a_class a =? 0 then Ok (c + 1, if a_pnr a then a_dest a :: ps else ps, rest) else Ok (c, ps, a :: rest)
  end.
Definition lot_release (k t : Z) (q : list arrival) (l : lot) : res (list Z * list arrival * lot) :=
  do (c, ps, rest) <- park k q;
  let n := l_parked l + c in
  Ok (ps, rest, {| l_cap := l_cap l; l_avg := l_avg l; l_parked := n;
                   l_rec := (t + 1, cruise (l_cap l) (l_avg l) (inject_Z n)) :: l_rec l |}).

(** src/multimodal.cpp:1399-1417 [get_cruise_time]; a second record for an interval is not
    inserted (1561), here it is never made: intervals are released once.  [m_size - 1] is the
    last interval only if every interval has a record *)
Definition rec_at (t : Z) (r : list (Z * Q)) : option Q :=
  match find (fun x => fst x =? t) r with Some x => Some (snd x) | None => None end.
Definition cruise_time (l : lot) (t : Z) : res Q :=
  match rec_at t (l_rec l) with
  | Some x => Ok x
  | None =>
    let last := Z.of_nat (length (l_rec l)) - 1 in
    if last <? t then match rec_at last (l_rec l) with Some x => Ok x | None => Err EUB end
    else Err EThrow
  end.

(** * The factory of passengers *)

(** src/multimodal.h:273-293 [MNM_Passenger_Factory] *)
Record factory := { f_alive : list Z; f_num : Z; f_pnr : Z; f_fin : Z; f_enr : Z; f_fin_pnr : Z; f_enr_pnr : Z; f_time : Z }.
Definition new_factory : factory :=
  {| f_alive := []; f_num := 0; f_pnr := 0; f_fin := 0; f_enr := 0; f_fin_pnr := 0; f_enr_pnr := 0; f_time := 0 |}.

(** src/multimodal.cpp:1802-1814 [make_passenger]; for a park-and-ride passenger with 1477-1478 *)
Definition make_passenger (pnr : bool) (f : factory) : factory :=
  let d := if pnr then 1 else 0 in
  {| f_alive := (f_num f + 1) :: f_alive f; f_num := f_num f + 1; f_pnr := f_pnr f + d; f_fin := f_fin f; f_enr := f_enr f + 1;
     f_fin_pnr := f_fin_pnr f; f_enr_pnr := f_enr_pnr f + d; f_time := f_time f |}.

(** src/multimodal.cpp:1829-1865 [remove_finished_passenger].  With [del] the passenger is
    deleted at 1850 and read at 1855. *)
Definition remove_passenger (del : bool) (p : Z) (r : pas) (f : factory) : res factory :=
  do _ <- guard (memb p (f_alive f)) EThrow;
  do _ <- guard (p_start r <? p_finish r) EAssert;
  if del then Err EUB
  else
    let d := if p_pnr r then 1 else 0 in
    let g := {| f_alive := f_alive f; f_num := f_num f; f_pnr := f_pnr f; f_fin := f_fin f + 1; f_enr := f_enr f - 1;
                f_fin_pnr := f_fin_pnr f + d; f_enr_pnr := f_enr_pnr f - d; f_time := f_time f + (p_finish r - p_start r) |} in
    do _ <- guard ((f_pnr g <=? f_num g) && (f_num g =? f_fin g + f_enr g) && (f_pnr g =? f_fin_pnr g + f_enr_pnr g)) EAssert;
    Ok g.

(** * The end of loading *)

(** src/multimodal.cpp:10797-10817 [finished_loading] with src/dta.cpp:825-842
    [has_running_vehicle]: [running] is m_num_veh - m_finished, [walking] the
    number of passengers on the way, which is not looked at *)
Definition mm_finished (total cur running walking : Z) : bool :=
  if 0 <? total then total <=? cur else negb (negb (running =? 0) || (cur =? 0)).

(** * Lengths under a bus link *)

(** src/multimodal.cpp:3458-3504 [get_overlapped_driving_link_length_portion]: the driving
    links with their lengths, from location [lf] on link [from] to [lt] on link [to] *)
Fixpoint portions (from to : Z) (lf lt : Q) (ls : list (Z * Q)) : list Q :=
  match ls with
  | [] => []
  | (i, len) :: ls' =>
    (if i =? from then (1 - lf / len)%Q else if i =? to then (lt / len)%Q else 1%Q) :: portions from to lf lt ls'
  end.
Definition length_portions (from to : Z) (lf lt : Q) (ls : list (Z * Q)) : res (list Q) :=
  match ls with
  | [] => Err EAssert
  | [(i, len)] =>
    do _ <- guard ((from =? i) && (to =? i)) EAssert;
    do _ <- guard (Qltb lf lt) EAssert;
    Ok [((lt - lf) / len)%Q]
  | (i, len) :: _ =>
    do _ <- guard ((from =? i) && (to =? fst (last ls (i, len)))) EAssert;
    Ok (portions from to lf lt ls)
  end.

(** * Waiting for a bus *)

(** src/multimodal.cpp:843-868: the ride over the links upstream until a stop that the next
    bus has reached.  A stop upstream: the time over the bus link from it and the buses that
    have come there.  Second result: the first stop has been reached *)
Fixpoint upstream (thr : Q) (segs : list (Q * Q)) : Q * bool :=
  match segs with
  | [] => (0%Q, true)
  | (x, cc) :: segs' =>
    if approx_lt cc thr tol then (x + fst (upstream thr segs'), snd (upstream thr segs'))%Q else (x, false)
  end.
(** src/multimodal.cpp:879-884 and 890-892: buses released in minute [i] *)
Definition released (fs : Q) (demand : Z -> Q) (i : Z) : Q := (inject_Z (Qfloor (demand i * fs)) / fs)%Q.
Fixpoint released_upto (fs : Q) (demand : Z -> Q) (m : nat) : Q :=
  match m with O => 0%Q | S m' => (released_upto fs demand m' + released fs demand (Z.of_nat m'))%Q end.
(** src/multimodal.cpp:885-902: minutes until the bus is released; [fuel] minutes from [i] *)
Fixpoint search_release (fs : Q) (demand : Z -> Q) (thr : Q) (cur i : Z) (fuel : nat) (tot : Q) : Q :=
  match fuel with
  | O => 0%Q
  | S fuel' =>
    let tot' := (tot + released fs demand i)%Q in
    if negb (approx_lt tot' thr tol) then inject_Z ((i - cur) * 60)
    else search_release fs demand thr cur (i + 1) fuel' tot'
  end.
(** src/multimodal.cpp:812-905 [get_waiting_time_snapshot] at time [t]: [cc] buses have come,
    [total] will come; [segs] from the stop upstream; [fs], [demand] by minutes, [freq]
    (intervals) and [max] of the origin of the route *)
Definition threshold (cc : Q) : Q :=
  let ceil := inject_Z (trunc cc + 1) in
  if approx_eq cc ceil tol then (ceil + 1)%Q else ceil.
Definition waiting_time (cc total : Q) (segs : list (Q * Q)) (fs : Q) (demand : Z -> Q) (freq max t : Z) : Q :=
  if negb (approx_lt cc total tol) then inject_Z (2 * max * freq)
  else
    let thr := threshold cc in
    let (ride, first) := upstream thr segs in
    if first
    then let cur := Z.quot t (60 / 5) in
         let tot := released_upto fs demand (Z.to_nat (cur + 1)) in
         if approx_lt tot thr tol
         then (ride + search_release fs demand thr cur (cur + 1) (Z.to_nat (max * Z.quot freq (60 / 5) - (cur + 1))) tot)%Q
         else ride
    else ride.

(** * Point queues with buses *)

(** src/multimodal.cpp:3830-3870 and 3936-3957 [MNM_Dlink_Pq_Multimodal::clear_incoming_array]
    without pickups and buses: vehicles are (id, class); [sup] is get_link_supply() *
    m_flow_scalar.  Returns the incoming array, m_veh_queue and the volumes of cars and
    trucks, counted over m_veh_pool, which nothing is put into, and the finished array *)
Fixpoint mm_admit (sup : Q) (inc : list (Z * Z)) : list (Z * Z) * list (Z * Z) :=
  match inc with
  | [] => ([], [])
  | v :: inc' => if Qltb 0 sup then let (i, q) := mm_admit (sup - 1)%Q inc' in (i, v :: q) else (inc, [])
  end.
Definition of_class (c : Z) (l : list (Z * Z)) : Z := Z.of_nat (length (filter (fun v => snd v =? c) l)).
Definition mm_clear (sup : Q) (inc queue pool fin : list (Z * Z)) : list (Z * Z) * list (Z * Z) * Z * Z :=
  let (i, q) := mm_admit sup inc in
  (i, queue ++ q, of_class 0 pool + of_class 0 fin, of_class 1 pool + of_class 1 fin).
