(** Link dynamics: src/dlink.cpp (classes MNM_Dlink, MNM_Dlink_Ctm, MNM_Dlink_Pq,
    MNM_Dlink_Lq).  Vehicles (pointers MNM_Veh * ) are their integer IDs.  The
    cumulative curves that a link owns are kept by the simulation model
    (Model_Sim.v), because only the node models write them. *)
From Verif Require Import Base Model_Num.

(** Constructor arguments; src/dlink.cpp:114-117, 509-511, 701-703. *)
Inductive lkind := KCtm | KPq | KLq.
Record lparam := {
  p_kind : lkind; p_hold : Q; p_flow : Q; p_lanes : Z; p_len : Q; p_ffs : Q;
  p_ut : Q; p_fs : Q }.

Definition Zlen {A} (l : list A) : Z := Z.of_nat (length l).

(** src/dlink.h:140-157 [Ctm_Cell].  [c_wr = None] stands for a wave ratio that is
    infinite or NaN (division by zero); such a ratio fails [<= 1.0].  m_out_veh is
    not stored: update_out_veh rewrites it before each use. *)
Record cell := { c_hold : Q; c_flow : Q; c_wr : option Q; c_vol : Z; c_q : list Z }.

(** Dynamic content of a link besides m_incoming_array / m_finished_array. *)
Inductive body :=
| BCtm (cells : list cell)
| BPq (max_stamp : Z) (q : list (Z * Z)) (vol : Z)
| BLq (q : list Z) (vol : Z).

(** A link object.  [l_par] holds the (possibly adjusted) parameters. *)
Record link := { l_par : lparam; l_in : list Z; l_fin : list Z; l_body : body }.

Definition set_in (l : link) (x : list Z) : link :=
  {| l_par := l_par l; l_in := x; l_fin := l_fin l; l_body := l_body l |}.
Definition set_fin (l : link) (x : list Z) : link :=
  {| l_par := l_par l; l_in := l_in l; l_fin := x; l_body := l_body l |}.

(** src/dlink.cpp:98-112 [move_veh_queue]; popping an empty deque is [EUB]; a
    count below one moves nothing. *)
Definition move_queue (from to : list Z) (n : Z) : res (list Z * list Z) :=
  if Zlen from <? n then Err EUB
  else let k := Z.to_nat n in Ok (skipn k from, to ++ firstn k from).

(** * CTM *)

(** src/dlink.cpp:368-373 [get_demand] *)
Definition cell_demand (fs : Q) (c : cell) : Q := Qmin (inject_Z (c_vol c) / fs) (c_flow c).

(** src/dlink.cpp:375-392 [get_supply] *)
Definition cell_supply (fs : Q) (c : cell) : Q :=
  let v := (inject_Z (c_vol c) / fs)%Q in
  if Qle_bool (c_hold c) v then 0%Q
  else match c_wr c with
       | Some w => if Qle_bool w 1
                   then (if Qltb v (c_flow c) then c_flow c else (c_hold c - v) * w)%Q
                   else Qmin (c_flow c) (c_hold c - v)
       | None => Qmin (c_flow c) (c_hold c - v)
       end.

(** src/dlink.cpp:349-364 constructor of [Ctm_Cell] *)
Definition new_cell (hold flow fs : Q) (wr : option Q) : cell :=
  {| c_hold := hold; c_flow := if Qltb (flow * fs) 1 then (1 / fs)%Q else flow;
     c_wr := wr; c_vol := 0; c_q := [] |}.

(** src/dlink.cpp:149-173: wave ratio [c / (h - c/ffs) / ffs]; [None] when the
    inner denominator is zero. *)
Definition wave_ratio (h c ffs : Q) : option Q :=
  let d := (h - c / ffs)%Q in
  if Qeq_bool d 0 then None else Some (c / d / ffs)%Q.
Definition neg_ratio (w : option Q) : bool := match w with Some x => Qltb x 0 | None => false end.

(** src/dlink.cpp:4-34: checks of the base constructor *)
Definition base_checks (p : lparam) : res unit :=
  do _ <- guard (negb (Qltb (p_ffs p) 0)) EThrow;
  do _ <- guard (0 <=? p_lanes p) EThrow;
  guard (negb (Qltb (p_len p) 0)) EThrow.

(** src/dlink.cpp:114-180, 191-230: constructor and [init_cell_array].  A zero
    standard cell length converts an infinite or NaN double to int: [EUB]. *)
Definition ctm_ncells (p : lparam) : Z :=
  let n := Qfloor (p_len p / (p_ffs p * p_ut p)) in if n =? 0 then 1 else n.
Definition ctm_last_hold (p : lparam) : Q :=
  let std := (p_ffs p * p_ut p)%Q in
  Qmax ((p_len p - inject_Z (ctm_ncells p - 1) * std) / std * p_hold p) (p_hold p).
Definition make_ctm (p0 : lparam) : res link :=
  do _ <- base_checks p0;
  do _ <- guard (negb (Qltb (p_hold p0) 0)) EThrow;
  do _ <- guard (negb (Qltb (p_flow p0) 0)) EThrow;
  let p := {| p_kind := KCtm; p_hold := if Qltb (300 / 1600) (p_hold p0) then 300 / 1600 else p_hold p0;
              p_flow := if Qltb (3500 / 3600) (p_flow p0) then 3500 / 3600 else p_flow p0;
              p_lanes := p_lanes p0; p_len := p_len p0; p_ffs := p_ffs p0; p_ut := p_ut p0; p_fs := p_fs p0 |}%Q in
  let std := (p_ffs p * p_ut p)%Q in
  do _ <- guard (negb (Qeq_bool std 0)) EUB;
  let n := ctm_ncells p in
  let wr := wave_ratio (p_hold p) (p_flow p) (p_ffs p) in
  do _ <- guard (negb (neg_ratio wr)) EThrow;
  let lwr := wave_ratio (ctm_last_hold p) (p_flow p) (p_ffs p) in
  do _ <- guard (negb (neg_ratio lwr)) EThrow;
  let lanes := inject_Z (p_lanes p) in
  let cap := (lanes * p_flow p * p_ut p)%Q in
  let std_cells := repeat (new_cell (lanes * std * p_hold p) cap (p_fs p) wr) (Z.to_nat (n - 1)) in
  let last_cell := if Qltb 0 (p_len p) then [new_cell (lanes * std * ctm_last_hold p) cap (p_fs p) lwr] else [] in
  Ok {| l_par := p; l_in := []; l_fin := []; l_body := BCtm (std_cells ++ last_cell) |}.

(** src/dlink.cpp:246-265 [update_out_veh]: the numbers to move out of the cells,
    computed before any move.  [r i] is the random draw of cell i. *)
Fixpoint out_vehs (fs : Q) (r : nat -> Q) (i : nat) (cs : list cell) : list Z :=
  match cs with
  | [] => []
  | [c] => [Zlen (c_q c)]
  | c :: ((c' :: _) as rest) =>
      Z.min (Zlen (c_q c)) (rround (r i) (Qmin (cell_demand fs c) (cell_supply fs c') * fs))
      :: out_vehs fs r (S i) rest
  end.

Definition set_q (c : cell) (q : list Z) : cell :=
  {| c_hold := c_hold c; c_flow := c_flow c; c_wr := c_wr c; c_vol := c_vol c; c_q := q |}.
Definition set_vol (c : cell) (v : Z) : cell :=
  {| c_hold := c_hold c; c_flow := c_flow c; c_wr := c_wr c; c_vol := v; c_q := c_q c |}.

(** src/dlink.cpp:267-284 and 326-347: cells in ascending order, then the last cell
    into the finished array; a vehicle without a next link throws. *)
Fixpoint move_cells (has_next : Z -> bool) (cs : list cell) (outs : list Z) (fin : list Z)
  : res (list cell * list Z) :=
  match cs, outs with
  | [c], [o] =>
      if Zlen (c_q c) <? o then Err EUB
      else
        let k := Z.to_nat o in
        do _ <- guard (forallb has_next (firstn k (c_q c))) EThrow;
        Ok ([set_q c (skipn k (c_q c))], fin ++ firstn k (c_q c))
  | c :: ((c' :: rest)), o :: os =>
      do m <- move_queue (c_q c) (c_q c') o;
      do r <- move_cells has_next (set_q c' (snd m) :: rest) os fin;
      Ok (set_q c (fst m) :: fst r, snd r)
  | _, _ => Err EUB
  end.

(** src/dlink.cpp:286-299: volumes after the moves *)
Fixpoint recount (cs : list cell) (fin : list Z) : list cell :=
  match cs with
  | [] => []
  | [c] => [set_vol c (Zlen (c_q c) + Zlen fin)]
  | c :: rest => set_vol c (Zlen (c_q c)) :: recount rest fin
  end.

(** src/dlink.cpp:267-301 [evolve]; an empty cell array (length 0) is [EUB]. *)
Definition ctm_evolve (fs : Q) (r : nat -> Q) (has_next : Z -> bool) (cs : list cell) (fin : list Z)
  : res (list cell * list Z) :=
  do m <- move_cells has_next cs (out_vehs fs r 0 cs) fin;
  Ok (recount (fst m) (snd m), snd m).

(** src/dlink.cpp:303-324 [get_link_supply], [clear_incoming_array] *)
Definition ctm_supply (fs : Q) (cs : list cell) : res Q :=
  match cs with [] => Err EUB | c :: _ => Ok (cell_supply fs c) end.
Definition ctm_clear (fs : Q) (cs : list cell) (inc : list Z) : res (list cell * list Z) :=
  match cs with
  | [] => Err EUB
  | c :: rest =>
      do _ <- guard (negb (Qltb (cell_supply fs c * fs) (inject_Z (Zlen inc)))) EThrow;
      do m <- move_queue inc (c_q c) (Zlen inc);
      let c1 := set_q c (snd m) in
      Ok (set_vol c1 (Zlen (c_q c1)) :: rest, fst m)
  end.

(** * Point queue *)

(** src/dlink.cpp:509-526 constructor; a zero speed or unit time divides by zero
    and converts to int: [EUB]. *)
Definition make_pq (p0 : lparam) : res link :=
  do _ <- base_checks p0;
  let p := {| p_kind := KPq; p_hold := p_hold p0; p_flow := p_flow p0; p_lanes := p_lanes p0;
              p_len := p_len p0; p_ffs := p_ffs p0; p_ut := p_ut p0; p_fs := p_fs p0 |} in
  do _ <- guard (negb (Qeq_bool (p_ffs p * p_ut p) 0)) EUB;
  do m <- round_down_time (p_len p / (p_ffs p * p_ut p));
  Ok {| l_par := p; l_in := []; l_fin := []; l_body := BPq m [] 0 |}.

(** src/dlink.cpp:530-534 *)
Definition pq_supply (p : lparam) : Q := (p_flow p * inject_Z (p_lanes p) * p_ut p)%Q.

(** src/dlink.cpp:536-559 [clear_incoming_array] *)
Definition pq_clear (p : lparam) (q : list (Z * Z)) (inc fin : list Z) : list (Z * Z) * list Z * Z :=
  let k := Z.to_nat (Z.min (Zlen inc) (trunc (pq_supply p * p_fs p))) in
  let q' := q ++ map (fun v => (v, 0)) (firstn k inc) in
  (q', skipn k inc, Zlen fin + Zlen q').

(** src/dlink.cpp:570-592 [evolve] *)
Fixpoint pq_scan (max_stamp : Z) (q : list (Z * Z)) : list (Z * Z) * list Z :=
  match q with
  | [] => ([], [])
  | (v, s) :: q' =>
      let r := pq_scan max_stamp q' in
      if Z.max 0 (max_stamp - 1) <=? s then (fst r, v :: snd r) else ((v, s + 1) :: fst r, snd r)
  end.

(** * Link queue *)

(** src/dlink.cpp:701-723 constructor.  Divisions by a zero lane count, speed,
    unit time or flow scalar are [EUB] here (the doubles would be inf/NaN). *)
Definition make_lq (p0 : lparam) : res link :=
  do _ <- base_checks p0;
  do _ <- guard (negb (Qeq_bool (inject_Z (p_lanes p0) * p_ffs p0 * p_ut p0 * p_fs p0) 0)) EUB;
  let C := (p_flow p0 * inject_Z (p_lanes p0))%Q in
  let f := if Qltb (C * p_ut p0 * p_fs p0) 1 then (1 / (inject_Z (p_lanes p0) * p_ut p0 * p_fs p0))%Q else p_flow p0 in
  let p := {| p_kind := KLq; p_hold := p_hold p0; p_flow := f; p_lanes := p_lanes p0;
              p_len := p_len p0; p_ffs := p_ffs p0; p_ut := p_ut p0; p_fs := p_fs p0 |} in
  Ok {| l_par := p; l_in := []; l_fin := []; l_body := BLq [] 0 |}.

(** m_C and m_k_c (711-721): after the adjustment m_C = m_lane_flow_cap * lanes *)
Definition lq_C (p : lparam) : Q := (p_flow p * inject_Z (p_lanes p))%Q.
Definition lq_kc (p : lparam) : Q := (p_flow p / p_ffs p * inject_Z (p_lanes p))%Q.
Definition lq_density (p : lparam) (vol : Z) : Q := (inject_Z vol / p_fs p / p_len p)%Q.

(** src/dlink.cpp:900-917 [get_flow_from_density] *)
Definition lq_flow (p : lparam) (density : Q) : Q :=
  if Qltb density (lq_kc p) then (p_ffs p * density)%Q
  else let w := (p_flow p / (p_hold p - p_flow p / p_ffs p))%Q in
       ((p_hold p * inject_Z (p_lanes p) - density) * w)%Q.

(** src/dlink.cpp:919-933 [get_demand] *)
Definition lq_demand (p : lparam) (vol : Z) : Q :=
  let k := lq_density p vol in
  ((if Qltb k (lq_kc p) then lq_flow p k else lq_C p) * p_ut p)%Q.

(** src/dlink.cpp:727-734 [get_link_supply] *)
Definition lq_supply (p : lparam) (vol : Z) : Q :=
  let k := lq_density p vol in
  if Qltb (lq_kc p) k then (lq_flow p k * p_ut p)%Q else (lq_C p * p_ut p)%Q.

(** src/dlink.cpp:736-748 [clear_incoming_array] *)
Definition lq_clear (p : lparam) (q : list Z) (vol : Z) (inc fin : list Z) : res (list Z * list Z * Z) :=
  do _ <- guard (negb (trunc (lq_supply p vol * p_fs p) <? Zlen inc)) EThrow;
  do m <- move_queue inc q (Zlen inc);
  Ok (snd m, fst m, Zlen fin + Zlen (snd m)).

(** src/dlink.cpp:759-800 [evolve]; [r] is the random draw.  The first loop pops
    the back of the finished array and pushes it to the front of the queue. *)
Definition lq_evolve (p : lparam) (r : Q) (q : list Z) (vol : Z) (fin : list Z) : res (list Z * list Z) :=
  let demand := lq_demand p vol in
  if Qltb demand (inject_Z (Zlen fin) / p_fs p) then
    let k := Z.to_nat (Z.min (Zlen fin - trunc (demand * p_fs p)) (Zlen fin)) in
    Ok (skipn (length fin - k) fin ++ q, firstn (length fin - k) fin)
  else
    let n := Z.min (rround r (demand * p_fs p) - Zlen fin) (Zlen q) in
    do m <- move_queue q fin n;
    Ok (fst m, snd m).

(** * Virtual methods of MNM_Dlink *)

(** [get_link_supply] *)
Definition link_supply (l : link) : res Q :=
  match l_body l with
  | BCtm cs => ctm_supply (p_fs (l_par l)) cs
  | BPq _ _ _ => Ok (pq_supply (l_par l))
  | BLq _ vol => Ok (lq_supply (l_par l) vol)
  end.

(** [clear_incoming_array] *)
Definition link_clear (l : link) : res link :=
  match l_body l with
  | BCtm cs =>
      do r <- ctm_clear (p_fs (l_par l)) cs (l_in l);
      Ok {| l_par := l_par l; l_in := snd r; l_fin := l_fin l; l_body := BCtm (fst r) |}
  | BPq m q _ =>
      let r := pq_clear (l_par l) q (l_in l) (l_fin l) in
      Ok {| l_par := l_par l; l_in := snd (fst r); l_fin := l_fin l; l_body := BPq m (fst (fst r)) (snd r) |}
  | BLq q vol =>
      do r <- lq_clear (l_par l) q vol (l_in l) (l_fin l);
      Ok {| l_par := l_par l; l_in := snd (fst r); l_fin := l_fin l; l_body := BLq (fst (fst r)) (snd r) |}
  end.

(** [evolve]; [r] are the random draws, [has_next] is MNM_Veh::has_next_link
    (src/vehicle.cpp:45-49) *)
Definition link_evolve (r : nat -> Q) (has_next : Z -> bool) (l : link) : res link :=
  match l_body l with
  | BCtm cs =>
      do m <- ctm_evolve (p_fs (l_par l)) r has_next cs (l_fin l);
      Ok {| l_par := l_par l; l_in := l_in l; l_fin := snd m; l_body := BCtm (fst m) |}
  | BPq ms q vol =>
      let m := pq_scan ms q in
      Ok {| l_par := l_par l; l_in := l_in l; l_fin := l_fin l ++ snd m; l_body := BPq ms (fst m) vol |}
  | BLq q vol =>
      do m <- lq_evolve (l_par l) (r 0%nat) q vol (l_fin l);
      Ok {| l_par := l_par l; l_in := l_in l; l_fin := snd m; l_body := BLq (fst m) vol |}
  end.

(** [get_link_flow]: src/dlink.cpp:394-404, 594-598, 802-806 *)
Definition link_flow (l : link) : Q :=
  (inject_Z (match l_body l with
             | BCtm cs => sumZ (map c_vol cs) + Zlen (l_fin l)
             | BPq _ _ vol => vol
             | BLq _ vol => vol
             end) / p_fs (l_par l))%Q.

(** DBL_EPSILON *)
Definition dbl_epsilon : Q := 1 # 4503599627370496.

(** [get_link_tt_from_flow]: src/dlink.cpp:471-498, 662-690, 868-898; [get_link_tt]
    440-469, 633-660, 839-866 is the same with [get_link_flow ()].  Divisions by
    zero (zero lanes or length) are [EUB]; the quotient in the congested branch has
    a positive denominator. *)
Definition tt_from_flow (p : lparam) (flow : Q) : res Q :=
  do _ <- guard (negb (Qeq_bool (inject_Z (p_lanes p) * p_len p * p_ffs p) 0)) EUB;
  let rho := (flow / inject_Z (p_lanes p) / p_len p)%Q in
  let rhoj := p_hold p in
  let rhok := (p_flow p / p_ffs p)%Q in
  if Qle_bool rhoj rho then Ok max_link_cost
  else
    let eps := match p_kind p with KCtm => (1 # 1000)%Q | _ => dbl_epsilon end in
    let spd := if Qle_bool rho rhok then p_ffs p
               else Qmax (eps * p_ffs p) (p_flow p * (rhoj - rho) / ((rhoj - rhok) * rho)) in
    Ok (p_len p / spd)%Q.
Definition link_tt (l : link) : res Q := tt_from_flow (l_par l) (link_flow l).

(** [get_link_freeflow_tt_loading]: src/dlink.cpp:500-504, 692-696, 935-941 *)
Definition link_fftt (l : link) : res Z :=
  match l_body l with
  | BCtm _ => Ok (ctm_ncells (l_par l))
  | BPq m _ _ => Ok m
  | BLq _ _ => round_up_time (p_len (l_par l) / p_ffs (l_par l)) tol
  end.
