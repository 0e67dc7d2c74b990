(** Electric vehicles and charging stations: src/ev_traffic.cpp.  The vehicle of Model_World
    carries the miles travelled (m_miles_traveled); everything else an electric vehicle has
    is in [ev].  Stations are modelled with the links they are hooked to; the loading loop
    of MNM_Dta_EV is not put together here, what happens to the links between two
    intervals is arbitrary in the theorems. *)
From Verif Require Import Base Model_Num Model_CC Model_Path Model_Link Model_World Model_Node.

(** src/ev_traffic.h:7-28 [MNM_Veh_Electrified]; [e_at] is m_charging_station (its node);
    [e_tour]: the vehicle is a MNM_Veh_Electrified_Delivery *)
Record ev := { e_full : Q; e_range : Q; e_after : Q; e_timer : Z; e_road : bool; e_at : option Z; e_tour : bool }.

(** src/ev_traffic.cpp:9-21: the constructor, called by make_veh_electrified (130-149) and
    make_veh_electrified_delivery (151-174) with the starting range of the way of charging *)
Definition new_ev (tour road : bool) (start_road start_home full : Q) : ev :=
  {| e_full := full; e_range := if road then start_road else start_home; e_after := 0; e_timer := -1;
     e_road := road; e_at := None; e_tour := tour |}.

(** src/ev_traffic.cpp:26-51 [need_charging] and 96-114 for a delivery vehicle *)
Definition need_charging (miles : Q) (e : ev) : bool :=
  e_road e && ((negb (e_tour e) && Qle_bool miles 0) || Qle_bool (e_range e - e_after e) ((1 # 10) * e_full e)).

(** src/ev_traffic.cpp:53-65 [charge] *)
Definition charge (e : ev) : ev :=
  {| e_full := e_full e; e_range := e_full e; e_after := 0; e_timer := 0; e_road := e_road e; e_at := None; e_tour := e_tour e |}.

Definition set_timer (k : Z) (e : ev) : ev :=
  {| e_full := e_full e; e_range := e_range e; e_after := e_after e; e_timer := k; e_road := e_road e; e_at := e_at e; e_tour := e_tour e |}.
Definition set_at (s : option Z) (e : ev) : ev :=
  {| e_full := e_full e; e_range := e_range e; e_after := e_after e; e_timer := e_timer e; e_road := e_road e; e_at := s; e_tour := e_tour e |}.

(** src/ev_traffic.cpp:67-76 [update_miles_traveled]: miles of the vehicle and its record
    when it leaves a link of length [len] *)
Definition ev_drive (pq : bool) (len : Q) (me : Q * ev) : Q * ev :=
  let d := if pq then 0%Q else (len / 1600)%Q in
  let e := snd me in
  ((fst me + d)%Q, {| e_full := e_full e; e_range := e_range e; e_after := (e_after e + d)%Q; e_timer := e_timer e; e_road := e_road e;
             e_at := e_at e; e_tour := e_tour e |}).

(** * Where an adaptive electric vehicle is sent *)

(** src/ev_traffic.cpp:1141-1192: at its origin; [best] is the entry of the table of best
    stations for the pair of the vehicle, [None] when there is none or it is null.  Returns
    the vehicle and the station it is sent to, [None]: its destination. *)
Definition route_at_origin (best : option Z) (miles : Q) (e : ev) : ev * option Z :=
  if need_charging miles e
  then match best with Some s => (set_at (Some s) e, Some s) | None => (e, None) end
  else (e, None).

(** src/ev_traffic.cpp:1248-1291: at node [n] at the end of a link; the test of the future
    node (1331-1386) makes the same assertion *)
Definition route_at_node (n : Z) (miles : Q) (e : ev) : res (option Z) :=
  if need_charging miles e
  then Ok (match e_at e with Some s => if s =? n then None else Some s | None => None end)
  else do _ <- guard (match e_at e with None => true | Some _ => false end) EAssert; Ok None.

(** What can happen to one electric vehicle, in any order *)
Inductive happening := HOrigin (best : option Z) | HNode (n : Z) | HDrive (pq : bool) (len : Q) | HCharge.
Definition happen (me : Q * ev) (h : happening) : res (Q * ev) :=
  match h with
  | HOrigin best => Ok (fst me, fst (route_at_origin best (fst me) (snd me)))
  | HNode n => do _ <- route_at_node n (fst me) (snd me); Ok me
  | HDrive pq len => Ok (ev_drive pq len me)
  | HCharge => Ok (fst me, charge (snd me))
  end.

(** * Charging stations *)

(** src/ev_traffic.h:97-127 [MNM_Charging_Station]; m_slots and m_avg_waiting_time are only
    written.  m_waiting_time_record is a list of keys and values. *)
Record station := { s_node : Z; s_fs : Q; s_unit : Z; s_charge : Z; s_price : Q; s_pool : list (list Z); s_cc : curve; s_rec : list (Z * Z) }.

(** src/ev_traffic.cpp:413-436: the constructor; a negative number of queues is none *)
Definition new_station (n : Z) (fs : Q) (unit slots time : Z) (price : Q) : station :=
  {| s_node := n; s_fs := fs; s_unit := unit; s_charge := time; s_price := price;
     s_pool := repeat [] (Z.to_nat (slots * trunc fs)); s_cc := fresh_curve; s_rec := [(0, 0)] |}.

(** src/ev_traffic.cpp:1767-1776: the third word of a row in seconds, as a number of intervals *)
Definition charging_intervals (seconds : Q) (unit : Z) : Z := trunc (seconds / inject_Z unit).

Record sworld := { sw_w : world; sw_ev : Z -> option ev; sw_st : station }.
Definition sset_w (x : sworld) (w : world) : sworld := {| sw_w := w; sw_ev := sw_ev x; sw_st := sw_st x |}.
Definition sset_ev (x : sworld) (v : Z) (e : ev) : sworld := {| sw_w := sw_w x; sw_ev := upd (sw_ev x) v (Some e); sw_st := sw_st x |}.
Definition sset_st (x : sworld) (s : station) : sworld := {| sw_w := sw_w x; sw_ev := sw_ev x; sw_st := s |}.
Definition set_pool (s : station) (p : list (list Z)) : station :=
  {| s_node := s_node s; s_fs := s_fs s; s_unit := s_unit s; s_charge := s_charge s; s_price := s_price s; s_pool := p; s_cc := s_cc s; s_rec := s_rec s |}.
Definition set_scc (s : station) (c : curve) : station :=
  {| s_node := s_node s; s_fs := s_fs s; s_unit := s_unit s; s_charge := s_charge s; s_price := s_price s; s_pool := s_pool s; s_cc := c; s_rec := s_rec s |}.
Definition set_srec (s : station) (r : list (Z * Z)) : station :=
  {| s_node := s_node s; s_fs := s_fs s; s_unit := s_unit s; s_charge := s_charge s; s_price := s_price s; s_pool := s_pool s; s_cc := s_cc s; s_rec := r |}.

(** [std::min_element] of the queues by length: position of the first shortest *)
Fixpoint min_at (best : nat) (len : nat) (i : nat) (p : list (list Z)) : nat :=
  match p with
  | [] => best
  | q :: p' => if (length q <? len)%nat then min_at i (length q) (S i) p' else min_at best len (S i) p'
  end.
Definition shortest (p : list (list Z)) : nat :=
  match p with [] => O | q :: p' => min_at O (length q) 1 p' end.
(** src/ev_traffic.cpp:606-616: enter the shortest queue; [vector::at] throws when there is none *)
Definition join (v : Z) (p : list (list Z)) : res (list (list Z)) :=
  let i := shortest p in
  match nth_error p i with
  | None => Err EThrow
  | Some q => Ok (firstn i p ++ [q ++ [v]] ++ skipn (S i) p)
  end.

(** src/ev_traffic.cpp:575-617: one vehicle at the end of an in link.  A vehicle without a
    next link dereferences null in the message; exit (-1) is [EThrow]. *)
Definition collect_veh (outs : list Z) (x : sworld) (v : Z) : res sworld :=
  match v_next (w_veh (sw_w x) v) with
  | None => Err EUB
  | Some b =>
      do _ <- guard (memb b outs) EThrow;
      match sw_ev x v with
      | None => Err EThrow
      | Some e =>
          do _ <- guard (v_adapt (w_veh (sw_w x) v) && match e_at e with Some s => s =? s_node (sw_st x) | None => false end) EThrow;
          do p <- join v (s_pool (sw_st x));
          Ok (sset_st x (set_pool (sw_st x) p))
      end
  end.
Definition collect_link (outs : list Z) (x : sworld) (a : Z) : res sworld :=
  do x1 <- foldM (collect_veh outs) x (l_fin (w_link (sw_w x) a));
  Ok (sset_w x1 (set_link (sw_w x1) a (set_fin (w_link (sw_w x1) a) []))).

(** src/ev_traffic.cpp:672-720 [move_out_veh] *)
Definition move_out (fs : Q) (t : Z) (w : world) (v : Z) : res world :=
  match v_cur (w_veh w v), v_next (w_veh w v) with
  | Some a, Some b =>
      let w1 := set_link w b (set_in (w_link w b) (l_in (w_link w b) ++ [v])) in
      let w2 := set_vehs w1 (upd (w_veh w1) v (set_cur (Some b) (w_veh w1 v))) in
      do w3 <- match cc_Nout (w_cc w2) a with Some _ => inc_out w2 a t (1 / fs) | None => Ok w2 end;
      do w4 <- match cc_Nin (w_cc w3) b with Some _ => inc_in w3 b t (1 / fs) | None => Ok w3 end;
      tree_inc fs t a b w4 v
  | _, _ => Err EUB
  end.

(** src/ev_traffic.cpp:621-649: one queue; the second component of the state is the pool
    built so far *)
Definition serve_queue (t : Z) (xp : sworld * list (list Z)) (q : list Z) : res (sworld * list (list Z)) :=
  let '(x, p) := xp in
  match q with
  | [] => Ok (x, p ++ [[]])
  | v :: rest =>
      match sw_ev x v with
      | None => Err EUB
      | Some e =>
          let e0 := if e_timer e <? 0 then set_timer 0 e else e in
          if s_charge (sw_st x) <=? e_timer e0
          then
            let x1 := sset_ev x v (charge e0) in
            do w <- move_out (s_fs (sw_st x1)) t (sw_w x1) v;
            do c <- add_increment (s_cc (sw_st x1)) (inject_Z (t + 1), 1 / s_fs (sw_st x1))%Q;
            Ok (sset_st (sset_w x1 w) (set_scc (sw_st x1) c), p ++ [rest])
          else Ok (sset_ev x v (set_timer (e_timer e0 + 1) e0), p ++ [q])
      end
  end.

(** src/ev_traffic.cpp:656-670 [get_current_estimated_waiting_time]: dereferences
    [min_element] of no queue *)
Definition estimate (s : station) : res Z :=
  match nth_error (s_pool s) (shortest (s_pool s)) with
  | None => Err EUB
  | Some q => Ok (Zlen q * s_charge s)
  end.

(** std::unordered_map::insert keeps an entry that exists *)
Definition rec_insert (k y : Z) (r : list (Z * Z)) : list (Z * Z) :=
  if existsb (fun e => fst e =? k) r then r else r ++ [(k, y)].

(** src/ev_traffic.cpp:557-654 [evolve]; [order] is the shuffled array of in links *)
Definition station_evolve (order outs : list Z) (t : Z) (x : sworld) : res sworld :=
  do x1 <- foldM (collect_link outs) x order;
  do xp <- foldM (serve_queue t) (x1, []) (s_pool (sw_st x1));
  let x2 := sset_st (fst xp) (set_pool (sw_st (fst xp)) (snd xp)) in
  do y <- estimate (sw_st x2);
  Ok (sset_st x2 (set_srec (sw_st x2) (rec_insert (t + 1) y (s_rec (sw_st x2))))).

(** * The best station of an origin-destination pair *)

(** src/ev_traffic.cpp:1036-1046: what is added to the cost of a point queue into a station *)
Definition station_cost (vot : Q) (s : station) : res Q :=
  do y <- estimate s;
  Ok ((vot * inject_Z (y + s_charge s) * inject_Z (s_unit s) + s_price s) * 10)%Q.

(** src/ev_traffic.cpp:1400-1456 [update_best_POI] for one pair: [to s] and [from s] are the
    costs of the paths into and out of station [s]; the candidates in the order of the
    shuffle; infinity is [None] *)
Fixpoint best_station (to from : Z -> Q) (best : option (Z * Q)) (cand : list Z) : option (Z * Q) :=
  match cand with
  | [] => best
  | s :: cand' =>
      let c := (from s + to s)%Q in
      best_station to from (match best with
                            | None => Some (s, c)
                            | Some (b, cb) => if Qltb c cb then Some (s, c) else best
                            end) cand'
  end.
