(** The routing of the multimodal loading with fixed routes: buses, cars of park-and-ride
    travellers and passengers of public transport, src/multimodal.cpp:5321-6320, and the choice of
    a parking lot for park-and-ride cars that choose their way as they go, 6949-7051. *)
From Verif Require Import Base Model_Num Model_Node Model_Path.
Local Open Scope Z_scope.

(** What is fixed about a traveller (a vehicle or a passenger): MNM_TYPE_STATIC or adaptive
    (m_type, m_passenger_type), m_class, m_bus_route_ID, m_pnr, the node of its origin and of its
    destination, and whether m_driving_path is set (src/vehicle.h, src/multimodal.h) *)
Record who := { i_static : bool; i_class : Z; i_route : Z; i_pnr : bool; i_from : Z; i_to : Z; i_drove : bool }.

(** What the routing keeps about travellers: the entries of m_tracker, m_current_link, m_next_link
    and the path given (m_path, m_transit_path); [None]: no entry, a null pointer.  Links are
    identified by m_link_ID. *)
Record trip {A : Type} := { k_que : Z -> option (list Z); k_cur : Z -> option Z; k_nxt : Z -> option Z; k_path : Z -> option A }.
Arguments trip : clear implicits.

(** [register_veh] (src/multimodal.cpp:5406-5420, 5637-5653), [register_passenger] (5953-5968):
    the links [ls] of the path [a] are queued ([insert]: an old entry stays), the path is noted *)
Definition enrol {A} (s : trip A) (v : Z) (a : A) (ls : list Z) : trip A :=
  {| k_que := upd (k_que s) v (Some (match k_que s v with Some q => q | None => ls end));
     k_cur := k_cur s; k_nxt := k_nxt s; k_path := upd (k_path s) v (Some a) |}.
(** a path without entry in m_tracker: [track] is false *)
Definition nominal {A} (s : trip A) (v : Z) (a : A) : trip A :=
  {| k_que := k_que s; k_cur := k_cur s; k_nxt := k_nxt s; k_path := upd (k_path s) v (Some a) |}.
(** [set_next_link (nullptr)] *)
Definition halt {A} (s : trip A) (v : Z) : trip A :=
  {| k_que := k_que s; k_cur := k_cur s; k_nxt := upd (k_nxt s) v None; k_path := k_path s |}.
(** the front of the queue becomes the next link and is removed (src/multimodal.cpp:5460-5464);
    [front] of an empty queue is undefined behaviour, an unknown link is an exception
    (src/factory.cpp:193-202, src/multimodal.cpp:4786-4797) *)
Definition take_next {A} (known : Z -> bool) (s : trip A) (v : Z) : res (trip A) :=
  match k_que s v with
  | Some (l :: q) =>
      do _ <- guard (known l) EThrow;
      Ok {| k_que := upd (k_que s) v (Some q); k_cur := k_cur s; k_nxt := upd (k_nxt s) v (Some l); k_path := k_path s |}
  | _ => Err EUB
  end.
(** src/multimodal.cpp:5506-5520: the same with the test of link number -1 *)
Definition take_checked {A} (known : Z -> bool) (s : trip A) (v : Z) : res (trip A) :=
  match k_que s v with
  | Some (l :: _) => if l =? -1 then Err EThrow else take_next known s v
  | _ => Err EUB
  end.
Definition same (a b : option Z) : bool :=
  match a, b with Some x, Some y => x =? y | None, None => true | _, _ => false end.

(** ** Buses: src/multimodal.cpp:5383-5537.  [tbl origin destination route] is m_bus_path_table:
    [None] no entry, [Some None] a null pointer, otherwise the links of the bus path.  [to] is the
    node at the end of a link. *)
Definition is_bus (x : who) : bool := i_static x && (i_class x =? 1) && negb (i_route x =? -1) && negb (i_pnr x).
(** src/multimodal.cpp:5384-5422 *)
Definition register_bus (tbl : Z -> Z -> Z -> option (option (list Z))) (I : Z -> who) (s : trip (list Z)) (v : Z) : res (trip (list Z)) :=
  match tbl (i_from (I v)) (i_to (I v)) (i_route (I v)) with
  | None => Err EUB
  | Some None => Err EThrow
  | Some (Some ls) => Ok (enrol s v ls ls)
  end.
(** src/multimodal.cpp:5444-5467: a vehicle in the queue of an origin *)
Definition bus_origin (tbl : Z -> Z -> Z -> option (option (list Z))) (known : Z -> bool) (I : Z -> who) (s : trip (list Z)) (v : Z) : res (trip (list Z)) :=
  if is_bus (I v) then
    match k_que s v with
    | Some _ => Ok s
    | None => do s1 <- register_bus tbl I s v; take_next known s1 v
    end
  else Ok s.
(** src/multimodal.cpp:5478-5523: a vehicle in the finished array of link [l] *)
Definition bus_link (known : Z -> bool) (to : Z -> Z) (I : Z -> who) (l : Z) (s : trip (list Z)) (v : Z) : res (trip (list Z)) :=
  if is_bus (I v) then
    if i_to (I v) =? to l then
      match k_que s v with
      | None => Err EUB
      | Some [] => Ok (halt s v)
      | Some (_ :: _) => Err EThrow
      end
    else
      match k_que s v with
      | None => Err EThrow
      | Some _ => if same (k_cur s v) (k_nxt s v) then take_checked known s v else Ok s
      end
  else Ok s.
(** src/multimodal.cpp:5431-5527: [origins] are the vehicles waiting at the origins, [ends] the
    links with their finished arrays, in the orders of the hash maps *)
Definition bus_pass (tbl : Z -> Z -> Z -> option (option (list Z))) (known : Z -> bool) (to : Z -> Z) (I : Z -> who)
    (origins : list Z) (ends : list (Z * list Z)) (s : trip (list Z)) : res (trip (list Z)) :=
  do s1 <- foldM (bus_origin tbl known I) s origins;
  foldM (fun s x => foldM (bus_link known to I (fst x)) s (snd x)) s1 ends.

(** ** Shares of paths, src/path.cpp:301-341, 851-898: a path with m_p and m_buffer *)
Record share {A : Type} := { s_path : A; s_p : Q; s_buf : list Q }.
Arguments share : clear implicits.
Definition shares_of (A : Type) := list ((Z * Z) * list (share A)).
(** src/path.cpp:880-898 [copy_buffer_to_p]; the asserts on the column are [EAssert] *)
Definition copy_share {A} (col : Z) (e : share A) : res (share A) :=
  do _ <- guard ((0 <=? col) && (col <? Z.of_nat (length (s_buf e)))) EAssert;
  Ok {| s_path := s_path e; s_p := nth (Z.to_nat col) (s_buf e) 0%Q; s_buf := s_buf e |}.
Definition put_shares {A} (es : list (share A)) (ps : list Q) : list (share A) :=
  map (fun ep => {| s_path := s_path (fst ep); s_p := snd ep; s_buf := s_buf (fst ep) |}) (combine es ps).
(** src/multimodal.cpp:5588-5594, 5890-5897 [change_choice_portion] *)
Definition portions {A} (col : Z) (t : shares_of A) : res (shares_of A) :=
  do t1 <- mapM (fun x => do es <- mapM (copy_share col) (snd x); Ok (fst x, es)) t;
  mapM (fun x => do ps <- normalize_p (map s_p (snd x)); Ok (fst x, put_shares (snd x) ps)) t1.
(** src/multimodal.cpp:5674-5684, 6007-6017: at the start of interval [time / freq] of the first
    [len] intervals; the remainder of a division by zero is undefined.  [Z.quot], [Z.rem]: the
    division of integers. *)
Definition refresh {A} (as_p : bool) (freq len time : Z) (t : shares_of A) : res (shares_of A) :=
  if as_p then
    do _ <- guard (negb (freq =? 0)) EUB;
    if (Z.rem time freq =? 0) || (time =? 0)
    then let col := Z.quot time freq in if col <? len then portions col t else Ok t
    else Ok t
  else Ok t.
Fixpoint find_set {A} (t : shares_of A) (o d : Z) : option (list (share A)) :=
  match t with
  | [] => None
  | ((o', d'), es) :: t => if (o' =? o) && (d' =? d) then Some es else find_set t o d
  end.
(** src/multimodal.cpp:5598-5634, 5924-5950: the path drawn with random number [r]; a pair of nodes
    without path set is undefined behaviour *)
Definition draw_path {A} (t : shares_of A) (o d : Z) (r : Q) : res A :=
  match find_set t o d with
  | None => Err EUB
  | Some es =>
      do i <- draw (map s_p es) r;
      match nth_error es i with Some e => Ok (s_path e) | None => Err EThrow end
  end.

(** ** Cars of park-and-ride travellers: src/multimodal.cpp:5542-5807.  A path has a driving part,
    the node of the parking lot's destination (m_mid_dest_node_ID) and a transit part. *)
Record pnr := { r_drive : list Z; r_mid : Z; r_transit : list Z }.
Definition is_pnr_car (static : bool) (x : who) : bool :=
  Bool.eqb (i_static x) static && (i_class x =? 0) && (i_route x =? -1) && i_pnr x.
(** src/multimodal.cpp:5686-5727: [R v] is the number drawn for traveller [v] *)
Definition pnr_origin (t : shares_of pnr) (known : Z -> bool) (I : Z -> who) (R : Z -> Q) (s : trip pnr) (v : Z) : res (trip pnr) :=
  if is_pnr_car true (I v) then
    match k_que s v with
    | Some _ => Ok s
    | None => do a <- draw_path t (i_from (I v)) (i_to (I v)) (R v); take_next known (enrol s v a (r_drive a)) v
    end
  else if is_pnr_car false (I v) then
    match k_path s v with
    | Some _ => Ok s
    | None => do a <- draw_path t (i_from (I v)) (i_to (I v)) (R v); Ok (nominal s v a)
    end
  else Ok s.
(** src/multimodal.cpp:5740-5792; a vehicle without path is a null pointer *)
Definition pnr_link (known : Z -> bool) (to : Z -> Z) (I : Z -> who) (l : Z) (s : trip pnr) (v : Z) : res (trip pnr) :=
  if is_pnr_car true (I v) then
    match k_path s v with
    | None => Err EUB
    | Some a =>
        do _ <- guard (negb (i_to (I v) =? r_mid a)) EAssert;
        if r_mid a =? to l then
          match k_que s v with
          | None => Err EUB
          | Some [] => Ok (halt s v)
          | Some (_ :: _) => Err EThrow
          end
        else
          match k_que s v with
          | None => Err EThrow
          | Some _ => if same (k_cur s v) (k_nxt s v) then take_checked known s v else Ok s
          end
    end
  else Ok s.
(** src/multimodal.cpp:5664-5797 *)
Definition pnr_pass (t : shares_of pnr) (known : Z -> bool) (to : Z -> Z) (I : Z -> who) (R : Z -> Q)
    (origins : list Z) (ends : list (Z * list Z)) (s : trip pnr) : res (trip pnr) :=
  do s1 <- foldM (pnr_origin t known I R) s origins;
  foldM (fun s x => foldM (pnr_link known to I (fst x)) s (snd x)) s1 ends.

(** ** Passengers: src/multimodal.cpp:5911-6320.  The type of a node at the end of a link
    (m_from_node_type, m_to_node_type) and the two kinds of transit links (8160-8320: bus links are
    made with the type "bus_stop" at both ends) *)
Inductive stop := SPhysical | SVirtual | SDest | SPlain | SOther.
Inductive tlink := Walk (at_end : stop) | Ride (at_start at_end : stop).
(** src/multimodal.cpp:5911-5971 with [track]; for the direct mode the path is drawn *)
Definition register_passenger (t : shares_of (list Z)) (I : Z -> who) (R : Z -> Q) (s : trip (list Z)) (v : Z) : res (list Z) :=
  if i_pnr (I v) then match k_path s v with Some a => Ok a | None => Err EAssert end
  else draw_path t (i_from (I v)) (i_to (I v)) (R v).
(** src/multimodal.cpp:6019-6055 *)
Definition pas_origin (t : shares_of (list Z)) (known : Z -> bool) (I : Z -> who) (R : Z -> Q) (s : trip (list Z)) (v : Z) : res (trip (list Z)) :=
  if i_static (I v) then
    match k_que s v with
    | Some _ => Ok s
    | None => do a <- register_passenger t I R s v; take_next known (enrol s v a a) v
    end
  else
    match k_path s v with
    | Some _ => Ok s
    | None => do a <- register_passenger t I R s v; Ok (nominal s v a)
    end.
(** src/multimodal.cpp:6059-6102: a passenger in the queue of a parking lot *)
Definition pas_lot (t : shares_of (list Z)) (known : Z -> bool) (I : Z -> who) (R : Z -> Q) (s : trip (list Z)) (v : Z) : res (trip (list Z)) :=
  if i_static (I v) then
    match k_que s v with
    | None => do _ <- guard (i_drove (I v) && i_pnr (I v)) EAssert;
              do a <- register_passenger t I R s v; take_next known (enrol s v a a) v
    | Some _ => match k_nxt s v with None => Err EThrow | Some _ => Ok s end
    end
  else Ok s.
(** [get_current_link ()->m_link_ID == get_next_link ()->m_link_ID] with null pointers *)
Definition moved_on {A} (s : trip A) (v : Z) : res bool :=
  match k_cur s v, k_nxt s v with Some a, Some b => Ok (a =? b) | _, _ => Err EUB end.
(** src/multimodal.cpp:6106-6240 [update_routing_one_link], one passenger in the finished array of
    link [l] *)
Definition pas_link (known : Z -> bool) (to : Z -> Z) (kind : Z -> tlink) (I : Z -> who) (l : Z) (s : trip (list Z)) (v : Z) : res (trip (list Z)) :=
  if i_static (I v) then
    match kind l with
    | Walk e =>
        if i_to (I v) =? to l then
          do _ <- guard (match e with SDest => true | _ => false end) EAssert;
          match k_que s v with
          | None => Err EUB
          | Some [] => Ok (halt s v)
          | Some (_ :: _) => Err EThrow
          end
        else
          match k_que s v with
          | None => Err EThrow
          | Some _ =>
              do _ <- guard (match e with SPhysical | SVirtual | SDest => true | _ => false end) EThrow;
              do m <- moved_on s v;
              if m then take_checked known s v else Ok s
          end
    | Ride b e =>
        if i_to (I v) =? to l then Err EThrow
        else
          match k_que s v with
          | None => Err EThrow
          | Some _ =>
              do _ <- guard (match b, e with SPlain, SPlain => true | _, _ => false end) EThrow;
              do m <- moved_on s v;
              if m then take_checked known s v else Ok s
          end
    end
  else Ok s.
(** src/multimodal.cpp:6257-6297: a passenger on a bus waiting at a stop; [inl] is m_bus_in_link of
    the (virtual) stop *)
Definition pas_stop (known : Z -> bool) (I : Z -> who) (inl : option Z) (s : trip (list Z)) (v : Z) : res (trip (list Z)) :=
  if i_static (I v) then
    match k_que s v with
    | None => Err EThrow
    | Some _ =>
        do m <- moved_on s v;
        if m && match inl with Some b => same (k_cur s v) (Some b) | None => false end then take_next known s v else Ok s
    end
  else Ok s.
(** src/multimodal.cpp:6312-6320 with 6019-6056, 6059-6102, 6243-6254, 6300-6309: [lots] are the
    passengers waiting at parking lots, [stops] the virtual stops with the passengers of the buses
    queueing there *)
Definition pas_pass (t : shares_of (list Z)) (known : Z -> bool) (to : Z -> Z) (kind : Z -> tlink) (I : Z -> who) (R : Z -> Q)
    (origins lots : list Z) (ends : list (Z * list Z)) (stops : list (option Z * list Z)) (s : trip (list Z)) : res (trip (list Z)) :=
  do s1 <- foldM (pas_origin t known I R) s origins;
  do s2 <- foldM (pas_lot t known I R) s1 lots;
  do s3 <- foldM (fun s x => foldM (pas_link known to kind I (fst x)) s (snd x)) s2 ends;
  foldM (fun s x => foldM (pas_stop known I (fst x)) s (snd x)) s3 stops.

(** A traveller moves onto its next link: [set_current_link] with the link that is its next link
    (src/multimodal.cpp:136, 237, 645, 928, 1017, 1124, 1210, 1601, 1948, 2069, 2337, 2581 for
    passengers; src/dnode.cpp for vehicles).  That the link taken is the next link is the business
    of the nodes, stops and buses (Model_World, Model_Bus). *)
Definition go {A} (s : trip A) (v : Z) : trip A :=
  {| k_que := k_que s; k_cur := upd (k_cur s) v (k_nxt s v); k_nxt := k_nxt s; k_path := k_path s |}.
(** ** The parking lot of an adaptive park-and-ride car: src/multimodal.cpp:6949-7051
    [find_mid_destination_for_pnr].  [node_dest n]: for a destination node, its destination (its
    number and whether it has a parking lot); [lots] are the connected parking lots (node and
    destination) in the order left by [random_shuffle]; [drive], [ride]: travel times of the paths
    of the routing tables, [None] if there is no path (the asserts at 7026 and 7038). *)
Record plot := { p_node : Z; p_dest : Z }.
Definition find_lot (node_dest : Z -> option (Z * bool)) (lots : list plot) (drive ride : Z -> Z -> option Q) (from final : Z) : res (option Z) :=
  match node_dest from with
  | Some (d, true) => Ok (Some d)
  | Some (_, false) => Err EThrow
  | None =>
      (fix scan (ls : list plot) : res (option Z) :=
         match ls with
         | [] => Ok None
         | p :: ls =>
             if p_node p =? final then scan ls
             else if from =? p_node p then Ok (Some (p_dest p))
             else match drive from (p_node p), ride (p_node p) final with
                  | Some _, Some _ => Ok (Some (p_dest p)) (* a finite time is below the infinite start value; then [break] *)
                  | _, _ => Err EAssert
                  end
         end) lots
  end.
