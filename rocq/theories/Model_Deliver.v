(** Delivery vehicles: src/delivery_traffic.cpp.  A delivery vehicle drives a tour, a
    sequence of origin-destination pairs, and waits at every origin after the first.
    Everything else of a loading is that of Model_Sim.v; MNM_Dta_Delivery accepts the
    Hybrid routing only (src/delivery_traffic.cpp:875-926). *)
From Verif Require Import Base Model_Num Model_CC Model_Path Model_Link Model_World Model_Node Model_Sim.

(** src/delivery_traffic.h:5-22 [MNM_Veh_Delivery]: m_multi_od_seq, m_current_OD_index,
    m_waiting_time.  The pair (origin, destination) is the pair of their nodes. *)
Record tour := { tr_seq : list (Z * Z); tr_at : nat; tr_wait : Z }.

(** A simulation with delivery vehicles: [dw_tour v] is [Some] when [v] is a
    MNM_Veh_Delivery; [dw_made] is m_veh_delivery (src/delivery_traffic.h:24-31).
    [dw_log] is not in the code: it lists every vehicle taken from a destination queue
    with the interval and the destination. *)
Record dworld := { dw_w : world; dw_tour : Z -> option tour; dw_made : Z; dw_log : list (Z * (Z * Z)) }.

(** Network with tours: [dn_tours o] is m_demand_multi_OD_seq of origin [o] in the order
    of its hash map, [dn_pickup o] is m_pickup_waiting_time (src/delivery_traffic.h:56-76) *)
Record dnet := { dn_net : net; dn_tours : Z -> list (list (Z * Z) * (Z -> Q)); dn_pickup : Z -> Z }.

(** Random numbers of an interval: those of Model_World and the rounding of the demand of
    the i-th tour of an origin *)
Record ddraws := { dd_base : draws; dd_rel : Z -> nat -> Q }.

Definition dset_w (d : dworld) (w : world) : dworld :=
  {| dw_w := w; dw_tour := dw_tour d; dw_made := dw_made d; dw_log := dw_log d |}.
Definition dset_tour (d : dworld) (v : Z) (x : option tour) : dworld :=
  {| dw_w := dw_w d; dw_tour := upd (dw_tour d) v x; dw_made := dw_made d; dw_log := dw_log d |}.

(** * Release *)

(** src/delivery_traffic.cpp:246-266: [k] ordinary vehicles for one destination; unlike
    MNM_Origin the type is always drawn and overrides of the ratio are not read *)
Fixpoint drelease_n (k : nat) (D : ddraws) (cur assign : Z) (o d : Z) (ratio : Q) (w : dworld) : dworld :=
  match k with
  | O => w
  | S k' =>
      let id := f_num (w_fac (dw_w w)) + 1 in
      let w1 := make_veh (dw_w w) cur (Qle_bool (d_adapt (dd_base D) id) ratio) o d assign in
      let w2 := dset_w w (set_oq w1 o (w_oq w1 o ++ [id])) in
      drelease_n k' D cur assign o d ratio (dset_tour w2 id None)
  end.
Fixpoint drelease_dests (N : net) (D : ddraws) (cur assign : Z) (o : Z) (ratio : Q)
    (ds : list (Z * (Z -> Q))) (w : dworld) : dworld :=
  match ds with
  | [] => w
  | (d, dem) :: ds' =>
      let k := rround (d_rel (dd_base D) o d) (dem assign * n_fs N) in
      drelease_dests N D cur assign o ratio ds'
        (drelease_n (Z.to_nat k) D cur (Z.quot cur (n_freq N)) o d ratio w)
  end.

(** src/delivery_traffic.cpp:275-299 with 60-75 [make_veh_delivery] and 16-24
    [set_multi_od_seq]: [k] vehicles for one tour *)
Fixpoint drelease_tour (k : nat) (D : ddraws) (cur assign : Z) (o : Z) (ratio : Q) (sq : list (Z * Z)) (w : dworld)
    : res dworld :=
  match k with
  | O => Ok w
  | S k' =>
      let id := f_num (w_fac (dw_w w)) + 1 in
      do _ <- guard (1 <? length sq)%nat EAssert;
      let d := snd (hd (0, 0) sq) in
      let w1 := make_veh (dw_w w) cur (Qle_bool (d_adapt (dd_base D) id) ratio) o d assign in
      let w2 := dset_w w (set_oq w1 o (w_oq w1 o ++ [id])) in
      let w3 := dset_tour w2 id (Some {| tr_seq := sq; tr_at := 0; tr_wait := 0 |}) in
      drelease_tour k' D cur assign o ratio sq
        {| dw_w := dw_w w3; dw_tour := dw_tour w3; dw_made := dw_made w3 + 1; dw_log := dw_log w3 |}
  end.
Fixpoint drelease_tours (N : net) (D : ddraws) (cur assign : Z) (o : Z) (ratio : Q) (i : nat)
    (ts : list (list (Z * Z) * (Z -> Q))) (w : dworld) : res dworld :=
  match ts with
  | [] => Ok w
  | (sq, dem) :: ts' =>
      let k := rround (dd_rel D o i) (dem assign * n_fs N) in
      do w1 <- drelease_tour (Z.to_nat k) D cur (Z.quot cur (n_freq N)) o ratio sq w;
      drelease_tours N D cur assign o ratio (S i) ts' w1
  end.

(** src/delivery_traffic.cpp:221-305 [MNM_Origin_Delivery::release_one_interval] *)
Definition drelease_one (DN : dnet) (D : ddraws) (cur assign : Z) (ratio : Q) (w : dworld) (o : origin) : res dworld :=
  if assign <? 0 then Ok w
  else
    let w1 := drelease_dests (dn_net DN) D cur assign (o_node o) ratio (o_demand o) w in
    do w2 <- drelease_tours (dn_net DN) D cur assign (o_node o) ratio 0 (dn_tours DN (o_node o)) w1;
    Ok (dset_w w2 (set_oq (dw_w w2) (o_node o) (d_oshuf (dd_base D) (o_node o) (w_oq (dw_w w2) (o_node o))))).

(** src/dta.cpp:561-640: step 1 of load_once, as in Model_Sim.v [release_all] *)
Definition drelease_all (DN : dnet) (D : ddraws) (cur assign : Z) (w : dworld) : res dworld :=
  let N := dn_net DN in
  do _ <- guard (negb (n_freq N =? 0)) EUB;
  if Z.rem cur (n_freq N) =? 0
  then foldM (drelease_one DN D cur (if n_total_assign N <=? assign then -1 else assign) (base_ratio (n_routing N)))
             w (n_origins N)
  else Ok w.

(** * Links *)

(** The test [dynamic_cast<MNM_DMOND *> (m_from_node) != nullptr]: link [l] leaves an
    origin node *)
Definition from_origin (N : net) (l : Z) : bool :=
  existsb (fun nk => match snd nk with NOrigin => memb l (n_out N (fst nk)) | _ => false end) (n_nodes N).

(** src/delivery_traffic.cpp:96-132 [MNM_Dlink_Pq_Delay::clear_incoming_array]: scan of
    the incoming array.  [waits v]: a delivery vehicle on a link from an origin with
    m_waiting_time > 0.  Returns the vehicles moved, kept, and those whose waiting
    time is counted down. *)
Fixpoint delay_scan (waits : Z -> bool) (budget : Q) (inc : list Z) : list Z * list Z * list Z :=
  match inc with
  | [] => ([], [], [])
  | v :: inc' =>
      if Qltb 0 budget then
        if waits v then let r := delay_scan waits budget inc' in (fst (fst r), v :: snd (fst r), v :: snd r)
        else let r := delay_scan waits (budget - 1) inc' in (v :: fst (fst r), snd (fst r), snd r)
      else ([], inc, [])
  end.
Definition waiting (DN : dnet) (d : dworld) (l v : Z) : bool :=
  match dw_tour d v with
  | Some tr => from_origin (dn_net DN) l && (0 <? tr_wait tr)
  | None => false
  end.
Definition set_wait (f : Z -> Z) (d : dworld) (v : Z) : dworld :=
  match dw_tour d v with
  | Some tr => dset_tour d v (Some {| tr_seq := tr_seq tr; tr_at := tr_at tr; tr_wait := f (tr_wait tr) |})
  | None => d
  end.
Definition delay_clear (DN : dnet) (d : dworld) (l : Z) : res dworld :=
  let x := w_link (dw_w d) l in
  match l_body x with
  | BPq m q _ =>
      let r := delay_scan (waiting DN d l) (pq_supply (l_par x) * p_fs (l_par x)) (l_in x) in
      let q' := q ++ map (fun v => (v, 0)) (fst (fst r)) in
      let y := {| l_par := l_par x; l_in := snd (fst r); l_fin := l_fin x; l_body := BPq m q' (Zlen (l_fin x) + Zlen q') |} in
      let d1 := fold_left (set_wait (fun k => k - 1)) (snd r) d in
      let d2 := if from_origin (dn_net DN) l then fold_left (set_wait (fun _ => 0)) (fst (fst r)) d1 else d1 in
      Ok (dset_w d2 (set_link (dw_w d2) l y))
  | _ => do y <- link_clear x; Ok (dset_w d (set_link (dw_w d) l y))
  end.

(** src/dta.cpp:660-676: step 4 for one link; MNM_Link_Factory_Delivery makes
    MNM_Dlink_Pq_Delay links for the type PQ (src/delivery_traffic.cpp:147-183) *)
Definition dlink_step (DN : dnet) (D : ddraws) (d : dworld) (l : Z) : res dworld :=
  do d1 <- delay_clear DN d l;
  do y <- link_evolve (d_cell (dd_base D) l) (has_next (dw_w d1)) (w_link (dw_w d1) l);
  Ok (dset_w d1 (set_link (dw_w d1) l y)).

(** * Arrival *)

Definition set_od (o d : Z) (v : veh) : veh :=
  {| v_org := o; v_dst := d; v_adapt := v_adapt v; v_start := v_start v; v_fin := v_fin v;
     v_assign := v_assign v; v_cur := v_cur v; v_next := v_next v; v_path := v_path v; v_miles := v_miles v |}.

(** src/delivery_traffic.cpp:474-495 [MNM_Routing_Delivery_Fixed::remove_finished] of a
    delivery vehicle, del = true: forgets the route *)
Definition forget_route (w : world) (v : Z) : res world :=
  match w_trk w v with
  | None => Ok w
  | Some _ => do _ <- guard (negb (v_adapt (w_veh w v))) EAssert; Ok (set_trk w v None)
  end.

(** src/delivery_traffic.cpp:408-414: the tour ends.  src/factory.cpp:41-67
    [remove_finished_veh], del = true *)
Definition finish_tour (t : Z) (w : world) (v : Z) : res world :=
  let x := set_vfin t (w_veh w v) in
  do w2 <- forget_route (set_vehs w (upd (w_veh w) v x)) v;
  let f := w_fac w2 in
  do _ <- guard (memb v (f_live f)) EThrow;
  do _ <- guard (v_start x <? v_fin x) EAssert;
  let f' := {| f_live := filter (fun y => negb (y =? v)) (f_live f); f_num := f_num f;
               f_enroute := f_enroute f - 1; f_finished := f_finished f + 1;
               f_tt := (f_tt f + inject_Z (v_fin x - v_start x))%Q;
               f_done := f_done f ++ [(v, (v_start x, v_fin x))] |} in
  do _ <- guard (f_num f' =? f_finished f' + f_enroute f') EAssert;
  Ok (set_fac w2 f').

(** src/delivery_traffic.cpp:39-49 [move_to_next_od] *)
Definition next_at (tr : tour) : nat := if (S (tr_at tr) <? length (tr_seq tr))%nat then S (tr_at tr) else tr_at tr.

(** src/delivery_traffic.cpp:365-421 [MNM_Destination_Delivery::receive], one delivery
    vehicle: [vector::at] out of range throws *)
Definition receive_tour (DN : dnet) (t n : Z) (d : dworld) (v : Z) (tr : tour) : res dworld :=
  match nth_error (tr_seq tr) (tr_at tr) with
  | None => Err EThrow
  | Some (_, here) =>
      if negb (snd (last (tr_seq tr) (0, 0)) =? here)
      then
        do _ <- guard (here =? n) EAssert;
        match nth_error (tr_seq tr) (next_at tr) with
        | None => Err EThrow
        | Some (o', d') =>
            do _ <- guard (negb (d' =? n)) EAssert;
            let w := dw_w d in
            let w1 := set_vehs w (upd (w_veh w) v (set_od o' d' (w_veh w v))) in
            let w2 := set_oq w1 o' (w_oq w1 o' ++ [v]) in
            do w3 <- forget_route w2 v;
            let w4 := set_vehs w3 (upd (w_veh w3) v (set_path None (w_veh w3 v))) in
            Ok (dset_tour (dset_w d w4) v (Some {| tr_seq := tr_seq tr; tr_at := next_at tr; tr_wait := dn_pickup DN o' |}))
        end
      else do w <- finish_tour t (dw_w d) v; Ok (dset_w d w)
  end.
Definition dlog (d : dworld) (e : Z * (Z * Z)) : dworld :=
  {| dw_w := dw_w d; dw_tour := dw_tour d; dw_made := dw_made d; dw_log := dw_log d ++ [e] |}.
(** ordinary vehicles (415-420) are received as by MNM_Destination: the delivery version of
    remove_finished makes the same checks for them *)
Definition dreceive_veh (DN : dnet) (t n : Z) (d : dworld) (v : Z) : res dworld :=
  do _ <- guard (v_dst (w_veh (dw_w d) v) =? n) EThrow;
  do d' <- match dw_tour d v with
           | Some tr => receive_tour DN t n d v tr
           | None => do w <- receive_veh (dn_net DN) t n (dw_w d) v; Ok (dset_w d w)
           end;
  Ok (dlog d' (v, (t, n))).
Definition dreceive (DN : dnet) (t : Z) (d : dworld) (n : Z) : res dworld :=
  do d1 <- foldM (dreceive_veh DN t n) d (w_dq (dw_w d) n);
  Ok (dset_w d1 (set_dq (dw_w d1) n [])).

(** * One interval and the loop: src/dta.cpp:538-718 as in Model_Sim.v *)
Definition on_world (f : world -> res world) (d : dworld) : res dworld := do w <- f (dw_w d); Ok (dset_w d w).
Definition dload_once (DN : dnet) (D : ddraws) (t assign : Z) (d : dworld) : res dworld :=
  let N := dn_net DN in
  do d1 <- drelease_all DN D t assign d;
  do d2 <- on_world (update_routing N (dd_base D) t) d1;
  do d3 <- on_world (fun w => foldM (node_evolve N (dd_base D) t) w (n_nodes N)) d2;
  do d4 <- foldM (dlink_step DN D) d3 (n_links N);
  foldM (dreceive DN t) d4 (n_dests N).

Record dstate := { ds_cur : Z; ds_assign : Z; ds_d : dworld }.
Definition dinit (DN : dnet) (w : world) : dstate :=
  {| ds_cur := 0; ds_assign := n_start_assign (dn_net DN);
     ds_d := {| dw_w := w; dw_tour := fun _ => None; dw_made := 0; dw_log := [] |} |}.
Definition dloop_body (DN : dnet) (D : Z -> ddraws) (s : dstate) : res dstate :=
  do d <- dload_once DN (D (ds_cur s)) (ds_cur s) (ds_assign s) (ds_d s);
  let cur := ds_cur s + 1 in
  Ok {| ds_cur := cur; ds_assign := if Z.rem cur (n_freq (dn_net DN)) =? 0 then ds_assign s + 1 else ds_assign s;
        ds_d := d |}.
Fixpoint drun (DN : dnet) (D : Z -> ddraws) (k : nat) (s : dstate) : res dstate :=
  match k with
  | O => Ok s
  | S k' => do s1 <- drun DN D k' s; dloop_body DN D s1
  end.
