(** The real-time engine: src/realtime_dta.cpp (MNM_Realtime_Dta, MNM_Dta_Screenshot,
    namespace MNM), src/marginal_cost.cpp (MNM_Link_Tt), src/vms.cpp (MNM_Link_Vms).
    The loading steps are those of Model_Sim.v; a screenshot is a [world]. *)
From Verif Require Import Base Model_Num Model_Graph Model_CC Model_Path Model_Link Model_World Model_Node Model_Sim.

(** * Travel times measured during a pass (src/marginal_cost.cpp) *)

(** m_tracker: vehicle -> (m_link, m_start_time); m_tt_map: link -> seconds *)
Record meter := { mt_rec : Z -> option (option Z * Z); mt_tt : Z -> Q }.

(** src/marginal_cost.cpp:24-36 [intialize]; a zero free-flow speed is not modelled *)
Definition meter_init (w : world) : meter :=
  {| mt_rec := fun _ => None;
     mt_tt := fun l => (p_len (l_par (w_link w l)) / p_ffs (l_par (w_link w l)))%Q |}.

(** src/marginal_cost.cpp:100-106 [update_indiviual_tt], m_update_speed = 0.5 (7);
    a null link is not in the map: [EUB] *)
Definition blend (old new : Q) : Q := (old * (1 - (1 # 2)) + (1 # 2) * new)%Q.
Definition meter_link (l : option Z) (x : Q) (m : meter) : res meter :=
  match l with
  | None => Err EUB
  | Some l => Ok {| mt_rec := mt_rec m; mt_tt := upd (mt_tt m) l (blend (mt_tt m l) x) |}
  end.
Definition meter_rec (v : Z) (x : option (option Z * Z)) (m : meter) : meter :=
  {| mt_rec := upd (mt_rec m) v x; mt_tt := mt_tt m |}.

(** src/marginal_cost.cpp:47-77, one vehicle, with register_vehicle (82-88) and
    change_link (90-97) *)
Definition meter_veh (ut : Q) (t : Z) (w : world) (m : meter) (v : Z) : res meter :=
  let x := w_veh w v in
  match mt_rec m v with
  | None => Ok (meter_rec v (Some (v_cur x, t)) m)
  | Some (l, t0) =>
      let d := (inject_Z (t - t0) * ut)%Q in
      if 0 <? v_fin x then do m1 <- meter_link l d m; Ok (meter_rec v None m1)
      else if negb (opt_eqb l (v_cur x))
           then do m1 <- meter_link l d m; Ok (meter_rec v (Some (v_cur x, t)) m1)
           else Err EThrow
  end.

(** src/marginal_cost.cpp:38-80 [update_tt] *)
Definition meter_update (N : net) (ut : Q) (t : Z) (w : world) (m : meter) : res meter :=
  foldM (fun m l => foldM (meter_veh ut t w) m (l_in (w_link w l))) m (n_links N).

(** src/marginal_cost.cpp:122-135 [calculate_link_mc] *)
Definition link_mc (p : lparam) (tt : Q) : Q :=
  let fft := divide (p_len p) (p_ffs p) in if Qltb tt fft then fft else (fft + tt)%Q.

(** * One pass of a gradient computation (src/realtime_dta.cpp:118-244, 297-406) *)

(** m_average_link_tt and m_link_tt_difference, with the screenshot and its meter *)
Record pass := { pa_w : world; pa_m : meter; pa_avg : Z -> Q }.

(** src/od.cpp:190-212 [receive (current_interval)]: the vehicle only gets its finish
    time; vehicle factory and route tracker are not told *)
Definition receive1 (t : Z) (w : world) (n : Z) : res world :=
  do w1 <- foldM (fun w v => do _ <- guard (v_dst (w_veh w v) =? n) EThrow;
                             Ok (set_vehs w (upd (w_veh w) v (set_vfin t (w_veh w v))))) w (w_dq w n);
  Ok (set_dq w1 n []).

(** src/realtime_dta.cpp:224-233, 384-393: step 6.  TInt division truncates; [EUB]
    for a zero divisor; m_average_link_tt has every link (73-80) *)
Definition sample (m sp t : Z) (tt avg : Z -> Q) : res (Z -> Q) :=
  do _ <- guard (negb (sp =? 0) && negb (Z.quot m sp =? 0)) EUB;
  if Z.rem (t + 1) (Z.quot m sp) =? 0 then Ok (fun l => avg l + tt l / inject_Z sp)%Q else Ok avg.

(** src/realtime_dta.cpp:165-236, 328-396: one interval.  Demand is released in
    interval 0 only, with adaptive ratio 0; routing is MNM_Routing_Fixed without
    buffer (726-727), that is n_routing = RFixed and n_rfreq = -1. *)
Definition pass_step (N : net) (D : draws) (ut : Q) (m sp assign t : Z) (x : pass) : res pass :=
  let w1 := if t =? 0 then fold_left (release_one N D t assign 0%Q) (n_origins N) (pa_w x) else pa_w x in
  do w2 <- update_routing N D t w1;
  do w3 <- foldM (node_evolve N D t) w2 (n_nodes N);
  do mt <- meter_update N ut t w3 (pa_m x);
  do w4 <- foldM (link_step D) w3 (n_links N);
  do w5 <- foldM (receive1 t) w4 (n_dests N);
  do a <- sample m sp t (mt_tt mt) (pa_avg x);
  Ok {| pa_w := w5; pa_m := mt; pa_avg := a |}.
Fixpoint pass_run (N : net) (D : Z -> draws) (ut : Q) (m sp assign : Z) (k : nat) (x : pass) : res pass :=
  match k with
  | O => Ok x
  | S k' => do x1 <- pass_run N D ut m sp assign k' x;
            pass_step N (D (Z.of_nat k')) ut m sp assign (Z.of_nat k') x1
  end.

(** src/realtime_dta.cpp:138-147, 317-323: the loops meant to clear the maps assign to
    copies of the entries, so [avg] comes in as the caller left it *)
Definition pass_start (w : world) (avg : Z -> Q) : pass := {| pa_w := w; pa_m := meter_init w; pa_avg := avg |}.
Definition gradient_pass (N : net) (D : Z -> draws) (ut : Q) (m sp assign : Z) (w : world) (avg : Z -> Q) : res pass :=
  pass_run N D ut m sp assign (Z.to_nat m) (pass_start w avg).

(** src/realtime_dta.cpp:238-247: differences with the measured speeds (the file is a
    hash map, so each link occurs once); a zero speed is not modelled *)
Definition differences (par : Z -> lparam) (avg : Z -> Q) (speeds : list (Z * Q)) (diff : Z -> Q) : Z -> Q :=
  fold_left (fun d s => upd d (fst s) (avg (fst s) - p_len (par (fst s)) / snd s)%Q) speeds diff.

(** src/od.cpp:246-267 [get_demand_bynode] *)
Fixpoint od_find (d : Z) (l : list (Z * (Z -> Q))) : option (Z -> Q) :=
  match l with [] => None | (d', f) :: l' => if d =? d' then Some f else od_find d l' end.
Definition demand_bynode (N : net) (o d assign : Z) : res Q :=
  match find (fun x => o_node x =? o) (n_origins N) with
  | Some x => if memb d (n_dests N)
              then match od_find d (o_demand x) with Some f => Ok (f assign) | None => Ok 0%Q end
              else Err EThrow
  | None => Err EThrow
  end.

(** src/realtime_dta.cpp:269-288: estimation gradient of one path *)
Definition est_gradient (par : Z -> lparam) (nlinks : Z) (avg diff : Z -> Q) (dem : Q) (links : list Z) : Q :=
  fold_left (fun g l => g + divide (diff l * link_mc (par l) (avg l)) (dem * inject_Z nlinks))%Q links 0%Q.
(** src/realtime_dta.cpp:428-446: optimisation gradient of one path; [flow] is
    get_link_flow of the screenshot after the pass *)
Definition opt_gradient (par : Z -> lparam) (flow : Z -> Q) (nlinks : Z) (avg : Z -> Q) (dem : Q) (links : list Z) : Q :=
  fold_left (fun g l => g + divide (avg l) dem + divide (link_mc (par l) (avg l) * flow l) (dem * inject_Z nlinks))%Q
    links 0%Q.

(** m_buffer[col] = x; initialize allocates four columns (44) *)
Fixpoint set_nth (i : nat) (x : Q) (l : list Q) : list Q :=
  match l, i with
  | [], _ => []
  | _ :: l', O => x :: l'
  | y :: l', S i' => y :: set_nth i' x l'
  end.
Definition set_col (col : nat) (x : Q) (e : pentry) : pentry :=
  {| e_path := e_path e; e_p := e_p e; e_buf := set_nth col x (e_buf e) |}.
Definition get_col (col : nat) (e : pentry) : Q := nth col (e_buf e) 0%Q.

(** src/realtime_dta.cpp:262-290, 421-450: the loops over the path table *)
Definition write_gradient (N : net) (assign : Z) (col : nat) (grad : Q -> list Z -> Q) (pt : ptable) : res ptable :=
  mapM (fun x : (Z * Z) * list pentry =>
          do dem <- demand_bynode N (fst (fst x)) (snd (fst x)) assign;
          Ok (fst x, map (fun e => set_col col (grad dem (r_links (e_path e))) e) (snd x))) pt.

(** * Route shares *)

(** src/realtime_dta.cpp:1037-1056: one path of [update_path_p].  Step sizes are
    nonnegative, so 1 + step is never zero. *)
Definition nudge (step : Q) (g p : Q) : Q :=
  let x := if Qltb 0 g then (p / (1 + step))%Q else (p * (1 + step))%Q in
  Qmin (Qmax x (-(10000))) 10000.
Definition normalize_set (es : list pentry) : res (list pentry) :=
  do ps <- normalize_p (map e_p es); Ok (set_ps es ps).
Definition update_set (col : nat) (step : Q) (es : list pentry) : res (list pentry) :=
  normalize_set (map (fun e => {| e_path := e_path e; e_p := nudge step (get_col col e) (e_p e); e_buf := e_buf e |}) es).
(** src/realtime_dta.cpp:1029-1061 [update_path_p] *)
Definition update_path_p (col : nat) (step : Q) (pt : ptable) : res ptable :=
  mapM (fun x : (Z * Z) * list pentry => do es <- update_set col step (snd x); Ok (fst x, es)) pt.

(** src/realtime_dta.cpp:580-590 (in [optimize_next]) and 550-566 (in
    [estimate_previous]): the shares over the iterations; each pass is represented by
    the averages (and flows or differences) that it leaves *)
Fixpoint optimize_shares (N : net) (assign : Z) (par : Z -> lparam) (nlinks : Z) (step : Q) (i : Z)
    (obs : list ((Z -> Q) * (Z -> Q))) (pt : ptable) : res ptable :=
  match obs with
  | [] => Ok pt
  | (avg, flow) :: obs' =>
      do pt1 <- write_gradient N assign 3 (opt_gradient par flow nlinks avg) pt;
      do pt2 <- update_path_p 3 (step / inject_Z (i + 1)) pt1;
      optimize_shares N assign par nlinks step (i + 1) obs' pt2
  end.
Fixpoint estimate_shares (N : net) (assign : Z) (par : Z -> lparam) (nlinks : Z) (step : Q) (i : Z)
    (obs : list ((Z -> Q) * (Z -> Q))) (pt : ptable) : res ptable :=
  match obs with
  | [] => Ok pt
  | (avg, diff) :: obs' =>
      do pt1 <- write_gradient N assign 1 (est_gradient par nlinks avg diff) pt;
      do pt2 <- update_path_p 1 (step / inject_Z (i + 1)) pt1;
      estimate_shares N assign par nlinks step (i + 1) obs' pt2
  end.

(** src/path.cpp:864-877 [copy_p_to_buffer] *)
Definition copy_p (col : nat) (pt : ptable) : ptable :=
  map (fun x : (Z * Z) * list pentry => (fst x, map (fun e => set_col col (e_p e) e) (snd x))) pt.
(** src/path.cpp:851-862 [normalize_path_table_p] *)
Definition normalize_table (pt : ptable) : res ptable :=
  mapM (fun x : (Z * Z) * list pentry => do es <- normalize_set (snd x); Ok (fst x, es)) pt.

(** src/realtime_dta.cpp:82-95 (end of [init_running]) *)
Definition init_shares (pt : ptable) : res ptable :=
  normalize_table (map (fun x : (Z * Z) * list pentry =>
    (fst x, map (fun e => {| e_path := e_path e; e_p := 0%Q; e_buf := [0; 0; 0; 0]%Q |}) (snd x))) pt).

(** * Message signs (src/vms.cpp) *)

(** [vm_link] m_my_link_ID, [vm_outs] the keys of m_link_path_map in hash order *)
Record vms := { vm_link : Z; vm_outs : list Z; vm_detour : Z; vm_ratio : Q }.

(** src/vms.cpp:6-15, 27-38 constructor and [hook_link] *)
Definition make_vms (g : graph) (l : Z) : res vms :=
  do e <- get_endpoints g l;
  do outs <- connections g (fst e) Outgoing;
  Ok {| vm_link := l; vm_outs := outs; vm_detour := -1; vm_ratio := 1%Q |}.

(** src/vms.cpp:40-64 [hook_path]: the paths through a link, with their OD nodes.
    The code stores pointers once; the table gets no new paths afterwards. *)
Definition paths_via (pt : ptable) (b : Z) : list ((Z * Z) * pentry) :=
  concat (map (fun x : (Z * Z) * list pentry =>
    map (pair (fst x)) (filter (fun e => memb b (r_links (e_path e))) (snd x))) pt).

(** src/vms.cpp:76-95: optimal minus real flow of an out link *)
Definition link_gain (N : net) (assign : Z) (pt : ptable) (b : Z) : res Q :=
  do r <- foldM (fun (a : Q * Q) (x : (Z * Z) * pentry) =>
            do d <- demand_bynode N (fst (fst x)) (snd (fst x)) assign;
            Ok (fst a + get_col 2 (snd x) * d, snd a + get_col 0 (snd x) * d)%Q) (0%Q, 0%Q) (paths_via pt b);
  Ok (fst r - snd r)%Q.

(** src/vms.cpp:66-108 [generate_detour_link]; [None] is -DBL_MAX with link -1 *)
Definition best_step (N : net) (assign : Z) (pt : ptable) (acc : option (Z * Q)) (b : Z) : res (option (Z * Q)) :=
  do g <- link_gain N assign pt b;
  match acc with
  | None => Ok (Some (b, g))
  | Some (_, g0) => if Qltb g0 g then Ok (Some (b, g)) else Ok acc
  end.
Definition generate_detour (N : net) (assign : Z) (pt : ptable) (v : vms) : res vms :=
  do r <- foldM (best_step N assign pt) None (vm_outs v);
  match r with
  | Some (b, _) => do _ <- guard (0 <=? b) EThrow;
                   Ok {| vm_link := vm_link v; vm_outs := vm_outs v; vm_detour := b; vm_ratio := vm_ratio v |}
  | None => Err EThrow
  end.

(** src/realtime_dta.cpp:478-531 [update_compliance_ratio] for one sign: the flows are
    overwritten by each path, then max (min (x, 0), 1) *)
Definition sign_flows (N : net) (assign : Z) (pt : ptable) (v : vms) : res (Q * Q) :=
  foldM (fun (a : Q * Q) b =>
           if negb (b =? vm_detour v) && (0 <? vm_detour v)
           then foldM (fun (_ : Q * Q) (x : (Z * Z) * pentry) =>
                         do d <- demand_bynode N (fst (fst x)) (snd (fst x)) assign;
                         Ok (get_col 0 (snd x) * d, e_p (snd x) * d)%Q) a (paths_via pt b)
           else Ok a) (0%Q, 0%Q) (vm_outs v).
Definition update_ratio (N : net) (assign : Z) (pt : ptable) (v : vms) : res vms :=
  do f <- sign_flows N assign pt v;
  let x := Qmax (Qmin (divide (fst f - snd f) (fst f)) 0) 1 in
  Ok {| vm_link := vm_link v; vm_outs := vm_outs v; vm_detour := vm_detour v;
        vm_ratio := (vm_ratio v * (1 - (3 # 10)) + x * (3 # 10))%Q |}.

(** src/realtime_dta.cpp:650-665 (in [predict_next]): shares of the paths through the
    other out links of each sign *)
Definition scale_via (c : Q) (pt : ptable) (b : Z) : ptable :=
  map (fun x : (Z * Z) * list pentry =>
    (fst x, map (fun e => if memb b (r_links (e_path e))
                          then {| e_path := e_path e; e_p := (e_p e * c)%Q; e_buf := e_buf e |} else e) (snd x))) pt.
Definition comply (pt : ptable) (v : vms) : ptable :=
  fold_left (scale_via (vm_ratio v)) (filter (fun b => negb (b =? vm_detour v)) (vm_outs v)) pt.
Definition predicted_shares (vs : list vms) (pt : ptable) : res ptable :=
  normalize_table (fold_left comply vs pt).

(** * Prediction (src/realtime_dta.cpp:668-733) *)

(** one interval, without the statistics; the assignment interval is reduced modulo
    m_total_assign_inter before each release *)
Definition predict_step (N : net) (D : draws) (t : Z) (s : Z * world) : res (Z * world) :=
  do _ <- guard (negb (n_freq N =? 0)) EUB;
  do r <- (if Z.rem (t + 1) (n_freq N) =? 0
           then do _ <- guard (negb (n_total_assign N =? 0)) EUB;
                let a := Z.rem (fst s) (n_total_assign N) in
                Ok (a + 1, fold_left (release_one N D t a 0%Q) (n_origins N) (snd s))
           else Ok s);
  do w2 <- update_routing N D t (snd r);
  do w3 <- foldM (node_evolve N D t) w2 (n_nodes N);
  do w4 <- foldM (link_step D) w3 (n_links N);
  do w5 <- foldM (receive1 t) w4 (n_dests N);
  Ok (fst r, w5).
Fixpoint predict (N : net) (D : Z -> draws) (k : nat) (s : Z * world) : res (Z * world) :=
  match k with
  | O => Ok s
  | S k' => do s1 <- predict N D k' s; predict_step N (D (Z.of_nat k')) (Z.of_nat k') s1
  end.

(** * Screenshots *)

(** A link newly built from the same files (src/realtime_dta.cpp:740-747
    [build_static_network]): same parameters, nothing on it. *)
Definition blank_cell (c : cell) : cell :=
  {| c_hold := c_hold c; c_flow := c_flow c; c_wr := c_wr c; c_vol := 0; c_q := [] |}.
Definition blank (l : link) : link :=
  {| l_par := l_par l; l_in := []; l_fin := [];
     l_body := match l_body l with
               | BCtm cs => BCtm (map blank_cell cs)
               | BPq s _ _ => BPq s [] 0
               | BLq _ _ => BLq [] 0
               end |}.

(** src/realtime_dta.h:101-113 [copy_veh] after make_veh (src/factory.cpp:28-39), then
    src/routing.cpp:640-649 [add_veh_path].  Null links and vehicles without tracked
    route are [EUB].  m_assign_interval and m_path stay -1 and null
    (src/vehicle.cpp:3-19). *)
Definition copy_veh (src : world) (w : world) (v : Z) : res (world * Z) :=
  let x := w_veh src v in
  let id := f_num (w_fac w) + 1 in
  match v_cur x, v_next x, w_trk src v with
  | Some c, Some n, Some route =>
      let w1 := make_veh w (v_start x) (v_adapt x) (v_org x) (v_dst x) (-1) in
      let y := set_next (Some n) (set_cur (Some c) (w_veh w1 id)) in
      Ok (set_trk (set_vehs w1 (upd (w_veh w1) id y)) id (Some route), id)
  | _, _, _ => Err EUB
  end.
Fixpoint copy_vehs (src : world) (w : world) (vs : list Z) : res (world * list Z) :=
  match vs with
  | [] => Ok (w, [])
  | v :: vs' => do a <- copy_veh src w v;
                do b <- copy_vehs src (fst a) vs';
                Ok (fst b, snd a :: snd b)
  end.
(** src/realtime_dta.cpp:969-989: m_veh_queue of each cell; m_volume is not set *)
Fixpoint copy_cells (src : world) (w : world) (cs : list cell) : res (world * list cell) :=
  match cs with
  | [] => Ok (w, [])
  | c :: cs' => do a <- copy_vehs src w (c_q c);
                do b <- copy_cells src (fst a) cs';
                Ok (fst b, set_q (blank_cell c) (snd a) :: snd b)
  end.
(** src/realtime_dta.cpp:945-1009: one link.  The last case of the dynamic_cast chain
    (MNM_Dlink_Lq) copies nothing from the queue. *)
Definition copy_link (src : world) (w : world) (l : Z) : res world :=
  let x := w_link src l in
  do a <- copy_vehs src w (l_fin x);
  do b <- copy_vehs src (fst a) (l_in x);
  do c <- match l_body x with
          | BCtm cs => do r <- copy_cells src (fst b) cs; Ok (fst r, BCtm (snd r))
          | BPq s q _ => do r <- copy_vehs src (fst b) (map fst q); Ok (fst r, BPq s (combine (snd r) (map snd q)) 0)
          | BLq _ _ => Ok (fst b, BLq [] 0)
          end;
  Ok (set_link (fst c) l {| l_par := l_par x; l_in := snd b; l_fin := snd a; l_body := snd c |}).

(** src/realtime_dta.cpp:739-747, 1018-1026 [build_static_network], [make_empty_screenshot]:
    no vehicles, no curves installed; the path table is set later by init_routing *)
Definition empty_shot (src : world) : world :=
  {| w_veh := w_veh src; w_link := fun l => blank (w_link src l); w_oq := fun _ => []; w_dq := fun _ => [];
     w_cc := {| cc_Nin := fun _ => None; cc_Nout := fun _ => None; cc_Tin := fun _ => None; cc_Tout := fun _ => None |};
     w_fac := {| f_live := []; f_num := 0; f_enroute := 0; f_finished := 0; f_tt := 0%Q; f_done := [] |};
     w_trk := fun _ => None; w_pt := w_pt src |}.
(** src/realtime_dta.cpp:923-1015 [make_screenshot] ("TODO node vehicle migration") *)
Definition make_screenshot (N : net) (src : world) : res world :=
  foldM (copy_link src) (empty_shot src) (n_links N).

(** * Lifetime of the path table

    Only which objects are alive is tracked: the table (with its pathsets and paths)
    that MNM_Realtime_Dta loads once (m_path_table, 110-117), and whether the routing
    object of a screenshot has been given it.  The table has at least one path. *)
Record life := { lf_table : bool; lf_before : option bool; lf_after : option bool }.

(** any access to *m_path_table *)
Definition touch (s : life) : res life := do _ <- guard (lf_table s) EUB; Ok s.
(** src/routing.cpp:414-429 [init_routing] with 632-638 [set_path_table]: a routing that
    already has a table deletes it, even when it is the same; result: alive? *)
Definition init_routing (table : bool) (has : bool) : res bool :=
  if has then do _ <- guard table EUB; Ok false else Ok table.
(** src/routing.cpp:387-411, src/realtime_dta.cpp:730-736: destroying a screenshot
    destroys its routing, which deletes the table it was given *)
Definition destroy (table : bool) (shot : option bool) : res bool :=
  match shot with
  | Some true => do _ <- guard table EUB; Ok false
  | _ => Ok table
  end.

(** src/realtime_dta.cpp:62-96 [init_running] *)
Definition life_init (s : life) : res life :=
  do a <- destroy (lf_table s) (lf_before s);
  do b <- destroy a (lf_after s);
  touch {| lf_table := b; lf_before := Some false; lf_after := Some false |}.

(** src/realtime_dta.cpp:544-578 [estimate_previous] and 580-614 [optimize_next]: [n]
    iterations, each on a new screenshot that is given the table (148, 327), used
    (249-291, 565), and destroyed unless it is the last, which replaces the kept one *)
Fixpoint life_iters (n : nat) (table : bool) (kept : option bool) : res (bool * option bool) :=
  match n with
  | O => Ok (table, kept)
  | S n' =>
      do t1 <- init_routing table false;
      do _ <- guard t1 EUB;
      match n' with
      | O => do t2 <- destroy t1 kept; Ok (t2, Some true)
      | S _ => do t2 <- destroy t1 (Some true); life_iters n' t2 kept
      end
  end.

(** src/realtime_dta.cpp:456-477 [one_iteration]: estimation, compliance ratios (read
    paths if there are signs: not counted), copy_p_to_buffer, optimisation,
    copy_p_to_buffer, prediction (641-666: init_routing, then normalisation) *)
Definition life_iteration (est opt : nat) (s : life) : res life :=
  do a <- life_iters est (lf_table s) (lf_before s);
  do _ <- guard (fst a) EUB;
  do b <- life_iters opt (fst a) (lf_after s);
  do _ <- guard (fst b) EUB;
  do has <- match snd a with Some h => Ok h | None => Err EUB end;
  do t <- init_routing (fst b) has;
  touch {| lf_table := t; lf_before := Some true; lf_after := snd b |}.
Fixpoint life_run (est opt : nat) (k : nat) (s : life) : res life :=
  match k with O => Ok s | S k' => do s1 <- life_iteration est opt s; life_run est opt k' s1 end.

(** after the constructor (src/realtime_dta.cpp:6-15) *)
Definition life_start : life := {| lf_table := true; lf_before := None; lf_after := None |}.
