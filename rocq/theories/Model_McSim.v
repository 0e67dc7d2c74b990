(** Release, routing, arrival, one loading interval and the loading loop of a
    two-class simulation: classes MNM_Origin_Multiclass, MNM_Veh_Factory_Multiclass,
    MNM_Routing_Biclass_Hybrid, MNM_Routing_Biclass_Fixed and MNM_Dta_Multiclass
    (src/multiclass.cpp, src/routing.cpp, src/dta.cpp).  Conventions as in
    Model_Sim.v; a class is [true] for trucks. *)
From Verif Require Import Base Model_Num Model_CC Model_Path Model_Link Model_World Model_Node Model_Sim Model_McLink Model_McNode.

Definition mset_fac (w : mworld) (x : factory) (y : bool -> cfac) : mworld :=
  {| mw_veh := mw_veh w; mw_cls := mw_cls w; mw_lab := mw_lab w; mw_link := mw_link w; mw_oq := mw_oq w; mw_dq := mw_dq w;
     mw_cc := mw_cc w; mw_fac := x; mw_cf := y; mw_trk := mw_trk w; mw_pt := mw_pt w |}.
Definition mset_trk (w : mworld) (v : Z) (x : option (list Z)) : mworld :=
  {| mw_veh := mw_veh w; mw_cls := mw_cls w; mw_lab := mw_lab w; mw_link := mw_link w; mw_oq := mw_oq w; mw_dq := mw_dq w;
     mw_cc := mw_cc w; mw_fac := mw_fac w; mw_cf := mw_cf w; mw_trk := upd (mw_trk w) v x; mw_pt := mw_pt w |}.
Definition updb {A} (f : bool -> A) (k : bool) (x : A) : bool -> A := fun k' => if Bool.eqb k' k then x else f k'.

(** src/multiclass.h:399-432 [MNM_Origin_Multiclass]: demand of each class by
    destination and assignment interval (m_demand_car, m_demand_truck), ratios by
    destination and interval (m_adaptive_ratio_car, m_adaptive_ratio_truck), label
    ratios (m_car_label_ratio, m_truck_label_ratio) *)
Record morigin := {
  og_node : Z; og_demand : bool -> list (Z * (Z -> Q)); og_ratio : bool -> Z -> option (Z -> Q); og_labels : bool -> list Q }.

(** routing_type (src/dta.cpp:574-634); [MRBiclass] is "Biclass_Hybrid" with
    adaptive_ratio_car and adaptive_ratio_truck *)
Inductive mrtype := MRFixed | MRAdaptive | MRHybrid (ratio : Q) | MRBiclass (rc rt : Q).

(** Static network and configuration, as [net] *)
Record mnet := {
  mn_fs : Q; mn_pcu : Q; mn_nodes : list (Z * mnkind); mn_out : Z -> list Z; mn_in : Z -> list Z;
  mn_links : list Z; mn_to : Z -> Z; mn_origins : list morigin; mn_dests : list Z;
  mn_freq : Z; mn_total_assign : Z; mn_start_assign : Z; mn_total_int : Z;
  mn_routing : mrtype; mn_rfreq : Z; mn_rlen : Z }.

(** Random numbers and hash orders of one interval: those shared with the
    single-class code ([r_base]: adaptive draw, shuffle of the queue, route draw,
    routing trees), demand rounding by class, labels, and those of nodes and links. *)
Record mdrawsI := {
  r_base : draws; r_rel : bool -> Z -> Z -> Q; r_label : Z -> Q; r_node : mndraws; r_link : Z -> mdraws }.

(** * Release *)

(** src/multiclass.cpp:2917-2979 [generate_label]: index of the label drawn, -1 when
    there are no ratios or none is positive *)
Fixpoint label_from (i : Z) (r : Q) (ps : list Q) : Z :=
  match ps with
  | [] => -1
  | p :: ps' => if negb (approx_lt p r tol) then i else label_from (i + 1) (r - p) ps'
  end.
Definition generate_label (ps : list Q) (r : Q) : Z :=
  if forallb (fun p => Qle_bool p 0) ps then -1 else label_from 0 r ps.

(** src/multiclass.cpp:3341-3366 [make_veh_multiclass], then the assignments of
    3118-3127 *)
Definition mmake_veh (w : mworld) (start : Z) (adapt k : bool) (org dst assign lab : Z) : mworld :=
  let id := f_num (mw_fac w) + 1 in
  let v := {| v_org := org; v_dst := dst; v_adapt := adapt; v_start := start; v_fin := -1; v_assign := assign;
              v_cur := None; v_next := None; v_path := None; v_miles := 0%Q |} in
  let f := {| f_live := f_live (mw_fac w) ++ [id]; f_num := id; f_enroute := f_enroute (mw_fac w) + 1;
              f_finished := f_finished (mw_fac w); f_tt := f_tt (mw_fac w); f_done := f_done (mw_fac w) |} in
  let c := mw_cf w k in
  {| mw_veh := upd (mw_veh w) id v; mw_cls := upd (mw_cls w) id k; mw_lab := upd (mw_lab w) id lab;
     mw_link := mw_link w; mw_oq := mw_oq w; mw_dq := mw_dq w; mw_cc := mw_cc w; mw_fac := f;
     mw_cf := updb (mw_cf w) k {| cf_num := cf_num c + 1; cf_enroute := cf_enroute c + 1; cf_finished := cf_finished c; cf_tt := cf_tt c |};
     mw_trk := mw_trk w; mw_pt := mw_pt w |}.

(** src/multiclass.cpp:3087-3129: [j] vehicles of class [k] for one destination *)
Fixpoint mrelease_n (j : nat) (D : mdrawsI) (cur assign : Z) (o : morigin) (k : bool) (d : Z) (ratio : Q) (w : mworld) : mworld :=
  match j with
  | O => w
  | S j' =>
      let id := f_num (mw_fac w) + 1 in
      let w1 := mmake_veh w cur (pick_adaptive ratio (d_adapt (r_base D) id)) k (og_node o) d assign
                          (generate_label (og_labels o k) (r_label D id)) in
      mrelease_n j' D cur assign o k d ratio (mset_oq w1 (og_node o) (mw_oq w1 (og_node o) ++ [id]))
  end.

(** src/multiclass.cpp:3078-3130: the loop over the destinations of one class; gives
    back the ratio it ends with, as the by-value parameter is changed by the override *)
Fixpoint mrelease_dests (M : mnet) (D : mdrawsI) (cur assign : Z) (o : morigin) (k : bool) (ratio : Q)
    (ds : list (Z * (Z -> Q))) (w : mworld) : mworld * Q :=
  match ds with
  | [] => (w, ratio)
  | (d, dem) :: ds' =>
      let ratio' := match og_ratio o k d with Some f => f assign | None => ratio end in
      let j := rround (r_rel D k (og_node o) d) (dem assign * mn_fs M) in
      let w' := mrelease_n (Z.to_nat j) D cur (Z.quot cur (mn_freq M)) o k d ratio' w in
      mrelease_dests M D cur assign o k ratio' ds' w'
  end.

(** src/dta.cpp:588-612: ratios of the configuration are clipped to [0, 1] *)
Definition clip01 (x : Q) : Q := if Qltb 1 x then 1%Q else if Qltb x 0 then 0%Q else x.
Definition mbase_ratio (r : mrtype) (k : bool) : Q :=
  match r with
  | MRFixed => 0%Q | MRAdaptive => 1%Q | MRHybrid x => clip01 x
  | MRBiclass rc rt => clip01 (if k then rt else rc)
  end.

(** src/multiclass.cpp:3065-3181 [release_one_interval] and, for "Biclass_Hybrid",
    3183-3300 [release_one_interval_biclass]: the first passes the ratio left by the
    cars on to the trucks *)
Definition mrelease_one (M : mnet) (D : mdrawsI) (cur assign : Z) (w : mworld) (o : morigin) : mworld :=
  if assign <? 0 then w
  else
    let '(w1, x) := mrelease_dests M D cur assign o false (mbase_ratio (mn_routing M) false) (og_demand o false) w in
    let y := match mn_routing M with MRBiclass _ _ => mbase_ratio (mn_routing M) true | _ => x end in
    let '(w2, _) := mrelease_dests M D cur assign o true y (og_demand o true) w1 in
    mset_oq w2 (og_node o) (d_oshuf (r_base D) (og_node o) (mw_oq w2 (og_node o))).

(** src/dta.cpp:561-640: step 1 of load_once *)
Definition mrelease_all (M : mnet) (D : mdrawsI) (cur assign : Z) (w : mworld) : res mworld :=
  do _ <- guard (negb (mn_freq M =? 0)) EUB;
  if Z.rem cur (mn_freq M) =? 0
  then Ok (fold_left (mrelease_one M D cur (if mn_total_assign M <=? assign then -1 else assign)) (mn_origins M) w)
  else Ok w.

(** * Routing *)

(** The routing methods of src/routing.cpp are those of the single-class code and
    see a two-class state through the base classes: vehicles, queues, finished
    arrays, tracker, path table.  [mview] is what they see ([w_link]: only the
    finished array is filled in), [madopt] puts back what they may change. *)
Definition seen_link (fin : list Z) : link :=
  {| l_par := {| p_kind := KPq; p_lanes := 0; p_len := 0; p_hold := 0; p_flow := 0; p_ffs := 0; p_ut := 0; p_fs := 0 |};
     l_in := []; l_fin := fin; l_body := BPq 0 [] 0 |}.
Definition mview (w : mworld) : world :=
  {| w_veh := mw_veh w; w_link := fun l => seen_link (ml_fin (mw_link w l)); w_oq := mw_oq w; w_dq := mw_dq w;
     w_cc := {| cc_Nin := fun _ => None; cc_Nout := fun _ => None; cc_Tin := fun _ => None; cc_Tout := fun _ => None |};
     w_fac := mw_fac w; w_trk := mw_trk w; w_pt := mw_pt w |}.
Definition madopt (w : mworld) (x : world) : mworld :=
  {| mw_veh := w_veh x; mw_cls := mw_cls w; mw_lab := mw_lab w; mw_link := mw_link w; mw_oq := mw_oq w; mw_dq := mw_dq w;
     mw_cc := mw_cc w; mw_fac := mw_fac w; mw_cf := mw_cf w; mw_trk := w_trk x; mw_pt := w_pt x |}.
Definition seen_net (M : mnet) : net :=
  {| n_fs := mn_fs M; n_nodes := []; n_out := mn_out M; n_in := mn_in M; n_links := mn_links M; n_to := mn_to M;
     n_origins := map (fun o => {| o_node := og_node o; o_demand := []; o_ratio := fun _ => None |}) (mn_origins M);
     n_dests := mn_dests M; n_freq := mn_freq M; n_total_assign := mn_total_assign M; n_start_assign := mn_start_assign M;
     n_total_int := mn_total_int M;
     n_routing := match mn_routing M with MRFixed => RFixed | MRAdaptive => RAdaptive | MRHybrid x => RHybrid x | MRBiclass _ _ => RFixed end;
     n_rfreq := mn_rfreq M; n_rlen := mn_rlen M |}.

(** src/routing.cpp:806-815 [change_choice_portion], 828-841: choice portions of one
    class, first half of the buffer for cars, second half for trucks *)
Definition class_portion (M : mnet) (t : Z) (k : bool) (w : world) : res world :=
  if (mn_rfreq M =? -1) || (mn_rlen M =? -1) then Ok w
  else
    do _ <- guard (negb (mn_rfreq M =? 0)) EUB;
    let col := Z.quot t (mn_rfreq M) in
    if col <? Z.quot (mn_rlen M) 2
    then do pt <- change_choice_portion (col + (if k then Z.quot (mn_rlen M) 2 else 0)) (w_pt w); Ok (set_pt w pt)
    else Ok w.
(** src/routing.cpp:817-941 [MNM_Routing_Biclass_Fixed::update_routing]: the
    single-class method for the vehicles of class [k] only *)
Definition class_routing (M : mnet) (D : draws) (t : Z) (cls : Z -> bool) (k : bool) (w : world) : res world :=
  let N := seen_net M in
  let mine v := Bool.eqb (cls v) k in
  do w1 <- class_portion M t k w;
  do w2 <- foldM (fun w o => foldM (fun w v => if mine v then fixed_origin_veh N D w v else Ok w) w (w_oq w (o_node o))) w1 (n_origins N);
  foldM (fun w l => foldM (fun w v => if mine v then fixed_link_veh N l w v else Ok w) w (l_fin (w_link w l))) w2 (n_links N).

(** src/routing.cpp:764-775 [MNM_Routing_Biclass_Hybrid::update_routing]; the
    adaptive part works when one of the ratios is positive (729-731).  The other
    routing types use the single-class classes as they are. *)
Definition mupdate_routing (M : mnet) (D : mdrawsI) (t : Z) (w : mworld) : res mworld :=
  do x <- match mn_routing M with
          | MRBiclass rc rt =>
              do x1 <- (if Qltb 0 rc || Qltb 0 rt then adaptive_routing (seen_net M) (r_base D) (mview w) else Ok (mview w));
              do x2 <- class_routing M (r_base D) t (mw_cls w) false x1;
              class_routing M (r_base D) t (mw_cls w) true x2
          | _ => update_routing (seen_net M) (r_base D) t (mview w)
          end;
  Ok (madopt w x).

(** * Links *)

(** src/vehicle.cpp:45-49 [has_next_link] *)
Definition mhas_next (w : mworld) (v : Z) : bool := match v_next (mw_veh w v) with Some _ => true | None => false end.
(** src/dta.cpp:660-676: step 4 for one link *)
Definition mlink_step (D : mdrawsI) (w : mworld) (l : Z) : res mworld :=
  do x <- mlink_clear (mw_cls w) (mw_link w l);
  do y <- mlink_evolve (mw_cls w) (mhas_next w) (r_link D l) x;
  Ok (mset_link w l y).

(** * Arrival *)

(** src/od.cpp:213-241 [receive], one vehicle: finish; src/routing.cpp:616-629
    [remove_finished] (of the class of the vehicle: 777-784, 943-952);
    src/multiclass.cpp:3368-3395 [remove_finished_veh] around src/factory.cpp:41-67 *)
Definition mreceive_veh (M : mnet) (t n : Z) (w : mworld) (v : Z) : res mworld :=
  do _ <- guard (v_dst (mw_veh w v) =? n) EThrow;
  let x := set_vfin t (mw_veh w v) in
  let w1 := mset_vehs w (upd (mw_veh w) v x) in
  do w2 <- match mn_routing M with
           | MRAdaptive => Ok w1
           | _ => do _ <- guard ((0 <? v_fin x) && (v_start x <? v_fin x)) EAssert;
                  match mw_trk w1 v with
                  | None => Ok w1
                  | Some _ => do _ <- guard (negb (v_adapt x)) EAssert; Ok (mset_trk w1 v None)
                  end
           end;
  do _ <- guard (v_start x <? v_fin x) EAssert;
  let k := mw_cls w2 v in
  let c := mw_cf w2 k in
  let g := updb (mw_cf w2) k {| cf_num := cf_num c; cf_enroute := cf_enroute c - 1; cf_finished := cf_finished c + 1;
                                cf_tt := (cf_tt c + inject_Z (v_fin x - v_start x))%Q |} in
  let f := mw_fac w2 in
  do _ <- guard (memb v (f_live f)) EThrow;
  let f' := {| f_live := filter (fun y => negb (y =? v)) (f_live f); f_num := f_num f;
               f_enroute := f_enroute f - 1; f_finished := f_finished f + 1;
               f_tt := (f_tt f + inject_Z (v_fin x - v_start x))%Q;
               f_done := f_done f ++ [(v, (v_start x, v_fin x))] |} in
  do _ <- guard (f_num f' =? f_finished f' + f_enroute f') EAssert;
  do _ <- guard (cf_num (g false) =? cf_finished (g false) + cf_enroute (g false)) EAssert;
  do _ <- guard (cf_num (g true) =? cf_finished (g true) + cf_enroute (g true)) EAssert;
  Ok (mset_fac w2 f' g).
Definition mreceive (M : mnet) (t : Z) (w : mworld) (n : Z) : res mworld :=
  do w1 <- foldM (mreceive_veh M t n) w (mw_dq w n);
  Ok (mset_dq w1 n []).

(** * One interval and the loop *)

(** src/dta.cpp:538-689 [load_once]; left out as in Model_Sim.v *)
Definition mload_once (M : mnet) (D : mdrawsI) (t assign : Z) (w : mworld) : res mworld :=
  do w1 <- mrelease_all M D t assign w;
  do w2 <- mupdate_routing M D t w1;
  do w3 <- foldM (mnode_evolve (mn_fs M) (mn_pcu M) (mn_out M) (mn_in M) (r_node D) t) w2 (mn_nodes M);
  do w4 <- foldM (mlink_step D) w3 (mn_links M);
  foldM (mreceive M t) w4 (mn_dests M).

(** src/dta.cpp:766-781 [finished_loading], 825-838 [has_running_vehicle] *)
Definition mfinished_loading (M : mnet) (cur : Z) (w : mworld) : bool :=
  if 0 <? mn_total_int M then mn_total_int M <=? cur
  else negb (negb (f_num (mw_fac w) =? f_finished (mw_fac w)) || (cur =? 0)).
(** loop variables of [loading] (src/dta.cpp:692-718) *)
Record mlstate := { ms_cur : Z; ms_assign : Z; ms_w : mworld; ms_enr : list Z }.
Definition minit (M : mnet) (w : mworld) : mlstate :=
  {| ms_cur := 0; ms_assign := mn_start_assign M; ms_w := w; ms_enr := [] |}.
(** the body of the while loop *)
Definition mloop_body (M : mnet) (D : Z -> mdrawsI) (s : mlstate) : res mlstate :=
  do w <- mload_once M (D (ms_cur s)) (ms_cur s) (ms_assign s) (ms_w s);
  let cur := ms_cur s + 1 in
  Ok {| ms_cur := cur; ms_assign := if Z.rem cur (mn_freq M) =? 0 then ms_assign s + 1 else ms_assign s;
        ms_w := w; ms_enr := ms_enr s ++ [f_enroute (mw_fac w)] |}.
(** the loop condition *)
Definition mloop_cond (M : mnet) (s : mlstate) : bool :=
  negb (mfinished_loading M (ms_cur s) (ms_w s)) || (ms_assign s <? mn_total_assign M).
(** [k] iterations of the body *)
Fixpoint mrun (M : mnet) (D : Z -> mdrawsI) (k : nat) (s : mlstate) : res mlstate :=
  match k with
  | O => Ok s
  | S k' => do s1 <- mrun M D k' s; mloop_body M D s1
  end.
(** src/dta.cpp:692-729 [loading], at most [fuel] iterations *)
Fixpoint mloading (M : mnet) (D : Z -> mdrawsI) (fuel : nat) (s : mlstate) : res mlstate :=
  if mloop_cond M s
  then match fuel with
       | O => Err EFuel
       | S fuel' => do s1 <- mloop_body M D s; mloading M D fuel' s1
       end
  else Ok s.
