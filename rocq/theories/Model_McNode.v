(** State of a two-class simulation and its nodes: src/multiclass.cpp, classes
    MNM_DMOND_Multiclass, MNM_DMDND_Multiclass, MNM_Dnode_Inout_Multiclass,
    MNM_Dnode_FWJ_Multiclass.  Conventions as in Model_World.v and Model_Node.v:
    pointers are IDs, flow matrices are indexed by link IDs.  [get_bus_route_ID]
    is -1 for every vehicle of MNM_Veh_Factory_Multiclass (src/vehicle.cpp:14), so
    the tests "only for non-bus truck" are true and left out. *)
From Verif Require Import Base Model_Num Model_CC Model_Path Model_Link Model_World Model_Node Model_McLink.

(** Cumulative curves of a two-class link (src/multiclass.h:66-76):
    m_N_in_car, m_N_in_truck, m_N_out_car, m_N_out_truck, m_N_in_tree_car,
    m_N_in_tree_truck; the class is the first argument ([true]: truck). *)
Record mcurves := {
  mk_Nin : bool -> Z -> option curve; mk_Nout : bool -> Z -> option curve; mk_Tin : bool -> Z -> option cctree }.
Definition upd2 {A} (f : bool -> Z -> A) (k : bool) (l : Z) (x : A) : bool -> Z -> A :=
  fun k' => if Bool.eqb k' k then upd (f k') l x else f k'.

(** counters of one class: m_num_car, m_enroute_car, m_finished_car,
    m_total_time_car (src/multiclass.h:473-482) *)
Record cfac := { cf_num : Z; cf_enroute : Z; cf_finished : Z; cf_tt : Q }.

(** [mw_cls v] is m_class == 1; [mw_lab] is m_label *)
Record mworld := {
  mw_veh : Z -> veh; mw_cls : Z -> bool; mw_lab : Z -> Z; mw_link : Z -> mlink; mw_oq : Z -> list Z; mw_dq : Z -> list Z;
  mw_cc : mcurves; mw_fac : factory; mw_cf : bool -> cfac; mw_trk : Z -> option (list Z); mw_pt : ptable }.

Definition mset_vehs (w : mworld) (x : Z -> veh) : mworld :=
  {| mw_veh := x; mw_cls := mw_cls w; mw_lab := mw_lab w; mw_link := mw_link w; mw_oq := mw_oq w; mw_dq := mw_dq w;
     mw_cc := mw_cc w; mw_fac := mw_fac w; mw_cf := mw_cf w; mw_trk := mw_trk w; mw_pt := mw_pt w |}.
Definition mset_link (w : mworld) (l : Z) (x : mlink) : mworld :=
  {| mw_veh := mw_veh w; mw_cls := mw_cls w; mw_lab := mw_lab w; mw_link := upd (mw_link w) l x; mw_oq := mw_oq w; mw_dq := mw_dq w;
     mw_cc := mw_cc w; mw_fac := mw_fac w; mw_cf := mw_cf w; mw_trk := mw_trk w; mw_pt := mw_pt w |}.
Definition mset_oq (w : mworld) (n : Z) (x : list Z) : mworld :=
  {| mw_veh := mw_veh w; mw_cls := mw_cls w; mw_lab := mw_lab w; mw_link := mw_link w; mw_oq := upd (mw_oq w) n x; mw_dq := mw_dq w;
     mw_cc := mw_cc w; mw_fac := mw_fac w; mw_cf := mw_cf w; mw_trk := mw_trk w; mw_pt := mw_pt w |}.
Definition mset_dq (w : mworld) (n : Z) (x : list Z) : mworld :=
  {| mw_veh := mw_veh w; mw_cls := mw_cls w; mw_lab := mw_lab w; mw_link := mw_link w; mw_oq := mw_oq w; mw_dq := upd (mw_dq w) n x;
     mw_cc := mw_cc w; mw_fac := mw_fac w; mw_cf := mw_cf w; mw_trk := mw_trk w; mw_pt := mw_pt w |}.
Definition mset_cc (w : mworld) (x : mcurves) : mworld :=
  {| mw_veh := mw_veh w; mw_cls := mw_cls w; mw_lab := mw_lab w; mw_link := mw_link w; mw_oq := mw_oq w; mw_dq := mw_dq w;
     mw_cc := x; mw_fac := mw_fac w; mw_cf := mw_cf w; mw_trk := mw_trk w; mw_pt := mw_pt w |}.

(** arrays of a link *)
Definition ml_set_in (l : mlink) (x : list Z) : mlink := with_body l x (ml_fin l) (ml_body l).
Definition ml_set_fin (l : mlink) (x : list Z) : mlink := with_body l (ml_in l) x (ml_body l).

(** [get_next_link () == _out_link] *)
Definition mgoes (w : mworld) (b v : Z) : bool :=
  match v_next (mw_veh w v) with Some k => k =? b | None => false end.
(** vehicles of class [k] *)
Definition kcount (w : mworld) (k : bool) (l : list Z) : Z := Zlen (filter (fun v => Bool.eqb (mw_cls w v) k) l).

(** [if (curve != nullptr && n > 0) curve->add_increment ((timestamp + 1, n / flow_scalar))] *)
Definition rec_inc (c : option curve) (t n : Z) (fs : Q) : res (option curve) :=
  match c with
  | Some c => if 0 <? n then do c' <- add_increment c (inject_Z (t + 1), (inject_Z n / fs)%Q); Ok (Some c') else Ok (Some c)
  | None => Ok None
  end.
Definition rec_in (fs : Q) (t : Z) (k : bool) (b n : Z) (w : mworld) : res mworld :=
  do c <- rec_inc (mk_Nin (mw_cc w) k b) t n fs;
  Ok (mset_cc w {| mk_Nin := upd2 (mk_Nin (mw_cc w)) k b c; mk_Nout := mk_Nout (mw_cc w); mk_Tin := mk_Tin (mw_cc w) |}).
Definition rec_out (fs : Q) (t : Z) (k : bool) (a n : Z) (w : mworld) : res mworld :=
  do c <- rec_inc (mk_Nout (mw_cc w) k a) t n fs;
  Ok (mset_cc w {| mk_Nin := mk_Nin (mw_cc w); mk_Nout := upd2 (mk_Nout (mw_cc w)) k a c; mk_Tin := mk_Tin (mw_cc w) |}).

(** * Origin node *)

(** the result of [dynamic_cast<MNM_Dlink_Pq_Multiclass *>] is used without a test *)
Definition is_pq (l : mlink) : bool := match ml_body l with MPq _ _ _ _ => true | _ => false end.

(** src/multiclass.cpp:2279-2312: number of vehicles that may enter out link [b];
    every vehicle counts one *)
Definition morigin_volume (fs r : Q) (w : mworld) (n b : Z) : res Z :=
  do s <- mlink_supply (mw_link w b);
  let c := count_if (mgoes w b) (mw_oq w n) in
  Ok (if Qltb (s * fs) (inject_Z c) then rround r (s * fs) else c).
(** src/multiclass.cpp:2316-2375: one iteration of the loop over the out links; a
    link that is not a point queue makes [_next_link] null: [EUB] *)
Definition morigin_move (fs : Q) (t n : Z) (w : mworld) (bk : Z * Z) : res mworld :=
  let '(b, k) := bk in
  let '(vs, rest, _) := pull (mgoes w b) k (mw_oq w n) in
  let w1 := mset_oq w n rest in
  let w2 := mset_link w1 b (ml_set_in (mw_link w1 b) (ml_in (mw_link w1 b) ++ vs)) in
  let w3 := mset_vehs w2 (on_vehs (set_cur (Some b)) vs (mw_veh w2)) in
  do _ <- guard (is_pq (mw_link w b)) EUB;
  do w4 <- rec_in fs t false b (kcount w false vs) w3;
  rec_in fs t true b (kcount w true vs) w4.
(** src/multiclass.cpp:2273-2377 [evolve]; a vehicle whose next link is not an out
    link adds an entry to m_out_volume that is never read; a null next link too *)
Definition morigin_evolve (fs : Q) (outs : list Z) (r : Z -> Q) (t n : Z) (w : mworld) : res mworld :=
  do ks <- mapM (fun b => do k <- morigin_volume fs (r b) w n b; Ok (b, k)) outs;
  foldM (morigin_move fs t n) w ks.

(** * Destination node *)

(** src/multiclass.cpp:2397-2438: one in link *)
Definition mdest_step (fs : Q) (t n : Z) (w : mworld) (a : Z) : res mworld :=
  let fin := ml_fin (mw_link w a) in
  do _ <- guard (forallb (fun v => match v_next (mw_veh w v) with None => true | Some _ => false end) fin) EThrow;
  let w1 := mset_dq w n (mw_dq w n ++ fin) in
  let w2 := mset_vehs w1 (on_vehs (set_cur None) fin (mw_veh w1)) in
  let w3 := mset_link w2 a (ml_set_fin (mw_link w2 a) []) in
  do _ <- guard (is_pq (mw_link w a)) EUB;
  do w4 <- rec_out fs t false a (kcount w false fin) w3;
  rec_out fs t true a (kcount w true fin) w4.
(** src/multiclass.cpp:2390-2441 [evolve] *)
Definition mdest_evolve (fs : Q) (ins : list Z) (t n : Z) (w : mworld) : res mworld :=
  foldM (mdest_step fs t n) w ins.

(** * Junctions *)

(** passenger-car equivalents of a vehicle and of a queue *)
Definition equiv (pcu : Q) (w : mworld) (v : Z) : Q := if mw_cls w v then pcu else 1%Q.
(** src/multiclass.cpp:2489-2551 [prepare_supplyANDdemand] *)
Definition mdemand (fs pcu : Q) (w : mworld) (a b : Z) : Q :=
  (sumQ (map (equiv pcu w) (filter (mgoes w b) (ml_fin (mw_link w a)))) / fs)%Q.
Definition mright_node (w : mworld) (ins outs : list Z) : bool :=
  forallb (fun a => forallb (fun v => existsb (fun b => mgoes w b v) outs) (ml_fin (mw_link w a))) ins.

(** src/multiclass.cpp:2574-2700: extraction loop, [x] equivalents to move; the last
    vehicle goes even if less than its equivalents is left *)
Fixpoint mpull (f : Z -> bool) (e : Z -> Q) (x : Q) (q : list Z) : list Z * list Z * Q :=
  match q with
  | [] => ([], [], x)
  | v :: q' =>
      if Qltb 0 x then
        if f v then let '(t, r, y) := mpull f e (x - e v)%Q q' in (v :: t, r, y)
        else let '(t, r, y) := mpull f e x q' in (t, v :: r, y)
      else ([], q, x)
  end.

(** path-based curves, one vehicle: only those of the out link exist *)
Definition mtree_inc (fs : Q) (t b : Z) (w : mworld) (v : Z) : res mworld :=
  let x := mw_veh w v in
  let k := mw_cls w v in
  match mk_Tin (mw_cc w) k b with
  | Some tr => do tr' <- add_flow tr (inject_Z (t + 1)) (1 / fs)%Q (path_key x) (v_assign x);
               Ok (mset_cc w {| mk_Nin := mk_Nin (mw_cc w); mk_Nout := mk_Nout (mw_cc w);
                                mk_Tin := upd2 (mk_Tin (mw_cc w)) k b (Some tr') |})
  | None => Ok w
  end.

(** src/vehicle.cpp:93-101 [update_miles_traveled] on a two-class link: the cast to
    MNM_Dlink_Pq fails for every two-class link, MNM_Dlink_Pq_Multiclass included
    (src/multiclass.h:271), so the length always counts *)
Definition mmiles_of (l : mlink) : Q := (mp_len (ml_par l) / 1600)%Q.

(** one pair of links; 0.001 is the tolerance of the check after the loop *)
Definition mmove_pair (fs pcu : Q) (t : Z) (w : mworld) (abx : Z * Z * Q) : res mworld :=
  let '(a, b, x) := abx in
  let '(vs, rest, lft) := mpull (mgoes w b) (equiv pcu w) x (ml_fin (mw_link w a)) in
  let w1 := mset_link w a (ml_set_fin (mw_link w a) rest) in
  let w2 := mset_link w1 b (ml_set_in (mw_link w1 b) (ml_in (mw_link w1 b) ++ vs)) in
  let w3 := mset_vehs w2 (on_vehs (fun v => add_miles (mmiles_of (mw_link w a)) (set_cur (Some b) v)) vs (mw_veh w2)) in
  do w4 <- foldM (mtree_inc fs t b) w3 vs;
  do _ <- guard (Qle_bool lft (1 # 1000)) EThrow;
  Ok w4.

(** m_veh_moved_car/truck: the vehicles each pair of links has moved, in order *)
Definition moved_log := list (Z * Z * list Z).
Definition mmove_log (fs pcu : Q) (t : Z) (s : mworld * moved_log) (abx : Z * Z * Q) : res (mworld * moved_log) :=
  let '(a, b, x) := abx in
  do w' <- mmove_pair fs pcu t (fst s) abx;
  Ok (w', snd s ++ [(a, b, fst (fst (mpull (mgoes (fst s) b) (equiv pcu (fst s)) x (ml_fin (mw_link (fst s) a)))))]).

(** src/multiclass.cpp:2702-2769 [record_cumulative_curve] *)
Definition log_to (m : moved_log) (b : Z) : list Z := concat (map snd (filter (fun x => snd (fst x) =? b) m)).
Definition log_from (m : moved_log) (a : Z) : list Z := concat (map snd (filter (fun x => fst (fst x) =? a) m)).
Definition mrecord (fs : Q) (t : Z) (ins outs : list Z) (m : moved_log) (w : mworld) : res mworld :=
  do w1 <- foldM (fun w b => do w' <- rec_in fs t false b (kcount w false (log_to m b)) w;
                             rec_in fs t true b (kcount w true (log_to m b)) w') w outs;
  foldM (fun w a => do w' <- rec_out fs t false a (kcount w false (log_from m a)) w;
                    rec_out fs t true a (kcount w true (log_from m a)) w') w1 ins.

(** src/multiclass.cpp:2554-2700 [move_vehicle]: for every out link the in links in
    shuffled order ([shuf b ins]); src/multiclass.cpp:2812-2836 [compute_flow] of the
    FWJ node is [fwj_flow] of Model_Node.v (the same code) *)
Definition mpairs (fs : Q) (ins outs : list Z) (shuf : Z -> list Z -> list Z) (flow : Z -> Z -> Q) : list (Z * Z * Q) :=
  concat (map (fun b => map (fun a => (a, b, (flow a b * fs)%Q)) (shuf b ins)) outs).
(** src/multiclass.cpp:2787-2795 [evolve] *)
Definition mjunction_evolve (fs pcu : Q) (ins outs : list Z) (shuf : Z -> list Z -> list Z) (t : Z) (w : mworld) : res mworld :=
  do _ <- guard (mright_node w ins outs) EThrow;
  do sup <- mapM (fun b => do s <- mlink_supply (mw_link w b); Ok (b, s)) outs;
  let supply := fun b => match find (fun x => fst x =? b) sup with Some x => snd x | None => 0%Q end in
  let flow := fun a b => fwj_flow (mdemand fs pcu w) ins (supply b) a b in
  do s <- foldM (mmove_log fs pcu t) (w, []) (mpairs fs ins outs shuf flow);
  mrecord fs t ins outs (snd s) (fst s).

(** Node classes of MNM_Node_Factory_Multiclass (src/multiclass.cpp:3403-3426) *)
Inductive mnkind := MNFwj | MNOrigin | MNDest.

(** Draws of the nodes in one interval *)
Record mndraws := { mn_orig : Z -> Z -> Q; mn_shuf : Z -> Z -> list Z -> list Z }.

Definition mnode_evolve (fs pcu : Q) (outs ins : Z -> list Z) (D : mndraws) (t : Z) (w : mworld) (nk : Z * mnkind) : res mworld :=
  let '(n, k) := nk in
  match k with
  | MNOrigin => morigin_evolve fs (outs n) (mn_orig D n) t n w
  | MNDest => mdest_evolve fs (ins n) t n w
  | MNFwj => mjunction_evolve fs pcu (ins n) (outs n) (mn_shuf D n) t w
  end.
