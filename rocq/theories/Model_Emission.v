(** Emission totals of selected links: src/emission.cpp and the two-class variant in
    src/multiclass.cpp:5946-6203.  m_fuel, m_CO2, m_HC, m_CO, m_NOX are one function
    of the pollutant.  [pow] is exact; printing is left out. *)
From Verif Require Import Base Model_Num Model_CC Model_Path Model_Link Model_World Model_Node Model_Sim Model_McLink Model_McNode Model_McSim.
Local Open Scope Q_scope.

Inductive pollutant := Fuel | CO2 | HC | CO | NOX.

(** * Rates *)

(** src/emission.cpp:34-37: miles per gallon at [v] miles per hour *)
Definition fuel_eco (v : Q) : Q :=
  (119102380 # 1000000000000000) * v ^ 5 - (267383161 # 10000000000000) * v ^ 4 + (235409750 # 100000000000) * v ^ 3
  - (111752399 # 1000000000) * v ^ 2 + (296137050 # 100000000) * v ^ 1 - (151623933 # 100000000).
(** src/emission.cpp:76-81 *)
Definition HC_curve (v : Q) : Q :=
  (161479076909784 # 1000000000000000000000000000) * v ^ 8 - (127884474982285 # 1000000000000000000000000) * v ^ 7
  + (292924270300974 # 10000000000000000000000) * v ^ 6 - (323670086149171 # 100000000000000000000) * v ^ 5
  + (201135990745703 # 1000000000000000000) * v ^ 4 - (737871178398462 # 100000000000000000) * v ^ 3
  + (15792241257931 # 100000000000000) * v ^ 2 - (182687242201925 # 100000000000000) * v + (984559996919605 # 100000000000000).
(** src/emission.cpp:89-96 *)
Definition CO_curve (v : Q) : Q :=
  - (108317411174986 # 100000000000000000000000000) * v ^ 8 + (253340626614398 # 1000000000000000000000000) * v ^ 7
  - (212944112670644 # 10000000000000000000000) * v ^ 6 + (597070024385679 # 1000000000000000000000) * v ^ 5
  + (179281854904105 # 10000000000000000000) * v ^ 4 - (170366500109581 # 100000000000000000) * v ^ 3
  + (47711166912908 # 1000000000000000) * v ^ 2 - (615061016205463 # 1000000000000000) * v + (412900319568868 # 100000000000000).
(** src/emission.cpp:104-111 *)
Definition NOX_curve (v : Q) : Q :=
  - (652009367269462 # 1000000000000000000000000000) * v ^ 8 + (125335312366681 # 1000000000000000000000000) * v ^ 7
  - (467202313364846 # 100000000000000000000000) * v ^ 6 - (663892272105462 # 1000000000000000000000) * v ^ 5
  + (801942113220463 # 10000000000000000000) * v ^ 4 - (374632777368871 # 100000000000000000) * v ^ 3
  + (895029037098895 # 10000000000000000) * v ^ 2 - (107265851515536 # 100000000000000) * v + (606514023873933 # 100000000000000).

(** src/emission.cpp:31-114 [calculate_fuel_rate] and the others, per mile; a
    division by zero is [EUB] *)
Definition rates (v : Q) : res (pollutant -> Q) :=
  do _ <- guard (negb (Qeq_bool (fuel_eco v) 0)) EUB;
  let fuel := Qmax (1 / fuel_eco v) 0 in
  Ok (fun p => match p with
               | Fuel => fuel
               | CO2 => Qmax (fuel * 8887) 0
               | HC => Qmax (HC_curve v) 0
               | CO => Qmax (CO_curve v) 0
               | NOX => Qmax (NOX_curve v) 0
               end).

(** src/multiclass.cpp:5972-6075: factors for trucks *)
Definition truck_factor (p : pollutant) (v : Q) : Q :=
  let pick a b c := if Qltb v 25 then a else if Qltb v 55 then b else c in
  match p with
  | Fuel => pick (153 # 100) (150 # 100) (155 # 100)
  | CO2 => pick (153 # 100) (150 # 100) (155 # 100)
  | HC => pick (187 # 100) (241 # 100) (201 # 100)
  | CO => pick (397 # 100) (267 # 100) (501 # 100)
  | NOX => pick (732 # 100) (603 # 100) (575 # 100)
  end.
Definition truck_rates (v : Q) : res (pollutant -> Q) :=
  do r <- rates v; Ok (fun p => r p * truck_factor p v).

(** * Totals *)

(** src/emission.h:30-39, src/emission.cpp:3-19 *)
Record emission := { em_tot : pollutant -> Q; em_vmt : Q; em_vmt_ev : Q }.
Definition em_zero : emission := {| em_tot := fun _ => 0; em_vmt := 0; em_vmt_ev := 0 |}.

(** src/emission.cpp:128-130: speed in metres per second, then miles per hour between 5 and 65 *)
Definition em_mph (v : Q) : Q := Qmin (Qmax (v * 3600 / 1600) 5) 65.
(** src/emission.cpp:134-147: [n] vehicles with an engine and [e] electric ones at speed [v] *)
Definition em_add (r : pollutant -> Q) (ut v n e : Q) (x : emission) : emission :=
  let miles := v * ut / 1600 in
  {| em_tot := fun p => em_tot x p + r p * miles * n; em_vmt := em_vmt x + miles * (n + e); em_vmt_ev := em_vmt_ev x + miles * e |}.

(** [get_link_flow_emission]: src/dlink.cpp:406-438, 600-631, 808-839; [ev v] is
    [m_label == ev_label] *)
Definition link_queues (l : link) : list Z :=
  match l_body l with
  | BCtm cs => concat (map c_q cs)
  | BPq _ q _ => map fst q
  | BLq q _ => q
  end ++ l_fin l.
Definition link_emission (ev : Z -> bool) (l : link) : Q * Q :=
  let q := link_queues l in
  (inject_Z (Zlen (filter (fun v => negb (ev v)) q)) / p_fs (l_par l), inject_Z (Zlen (filter ev q)) / p_fs (l_par l)).

(** src/emission.cpp:125-152: one link; a division by zero is [EUB] *)
Definition em_link (ut : Q) (ev : Z -> bool) (x : emission) (l : link) : res emission :=
  do t1 <- link_tt l;
  do _ <- guard (negb (Qeq_bool t1 0)) EUB;
  let v := p_len (l_par l) / t1 in
  do r <- rates (em_mph v);
  let '(n, e) := link_emission ev l in
  Ok (em_add r ut v n e x).

(** src/emission.cpp:116-170 [update]; the totals start again after [freq] calls
    (0 in the simulation: src/dta.cpp:95) *)
Definition em_update (ut : Q) (freq : Z) (ev : Z -> bool) (ls : list link) (c : Z * emission) : res (Z * emission) :=
  let n := (fst c + 1)%Z in
  do x <- foldM (em_link ut ev) (snd c) ls;
  Ok (if (n =? freq)%Z then (0%Z, em_zero) else (n, x)).

(** src/dta.cpp:538-689 with 663-664: [load_once] and the update of the totals of
    the registered links [E] (m_link_vector) *)
Definition load_links (N : net) (D : draws) (t assign : Z) (w : world) : res world :=
  do w1 <- release_all N D t assign w;
  do w2 <- update_routing N D t w1;
  do w3 <- foldM (node_evolve N D t) w2 (n_nodes N);
  foldM (link_step D) w3 (n_links N).
Definition load_once_em (N : net) (D : draws) (ut : Q) (freq : Z) (ev : Z -> bool) (E : list Z) (t assign : Z) (w : world) (c : Z * emission)
    : res (world * (Z * emission)) :=
  do w4 <- load_links N D t assign w;
  do c' <- em_update ut freq ev (map (w_link w4) E) c;
  do w5 <- foldM (receive N t) w4 (n_dests N);
  Ok (w5, c').
(** [k] intervals of src/dta.cpp:692-729 with the totals *)
Fixpoint run_em (N : net) (D : Z -> draws) (ut : Q) (freq : Z) (ev : Z -> bool) (E : list Z) (k : nat) (s : lstate) (c : Z * emission)
    : res (lstate * (Z * emission)) :=
  match k with
  | O => Ok (s, c)
  | S k' =>
      do x <- run_em N D ut freq ev E k' s c;
      let s1 := fst x in
      do y <- load_once_em N (D (s_cur s1)) ut freq ev E (s_cur s1) (s_assign s1) (s_w s1) (snd x);
      let cur := (s_cur s1 + 1)%Z in
      Ok ({| s_cur := cur; s_assign := if (Z.rem cur (n_freq N) =? 0)%Z then (s_assign s1 + 1)%Z else s_assign s1;
             s_w := fst y; s_enroute := s_enroute s1 ++ [f_enroute (w_fac (fst y))] |}, snd y)
  end.

(** * Two classes *)

(** src/multiclass.h:756-800: totals by class, vehicle hours, and the sets of
    vehicles seen, which are sets of addresses *)
Record memis := { me_by : bool -> emission; me_vht : bool -> Q; me_set : bool -> list Z }.
Definition me_zero : memis := {| me_by := fun _ => em_zero; me_vht := fun _ => 0; me_set := fun _ => [] |}.

(** src/multiclass.cpp:6085-6137: one link *)
Definition me_link (ut : Q) (cls : Z -> bool) (ev : bool -> Z -> bool) (x : memis) (l : mlink) : res memis :=
  do t1 <- mlink_tt l;
  do _ <- guard (negb (Qeq_bool t1 0)) EUB;
  let v := mp_len (ml_par l) / t1 in
  do r <- rates (em_mph v);
  do rt <- truck_rates (em_mph v);
  let add (k : bool) := let '(n, e) := memission k cls (ev k) l in em_add (if k then rt else r) ut v n e (me_by x k) in
  let vht (k : bool) := let '(n, e) := memission k cls (ev k) l in me_vht x k + ut * (n + e) / 3600 in
  Ok {| me_by := add; me_vht := vht; me_set := me_set x |}.

(** insertion in a set *)
Definition insert (a : Z) (s : list Z) : list Z := if memb a s then s else a :: s.
(** src/multiclass.cpp:6138-6157: vehicles now on a registered link; [addr v] is the
    address of vehicle [v] *)
Definition me_seen (addr : Z -> Z) (E : list Z) (w : mworld) (x : memis) : memis :=
  {| me_by := me_by x; me_vht := me_vht x;
     me_set := fun k => fold_left (fun s v => match v_cur (mw_veh w v) with
                                              | Some l => if memb l E && Bool.eqb (mw_cls w v) k then insert (addr v) s else s
                                              | None => s
                                              end) (f_live (mw_fac w)) (me_set x k) |}.
(** src/multiclass.cpp:6077-6160 [update]; [ev k v] is [m_label == m_ev_label] of class [k] *)
Definition me_update (ut : Q) (ev : bool -> Z -> bool) (addr : Z -> Z) (E : list Z) (x : memis) (w : mworld) : res memis :=
  do x1 <- foldM (me_link ut (mw_cls w) ev) x (map (mw_link w) E);
  Ok (me_seen addr E w x1).
(** "number of trips" in the report (6176-6177, 6188-6189) *)
Definition me_trips (x : memis) (k : bool) : Z := Zlen (me_set x k).

(** src/dta.cpp:538-689 with 663-664 for two classes *)
Definition mload_links (M : mnet) (D : mdrawsI) (t assign : Z) (w : mworld) : res mworld :=
  do w1 <- mrelease_all M D t assign w;
  do w2 <- mupdate_routing M D t w1;
  do w3 <- foldM (mnode_evolve (mn_fs M) (mn_pcu M) (mn_out M) (mn_in M) (r_node D) t) w2 (mn_nodes M);
  foldM (mlink_step D) w3 (mn_links M).
Definition mload_once_em (M : mnet) (D : mdrawsI) (ut : Q) (ev : bool -> Z -> bool) (addr : Z -> Z) (E : list Z) (t assign : Z) (w : mworld) (x : memis)
    : res (mworld * memis) :=
  do w4 <- mload_links M D t assign w;
  do x' <- me_update ut ev addr E x w4;
  do w5 <- foldM (mreceive M t) w4 (mn_dests M);
  Ok (w5, x').
Fixpoint mrun_em (M : mnet) (D : Z -> mdrawsI) (ut : Q) (ev : bool -> Z -> bool) (addr : Z -> Z) (E : list Z) (k : nat) (s : mlstate) (x : memis)
    : res (mlstate * memis) :=
  match k with
  | O => Ok (s, x)
  | S k' =>
      do y <- mrun_em M D ut ev addr E k' s x;
      let s1 := fst y in
      do z <- mload_once_em M (D (ms_cur s1)) ut ev addr E (ms_cur s1) (ms_assign s1) (ms_w s1) (snd y);
      let cur := (ms_cur s1 + 1)%Z in
      Ok ({| ms_cur := cur; ms_assign := if (Z.rem cur (mn_freq M) =? 0)%Z then (ms_assign s1 + 1)%Z else ms_assign s1;
             ms_w := fst z; ms_enr := ms_enr s1 ++ [f_enroute (mw_fac (fst z))] |}, snd z)
  end.
