(** Passenger paths of the multimodal equilibrium (src/multimodal.cpp): travel times and
    costs, disutility, the best path already in the table, and the three ways the flows of
    the table are updated. *)
From Verif Require Import Base Model_Num Model_SP Model_Node Model_Split.
Local Open Scope Q_scope.

(** MNM_Passenger_Path_Driving / _Bus / _PnR, src/multimodal.cpp:11541-11566, 12151-12178:
    what tells two paths apart plus the lot of a park-and-ride path.  A parking lot is its ID.
    Metro paths are not modelled. *)
Inductive pkey :=
| KDrive (people : Z) (lot : option Z) (links : list Z)
| KBus (links : list Z)
| KPnr (lot : Z) (drive bus : list Z).
(** m_mode *)
Definition key_mode (k : pkey) : mode :=
  match k with KDrive _ _ _ => Driving | KBus _ => Transit | KPnr _ _ _ => Pnr end.
(** MNM_Path operator==, src/path.h:40-52 *)
Fixpoint links_eqb (a b : list Z) : bool :=
  match a, b with
  | [], [] => true
  | x :: a', y :: b' => (x =? y)%Z && links_eqb a' b'
  | _, _ => false
  end.
(** comparison of the lot pointers, src/multimodal.cpp:11772 *)
Definition lot_eqb (a b : option Z) : bool :=
  match a, b with None, None => true | Some x, Some y => (x =? y)%Z | _, _ => false end.
(** is_equal, src/multimodal.cpp:11760-11777 (driving), 12000-12013 (bus), 12269-12288
    (park and ride: its driving part is built without lot and for one person, 12167-12172) *)
Definition same_path (a b : pkey) : bool :=
  match a, b with
  | KDrive n l p, KDrive n' l' p' => (n =? n')%Z && lot_eqb l l' && links_eqb p p'
  | KBus p, KBus p' => links_eqb p p'
  | KPnr _ d b, KPnr _ d' b' => links_eqb d d' && links_eqb b b'
  | _, _ => false
  end.

(** what the costs read: m_current_loading_interval, m_unit_time, m_link_tt_map and
    m_transitlink_tt_map (arrays as lists, infinity as [None]), get_cruise_time of a lot at a
    time (1399-1417), base price times surge coefficient of a lot, m_toll_car of a link, and
    the settings of the paths, which are those of the equilibrium (vot, early_penalty,
    late_penalty, target_time, carpool_cost_multiplier, the walking times of driving, bus_fare,
    bus_inconvenience, pnr_inconvenience). *)
Record cenv := CE { ce_now : Z; ce_unit : Q; ce_car : Z -> option (list ext); ce_bus : Z -> option (list ext);
  ce_cruise : Z -> Z -> res Q; ce_price : Z -> Q; ce_toll : Z -> Q;
  ce_vot : Q; ce_early : Q; ce_late : Q; ce_target : Q; ce_pool : Q; ce_before : Q; ce_after : Q;
  ce_fare : Q; ce_bus_inc : Q; ce_pnr_inc : Q }.

(** the entry read at 11721-11724 and 11953-11957: clamped to the last interval run; no entry
    for the link, or an array that is too short, is undefined *)
Definition entry_at (tab : Z -> option (list ext)) (now : Z) (l t : Z) : res ext :=
  match tab l with
  | None => Err EUB
  | Some row => match nth_error row (Z.to_nat (if (t <? now)%Z then t else now - 1)) with
                | Some x => if (t <? 0)%Z then Err EUB else Ok x
                | None => Err EUB
                end
  end.
(** one link by car, 11719-11725; round_up_time of infinity casts it to int *)
Definition drive_link (ce : cenv) (t l : Z) : res Z :=
  do x <- entry_at (ce_car ce) (ce_now ce) l t;
  match x with None => Err EUB | Some q => do d <- round_up_time q tol; Ok (t + d)%Z end.
(** 11709-11736 [get_travel_time] of a driving path from the tables, for an integer start *)
Definition drive_time (ce : cenv) (before : Q) (lot : option Z) (after : Q) (links : list Z) (start : Z) : res Z :=
  do _ <- guard (0 <? ce_now ce)%Z EAssert;
  do t <- foldM (drive_link ce) (start + Qceiling (before / ce_unit ce))%Z links;
  do t <- match lot with None => Ok t | Some k => do c <- ce_cruise ce k t; Ok (t + Qceiling c)%Z end;
  Ok (t + Qceiling (after / ce_unit ce) - start)%Z.
(** one link by bus, 11953-11965: [None] in the result is the early return at 11963 *)
Definition bus_link (ce : cenv) (acc : option Z) (l : Z) : res (option Z) :=
  match acc with
  | None => Ok None
  | Some t =>
    do x <- entry_at (ce_bus ce) (ce_now ce) l t;
    match x with
    | None => Ok None
    | Some q => if Qltb (inject_Z (ce_now ce)) q then Ok None else do d <- round_up_time q tol; Ok (Some (t + d)%Z)
    end
  end.
(** 11943-11968 [get_travel_time] of a bus path from the tables *)
Definition bus_time (ce : cenv) (links : list Z) (start : Z) : res Z :=
  do _ <- guard (0 <? ce_now ce)%Z EAssert;
  do r <- foldM (bus_link ce) (Some start) links;
  Ok (match r with None => 2 * ce_now ce | Some t => t - start end)%Z.
(** get_travel_time of any path; park and ride at 12239-12256 *)
Definition path_time (ce : cenv) (k : pkey) (start : Z) : res Z :=
  match k with
  | KDrive _ lot p => drive_time ce (ce_before ce) lot (ce_after ce) p start
  | KBus p => bus_time ce p start
  | KPnr _ d b =>
    do x <- drive_time ce (ce_before ce) None 0 d start;
    do y <- bus_time ce b (start + x);
    Ok (x + y)%Z
  end.
(** 11531-11536 [get_wrongtime_penalty] *)
Definition penalty (ce : cenv) (arrival : Q) : Q :=
  Qmax (ce_late ce * (arrival - ce_target ce)) (ce_early ce * (ce_target ce - arrival)).
(** 11574-11585 [get_amortized_parkingfee] *)
Definition parking_fee (ce : cenv) (lot : option Z) (people : Z) : Q :=
  match lot with None => 8 | Some k => ce_price ce k / inject_Z people end.
(** 11587-11598 [get_toll] *)
Definition toll (ce : cenv) (links : list Z) : Q := sumQ (map (ce_toll ce) links).
(** the factor of 11989-11996 and 12229-12236 *)
Definition hardly (ce : cenv) (time : Z) (c : Q) : Q := if (ce_now ce <? time)%Z then 1000 * c else c.
(** get_travel_cost_with_tt, 11750-11758 (driving), 11982-11997 (bus: one fare however many
    routes, 11909-11932), 12217-12237 (park and ride) *)
Definition cost_with_time (ce : cenv) (k : pkey) (start time : Z) : Q :=
  let p := penalty ce (inject_Z (start + time)) in
  let v := ce_vot ce * inject_Z time in
  match k with
  | KDrive n lot links => v + p + ce_pool ce * inject_Z (n - 1) + parking_fee ce lot n + toll ce links
  | KBus _ => hardly ce time (v + p + ce_fare ce + ce_bus_inc ce)
  | KPnr _ _ _ => hardly ce time (v + p + ce_fare ce + ce_pnr_inc ce)
  end.
(** get_travel_cost from the tables, 11738-11748, 11970-11980, 12258-12267 *)
Definition path_cost (ce : cenv) (k : pkey) (start : Z) : res Q :=
  do t <- path_time ce k start; Ok (cost_with_time ce k start t).

(** a path of the table: m_buffer (its m_total_assign_inter entries) and
    m_travel_disutility_vec *)
Record ppath := PP { pp_key : pkey; pp_flow : nat -> Q; pp_dis : list Q }.
(** the path sets of one OD pair by mode, in the order of _path_set_vec (20602): exactly the
    modes in m_mode_vec that connect the pair have a set *)
Definition odset := list (mode * list ppath).
Fixpoint set_of (o : odset) (m : mode) : option (list ppath) :=
  match o with [] => None | (m', ps) :: r => if mode_eqb m m' then Some ps else set_of r m end.
(** 18667-18701 [compute_total_passenger_demand_for_one_mode]; the assert at 18694 holds for
    every column used *)
Definition mode_demand (o : odset) (m : mode) (c : nat) : res Q :=
  match set_of o m with None => Err EThrow | Some ps => Ok (sumQ (map (fun p => pp_flow p c) ps)) end.

(** the settings of the equilibrium: log, alpha1_*, beta1, assign_frq, m_total_assign_inter,
    m_total_loading_inter, m_step_size *)
Record denv := DE { de_cost : cenv; de_log : Q -> Q; de_alpha : mode -> Q; de_beta : Q; de_freq : Z; de_total : nat;
  de_inter : nat; de_step : Q }.
(** 18703-18724 [get_disutility] *)
Definition disutility (de : denv) (m : mode) (cost dmd : Q) : Q :=
  cost + (de_alpha de m + de_log de (dmd + (1 # 1000000000))) / de_beta de.
(** the column of a loading interval, 19223-19225, also 20538-20542 *)
Definition column (de : denv) (i : Z) : nat :=
  let c := Z.to_nat (i / de_freq de) in if (c <? de_total de)%nat then c else (de_total de - 1)%nat.

(** the best so far: the copy of a path, its time, its disutility *)
Definition best := (pkey * Z * Q)%type.
(** 19238-19262: a strictly smaller disutility wins; an equal path keeps the old copy *)
Definition better (cur : option best) (k : pkey) (i : Z) (d : Q) : option best :=
  match cur with
  | None => Some (k, i, d)
  | Some (k0, i0, d0) => if Qltb d d0 then Some (if same_path k0 k then k0 else k, i, d) else cur
  end.
(** one path at one loading interval, 19231-19262.  [kept]: the versions for a single interval
    use the stored disutility if there is one (19999-20013) *)
Definition look_path (de : denv) (kept : bool) (dmd : Q) (i : Z) (cur : option best) (p : ppath) : res (option best) :=
  match kept, pp_dis p with
  | true, _ :: _ =>
    match nth_error (pp_dis p) (column de i) with
    | Some d => Ok (better cur (pp_key p) i d)
    | None => Err EAssert
    end
  | _, _ =>
    do c <- path_cost (de_cost de) (pp_key p) i;
    Ok (better cur (pp_key p) i (disutility de (key_mode (pp_key p)) c dmd))
  end.
(** the mode whose demand is put in the disutility: 19227 (driving), 19306 (bus), 19391 (park
    and ride), the same at 19993, 20089, 20190 *)
Definition demand_mode (m : mode) : mode := match m with Driving => Driving | Transit => Transit | Pnr => Transit end.
(** 19193-19270, 19272-19353, 19355-19460 over the loading intervals [is], and
    19953-20365 with one; the asserts at 19264-19265 are for driving only *)
Definition best_of_mode (de : denv) (kept : bool) (o : odset) (is : list Z) (m : mode) : res (option best) :=
  match set_of o m with
  | None => Err EThrow
  | Some ps =>
    do r <- foldM (fun cur i => do dmd <- mode_demand o (demand_mode m) (column de i);
                                foldM (look_path de kept dmd i) cur ps) None is;
    match m, r with Driving, None => Err EAssert | _, _ => Ok r end
  end.
(** 19486-19510 and 19518-19542 *)
Definition merge (a b : option best) : option best :=
  match a, b with
  | Some (_, _, da), Some (_, _, db) => if Qltb db da then b else a
  | None, _ => b
  | _, None => a
  end.
(** 19462-19545 [get_best_existing_path] and its version for one interval; the modes asked for
    are those with a set *)
Definition best_of (de : denv) (kept : bool) (o : odset) (is : list Z) : res best :=
  do r <- foldM (fun cur m => match set_of o m with
                              | None => Ok cur
                              | Some _ => do b <- best_of_mode de kept o is m; Ok (merge cur b)
                              end) None all_modes;
  match r with Some b => Ok b | None => Err EAssert end.
Definition intervals (de : denv) : list Z := map Z.of_nat (seq 0 (de_inter de)).
Definition best_existing (de : denv) (o : odset) : res best := best_of de false o (intervals de).
(** the assert at 19956-19957 (the same in the two other modes) *)
Definition best_existing_at (de : denv) (o : odset) (c : nat) : res best :=
  let i := (Z.of_nat c * de_freq de)%Z in
  do _ <- guard (i + de_freq de <=? Z.of_nat (de_inter de))%Z EAssert;
  best_of de true o [i].

(** 20366-20400 [update_one_path_cost]: the disutility of every column *)
Definition path_dis (de : denv) (o : odset) (k : pkey) : res (list Q) :=
  mapM (fun c => let i := (Z.of_nat c * de_freq de)%Z in
                 do x <- path_cost (de_cost de) k i;
                 do dmd <- mode_demand o (key_mode k) c;
                 Ok (disutility de (key_mode k) x dmd)) (seq 0 (de_total de)).
(** 20402-20432 [update_path_table_cost], for one OD pair *)
Definition table_dis (de : denv) (o : odset) : res odset :=
  mapM (fun s => do ps <- mapM (fun p => do d <- path_dis de o (pp_key p); Ok (PP (pp_key p) (pp_flow p) d)) (snd s);
                 Ok (fst s, ps)) o.

(** every path of the pair *)
Definition paths (o : odset) : list ppath := concat (map snd o).
Definition is_best (k : pkey) (p : ppath) : bool := same_path (pp_key p) k.
(** MNM_Passenger_Pathset::is_in, 12474-12535 *)
Definition is_in_set (k : pkey) (ps : list ppath) : bool := existsb (is_best k) ps.
(** 20705-20728: the new path, without flow, is appended to the set of its mode; no set of that
    mode throws already at 20622 *)
Fixpoint push_path (p : ppath) (o : odset) : res odset :=
  match o with
  | [] => Err EThrow
  | (m, ps) :: r => if mode_eqb (key_mode (pp_key p)) m then Ok ((m, ps ++ [p]) :: r)
                    else do r' <- push_path p r; Ok ((m, ps) :: r')
  end.
Definition map_paths (f : ppath -> ppath) (o : odset) : odset := map (fun s => (fst s, map f (snd s))) o.
Definition add_at (f : nat -> Q) (c : nat) (x : Q) : nat -> Q := fun k => if (k =? c)%nat then f k + x else f k.
(** the loops of 20633-20662, 20729-20753 and 21011-21039: [take p c] leaves column c of path p,
    and all of it goes to column [bc] of the one path equal to the best (two of them fail the
    assert, none is a null pointer).  The amounts are read before anything changes, so they are
    taken out in one go. *)
Definition move_to_best (cols : list nat) (take : ppath -> nat -> Q) (k : pkey) (bc : nat) (o : odset) : res odset :=
  let n := length (filter (is_best k) (paths o)) in
  do _ <- guard (n <=? 1)%nat EAssert;
  do _ <- guard (1 <=? n)%nat EUB;
  let tot := sumQ (map (fun p => sumQ (map (take p) cols)) (paths o)) in
  let less p := fun c => pp_flow p c - take p c in
  Ok (map_paths (fun p => PP (pp_key p) (if is_best k p then add_at (less p) bc tot else less p) (pp_dis p)) o).
(** std::min (a, b) *)
Definition cmin (a b : Q) : Q := if Qltb b a then b else a.
(** 20604-20628: whether the best path is in the table already; always said so without column
    generation ([cg] false) *)
Definition exists_in (cg : bool) (k : pkey) (o : odset) : res bool :=
  if cg then match set_of o (key_mode k) with None => Err EThrow | Some ps => Ok (is_in_set k ps) end else Ok true.
(** 20435-20768 [update_path_table] for one OD pair, given the best path and its loading
    interval; [demand] is m_passenger_demand of the pair *)
Definition update_choice (de : denv) (cg : bool) (iter : Z) (demand : nat -> Q) (k : pkey) (t : Z) (o : odset) : res odset :=
  let cols := seq 0 (de_total de) in
  let bc := column de t in
  let rate := de_step de / inject_Z (iter + 1) in
  let cap := sumQ (map demand cols) * de_step de / inject_Z (iter + 1) in
  do ex <- exists_in cg k o;
  if ex then
    move_to_best cols (fun p c => if is_best k p && (c =? bc)%nat then 0
                                  else if (c <? de_total de)%nat then cmin (pp_flow p c) cap else 0) k bc o
  else
    do o' <- push_path (PP k (fun _ => 0) []) o;
    move_to_best cols (fun p c => if negb (is_best k p) && (c =? bc)%nat then pp_flow p c * rate else 0) k bc o'.

(** the passengers of a column over all path sets, 21044-21056 *)
Definition column_total (o : odset) (c : nat) : Q := sumQ (map (fun s => sumQ (map (fun p => pp_flow p c) (snd s))) o).
(** 20771-21075 [update_path_table_fixed_departure_time_choice], one column; [root] is
    sqrt (iter + 1), [k] the best path for the column *)
Definition fixed_column (de : denv) (cg : bool) (root : Q) (demand : nat -> Q) (k : pkey) (o : odset) (c : nat) : res odset :=
  do ex <- exists_in cg k o;
  do o1 <- if ex then Ok o else push_path (PP k (fun _ => 0) []) o;
  do o2 <- move_to_best [c] (fun p c' => if negb (is_best k p) && (c' =? c)%nat then pp_flow p c' * de_step de / root else 0) k c o1;
  do _ <- guard (Qle_bool (Qabs (column_total o2 c - demand c))
                   ((1 # 1000000) * Qmax (Qabs (column_total o2 c)) (Qabs (demand c)))) EAssert;
  Ok o2.
(** all columns; [pick] finds the best path for a column in the table as it is then *)
Definition update_fixed (de : denv) (cg : bool) (root : Q) (demand : nat -> Q) (pick : odset -> nat -> res pkey) (o : odset) : res odset :=
  foldM (fun o c => do k <- pick o c; fixed_column de cg root demand k o c) o (seq 0 (de_total de)).

(** gradient projection, 21078-21488.  The paths that take part in a column, 21334-21335 *)
Definition takes_part (k : pkey) (c : nat) (p : ppath) : bool := is_best k p || Qltb 0 (pp_flow p c).
(** m_travel_disutility_vec[_col]: beyond its end is undefined *)
Definition dis_of (c : nat) (p : ppath) : res Q := match nth_error (pp_dis p) c with Some d => Ok d | None => Err EUB end.
(** 21355-21390: tau as the smallest step * flow / change of the paths above the average;
    [None] is infinity *)
Definition tau_step (de : denv) (c : nat) (avg : Q) (tau : option Q) (p : ppath) : res (option Q) :=
  do d <- dis_of c p;
  let ch := d - avg in
  let x := de_step de * pp_flow p c / ch in
  Ok (if Qltb 0 ch then match tau with None => Some x | Some y => if Qltb x y then Some x else tau end else tau).
(** 21420-21446 for one path *)
Definition project (k : pkey) (c : nat) (avg tau : Q) (p : ppath) : res ppath :=
  if takes_part k c p then
    do d <- dis_of c p;
    let x := pp_flow p c - tau * (d - avg) in
    do _ <- guard (negb (Qltb x 0)) EThrow;
    Ok (PP (pp_key p) (fun c' => if (c' =? c)%nat then x else pp_flow p c') (pp_dis p))
  else Ok p.
(** 21205-21470, one column; a new path gets its disutilities at 21295-21300, before it is in
    the set *)
Definition gp_column (de : denv) (cg : bool) (demand : nat -> Q) (k : pkey) (o : odset) (c : nat) : res odset :=
  do ex <- exists_in cg k o;
  do o1 <- if ex then Ok o else do d <- path_dis de o k; push_path (PP k (fun _ => 0) d) o;
  let part := filter (takes_part k c) (paths o1) in
  do ds <- mapM (dis_of c) part;
  let avg := sumQ ds / inject_Z (Z.of_nat (length part)) in
  do tau <- foldM (tau_step de c avg) None part;
  match tau with
  | None => Ok o1
  | Some t =>
    do o2 <- mapM (fun s => do ps <- mapM (project k c avg t) (snd s); Ok (fst s, ps)) o1;
    do _ <- guard (approx_eq (column_total o2 c) (demand c) tol) EAssert;
    Ok o2
  end.
Definition update_gp (de : denv) (cg : bool) (demand : nat -> Q) (pick : odset -> nat -> res pkey) (o : odset) : res odset :=
  foldM (fun o c => do k <- pick o c; gp_column de cg demand k o c) o (seq 0 (de_total de)).
