(** Modes of travel in the multimodal equilibrium (MNM_MM_Due, src/multimodal.cpp):
    which modes connect an OD pair, the logit split, first flows, and the demand
    given to the origins minute by minute. *)
From Verif Require Import Base Model_Num Model_SP Model_Node.
Local Open Scope Q_scope.

(** MMDue_mode, src/multimodal.h: the three modes of m_mode_vec, src/multimodal.cpp:15004-15018 *)
Inductive mode := Driving | Transit | Pnr.
Definition mode_eqb (a b : mode) : bool :=
  match a, b with Driving, Driving | Transit, Transit | Pnr, Pnr => true | _, _ => false end.
Definition all_modes : list mode := [Driving; Transit; Pnr].

(** src/multimodal.cpp:12547-12557: the weight of a mode; [ex] is exp, an infinite
    cost is [None].  alpha_map has an entry for every mode of the cost table
    (16618-16647), so [alpha] is total. *)
Definition weight (ex : Q -> Q) (alpha : mode -> Q) (beta : Q) (c : mode * ext) : mode * Q :=
  match snd c with
  | None => (fst c, 0)
  | Some x => (fst c, ex (- (alpha (fst c) + beta * x)))
  end.
(** src/multimodal.cpp:12539-12567 [logit_fn]; the assert is at 12561 *)
Definition logit_fn (ex : Q -> Q) (cost : list (mode * ext)) (alpha : mode -> Q) (beta : Q) : res (list (mode * Q)) :=
  let ws := map (weight ex alpha beta) cost in
  let total := sumQ (map snd ws) in
  do _ <- guard (Qltb 0 total) EAssert;
  Ok (map (fun w => (fst w, snd w / total)) ws).

(** the settings used: m_mode_vec (15003-15018), m_init_demand_split, m_flow_scalar,
    _num_of_minute (15861, 16137), m_total_assign_inter, exp, alpha1_*, beta1 (15022-15025) *)
Record sconf := SC { sc_modes : mode -> bool; sc_split : Z; sc_scalar : Q; sc_minutes : nat; sc_total : nat;
  sc_exp : Q -> Q; sc_alpha : mode -> Q; sc_beta : Q }.
(** an OD pair of m_passenger_demand: passengers per assignment interval; its entries
    in m_od_mode_connectivity; the snapshot cost of each mode; and the demand per
    minute kept by the origin for the destination: m_demand_car,
    m_demand_passenger_bus, m_demand_pnr_car ([None]: no vector yet) *)
Record opair := OP { op_total : nat -> Q; op_conn : mode -> option bool; op_cost : mode -> ext;
  op_dem : mode -> option (nat -> Q) }.

(** the test [std::find (m_mode_vec, m) && connectivity.find (m)->second], e.g.
    src/multimodal.cpp:15877-15882; a missing entry is dereferenced *)
Definition available (cf : sconf) (p : opair) (m : mode) : res bool :=
  if sc_modes cf m then match op_conn p m with Some b => Ok b | None => Err EUB end else Ok false.
Definition connected (p : opair) (m : mode) : bool := match op_conn p m with Some b => b | None => false end.
(** src/multimodal.cpp:16580-16934 [get_mode_split_snapshot] without the computation
    of the costs: the table has the available modes (16618-16647), and the cost of
    every connected mode is stored through find (m)->second (16710, 16769, 16927),
    a mode outside m_mode_vec has no entry. *)
Definition mode_split (cf : sconf) (p : opair) : res (list (mode * Q)) :=
  do av <- mapM (fun m => do a <- available cf p m; Ok (m, a)) all_modes;
  do _ <- guard (forallb (fun m => implb (connected p m) (sc_modes cf m)) all_modes) EUB;
  logit_fn (sc_exp cf) (map (fun x => (fst x, op_cost p (fst x))) (filter snd av)) (sc_alpha cf) (sc_beta cf).

(** src/multimodal.cpp:16198-16209: minutes n, n-1, ..., 1 are tried *)
Fixpoint most_minutes (scalar d : Q) (n k : nat) : nat :=
  match k with
  | O => n
  | S k' => if (1 <=? Qfloor (d / inject_Z (Z.of_nat k) * scalar))%Z then k else most_minutes scalar d n k'
  end.
(** src/multimodal.cpp:16186-16232, the same at 15915-15949: the demand of each
    minute of an assignment interval, and the value left in _demand *)
Definition spread (cf : sconf) (d : Q) : res (list Q * Q) :=
  let n := sc_minutes cf in
  if (sc_split cf =? 0)%Z then Ok (d :: repeat 0 (n - 1), d)
  else if (sc_split cf =? 1)%Z then
    let m := most_minutes (sc_scalar cf) d n n in
    do _ <- guard ((1 <=? m)%nat && (m <=? n)%nat) EAssert;
    let e := d / inject_Z (Z.of_nat m) in
    Ok (repeat e m ++ repeat 0 (n - m), e)
  else Err EThrow.

(** writes to _demand_vector[inter * n + k], k = 0 .. n - 1 *)
Definition put (v : nat -> Q) (inter n : nat) (slots : list Q) : nat -> Q :=
  fun i => if ((inter * n <=? i) && (i <? inter * n + n))%nat then nth (i - inter * n) slots 0 else v i.
Definition set_dem (p : opair) (m : mode) (v : nat -> Q) : opair :=
  OP (op_total p) (op_conn p) (op_cost p) (fun m' => if mode_eqb m m' then Some v else op_dem p m').
(** the vector of a mode, a new one is all zeros: src/multimodal.cpp:16171-16180 *)
Definition vec_of (p : opair) (m : mode) : nat -> Q := match op_dem p m with Some v => v | None => fun _ => 0 end.
Fixpoint share_of (m : mode) (l : list (mode * Q)) : option Q :=
  match l with [] => None | (m', s) :: l' => if mode_eqb m m' then Some s else share_of m l' end.

(** pair, value of the local _demand ([None]: not initialised), m_mode_share *)
Definition lstate := (opair * option Q * (mode -> Q))%type.
(** one mode of one pair: driving src/multimodal.cpp:16162-16245, pnr 16247-16330,
    transit 16332-16427.  Where the mode is not available the vector is set to 0,
    for transit to _demand (16414-16426). *)
Definition logit_mode (cf : sconf) (inter : nat) (shares : list (mode * Q)) (st : lstate) (m : mode) : res lstate :=
  let '(p, stale, tot) := st in
  let n := sc_minutes cf in
  do a <- available cf p m;
  match (if a then share_of m shares else None) with
  | Some s =>
      let d := s * op_total p inter in
      do x <- spread cf d;
      Ok (set_dem p m (put (vec_of p m) inter n (fst x)), Some (snd x),
          fun m' => if mode_eqb m m' then tot m' + d else tot m')
  | None =>
      match op_dem p m with
      | None => Ok st
      | Some v =>
          match m with
          | Transit => match stale with
                       | Some q => Ok (set_dem p m (put v inter n (repeat q n)), stale, tot)
                       | None => Err EUB
                       end
          | _ => Ok (set_dem p m (put v inter n (repeat 0 n)), stale, tot)
          end
      end
  end.
(** src/multimodal.cpp:16154-16427: one pair *)
Definition logit_pair (cf : sconf) (inter : nat) (stale : option Q) (tot : mode -> Q) (p : opair) : res lstate :=
  do shares <- mode_split cf p;
  foldM (logit_mode cf inter shares) (p, stale, tot) [Driving; Pnr; Transit].
(** src/multimodal.cpp:16117-16432 [update_origin_demand_logit_model]: the pairs in the
    order of the hash maps; the assert on the minutes is at 16138 *)
Definition logit_demand (cf : sconf) (inter : nat) (tot : mode -> Q) (ps : list opair) : res (list opair * (mode -> Q)) :=
  do _ <- guard (sc_minutes cf =? 15)%nat EAssert;
  do _ <- guard (inter <? sc_total cf)%nat EUB;
  do r <- foldM (fun s p => let '(done, stale, tot) := s in
                  do x <- logit_pair cf inter stale tot p;
                  let '(p', stale', tot') := x in Ok (done ++ [p'], stale', tot')) ([], None, tot) ps;
  Ok (fst (fst r), snd r).

(** a passenger path: m_buffer, m_travel_disutility_vec and m_num_people (1 for transit,
    whose flow is not divided, src/multimodal.cpp:16066) *)
Record mpath := MP { mp_flow : nat -> Q; mp_dis : list Q; mp_people : Z }.
Definition set_flow (p : mpath) (f : nat -> Q) : mpath := MP f (mp_dis p) (mp_people p).

(** src/multimodal.cpp:15905-15913: vehicles of an interval *)
Definition vehicles (ps : list mpath) (c : nat) : Q := sumQ (map (fun p => mp_flow p c / inject_Z (mp_people p)) ps).
(** src/multimodal.cpp:15876-15952 (driving), 15954-16029 (pnr), 16031-16110 (transit);
    [paths] is the entry of the pair and mode in m_passenger_path_table *)
Definition table_mode (cf : sconf) (paths : mode -> option (list mpath)) (p : opair) (m : mode) : res opair :=
  do a <- available cf p m;
  if a then
    match paths m with
    | None => Err EUB
    | Some ps =>
        do v <- match ps with
                | [] => Ok (fun _ => 0)
                | _ => foldM (fun v c => do x <- spread cf (vehicles ps c); Ok (put v c (sc_minutes cf) (fst x)))
                         (fun _ => 0) (seq 0 (sc_total cf))
                end;
        Ok (set_dem p m v)
    end
  else Ok p.
(** src/multimodal.cpp:15848-16112 [update_origin_demand_from_passenger_path_table], one
    pair; pairs do not interact (m_total_assign_inter of the loading is
    total * minutes, 9576, so memset clears the vector) *)
Definition table_demand (cf : sconf) (paths : mode -> option (list mpath)) (p : opair) : res opair :=
  do _ <- guard (sc_minutes cf =? 15)%nat EAssert;
  foldM (table_mode cf paths) p [Driving; Pnr; Transit].

(** src/multimodal.cpp:15791-15813: the first path of a mode gets the share, others nothing *)
Definition first_flow (total : nat) (share : nat -> Q) (ps : list mpath) : list mpath :=
  match ps with
  | [] => []
  | p :: rest =>
      set_flow p (fun c => if (c <? total)%nat then share c else mp_flow p c)
      :: map (fun q => set_flow q (fun c => if (c <? total)%nat then 0 else mp_flow q c)) rest
  end.
(** src/multimodal.cpp:15815-15838: the check of one interval *)
Definition flows_checked (demand : nat -> Q) (modes : list (list mpath)) (c : nat) : bool :=
  approx_eq (sumQ (map (fun p => mp_flow p c) (concat modes))) (demand c) (1 # 1000000).
(** src/multimodal.cpp:15744-15844 [init_passenger_path_flow], one pair: its pathsets,
    one for each mode *)
Definition init_flow (total : nat) (demand : nat -> Q) (modes : list (list mpath)) : res (list (list mpath)) :=
  do _ <- guard (negb (length modes =? 0)%nat) EThrow;
  let k := inject_Z (Z.of_nat (length modes)) in
  do out <- mapM (fun ps => do _ <- guard (negb (length ps =? 0)%nat) EThrow;
                            Ok (first_flow total (fun c => 1 / k * demand c) ps)) modes;
  do _ <- guard (forallb (flows_checked demand out) (seq 0 total)) EAssert;
  Ok out.

(** src/multimodal.cpp:18737-18753: lowest disutility over the used visits (interval, path);
    m_travel_disutility_vec[_col] outside the vector is undefined *)
Definition lower (low : ext) (v : nat * mpath) : res ext :=
  let '(c, p) := v in
  if Qltb 0 (mp_flow p c) then
    match nth_error (mp_dis p) c with
    | Some x => Ok (if eltb (Some x) low then Some x else low)
    | None => Err EUB
    end
  else Ok low.
(** src/multimodal.cpp:18760-18769: gap and flow cost.  With a used visit [low] is finite. *)
Definition gap_step (low : ext) (acc : Q * Q) (v : nat * mpath) : res (Q * Q) :=
  let '(c, p) := v in
  if Qltb 0 (mp_flow p c) then
    match nth_error (mp_dis p) c, low with
    | Some x, Some l => Ok (fst acc + Qabs (x - l) * mp_flow p c, snd acc + Qabs l * mp_flow p c)
    | _, _ => Err EUB
    end
  else Ok acc.
Definition gap_group (acc : Q * Q) (vs : list (nat * mpath)) : res (Q * Q) :=
  do low <- foldM lower None vs; foldM (gap_step low) acc vs.
Definition visits (c : nat) (ps : list mpath) : list (nat * mpath) := map (fun p => (c, p)) ps.
Definition merit_of (g : Q * Q) : Q := fst g / Qmax (snd g) (1 # 1000000).
(** src/multimodal.cpp:18726-18776 [compute_merit_function]; each pair is the list of
    the paths of all its modes *)
Definition merit (total : nat) (pairs : list (list mpath)) : res Q :=
  do g <- foldM gap_group (0, 0) (map (fun ps => concat (map (fun c => visits c ps) (seq 0 total))) pairs);
  Ok (merit_of g).
(** src/multimodal.cpp:18778-18825 [compute_merit_function_fixed_departure_time_choice] *)
Definition merit_fixed (total : nat) (pairs : list (list mpath)) : res Q :=
  do g <- foldM gap_group (0, 0) (concat (map (fun ps => map (fun c => visits c ps) (seq 0 total)) pairs));
  Ok (merit_of g).

(** m_od_mode_connectivity as the list of its pairs; a line of the file is the list of
    its words, all numbers (src/multimodal.cpp:15501-15508, 15535-15539) *)
Definition conn := mode -> option bool.
Definition ctable := list ((Z * Z) * conn).
Definition flag (b : bool) : Z := if b then 1%Z else 0%Z.
(** src/multimodal.cpp:15501-15508: the three entries are dereferenced *)
Definition save_line (e : (Z * Z) * conn) : res (list Z) :=
  match snd e Driving, snd e Transit, snd e Pnr with
  | Some a, Some b, Some c => Ok [fst (fst e); snd (fst e); flag a; flag b; flag c]
  | _, _, _ => Err EUB
  end.
(** src/multimodal.cpp:15477-15513 [save_od_mode_connectivity] *)
Definition save_conn (t : ctable) : res (list (list Z)) := mapM save_line t.
Fixpoint find_pair (k : Z * Z) (t : ctable) : option conn :=
  match t with
  | [] => None
  | (k', c) :: t' => if ((fst k =? fst k') && (snd k =? snd k'))%Z then Some c else find_pair k t'
  end.
Fixpoint set_pair (k : Z * Z) (c : conn) (t : ctable) : ctable :=
  match t with
  | [] => [(k, c)]
  | (k', c') :: t' => if ((fst k =? fst k') && (snd k =? snd k'))%Z then (k', c) :: t' else (k', c') :: set_pair k c t'
  end.
(** entries of the modes of m_mode_vec that are missing become false: 15375-15388, 15565-15578 *)
Definition with_modes (ms : mode -> bool) (c : conn) : conn :=
  fun m => match c m with Some b => Some b | None => if ms m then Some false else None end.
(** find (m)->second = true where the flag is set: a missing entry is dereferenced *)
Definition raise (c : conn) (x : mode * bool) : res conn :=
  if snd x then
    match c (fst x) with
    | Some _ => Ok (fun m => if mode_eqb (fst x) m then Some true else c m)
    | None => Err EUB
    end
  else Ok c.
(** src/multimodal.cpp:15535-15608: one line *)
Definition load_line (ms : mode -> bool) (t : ctable) (line : list Z) : res ctable :=
  match line with
  | [o; d; a; b; p] =>
      let c := match find_pair (o, d) t with Some c => c | None => fun _ => None end in
      do c' <- foldM raise (with_modes ms c) [(Driving, (a =? 1)%Z); (Transit, (b =? 1)%Z); (Pnr, (p =? 1)%Z)];
      Ok (set_pair (o, d) c' t)
  | _ => Err EThrow
  end.
(** src/multimodal.cpp:15515-15619 [load_od_mode_connectivity]: [count] is
    OD_pair_passenger, as many lines are read; past the end a line is empty *)
Definition load_conn (ms : mode -> bool) (count : nat) (file : list (list Z)) : res ctable :=
  foldM (load_line ms) [] (firstn count file ++ repeat [] (count - length file)).

(** src/multimodal.cpp:15351-15463: a pair with demand; [reach] tells what the shortest
    path trees find for it *)
Definition compute_pair (ms : mode -> bool) (reach : (Z * Z) -> mode -> bool) (t : ctable) (k : Z * Z) : res ctable :=
  let c := match find_pair k t with Some c => c | None => fun _ => None end in
  let ok m := ms m && reach k m in
  do c' <- foldM raise (with_modes ms c) [(Driving, ok Driving); (Transit, ok Transit); (Pnr, ok Pnr)];
  do _ <- guard (existsb ok all_modes) EThrow;
  Ok (set_pair k c' t).
(** src/multimodal.cpp:15284-15475 [check_od_mode_connectivity]: the table and the file
    afterwards; [file] is [None] when it cannot be opened *)
Definition check_conn (ms : mode -> bool) (reach : (Z * Z) -> mode -> bool) (pairs : list (Z * Z)) (count : nat)
  (file : option (list (list Z))) : res (ctable * option (list (list Z))) :=
  do t <- match file with Some f => load_conn ms count f | None => Ok [] end;
  match t with
  | _ :: _ => Ok (t, file)
  | [] => do t' <- foldM (compute_pair ms reach) [] pairs; do f <- save_conn t'; Ok (t', Some f)
  end.
