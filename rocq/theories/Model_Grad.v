(** Travel times, path times and assignment ratios computed from the cumulative curves
    after a loading: src/dta_gradient_utls.cpp.  The multi-class variants (…_bus, robust
    wrappers of the multi-class links) are not modelled.  A null curve pointer is [None]:
    the functions throw. *)
From Verif Require Import Base Model_Num Model_CC Model_Node.
Local Open Scope Z_scope.

(** DBL_EPSILON = 2^-52 *)
Definition dbl_eps : Q := 1 # 4503599627370496.

(** src/dta_gradient_utls.cpp:6-54 [get_link_inflow], [get_link_outflow] *)
Definition link_flow_between (c : option curve) (a b : Q) : res Q :=
  match c with
  | None => Err EThrow
  | Some c => do y <- get_result c b; do x <- get_result c a; Ok (y - x)%Q
  end.

(** src/dta_gradient_utls.cpp:86-100: the loop from i to i + k - 1 *)
Fixpoint valid_scan (nin : curve) (cc lv : Q) (i : Z) (k : nat) : res Q :=
  match k with
  | O => Err EThrow
  | S k' => do v <- get_result nin (lv + inject_Z i)%Q;
            if approx_lt cc v tol then Ok (lv + inject_Z i - 1)%Q else valid_scan nin cc lv (i + 1) k'
  end.
(** src/dta_gradient_utls.cpp:56-105 [get_last_valid_time]; back () of an empty curve is
    undefined *)
Definition last_valid_time (nin nout : curve) (T : Z) : res Q :=
  match last_opt nin, last_opt nout with
  | Some bi, Some bo =>
      do _ <- guard (negb (approx_lt (snd bi) (snd bo) tol && negb (approx_eq (snd bi) (snd bo) tol))) EThrow;
      do _ <- guard (trunc (fst bi) <=? T) EAssert;
      do _ <- guard (trunc (fst bo) <=? T) EAssert;
      if approx_eq (snd bo) (snd bi) tol then Ok (inject_Z T)
      else
        do lv <- get_time nin (snd bo) false;
        do _ <- guard (trunc lv <? T) EAssert;
        if Qltb lv 0 then Ok 0%Q
        else if trunc lv + 1 <=? T then valid_scan nin (snd bo) lv 1 (Z.to_nat (T - trunc lv))
        else Err EThrow
  | _, _ => Err EUB
  end.

(** src/dta_gradient_utls.cpp:166-201 [get_travel_time_from_cc] *)
Definition travel_time_cc (start : Q) (nin nout : curve) (lv fftt : Q) (rounding_up : bool) : res Q :=
  if Qle_bool lv 0 then Ok fftt
  else
    let s := if Qltb lv start then lv else start in
    do cc <- get_result nin s;
    if Qle_bool cc dbl_eps then Ok fftt
    else
      do e <- get_time nout cc rounding_up;
      if Qltb e 0 || Qltb (e - s) 0 || Qltb (e - s) fftt then Ok fftt else Ok (e - s)%Q.

(** src/dta_gradient_utls.cpp:214-244 [get_travel_time]: [ff] is
    get_link_freeflow_tt_loading (), [cache] is m_last_valid_time (-1 before the first
    call); returns the travel time and the new cache *)
Definition travel_time (nin nout : option curve) (ff cache start : Q) (T : Z) : res (Q * Q) :=
  match nin with
  | None => Err EThrow
  | Some ni =>
      let fftt := inject_Z (trunc ff) in
      do lv <- (if Qltb cache 0 then match nout with Some no => last_valid_time ni no T | None => Err EUB end else Ok cache);
      do _ <- guard (Qle_bool 0 lv) EAssert;
      do t <- (if Qle_bool lv 0 then Ok fftt
               else match nout with Some no => travel_time_cc start ni no lv fftt false | None => Err EUB end);
      Ok (t, lv)
  end.

(** src/dta_gradient_utls.cpp:246-265 [get_travel_time_robust] for a link whose travel
    time at a start time is [f]; [int] conversions are truncations, a zero number of trials
    gives 0/0 (not a number): [EUB] *)
Definition robust_trials (s e : Q) (n : Z) : Z := if trunc (e - s) <? n then trunc (e - s) else n.
Definition travel_time_robust (f : Q -> res Q) (s e : Q) (n : Z) : res Q :=
  let k := robust_trials s e n in
  do _ <- guard (negb (k =? 0)) EUB;
  let d := ((e - s) / inject_Z k)%Q in
  do ts <- mapM (fun i => f (s + inject_Z (Z.of_nat i) * d)%Q) (seq 0 (Z.to_nat k));
  Ok (sumQ ts / inject_Z k)%Q.

(** C round (): half away from zero *)
Definition cround (x : Q) : Z := if Qle_bool 0 x then Qfloor (x + (1 # 2)) else - Qfloor (- x + (1 # 2)).

(** src/dta_gradient_utls.cpp:267-296 [get_path_travel_time]: [tt l t] is
    get_travel_time of link [l] at curve time [t] *)
Fixpoint chain_cc (tt : Z -> Q -> res Q) (links : list Z) (t : Z) : res Z :=
  match links with
  | [] => Ok t
  | l :: r => do x <- tt l (inject_Z (t + 1)); do n <- round_up_time x tol; chain_cc tt r (t + n)
  end.
Definition path_travel_time_cc (tt : Z -> Q -> res Q) (links : list Z) (start : Q) : res Q :=
  do e <- chain_cc tt links (cround start); Ok (inject_Z e - start)%Q.

(** Tables link_tt_map, link_cost_map: link ID -> array of T values; reading outside is
    [EUB] (so is an unknown link: operator[] inserts a null pointer) *)
Definition table := Z -> option (list Q).
Definition cell_at (tb : table) (l i : Z) : res Q :=
  match tb l with
  | None => Err EUB
  | Some row => if i <? 0 then Err EUB else match nth_error row (Z.to_nat i) with Some x => Ok x | None => Err EUB end
  end.
Definition clamp (T t : Z) : Z := if t <? T then t else T - 1.

(** src/dta_gradient_utls.cpp:298-317 [get_path_travel_time], table version *)
Fixpoint chain_tb (tt : table) (T : Z) (links : list Z) (t : Z) : res Z :=
  match links with
  | [] => Ok t
  | l :: r => do x <- cell_at tt l (clamp T t); do n <- round_up_time x tol; chain_tb tt T r (t + n)
  end.
Definition path_travel_time (tt : table) (T : Z) (links : list Z) (start : Q) : res Q :=
  do e <- chain_tb tt T links (cround start); Ok (inject_Z e - start)%Q.

(** src/dta_gradient_utls.cpp:319-343 [get_path_travel_cost] *)
Fixpoint chain_cost (tt co : table) (T : Z) (links : list Z) (t : Z) (acc : Q) : res Q :=
  match links with
  | [] => Ok acc
  | l :: r => do c <- cell_at co l (clamp T t); do x <- cell_at tt l (clamp T t); do n <- round_up_time x tol;
              chain_cost tt co T r (t + n) (acc + c)%Q
  end.
Definition path_travel_cost (tt co : table) (T : Z) (links : list Z) (start : Q) : res Q :=
  chain_cost tt co T links (cround start) 0.

(** src/dta_gradient_utls.cpp:345-389 [add_dar_records]: the tree is the list of its
    entries, [paths] the keys of path_map *)
Record dar := { da_path : Z; da_int : Z; da_link : Z; da_start : Q; da_flow : Q }.
Definition dar_step (paths : Z -> bool) (l : Z) (s e : Q) (acc : list dar) (x : (Z * Z) * curve) : res (list dar) :=
  if paths (fst (fst x)) then
    do b <- get_result (snd x) e; do a <- get_result (snd x) s;
    let fl := (b - a)%Q in
    if Qltb dbl_eps fl
    then Ok (acc ++ [{| da_path := fst (fst x); da_int := snd (fst x); da_link := l; da_start := s; da_flow := fl |}])
    else Ok acc
  else Ok acc.
Definition add_dar_records (acc : list dar) (paths : Z -> bool) (l : Z) (tree : option cctree) (s e : Q) : res (list dar) :=
  match tree with None => Err EThrow | Some t => foldM (dar_step paths l s e) acc t end.

(** src/dta_gradient_utls.cpp:391-446 [add_dar_records_eigen]: row, column, value; [pm] is
    path_map, [f] the path flows (reading outside is [EUB]); a zero flow gives an infinite
    ratio: [EUB] *)
Definition eigen_step (pm : Z -> option Z) (s e : Q) (li ii ne np : Z) (f : list Q) (acc : list (Z * Z * Q)) (x : (Z * Z) * curve) : res (list (Z * Z * Q)) :=
  match pm (fst (fst x)) with
  | None => Ok acc
  | Some pi =>
      do b <- get_result (snd x) e; do a <- get_result (snd x) s;
      let fl := (b - a)%Q in
      if Qltb dbl_eps fl then
        let y := pi + np * snd (fst x) in
        if y <? 0 then Err EUB
        else match nth_error f (Z.to_nat y) with
             | None => Err EUB
             | Some fy => do _ <- guard (negb (Qeq_bool fy 0)) EUB; Ok (acc ++ [(li + ne * ii, y, (fl / fy)%Q)])
             end
      else Ok acc
  end.
Definition add_dar_records_eigen acc pm (tree : option cctree) s e li ii ne np f : res (list (Z * Z * Q)) :=
  match tree with None => Err EThrow | Some t => foldM (eigen_step pm s e li ii ne np f) acc t end.

(** src/dta_gradient_utls.cpp:448-516 [get_arrival_cc_slope], [get_departure_cc_slope] *)
Definition cc_slope (c : option curve) (s e : Q) : res Q :=
  match c with
  | None => Err EThrow
  | Some c =>
      match last_opt c with
      | None => Err EUB
      | Some b =>
          if Qltb (fst b) s then Ok 0%Q
          else
            let d := trunc e - trunc s in
            do _ <- guard (0 <? d) EAssert;
            do xs <- mapM (fun i => do a <- get_result c (s + inject_Z (Z.of_nat i))%Q;
                                    do b <- get_result c (s + inject_Z (Z.of_nat i) + 1)%Q; Ok (b - a)%Q) (seq 0 (Z.to_nat d));
            Ok (sumQ xs / inject_Z d)%Q
      end
  end.
