(** Marginal link costs of the system optimum: src/dso.cpp and the calls in
    macposts/_ext/dta.cpp:424-528, 982-1208.  Tables are lists; reading or writing past
    their end is [EUB].  Printing is left out. *)
From Verif Require Import Base Model_Num Model_CC Model_Link Model_World Model_Node Model_Grad.
Local Open Scope Z_scope.

(** element access of the arrays in m_link_tt_map, m_link_cost_map and m_link_congested:
    src/dso.cpp:136, 149-150, 168, 218-221, macposts/_ext/dta.cpp:1083-1115 *)
Definition row_at {A} (r : list A) (i : Z) : res A :=
  if i <? 0 then Err EUB else match nth_error r (Z.to_nat i) with Some x => Ok x | None => Err EUB end.
(** assignment to such an element: src/dso.cpp:273-276, macposts/_ext/dta.cpp:1035-1048 *)
Fixpoint put {A} (r : list A) (i : nat) (x : A) : list A :=
  match r, i with
  | [], _ => []
  | _ :: r', O => x :: r'
  | y :: r', S i' => y :: put r' i' x
  end.
Definition row_set {A} (r : list A) (i : Z) (x : A) : res (list A) :=
  do _ <- row_at r i; Ok (put r (Z.to_nat i) x).

(** * Tables of a link *)

(** macposts/_ext/dta.cpp:105-107: the three arrays of a link *)
Record rows := { r_tt : list Q; r_cost : list Q; r_cong : list bool }.
(** macposts/_ext/dta.cpp:1033-1054 for interval [i] of a link with free-flow time
    [ff], toll [toll]; [cache] is m_last_valid_time *)
Definition build_entry (nin nout : option curve) (ff vot toll : Q) (T : Z) (x : Q * rows) (i : Z) : res (Q * rows) :=
  do y <- travel_time nin nout ff (fst x) (inject_Z (i + 1)) T;
  let t := fst y in
  do a <- row_set (r_tt (snd x)) i t;
  do b <- row_set (r_cost (snd x)) i (vot * t + toll)%Q;
  do c <- row_set (r_cong (snd x)) i (Qltb ff t);
  Ok (snd y, {| r_tt := a; r_cost := b; r_cong := c |}).
(** the loop [for (int i = a; i < a + n; i++)], as in macposts/_ext/dta.cpp:1033,
    src/dso.cpp:89 *)
Definition ints (a : Z) (n : nat) : list Z := map (fun k => a + Z.of_nat k) (seq 0 n).
(** macposts/_ext/dta.cpp:1033-1054 for one link *)
Definition build_rows (nin nout : option curve) (ff vot toll : Q) (T : Z) (r : rows) : res rows :=
  do x <- foldM (build_entry nin nout ff vot toll T) ((-1)%Q, r) (ints 0 (Z.to_nat T)); Ok (snd x).
(** macposts/_ext/dta.cpp:1010-1029: the arrays are allocated for the number of
    intervals of the first run and used for all later ones; their initial values are
    unspecified (here 0) *)
Definition alloc_rows (old : option rows) (T : Z) : rows :=
  match old with
  | Some r => r
  | None => {| r_tt := repeat 0%Q (Z.to_nat T); r_cost := repeat 0%Q (Z.to_nat T); r_cong := repeat false (Z.to_nat T) |}
  end.

(** * Queue dissipation *)

(** src/dso.cpp:145-162, 214-234 (macposts/_ext/dta.cpp:1093-1108, 1158-1176): the first interval from [j] on, of the [k] there are,
    at which a queue is gone; [stop] if there is none (also for no interval at all:
    138-142, 204-209) *)
Fixpoint queue_end (cong : list bool) (stop j : Z) (k : nat) : res Z :=
  match k with
  | O => Ok stop
  | S k' =>
      do a <- row_at cong (j - 1);
      do b <- (if a then row_at cong j else Ok true);
      if a && negb b then Ok j else queue_end cong stop (j + 1) k'
  end.

(** src/dso.cpp:96-109: inflow of interval [j] below the capacity of the first cell *)
Definition below_capacity (ut fs : Q) (nin : option curve) (cs : list cell) (j : Z) : res bool :=
  do s <- cc_slope nin (inject_Z j) (inject_Z (j + 1));
  match cs with
  | [] => Err EUB
  | c :: _ => Ok (approx_lt (s * fs) (inject_Z (Qfloor (c_flow c * ut * fs))) tol)
  end.
(** src/dso.cpp:186-202 (macposts/_ext/dta.cpp:1134-1149): outflow [fft] intervals later equal to the
    capacity of the last cell *)
Definition at_capacity (ut fs : Q) (nout : option curve) (cs : list cell) (fft j : Z) : res bool :=
  do s <- cc_slope nout (inject_Z (j + fft)) (inject_Z (j + fft + 1));
  match last_opt cs with
  | None => Err EUB
  | Some c => Ok (approx_eq (s * fs) (inject_Z (Qfloor (c_flow c * ut * fs))) tol)
  end.

(** src/dso.cpp:136-268, macposts/_ext/dta.cpp:1083-1203: when the queue that interval
    [i] meets is gone; [stop] stands for "not within the [T] intervals" *)
Definition dissipated (ut fs : Q) (nout : option curve) (l : link) (fft T stop : Z) (tts : list Q) (cong : list bool) (i : Z) : res Z :=
  do c <- row_at cong i;
  if c then queue_end cong stop (i + 1) (Z.to_nat (T - 1 - i))
  else
    do t <- row_at tts i;
    do _ <- guard (approx_eq t (inject_Z fft) tol) EThrow;
    match l_body l with
    | BCtm cs => do b <- at_capacity ut fs nout cs fft i;
                 if b then queue_end cong stop (i + 1) (Z.to_nat (T - 1 - i)) else Ok i
    | BPq _ _ _ => Ok i
    | BLq _ _ => Err EThrow
    end.
(** macposts/_ext/dta.cpp:1060-1208 [get_link_queue_dissipated_time] for one link *)
Definition queue_times (ut fs : Q) (nout : option curve) (l : link) (T : Z) (r : rows) : res (list Z) :=
  do _ <- guard (0 <? T) EAssert;
  do fft <- link_fftt l;
  mapM (dissipated ut fs nout l fft T T (r_tt r) (r_cong r)) (ints 0 (Z.to_nat T)).

(** * Marginal costs *)

(** src/dso.cpp:91-126: the first interval from [j] on, of the [k] there are, with room for
    one more vehicle; the number of intervals if there is none *)
Fixpoint lift_up (room : Z -> res bool) (j : Z) (k : nat) : res Z :=
  match k with
  | O => Ok j
  | S k' => do b <- room j; if b then Ok j else lift_up room (j + 1) k'
  end.
(** src/dso.cpp:94-125: is there room in interval [j]? *)
Definition room (ut fs : Q) (nin : option curve) (l : link) (j : Z) : res bool :=
  match l_body l with
  | BCtm cs => below_capacity ut fs nin cs j
  | BPq _ _ _ => Ok true
  | BLq _ _ => Err EThrow
  end.
(** src/dso.cpp:91-276: interval [i]; the tables of travel times and costs are overwritten *)
Definition marginal_entry (ut fs : Q) (nin nout : option curve) (l : link) (fft T : Z) (r : rows) (i : Z) : res rows :=
  do u <- lift_up (room ut fs nin l) i (Z.to_nat (T - i));
  do d <- (if u =? T then Ok (2 * T) else dissipated ut fs nout l fft T (2 * T) (r_tt r) (r_cong r) u);
  do _ <- guard (u <=? d) EAssert;
  let x := inject_Z (d - u + fft) in
  do a <- row_set (r_tt r) i x;
  do b <- row_set (r_cost r) i x;
  Ok {| r_tt := a; r_cost := b; r_cong := r_cong r |}.
(** src/dso.cpp:65-282 [get_link_marginal_cost] for one link *)
Definition marginal_rows (ut fs : Q) (nin nout : option curve) (l : link) (T : Z) (r : rows) : res rows :=
  do _ <- guard (0 <? T) EAssert;
  do fft <- link_fftt l;
  foldM (marginal_entry ut fs nin nout l fft T) r (ints 0 (Z.to_nat T)).

(** src/dso.cpp:24-28 and src/due.cpp:302-309, 361-385: cost of a path for a departure at
    [start], read from the tables after [get_link_marginal_cost] *)
Definition dso_path_cost (tabs : Z -> option rows) (T : Z) (links : list Z) (start : Q) : res Q :=
  path_travel_time (fun l => match tabs l with Some r => Some (r_tt r) | None => None end) T links start.
