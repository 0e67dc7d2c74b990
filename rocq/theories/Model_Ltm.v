(** The link transmission model: src/dlink.cpp:1310-1556 (class MNM_Dlink_Ltm).  It keeps
    private cumulative curves [m_N_in2], [m_N_out2], which start empty. *)
From Verif Require Import Base Model_Num Model_CC Model_Link.
Local Open Scope Q_scope.

(** src/dlink.h:229-262; [lt_par] are the constructor arguments *)
Record ltm := {
  lt_par : lparam; lt_w : Q; lt_size : Z;
  lt_in : list Z; lt_q : list Z; lt_fin : list Z;
  lt_vol : Z; lt_now : Z; lt_Nin : curve; lt_Nout : curve; lt_prev : Q }.

(** [m_hold_cap], src/dlink.cpp:1324 *)
Definition lt_hold (p : lparam) : Q := p_hold p * inject_Z (p_lanes p) * p_len p.
(** [m_lane_flow_cap * TFlt (m_number_of_lane) * m_unit_time] *)
Definition lt_cap (p : lparam) : Q := p_flow p * inject_Z (p_lanes p) * p_ut p.

(** src/dlink.cpp:1313-1336.  The correction of a small capacity in lines 1319-1322 is
    overwritten in line 1323 and has no effect.  A zero divisor gives an infinite value
    whose conversion to int is undefined: [EUB]. *)
Definition make_ltm (p : lparam) : res ltm :=
  do _ <- guard (negb (Qeq_bool (p_ffs p) 0) && negb (Qeq_bool (p_hold p - p_flow p / p_ffs p) 0)
                 && negb (Qeq_bool (p_flow p) 0) && negb (Qeq_bool (p_ut p) 0)) EUB;
  let w := p_flow p / (p_hold p - p_flow p / p_ffs p) in
  let m := if Qltb (p_len p / w) (p_len p / p_ffs p) then p_len p / p_ffs p else p_len p / w in
  Ok {| lt_par := p; lt_w := w; lt_size := (trunc (m / p_ut p) + 1)%Z; lt_in := []; lt_q := []; lt_fin := [];
        lt_vol := 0; lt_now := 0; lt_Nin := []; lt_Nout := []; lt_prev := 0 |}.

(** the time [TFlt (m_current_timestamp * m_unit_time)] *)
Definition lt_time (x : ltm) : Q := inject_Z (lt_now x) * p_ut (lt_par x).

(** src/dlink.cpp:1474-1485 [get_link_supply].  [m_N_in2] is read at
    [TFlt (m_current_timestamp)], not multiplied by the unit time. *)
Definition lt_supply (x : ltm) : res Q :=
  let p := lt_par x in
  do a <- get_result (lt_Nout x) (lt_time x + p_ut p - p_len p / lt_w x);
  do b <- get_result (lt_Nin x) (inject_Z (lt_now x));
  let recv := a + lt_hold p - b in
  let r := if Qltb (lt_cap p) recv then lt_cap p else recv in
  Ok (if Qltb r 0 then 0 else r).

(** src/dlink.cpp:1455-1472 [clear_incoming_array] *)
Definition lt_clear (x : ltm) : res ltm :=
  let p := lt_par x in
  do s <- lt_supply x;
  do _ <- guard (negb (trunc (s * p_fs p) <? Zlen (lt_in x))%Z) EThrow;
  do c <- add_increment (lt_Nin x) (lt_time x, inject_Z (Zlen (lt_in x)) / p_fs p);
  do m <- move_queue (lt_in x) (lt_q x) (Zlen (lt_in x));
  Ok {| lt_par := p; lt_w := lt_w x; lt_size := lt_size x; lt_in := fst m; lt_q := snd m; lt_fin := lt_fin x;
        lt_vol := (Zlen (lt_fin x) + Zlen (snd m))%Z; lt_now := lt_now x; lt_Nin := c; lt_Nout := lt_Nout x; lt_prev := lt_prev x |}.

(** src/dlink.cpp:1541-1556 [get_demand]: the demand and the new [m_N_out2] *)
Definition lt_demand (x : ltm) : res (Q * curve) :=
  let p := lt_par x in
  let real := lt_prev x - inject_Z (Zlen (lt_fin x)) / p_fs p in
  do c <- add_increment (lt_Nout x) (lt_time x, real);
  do a <- get_result (lt_Nin x) (lt_time x + p_ut p - p_len p / p_ffs p);
  do b <- get_result c (lt_time x);
  let send := a - b in
  Ok (if Qltb (lt_cap p) send then lt_cap p else send, c).

(** src/dlink.cpp:1487-1539 [evolve]; [r] is the random draw.  A negative count of vehicles to
    move does nothing; [_veh_to_reduce] vehicles go from the back of the finished array to the
    front of the queue. *)
Definition lt_evolve (r : Q) (x : ltm) : res ltm :=
  let p := lt_par x in
  do ni <- shrink (lt_Nin x) (lt_size x);
  do no <- shrink (lt_Nout x) (lt_size x);
  let x1 := {| lt_par := p; lt_w := lt_w x; lt_size := lt_size x; lt_in := lt_in x; lt_q := lt_q x; lt_fin := lt_fin x;
               lt_vol := lt_vol x; lt_now := lt_now x; lt_Nin := ni; lt_Nout := no; lt_prev := lt_prev x |} in
  do dc <- lt_demand x1;
  let '(d, c) := dc in
  let n := Zlen (lt_fin x) in
  do m <- (if Qltb d (inject_Z n / p_fs p) then
             let k := Z.to_nat (Z.min (n - trunc (d * p_fs p)) n) in
             Ok (skipn (length (lt_fin x) - k) (lt_fin x) ++ lt_q x, firstn (length (lt_fin x) - k) (lt_fin x))
           else
             let k := Z.to_nat (Z.min (rround r (d * p_fs p) - n) (Zlen (lt_q x))) in
             Ok (skipn k (lt_q x), lt_fin x ++ firstn k (lt_q x)))%list;
  Ok {| lt_par := p; lt_w := lt_w x; lt_size := lt_size x; lt_in := lt_in x; lt_q := fst m; lt_fin := snd m;
        lt_vol := lt_vol x; lt_now := lt_now x + 1; lt_Nin := ni; lt_Nout := c;
        lt_prev := inject_Z (Zlen (snd m)) / p_fs p |}.

(** One interval of a link in src/dta.cpp:636-667: the nodes take the vehicles of [lt_fin x] not in
    [stay] and deliver [inc]; then clear and evolve. *)
Definition lt_with (stay inc : list Z) (x : ltm) : ltm :=
  {| lt_par := lt_par x; lt_w := lt_w x; lt_size := lt_size x; lt_in := inc; lt_q := lt_q x; lt_fin := stay;
     lt_vol := lt_vol x; lt_now := lt_now x; lt_Nin := lt_Nin x; lt_Nout := lt_Nout x; lt_prev := lt_prev x |}.
Definition lt_interval (r : Q) (stay inc : list Z) (x : ltm) : res ltm :=
  do y <- lt_clear (lt_with stay (lt_in x ++ inc)%list x);
  lt_evolve r y.
