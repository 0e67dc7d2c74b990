(** Two-class (car, truck) links: src/multiclass.cpp, classes MNM_Dlink_Multiclass,
    MNM_Dlink_Ctm_Multiclass, MNM_Dlink_Lq_Multiclass, MNM_Dlink_Pq_Multiclass.
    Vehicles are integer IDs; [cls v] is [m_class == 1] (a truck), a constant of the
    vehicle.  Left out: m_visual_position_on_link, printing, the cumulative curves
    (written by the nodes, Model_McNode.v). *)
From Verif Require Import Base Model_Num Model_Link.

(** Constructor arguments and the values the constructors keep of them;
    src/multiclass.cpp:150-165, 1348-1354, 1978-1984.  Suffix c: car, t: truck. *)
Inductive mkind := MKCtm | MKLq | MKPq.
Record mparam := {
  mp_kind : mkind; mp_lanes : Z; mp_len : Q; mp_hold_c : Q; mp_hold_t : Q; mp_flow_c : Q; mp_flow_t : Q;
  mp_ffs_c : Q; mp_ffs_t : Q; mp_ut : Q; mp_pcu : Q; mp_fs : Q }.

(** The two fundamental diagrams of a cell or of a link queue: jam density,
    critical density, m_rho_1_N, capacity, free-flow speed, wave speed
    (src/multiclass.h:180-190, 245-257). *)
Record fd := {
  K_c : Q; K_t : Q; cr_c : Q; cr_t : Q; rho1 : Q; cap_c : Q; cap_t : Q;
  vf_c : Q; vf_t : Q; w_c : Q; w_t : Q }.

(** A perceived density: a number, +infinity (division by zero), or never written
    (the constructor of the link queue leaves both members uninitialised,
    src/multiclass.cpp:1348-1391). *)
Inductive dens := Den (q : Q) | DInf | DUnset.
Definition ddiv (a b : Q) : dens := if Qeq_bool b 0 then DInf else Den (a / b).

(** m_space_fraction_*, m_perceived_density_* *)
Record split := { s_fc : Q; s_ft : Q; s_pc : dens; s_pt : dens }.

(** src/multiclass.cpp:1205-1300 [Ctm_Cell_Multiclass::update_perceived_density] and
    1439-1528 [MNM_Dlink_Lq_Multiclass::update_perceived_density]: the same
    computation on [len], volumes [vc], [vt].  [t1 + t2 = 0] needs a zero jam density,
    which only the link queue accepts; the quotient is then 0 here and NaN there. *)
Definition perceive (f : fd) (fs len : Q) (vc vt : Z) : split :=
  let kc := (inject_Z vc / fs / len)%Q in
  let kt := (inject_Z vt / fs / len)%Q in
  if Qle_bool (kc / cr_c f + kt / cr_t f) 1 then
    let a := (kc / cr_c f)%Q in
    let b := (kt / cr_t f)%Q in
    let z := Qeq_bool (a + b) 0 in
    {| s_fc := if z then 1%Q else (a / (a + b))%Q; s_ft := if z then 0%Q else (b / (a + b))%Q;
       s_pc := Den (kc + cr_c f * b); s_pt := Den (kt + cr_t f * a) |}
  else if Qltb (kt / cr_t f) 1 && Qle_bool (kc / (1 - kt / cr_t f)) (rho1 f) then
    let b := (kt / cr_t f)%Q in
    {| s_fc := (1 - b)%Q; s_ft := b; s_pc := ddiv kc (1 - b); s_pt := Den (cr_t f) |}
  else if vt =? 0 then
    let u := ((K_c f - kc) * w_c f / kc)%Q in
    {| s_fc := 1%Q; s_ft := 0%Q; s_pc := Den kc; s_pt := ddiv (K_t f * w_t f) (u + w_t f) |}
  else if vc =? 0 then
    let u := ((K_t f - kt) * w_t f / kt)%Q in
    {| s_fc := 0%Q; s_ft := 1%Q; s_pc := ddiv (K_c f * w_c f) (u + w_c f); s_pt := Den kt |}
  else
    let t1 := (K_c f * w_c f * kt)%Q in
    let t2 := (K_t f * w_t f * kc)%Q in
    let fc := ((kc * kt * (w_c f - w_t f) + t2) / (t2 + t1))%Q in
    let ft := ((kc * kt * (w_t f - w_c f) + t1) / (t2 + t1))%Q in
    {| s_fc := fc; s_ft := ft; s_pc := ddiv kc fc; s_pt := ddiv kt ft |}.

(** src/multiclass.cpp:1305-1322 [get_perceived_demand]; std::min with an infinite
    second argument keeps the first *)
Definition pdemand (cap vf ut : Q) (k : dens) : res Q :=
  match k with
  | Den k => Ok (Qmin cap (vf * k) * ut)%Q
  | DInf => Ok (cap * ut)%Q
  | DUnset => Err EUB
  end.

(** src/multiclass.cpp:1325-1344 [get_perceived_supply] *)
Definition psupply (cap w K ut : Q) (k : dens) : res Q :=
  match k with
  | Den k => Ok (Qmax 0 (Qmin cap (w * (K - k))) * ut)%Q
  | DInf => Ok 0%Q
  | DUnset => Err EUB
  end.

(** * CTM *)

(** src/multiclass.h:155-203 [Ctm_Cell_Multiclass]; the diagram is the same for all
    cells of a link and kept in the link body.  m_out_veh_* are rewritten before use. *)
Record mcell := { mc_len : Q; mc_vc : Z; mc_vt : Z; mc_sp : split; mc_qc : list Z; mc_qt : list Z }.
Definition set_mq (c : mcell) (qc qt : list Z) : mcell :=
  {| mc_len := mc_len c; mc_vc := mc_vc c; mc_vt := mc_vt c; mc_sp := mc_sp c; mc_qc := qc; mc_qt := qt |}.
Definition set_mvol (f : fd) (fs : Q) (c : mcell) (vc vt : Z) : mcell :=
  {| mc_len := mc_len c; mc_vc := vc; mc_vt := vt; mc_sp := perceive f fs (mc_len c) vc vt;
     mc_qc := mc_qc c; mc_qt := mc_qt c |}.

Inductive mbody :=
| MCtm (f : fd) (cells : list mcell)
| MLq (f : fd) (qc qt : list Z) (vc vt : Z) (sp : split)
| MPq (max_stamp : Z) (pool : list (Z * Z)) (vc vt : Z).

(** A link object: arrays, body, the three waiting times, m_spill_back *)
Record mlink := {
  ml_par : mparam; ml_in : list Z; ml_fin : list Z; ml_body : mbody;
  ml_wait : Q; ml_wait_c : Q; ml_wait_t : Q; ml_spill : bool }.

Definition cars (cls : Z -> bool) (l : list Z) : list Z := filter (fun v => negb (cls v)) l.
Definition trucks (cls : Z -> bool) (l : list Z) : list Z := filter cls l.

(** MNM_Ults::round draws of one [evolve]: cars and trucks of each cell, and the
    rand_flt of the merge at the exit *)
Record mdraws := { md_car : nat -> Q; md_truck : nat -> Q; md_mix : nat -> Q }.

(** src/multiclass.cpp:610-647 [update_out_veh] *)
Definition mflux (f : fd) (ut fs : Q) (c c' : mcell) : res (Q * Q) :=
  do dc <- pdemand (cap_c f) (vf_c f) ut (s_pc (mc_sp c));
  do sc <- psupply (cap_c f) (w_c f) (K_c f) ut (s_pc (mc_sp c'));
  do dt <- pdemand (cap_t f) (vf_t f) ut (s_pt (mc_sp c));
  do st <- psupply (cap_t f) (w_t f) (K_t f) ut (s_pt (mc_sp c'));
  Ok (s_fc (mc_sp c) * Qmin dc sc * fs, s_ft (mc_sp c) * Qmin dt st * fs)%Q.
Fixpoint mouts (f : fd) (ut fs : Q) (D : mdraws) (i : nat) (cs : list mcell) : res (list (Z * Z)) :=
  match cs with
  | [] => Ok []
  | [c] => Ok [(Zlen (mc_qc c), Zlen (mc_qt c))]
  | c :: ((c' :: _) as rest) =>
      do x <- mflux f ut fs c c';
      do os <- mouts f ut fs D (S i) rest;
      Ok ((Z.min (Zlen (mc_qc c)) (rround (md_car D i) (fst x)),
           Z.min (Zlen (mc_qt c)) (rround (md_truck D i) (snd x))) :: os)
  end.

(** src/multiclass.cpp:736-817 [move_last_cell] and 1610-1680: merge of the leaving
    cars and trucks; when one class is exhausted the other goes whatever the draw *)
Fixpoint mix (p : Q) (r : nat -> Q) (k : nat) (n : nat) (cs ts : list Z) : list Z :=
  match n with
  | O => []
  | S n' =>
      match cs, ts with
      | [], [] => []
      | c :: cs', [] => c :: mix p r (S k) n' cs' []
      | [], t :: ts' => t :: mix p r (S k) n' [] ts'
      | c :: cs', t :: ts' =>
          if Qltb (r k) p then c :: mix p r (S k) n' cs' ts else t :: mix p r (S k) n' cs ts'
      end
  end.
Definition merge_out (r : nat -> Q) (cs ts : list Z) : list Z :=
  mix (inject_Z (Zlen cs) / inject_Z (Zlen cs + Zlen ts)) r 0 (length cs + length ts) cs ts.

(** src/multiclass.cpp:650-682: cells in ascending order, then the last cell into the
    finished array; a vehicle without a next link throws *)
Fixpoint mmove (r : nat -> Q) (has_next : Z -> bool) (cs : list mcell) (outs : list (Z * Z)) (fin : list Z)
  : res (list mcell * list Z) :=
  match cs, outs with
  | [c], [o] =>
      if (Zlen (mc_qc c) <? fst o) || (Zlen (mc_qt c) <? snd o) then Err EUB
      else
        let a := firstn (Z.to_nat (fst o)) (mc_qc c) in
        let b := firstn (Z.to_nat (snd o)) (mc_qt c) in
        do _ <- guard (forallb has_next (a ++ b)) EThrow;
        Ok ([set_mq c (skipn (Z.to_nat (fst o)) (mc_qc c)) (skipn (Z.to_nat (snd o)) (mc_qt c))],
            fin ++ merge_out r a b)
  | c :: (c' :: rest), o :: os =>
      do m <- move_queue (mc_qc c) (mc_qc c') (fst o);
      do m' <- move_queue (mc_qt c) (mc_qt c') (snd o);
      do x <- mmove r has_next (set_mq c' (snd m) (snd m') :: rest) os fin;
      Ok (set_mq c (fst m) (fst m') :: fst x, snd x)
  | _, _ => Err EUB
  end.

(** src/multiclass.cpp:684-715: volumes and perceived densities after the moves *)
Fixpoint mrecount (f : fd) (fs : Q) (cls : Z -> bool) (cs : list mcell) (fin : list Z) : list mcell :=
  match cs with
  | [] => []
  | [c] => [set_mvol f fs c (Zlen (mc_qc c) + Zlen (cars cls fin)) (Zlen (mc_qt c) + Zlen (trucks cls fin))]
  | c :: rest => set_mvol f fs c (Zlen (mc_qc c)) (Zlen (mc_qt c)) :: mrecount f fs cls rest fin
  end.

(** src/multiclass.cpp:722-732: the spill-back test; the count is a TInt, truncated
    after each addition *)
Definition mcount_pcu (pcu : Q) (cs : list mcell) : Z :=
  fold_left (fun n c => trunc (inject_Z (n + mc_vc c) + inject_Z (mc_vt c) * pcu)) cs 0.
Definition mctm_spill (p : mparam) (cs : list mcell) : bool :=
  Qltb (mp_hold_c p * inject_Z (mp_lanes p))
       (inject_Z (mcount_pcu (mp_pcu p) cs) / mp_fs p / mp_len p).

(** src/multiclass.cpp:650-732 [evolve] *)
Definition mctm_evolve (p : mparam) (f : fd) (cls has_next : Z -> bool) (D : mdraws) (cs : list mcell) (fin : list Z)
  : res (list mcell * list Z) :=
  do os <- mouts f (mp_ut p) (mp_fs p) D 0 cs;
  do m <- mmove (md_mix D) has_next cs os fin;
  Ok (mrecount f (mp_fs p) cls (fst m) (snd m), snd m).

(** src/multiclass.cpp:820-839 [get_link_supply] *)
Definition mctm_supply (p : mparam) (f : fd) (cs : list mcell) : res Q :=
  match cs with
  | [] => Err EUB
  | c :: _ =>
      let k := ((inject_Z (mc_vt c) * mp_pcu p + inject_Z (mc_vc c)) / mp_fs p / mc_len c)%Q in
      let x := Qmin (cap_c f) (w_c f * (K_c f - k)) in
      Ok (Qmax 0 (Qmax x (w_c f * (1 # 4) * (K_c f - k))) * mp_ut p)%Q
  end.

(** src/multiclass.cpp:842-869 [clear_incoming_array] *)
Definition mctm_clear (p : mparam) (f : fd) (cls : Z -> bool) (cs : list mcell) (inc : list Z) : res (list mcell) :=
  match cs with
  | [] => Err EUB
  | c :: rest =>
      let c1 := set_mq c (mc_qc c ++ cars cls inc) (mc_qt c ++ trucks cls inc) in
      Ok (set_mvol f (mp_fs p) c1 (Zlen (mc_qc c1)) (Zlen (mc_qt c1)) :: rest)
  end.

(** src/multiclass.cpp:150-294 (constructor) and 306-415 (first part of
    modify_property): clamping of the lane values and checks.  A zero standard cell
    length converts an infinite or NaN double to int: [EUB].  With no lane the raised
    capacity is infinite and the test [hold <= critical] throws. *)
Definition mraise (cap ut fs : Q) (lanes : Z) : Q :=
  if Qltb (cap * ut * fs * inject_Z lanes) 1 then (1 / (ut * fs * inject_Z lanes))%Q else cap.
Definition mctm_adjust (p : mparam) : res mparam :=
  do _ <- guard (negb (Qltb (mp_hold_c p) 0 || Qltb (mp_hold_t p) 0)) EThrow;
  do _ <- guard (negb (Qltb (mp_flow_c p) 0 || Qltb (mp_flow_t p) 0)) EThrow;
  do _ <- guard (negb (Qltb (mp_ffs_c p) 0 || Qltb (mp_ffs_t p) 0)) EThrow;
  let hc := Qmin (mp_hold_c p) (400 / 1600) in
  let ht := Qmin (mp_hold_t p) (400 / 1600) in
  let fc := mraise (Qmin (mp_flow_c p) (3500 / 3600)) (mp_ut p) (mp_fs p) (mp_lanes p) in
  let ft := mraise (Qmin (mp_flow_t p) (3500 / 3600)) (mp_ut p) (mp_fs p) (mp_lanes p) in
  let std := (mp_ffs_c p * mp_ut p)%Q in
  do _ <- guard (negb (Qeq_bool std 0)) EUB;
  do _ <- guard (negb (mp_lanes p =? 0) && negb (Qeq_bool (mp_ffs_t p) 0)) EThrow;
  do _ <- guard (Qltb (fc / mp_ffs_c p) hc) EThrow;
  do _ <- guard (Qltb (ft / mp_ffs_t p) ht) EThrow;
  Ok {| mp_kind := MKCtm; mp_lanes := mp_lanes p;
        mp_len := if Qfloor (mp_len p / std) =? 0 then std else mp_len p;
        mp_hold_c := hc; mp_hold_t := ht; mp_flow_c := fc; mp_flow_t := ft;
        mp_ffs_c := mp_ffs_c p; mp_ffs_t := mp_ffs_t p; mp_ut := mp_ut p; mp_pcu := mp_pcu p; mp_fs := mp_fs p |}.

(** lane values of the adjusted parameters, and the cell values of
    src/multiclass.cpp:506-574 and 1115-1162 (the cell raises its capacity again) *)
Definition lane_w (flow hold ffs : Q) : Q := (flow / (hold - flow / ffs))%Q.
Definition raise_cell (cap ut fs : Q) : Q := if Qltb (cap * ut * fs) 1 then (1 / (ut * fs))%Q else cap.
Definition mctm_fd (p : mparam) : fd :=
  let n := inject_Z (mp_lanes p) in
  let wc := lane_w (mp_flow_c p) (mp_hold_c p) (mp_ffs_c p) in
  let wt := lane_w (mp_flow_t p) (mp_hold_t p) (mp_ffs_t p) in
  {| K_c := n * mp_hold_c p; K_t := n * mp_hold_t p;
     cr_c := n * (mp_flow_c p / mp_ffs_c p); cr_t := n * (mp_flow_t p / mp_ffs_t p);
     rho1 := n * (mp_hold_c p * (wc / (mp_ffs_t p + wc)));
     cap_c := raise_cell (n * mp_flow_c p) (mp_ut p) (mp_fs p);
     cap_t := raise_cell (n * mp_flow_t p) (mp_ut p) (mp_fs p);
     vf_c := mp_ffs_c p; vf_t := mp_ffs_t p; w_c := wc; w_t := wt |}%Q.
Definition mctm_ncells (p : mparam) : Z :=
  let n := Qfloor (mp_len p / (mp_ffs_c p * mp_ut p)) in if n =? 0 then 1 else n.
Definition mctm_last (p : mparam) : Q :=
  (mp_len p - inject_Z (mctm_ncells p - 1) * (mp_ffs_c p * mp_ut p))%Q.
Definition new_mcell (len : Q) : mcell :=
  {| mc_len := len; mc_vc := 0; mc_vt := 0;
     mc_sp := {| s_fc := 1; s_ft := 0; s_pc := Den 0; s_pt := Den 0 |}; mc_qc := []; mc_qt := [] |}%Q.

(** checks of the base constructor, src/dlink.cpp:4-34 *)
Definition mbase_checks (p : mparam) : res unit :=
  do _ <- guard (negb (Qltb (mp_ffs_c p) 0)) EThrow;
  do _ <- guard (0 <=? mp_lanes p) EThrow;
  guard (negb (Qltb (mp_len p) 0)) EThrow.
Definition mnew (p : mparam) (b : mbody) : mlink :=
  {| ml_par := p; ml_in := []; ml_fin := []; ml_body := b; ml_wait := 0; ml_wait_c := 0; ml_wait_t := 0;
     ml_spill := false |}.

(** src/multiclass.cpp:150-294, 506-574 *)
Definition make_mctm (p0 : mparam) : res mlink :=
  do _ <- mbase_checks p0;
  do _ <- guard (negb (Qltb (mp_pcu p0) 1)) EThrow;
  do _ <- guard (negb (Qltb (mp_fs p0) 1)) EThrow;
  do _ <- guard (negb (Qle_bool (mp_ut p0) 0)) EThrow;
  do p <- mctm_adjust p0;
  let std := (mp_ffs_c p * mp_ut p)%Q in
  let cells := repeat (new_mcell std) (Z.to_nat (mctm_ncells p - 1))
               ++ (if Qltb 0 (mp_len p) then [new_mcell (mctm_last p)] else []) in
  Ok (mnew p (MCtm (mctm_fd p) cells)).

(** * Link queue *)

(** src/multiclass.cpp:1356-1374 and 1414-1435: capacities and densities of the
    link; divisions by zero are [EUB] here (the doubles would be infinite or NaN) *)
Definition mlq_fd (p : mparam) : res fd :=
  let n := inject_Z (mp_lanes p) in
  do _ <- guard (negb (Qeq_bool (mp_ffs_c p * mp_ffs_t p * mp_ut p * mp_fs p * mp_len p) 0)) EUB;
  let Cc := raise_cell (mp_flow_c p * n) (mp_ut p) (mp_fs p) in
  let Ct := raise_cell (mp_flow_t p * n) (mp_ut p) (mp_fs p) in
  let Kc := (mp_hold_c p * n)%Q in
  let Kt := (mp_hold_t p * n)%Q in
  do _ <- guard (negb (Qeq_bool ((Kc - Cc / mp_ffs_c p) * (Kt - Ct / mp_ffs_t p)) 0)) EUB;
  let wc := (Cc / (Kc - Cc / mp_ffs_c p))%Q in
  let wt := (Ct / (Kt - Ct / mp_ffs_t p))%Q in
  do _ <- guard (negb (Qeq_bool (mp_ffs_t p + wc) 0)) EUB;
  Ok {| K_c := Kc; K_t := Kt; cr_c := Cc / mp_ffs_c p; cr_t := Ct / mp_ffs_t p;
        rho1 := Kc * (wc / (mp_ffs_t p + wc)); cap_c := Cc; cap_t := Ct;
        vf_c := mp_ffs_c p; vf_t := mp_ffs_t p; w_c := wc; w_t := wt |}%Q.

(** src/multiclass.cpp:1348-1391 *)
Definition make_mlq (p : mparam) : res mlink :=
  do _ <- mbase_checks p;
  do f <- mlq_fd p;
  Ok (mnew p (MLq f [] [] 0 0 {| s_fc := 1; s_ft := 0; s_pc := DUnset; s_pt := DUnset |})).

(** src/multiclass.cpp:1531-1600: numbers of cars and trucks that leave the queue;
    a zero conversion factor divides 0 by 0 and converts to int: [EUB] *)
Definition mlq_tomove (p : mparam) (f : fd) (D : mdraws) (sp : split) (qc qt fin : list Z) : res (Z * Z) :=
  do a <- pdemand (cap_c f) (vf_c f) (mp_ut p) (s_pc sp);
  do b <- pdemand (cap_t f) (vf_t f) (mp_ut p) (s_pt sp);
  let dc := (s_fc sp * a)%Q in
  let dt := (s_ft sp * b)%Q in
  let d := (dc + mp_pcu p * dt)%Q in
  let n := (d * mp_fs p - inject_Z (Zlen fin))%Q in
  do _ <- guard (negb (Qeq_bool (mp_pcu p) 0)) EUB;
  Ok (Z.min (rround (md_car D 0%nat) (n * divide dc d)) (Zlen qc),
      Z.min (rround (md_truck D 0%nat) (n * divide (mp_pcu p * dt) d / mp_pcu p)) (Zlen qt)).
Definition mlq_evolve (p : mparam) (f : fd) (cls has_next : Z -> bool) (D : mdraws) (qc qt fin : list Z)
  : res (list Z * list Z * Z * Z * split * list Z) :=
  let vc := Zlen qc + Zlen (cars cls fin) in
  let vt := Zlen qt + Zlen (trucks cls fin) in
  let sp := perceive f (mp_fs p) (mp_len p) vc vt in
  do o <- mlq_tomove p f D sp qc qt fin;
  do m <- move_queue qc [] (fst o);
  do m' <- move_queue qt [] (snd o);
  do _ <- guard (forallb has_next (snd m ++ snd m')) EThrow;
  Ok (fst m, fst m', vc, vt, sp, fin ++ merge_out (md_mix D) (snd m) (snd m')).
Definition mlq_spill (p : mparam) (f : fd) (vc vt : Z) : bool :=
  Qltb (K_c f) (inject_Z (trunc (inject_Z vc + inject_Z vt * mp_pcu p)) / mp_fs p / mp_len p).

(** src/multiclass.cpp:1715-1739 [get_link_supply]; an infinite perceived density
    comes with fraction 0 and gives 0 *)
Definition mlq_part (fr cap w K cr ut : Q) (k : dens) : res Q :=
  match k with
  | Den k => Ok (Qmax 0 (Qmax (fr * Qmin cap (w * (K - k)) * ut) (fr * w * (3 # 10) * (K - cr) * ut)))
  | DInf => Ok 0%Q
  | DUnset => Err EUB
  end.
Definition mlq_supply (p : mparam) (f : fd) (sp : split) : res Q :=
  do a <- mlq_part (s_fc sp) (cap_c f) (w_c f) (K_c f) (cr_c f) (mp_ut p) (s_pc sp);
  do b <- mlq_part (s_ft sp) (cap_t f) (w_t f) (K_t f) (cr_t f) (mp_ut p) (s_pt sp);
  Ok (a + mp_pcu p * b)%Q.

(** * Point queue *)

(** src/multiclass.cpp:1978-2003 *)
Definition make_mpq (p : mparam) : res mlink :=
  do _ <- mbase_checks p;
  do _ <- guard (negb (Qeq_bool (mp_ffs_c p * mp_ut p) 0)) EUB;
  do m <- round_down_time (mp_len p / (mp_ffs_c p * mp_ut p));
  Ok (mnew p (MPq m [] 0 0)).

(** src/multiclass.cpp:2008-2012 *)
Definition mpq_supply (p : mparam) : Q := (mp_flow_c p * inject_Z (mp_lanes p) * mp_ut p)%Q.

(** src/multiclass.cpp:2015-2051: the loop of clear_incoming_array; every vehicle
    costs one, car or truck *)
Fixpoint mpq_take (x : Q) (inc : list Z) : list Z * list Z :=
  match inc with
  | [] => ([], [])
  | v :: inc' => if Qltb 0 x then let r := mpq_take (x - 1) inc' in (v :: fst r, snd r) else ([], inc)
  end.

(** * Virtual methods *)

(** [get_link_supply] *)
Definition mlink_supply (l : mlink) : res Q :=
  match ml_body l with
  | MCtm f cs => mctm_supply (ml_par l) f cs
  | MLq f _ _ _ _ sp => mlq_supply (ml_par l) f sp
  | MPq _ _ _ _ => Ok (mpq_supply (ml_par l))
  end.

Definition with_body (l : mlink) (inc fin : list Z) (b : mbody) : mlink :=
  {| ml_par := ml_par l; ml_in := inc; ml_fin := fin; ml_body := b; ml_wait := ml_wait l;
     ml_wait_c := ml_wait_c l; ml_wait_t := ml_wait_t l; ml_spill := ml_spill l |}.

(** [clear_incoming_array]: 842-869, 1742-1761, 2015-2073 *)
Definition mlink_clear (cls : Z -> bool) (l : mlink) : res mlink :=
  match ml_body l with
  | MCtm f cs =>
      do cs' <- mctm_clear (ml_par l) f cls cs (ml_in l);
      Ok (with_body l [] (ml_fin l) (MCtm f cs'))
  | MLq f qc qt vc vt sp =>
      Ok (with_body l [] (ml_fin l) (MLq f (qc ++ cars cls (ml_in l)) (qt ++ trucks cls (ml_in l)) vc vt sp))
  | MPq m pool _ _ =>
      let r := mpq_take (mpq_supply (ml_par l) * mp_fs (ml_par l)) (ml_in l) in
      let pool' := pool ++ map (fun v => (v, 0)) (fst r) in
      let all := map fst pool' ++ ml_fin l in
      Ok (with_body l (snd r) (ml_fin l) (MPq m pool' (Zlen (cars cls all)) (Zlen (trucks cls all))))
  end.

(** the waiting-time statistics at the end of [evolve] (681-682, 717-720,
    1602-1612, 1692-1710, 2107-2122) and the new spill-back flag *)
Definition mwait (l : mlink) (n : list Z) : Q := (inject_Z (Zlen n) / mp_fs (ml_par l) * mp_ut (ml_par l))%Q.
Definition settle (cls : Z -> bool) (l : mlink) (fin : list Z) (b : mbody) (spill : bool) : mlink :=
  {| ml_par := ml_par l; ml_in := ml_in l; ml_fin := fin; ml_body := b;
     ml_wait := (ml_wait l + mwait l fin)%Q; ml_wait_c := (ml_wait_c l + mwait l (cars cls fin))%Q;
     ml_wait_t := (ml_wait_t l + mwait l (trucks cls fin))%Q; ml_spill := ml_spill l || spill |}.

(** [evolve]: 650-732, 1531-1711, 2086-2123 *)
Definition mlink_evolve (cls has_next : Z -> bool) (D : mdraws) (l : mlink) : res mlink :=
  match ml_body l with
  | MCtm f cs =>
      do m <- mctm_evolve (ml_par l) f cls has_next D cs (ml_fin l);
      Ok (settle cls l (snd m) (MCtm f (fst m)) (mctm_spill (ml_par l) (fst m)))
  | MLq f qc qt _ _ _ =>
      do m <- mlq_evolve (ml_par l) f cls has_next D qc qt (ml_fin l);
      let '(qc', qt', vc, vt, sp, fin) := m in
      Ok (settle cls l fin (MLq f qc' qt' vc vt sp) (mlq_spill (ml_par l) f vc vt))
  | MPq ms pool vc vt =>
      let m := pq_scan ms pool in
      Ok (settle cls l (ml_fin l ++ snd m) (MPq ms (fst m) vc vt) false)
  end.

(** * Reported quantities *)

(** [get_link_flow_car], [get_link_flow_truck], [get_link_flow]: 872-907, 988-1001,
    1774-1790, 2126-2142 *)
Definition mflow_car (cls : Z -> bool) (l : mlink) : Q :=
  (inject_Z (match ml_body l with
             | MCtm _ cs => sumZ (map mc_vc cs) + Zlen (cars cls (ml_fin l))
             | MLq _ _ _ vc _ _ => vc
             | MPq _ _ vc _ => vc
             end) / mp_fs (ml_par l))%Q.
Definition mflow_truck (cls : Z -> bool) (l : mlink) : Q :=
  (inject_Z (match ml_body l with
             | MCtm _ cs => sumZ (map mc_vt cs) + Zlen (trucks cls (ml_fin l))
             | MLq _ _ _ _ vt _ => vt
             | MPq _ _ _ vt => vt
             end) / mp_fs (ml_par l))%Q.
Definition mflow (l : mlink) : Q :=
  (inject_Z (match ml_body l with
             | MCtm _ cs => sumZ (map mc_vc cs) + sumZ (map mc_vt cs) + Zlen (ml_fin l)
             | MLq _ _ _ vc vt _ => vc + vt
             | MPq _ _ vc vt => vc + vt
             end) / mp_fs (ml_par l))%Q.

(** [get_link_flow_emission_car], [..._truck]: 910-986, 1793-1866, 2145-2224;
    (not electric, electric) of one class; [ev v] is [m_label == ev_label] *)
Definition mqueues (trk : bool) (cls : Z -> bool) (l : mlink) : list Z :=
  match ml_body l with
  | MCtm _ cs => concat (map (fun c => if trk then mc_qt c else mc_qc c) cs)
  | MLq _ qc qt _ _ _ => if trk then qt else qc
  | MPq _ pool _ _ => filter (fun v => Bool.eqb (cls v) trk) (map fst pool)
  end ++ filter (fun v => Bool.eqb (cls v) trk) (ml_fin l).
Definition memission (trk : bool) (cls ev : Z -> bool) (l : mlink) : Q * Q :=
  let q := mqueues trk cls l in
  (inject_Z (Zlen (filter (fun v => negb (ev v)) q)) / mp_fs (ml_par l),
   inject_Z (Zlen (filter ev q)) / mp_fs (ml_par l))%Q.

(** [get_link_tt_from_flow_car/truck]: 1037-1098, 1900-1956, 2234-2243; the point
    queue uses the car speed for trucks too.  Divisions by zero are [EUB]. *)
Definition mtt_gen (lanes : Z) (len eps hold cap vf : Q) (flow : Q) : res Q :=
  do _ <- guard (negb (Qeq_bool (inject_Z lanes * len * vf) 0)) EUB;
  let rho := (flow / inject_Z lanes / len)%Q in
  let rhok := (cap / vf)%Q in
  if Qle_bool hold rho then Ok max_link_cost
  else
    let spd := if Qle_bool rho rhok then vf
               else Qmax (eps * vf) (cap * (hold - rho) / ((hold - rhok) * rho)) in
    Ok (len / spd)%Q.
Definition mtt_car (l : mlink) (flow : Q) : res Q :=
  let p := ml_par l in
  match ml_body l with
  | MCtm _ _ => mtt_gen (mp_lanes p) (mp_len p) (1 # 1000) (mp_hold_c p) (mp_flow_c p) (mp_ffs_c p) flow
  | MLq f _ _ _ _ _ => mtt_gen (mp_lanes p) (mp_len p) dbl_epsilon (K_c f) (cap_c f) (vf_c f) flow
  | MPq _ _ _ _ => do _ <- guard (negb (Qeq_bool (mp_ffs_c p) 0)) EUB; Ok (mp_len p / mp_ffs_c p)%Q
  end.
Definition mtt_truck (l : mlink) (flow : Q) : res Q :=
  let p := ml_par l in
  match ml_body l with
  | MCtm _ _ => mtt_gen (mp_lanes p) (mp_len p) (1 # 1000) (mp_hold_t p) (mp_flow_t p) (mp_ffs_t p) flow
  | MLq f _ _ _ _ _ => mtt_gen (mp_lanes p) (mp_len p) dbl_epsilon (K_t f) (cap_t f) (vf_t f) flow
  | MPq _ _ _ _ => do _ <- guard (negb (Qeq_bool (mp_ffs_c p) 0)) EUB; Ok (mp_len p / mp_ffs_c p)%Q
  end.
(** [get_link_tt]: 1004-1034, 1869-1897, 2227-2231 *)
Definition mlink_tt (l : mlink) : res Q := mtt_car l (mflow l).

(** [get_link_freeflow_tt_loading_car/truck]: 1101-1111, 1959-1974, 2246-2255 *)
Definition mfftt_car (l : mlink) : res Z :=
  match ml_body l with
  | MCtm _ _ => Ok (mctm_ncells (ml_par l))
  | MLq _ _ _ _ _ _ => round_up_time (mp_len (ml_par l) / mp_ffs_c (ml_par l)) tol
  | MPq m _ _ _ => Ok m
  end.
Definition mfftt_truck (l : mlink) : res Z :=
  match ml_body l with
  | MCtm _ _ => Ok (trunc (inject_Z (mctm_ncells (ml_par l)) * mp_ffs_c (ml_par l) / mp_ffs_t (ml_par l)))
  | MLq _ _ _ _ _ _ => round_up_time (mp_len (ml_par l) / mp_ffs_t (ml_par l)) tol
  | MPq m _ _ _ => Ok m
  end.

(** * [modify_property] *)

(** Arguments of the call *)
Record mprop := {
  mr_lanes : Z; mr_len : Q; mr_hold_c : Q; mr_hold_t : Q; mr_flow_c : Q; mr_flow_t : Q; mr_ffs_c : Q; mr_ffs_t : Q }.
Definition mwith (p : mparam) (a : mprop) : mparam :=
  {| mp_kind := mp_kind p; mp_lanes := mr_lanes a; mp_len := mr_len a; mp_hold_c := mr_hold_c a;
     mp_hold_t := mr_hold_t a; mp_flow_c := mr_flow_c a; mp_flow_t := mr_flow_t a; mp_ffs_c := mr_ffs_c a;
     mp_ffs_t := mr_ffs_t a; mp_ut := mp_ut p; mp_pcu := mp_pcu p; mp_fs := mp_fs p |}.
Definition set_par (l : mlink) (p : mparam) (b : mbody) : mlink :=
  {| ml_par := p; ml_in := ml_in l; ml_fin := ml_fin l; ml_body := b; ml_wait := ml_wait l;
     ml_wait_c := ml_wait_c l; ml_wait_t := ml_wait_t l; ml_spill := ml_spill l |}.

(** src/multiclass.cpp:306-479, 1402-1436; the point queue inherits the base method
    67-79, which keeps the old capacities and the old traversal time *)
Definition mlink_modify (l : mlink) (a : mprop) : res mlink :=
  match ml_body l with
  | MCtm f cs =>
      do p <- mctm_adjust (mwith (ml_par l) a);
      let std := (mp_ffs_c p * mp_ut p)%Q in
      do _ <- guard (mctm_ncells p =? Zlen cs) EThrow;
      match cs with
      | [] => Err EUB
      | c :: _ =>
          let lst := mc_len (last cs c) in
          do _ <- guard ((mctm_ncells p =? 1) || approx_eq std (mc_len c) tol) EThrow;
          do _ <- guard (approx_eq (mctm_last p) lst tol) EThrow;
          Ok (set_par l p (MCtm (mctm_fd p) cs))
      end
  | MLq f qc qt vc vt sp =>
      let p := mwith (ml_par l) a in
      do f' <- mlq_fd p;
      Ok (set_par l p (MLq f' qc qt vc vt sp))
  | MPq m pool vc vt =>
      let p := ml_par l in
      Ok (set_par l {| mp_kind := mp_kind p; mp_lanes := mr_lanes a; mp_len := mr_len a; mp_hold_c := mp_hold_c p;
                       mp_hold_t := mp_hold_t p; mp_flow_c := mp_flow_c p; mp_flow_t := mp_flow_t p;
                       mp_ffs_c := mr_ffs_c a; mp_ffs_t := mr_ffs_t a; mp_ut := mp_ut p; mp_pcu := mp_pcu p;
                       mp_fs := mp_fs p |} (MPq m pool vc vt))
  end.
