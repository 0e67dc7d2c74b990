(** Link-travel-time gradients of the two-class calls: macposts/_ext/mcdta.cpp:3790-5093
    (get_car_ltg_matrix, get_truck_ltg_matrix, get_complete_car_ltg_matrix,
    get_complete_truck_ltg_matrix).  The car and truck functions are the same text up to
    the tables they read.  Not modelled: the dimension check of the argument, printing,
    the reservation of 1e9 records at 4439 and 4773. *)
From Verif Require Import Base Model_Num Model_CC Model_Link Model_Node Model_Grad Model_Dso Model_Api.
Local Open Scope Z_scope.

(** the two classes: macposts/_ext/mcdta.cpp:3791, 4108 *)
Inductive cls := Cars | Trucks.
(** the dynamic type of a link: macposts/_ext/mcdta.cpp:3858-3867 *)
Inductive gkind := GPq | GCtm | GOther.
(** what is read for one class of a link: m_link_tt_map, m_link_congested_car,
    m_queue_dissipated_time_car, get_link_freeflow_tt_loading_car () and m_N_out_car
    (macposts/_ext/mcdta.cpp:3850, 3903, 3900, 3892-3894, 4037), and the truck versions *)
Record gtabs := { t_tt : list Q; t_cong : list bool; t_diss : list Z; t_ff : Z; t_out : option curve }.
(** a link; [g_lv] is m_last_valid_time, set from the curves of the cars
    (src/multiclass.cpp:4814-4819), [g_lv_truck] is m_last_valid_time_truck, set from
    those of the trucks (4866-4871) *)
Record glink := { g_kind : gkind; g_cars : gtabs; g_trucks : gtabs; g_lv : Q; g_lv_truck : Q }.
(** macposts/_ext/mcdta.cpp:3850 and 4167: the tables of the class *)
Definition tabs_of (c : cls) (l : glink) : gtabs := match c with Cars => g_cars l | Trucks => g_trucks l end.

(** macposts/_ext/mcdta.cpp:3846-3853, 3882-3889, 3963-3971: departure of a vehicle that
    arrives at [t], with the travel time of the last interval from then on *)
Definition leave (tb : gtabs) (cur t : Z) : res Z :=
  do x <- row_at (t_tt tb) (if t <? cur then t else cur - 1);
  do n <- round_up_time x tol;
  Ok (t + n).

(** macposts/_ext/mcdta.cpp:3949-4043: the affected intervals, from [a] to before the first
    component of the result, and the gradient; [None] if there are none.  [prime] is
    _t_depart_prime, [d] the dissipation time, [lift] _t_depart_lift_up *)
Definition affected (tb : gtabs) (lv ut : Q) (cur a prime d lift : Z) : res (option (Z * Q)) :=
  do v <- (if d <=? cround (lv - 1) then Ok (d, lift)
           else do e <- leave tb cur (cround lv - 1); Ok (cround lv, e));
  let e := if cur - 1 <? snd v then cur - 1 else snd v in
  do _ <- guard (a <? fst v) EAssert;
  do _ <- guard (prime <=? e) EThrow;
  if prime <? e then
    do s <- cc_slope (t_out tb) (inject_Z prime) (inject_Z (e + 1));
    Ok (if Qltb dbl_eps s then Some (fst v, (ut / s)%Q) else None)
  else Ok None.

(** macposts/_ext/mcdta.cpp:3845-4043: one link of a path.  [dep] and [lift] are _t_depart
    and _t_depart_lift_up before it; [watched]: is it in m_link_vec?  [None] is the break
    at 3874-3879, otherwise the new values, _t_arrival_lift_up and what is affected *)
Definition pass_link (c : cls) (ut : Q) (cur thr : Z) (watched : bool) (l : glink) (dep lift : Z) : res (option (Z * Z * Z * option (Z * Q))) :=
  let tb := tabs_of c l in
  do dep' <- leave tb cur dep;
  do a <- match g_kind l with
          | GPq => Ok dep
          | GCtm => do _ <- guard (0 <=? lift) EAssert; Ok lift
          | GOther => Err EAssert
          end;
  do _ <- guard (dep <=? a) EAssert;
  do _ <- guard (Qltb 0 (g_lv l)) EAssert;
  if (cround (g_lv l - 1) <? a) || (thr <=? a) then Ok None
  else
    do prime <- leave tb cur a;
    do d <- row_at (t_diss tb) a;
    do f <- round_up_time (inject_Z (t_ff tb)) tol;
    let lift' := d + f in
    do con <- row_at (t_cong tb) a;
    do _ <- guard (if negb con && (d =? a) then a + f =? lift' else (a <? d) && (a + f <? lift')) EAssert;
    do _ <- guard (prime <=? lift') EThrow;
    do r <- (if (prime <? cur - 1) && watched && con && (prime <? lift')
             then affected tb (g_lv l) ut cur a prime d lift' else Ok None);
    Ok (Some (dep', lift', a, r)).

(** an affected stretch of intervals: link, first interval, one past the last, gradient
    (the arguments of the loop at macposts/_ext/mcdta.cpp:4044-4053) *)
Definition stretch := (Z * Z * Z * Q)%type.
(** macposts/_ext/mcdta.cpp:3843: the loop over the links of a path; a link without
    tables makes operator[] yield a null pointer *)
Fixpoint pass_links (c : cls) (ut : Q) (cur thr : Z) (watched : Z -> bool) (net : Z -> option glink) (ids : list Z) (dep lift : Z) : res (list stretch) :=
  match ids with
  | [] => Ok []
  | i :: ids' =>
      match net i with
      | None => Err EUB
      | Some l =>
          do x <- pass_link c ut cur thr (watched i) l dep lift;
          match x with
          | None => Ok []
          | Some (dep', lift', a, r) =>
              do rest <- pass_links c ut cur thr watched net ids' dep' lift';
              Ok (match r with Some (v, g) => (i, a, v, g) :: rest | None => rest end)
          end
      end
  end.

(** a registered path: m_path_ID and m_link_vec (macposts/_ext/mcdta.cpp:3811) *)
Definition gpath := (Z * list Z)%type.
(** macposts/_ext/mcdta.cpp:3811-3843: all stretches of all registered paths with a
    registered link, with path and start interval *)
Definition stretches (c : cls) (ut : Q) (cur thr : Z) (links : list Z) (net : Z -> option glink) (paths : list gpath) (starts : list Z) : res (list (Z * Z * stretch)) :=
  foldM (fun acc p =>
           if existsb (fun l => memb l (snd p)) links then
             foldM (fun acc s => do _ <- guard (s <? cur) EThrow;
                                 do r <- pass_links c ut cur thr (fun i => memb i links) net (snd p) s (-1);
                                 Ok (acc ++ map (fun x => (fst p, s, x)) r)) acc starts
           else Ok acc) [] paths.

(** a row of the table: path, start interval, link, interval, gradient
    (macposts/_ext/mcdta.cpp:4079-4092) *)
Record grow := { o_path : Z; o_start : Z; o_link : Z; o_int : Z; o_grad : Q }.
(** macposts/_ext/mcdta.cpp:4044-4053 and src/multiclass.cpp:5486-5520
    [add_ltg_records_veh] *)
Definition grow_rows (x : Z * Z * stretch) : list grow :=
  let '(p, s, (l, a, v, g)) := x in
  map (fun t => {| o_path := p; o_start := s; o_link := l; o_int := t; o_grad := g |}) (ints a (Z.to_nat (v - a))).
(** macposts/_ext/mcdta.cpp:3790-4104 [get_car_ltg_matrix], 4106-4423
    [get_truck_ltg_matrix] *)
Definition ltg_matrix (c : cls) (ut : Q) (cur thr : Z) (links : list Z) (net : Z -> option glink) (paths : list gpath) (starts : list Z) : res (list grow) :=
  do x <- stretches c ut cur thr links net paths starts; Ok (flat_map grow_rows x).

(** * The matrix *)

(** macposts/_ext/mcdta.cpp:4690-4721: the loop over a stretch, which counts the intervals
    per assignment interval of length [ai]; state: _tmp, _ct and the records (interval,
    value) so far *)
Definition group_step (ai last : Z) (g : Q) (s : Z * Z * list (Z * Q)) (t : Z) : Z * Z * list (Z * Q) :=
  let '(tmp, ct, rs) := s in
  let '(tmp', ct', rs') := if Z.quot t ai =? tmp then (tmp, ct + 1, rs)
                           else (Z.quot t ai, 1, rs ++ [(t - 1, (g * inject_Z ct)%Q)]) in
  if t =? last then (tmp', ct', rs' ++ [(t, (g * inject_Z ct')%Q)]) else (tmp', ct', rs').
Definition grouped (ai a v : Z) (g : Q) : list (Z * Q) :=
  snd (fold_left (group_step ai (v - 1) g) (ints a (Z.to_nat (v - a))) (Z.quot a ai, 0, [])).
(** position in m_link_vec: macposts/_ext/mcdta.cpp:4578-4592 *)
Fixpoint link_ind (links : list Z) (l : Z) : Z :=
  match links with [] => 0 | x :: r => if x =? l then 0 else 1 + link_ind r l end.
(** src/multiclass.cpp:5522-5541 [add_ltg_records_eigen_veh] *)
Definition cell_of (ai nl np li p s t : Z) (g : Q) : Z * Z * Q :=
  (li + nl * Z.quot t ai, p + np * Z.quot s ai, g).
(** macposts/_ext/mcdta.cpp:4425-4756 [get_complete_car_ltg_matrix], 4758-5093
    [get_complete_truck_ltg_matrix]; [ai] is assign_frq, [n] the number of assignment
    intervals *)
Definition complete_ltg (c : cls) (ut : Q) (cur thr ai n : Z) (links : list Z) (net : Z -> option glink) (paths : list gpath) (starts : list Z) : res (Z -> Z -> Q) :=
  do xs <- stretches c ut cur thr links net paths starts;
  let nl := Zlen links in let np := Zlen paths in
  from_triplets (n * nl) (n * np)
    (flat_map (fun x => let '(p, s, (l, a, v, g)) := x in
                        map (fun r => cell_of ai nl np (link_ind links l) p s (fst r) (snd r)) (grouped ai a v g)) xs).
