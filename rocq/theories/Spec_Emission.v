(** Fuel and exhaust totals, said without the code. *)
From Verif Require Import Base Spec_Path Model_Link Spec_Link Model_McLink Spec_McLink Model_World Model_Node Model_Sim Model_McNode Model_McSim Model_Emission.
Local Open Scope Q_scope.

(** * Rates per mile at [v] miles per hour *)

(** the polynomial with coefficients [c0; c1; ...] *)
Definition poly (cs : list Q) (v : Q) : Q := fold_right (fun c acc => c + v * acc) 0 cs.
(** miles per gallon, and grams per mile of hydrocarbons, carbon monoxide, nitrogen oxides *)
Definition mpg_curve : list Q := [- 1.51623933; 2.96137050; - 0.111752399; 0.00235409750; - 0.0000267383161; 0.000000119102380].
Definition hc_curve : list Q :=
  [9.84559996919605; - 1.82687242201925; 0.15792241257931; - 0.00737871178398462; 0.000201135990745703; - 0.00000323670086149171;
   0.0000000292924270300974; - 0.000000000127884474982285; 0.000000000000161479076909784].
Definition co_curve : list Q :=
  [4.12900319568868; - 0.615061016205463; 0.047711166912908; - 0.00170366500109581; 0.0000179281854904105; 0.000000597070024385679;
   - 0.0000000212944112670644; 0.000000000253340626614398; - 0.00000000000108317411174986].
Definition nox_curve : list Q :=
  [6.06514023873933; - 1.07265851515536; 0.0895029037098895; - 0.00374632777368871; 0.0000801942113220463; - 0.000000663892272105462;
   - 0.00000000467202313364846; 0.000000000125335312366681; - 0.000000000000652009367269462].
(** between what the rates stay at 5 to 65 miles per hour *)
Definition least (p : pollutant) : Q := match p with Fuel => 1 / 33 | CO2 => 8887 / 33 | HC => 0.5 | CO => 0.9 | NOX => 0.9 end.
Definition most (p : pollutant) : Q := match p with Fuel => 1 / 10 | CO2 => 8887 / 10 | HC => 4 | CO => 2.1 | NOX => 2.6 end.
(** gallons of fuel, grams of the rest; 8887 grams of CO2 per gallon *)
Definition car_rate (p : pollutant) (v : Q) : Q :=
  match p with
  | Fuel => / poly mpg_curve v
  | CO2 => 8887 / poly mpg_curve v
  | HC => poly hc_curve v
  | CO => poly co_curve v
  | NOX => poly nox_curve v
  end.
(** trucks: a multiple, by speed below 25, 25 to 55, and from 55 miles per hour *)
Definition truck_multiple (p : pollutant) : list Q :=
  match p with
  | Fuel | CO2 => [1.53; 1.50; 1.55]
  | HC => [1.87; 2.41; 2.01]
  | CO => [3.97; 2.67; 5.01]
  | NOX => [7.32; 6.03; 5.75]
  end.
Definition truck_rate (p : pollutant) (v : Q) : Q :=
  car_rate p v * nth (if Qlt_le_dec v 25 then 0 else if Qlt_le_dec v 55 then 1 else 2)%nat (truck_multiple p) 0.

(** * What is seen of a link in an interval *)

(** speed in metres per second, vehicles with an engine, electric vehicles *)
Record sighting := { g_speed : Q; g_fuelled : Q; g_electric : Q }.
(** speed in miles (of 1600 metres) per hour, no less than 5 and no more than 65 *)
Definition g_mph (g : sighting) : Q :=
  let m := g_speed g * (3600 / 1600) in if Qlt_le_dec m 5 then 5 else if Qlt_le_dec 65 m then 65 else m.
(** miles driven at that speed in an interval of [ut] seconds *)
Definition g_miles (ut : Q) (g : sighting) : Q := g_speed g * ut / 1600.

(** emitted, driven and electrically driven, and hours, over a list of sightings *)
Definition emitted (rate : pollutant -> Q -> Q) (ut : Q) (p : pollutant) (G : list sighting) : Q :=
  sumQ (map (fun g => rate p (g_mph g) * (g_miles ut g * g_fuelled g)) G).
Definition driven (ut : Q) (G : list sighting) : Q := sumQ (map (fun g => g_miles ut g * (g_fuelled g + g_electric g)) G).
Definition driven_electric (ut : Q) (G : list sighting) : Q := sumQ (map (fun g => g_miles ut g * g_electric g) G).
Definition hours (ut : Q) (G : list sighting) : Q := sumQ (map (fun g => (g_fuelled g + g_electric g) * (ut / 3600)) G).

(** the totals [x] are those of the sightings [G] *)
Definition totals (rate : pollutant -> Q -> Q) (ut : Q) (G : list sighting) (x : emission) : Prop :=
  (forall p, em_tot x p == emitted rate ut p G) /\ em_vmt x == driven ut G /\ em_vmt_ev x == driven_electric ut G.
Definition class_rate (c : bool) : pollutant -> Q -> Q := if c then truck_rate else car_rate.
(** the totals start again after every [f] intervals; never when [f] is 0 *)
Definition since (f : Z) (k : nat) : nat := if (f <=? 0)%Z then k else Z.to_nat (Z.of_nat k mod f).

(** a usable road *)
Definition road_ok (p : lparam) : Prop := (1 <= p_lanes p)%Z /\ 0 < p_len p /\ 0 < p_ffs p.

(** all vehicles of a link that have passed its entrance, in flow units *)
Definition count (fs : Q) (f : Z -> bool) (vs : list Z) : Q := inject_Z (Zlen (filter f vs)) / fs.
Definition sees (ev : Z -> bool) (l : link) (g : sighting) : Prop :=
  exists t, link_tt l = Ok t /\ ~ t == 0 /\ g_speed g == p_len (l_par l) / t /\
    g_fuelled g == count (p_fs (l_par l)) (fun v => negb (ev v)) (l_fin l ++ inside (l_body l)) /\
    g_electric g == count (p_fs (l_par l)) ev (l_fin l ++ inside (l_body l)).
(** the same for one class of a two-class link *)
Definition msees (cls ev : Z -> bool) (k : bool) (l : mlink) (g : sighting) : Prop :=
  exists t, mlink_tt l = Ok t /\ ~ t == 0 /\ g_speed g == mp_len (ml_par l) / t /\
    g_fuelled g == count (mp_fs (ml_par l)) (fun v => negb (ev v)) (of_class cls k (ml_fin l) ++ minside cls k (ml_body l)) /\
    g_electric g == count (mp_fs (ml_par l)) ev (of_class cls k (ml_fin l) ++ minside cls k (ml_body l)).

(** the interval that starts in [s] has moved the vehicles over nodes and links, and
    the destinations have not yet taken theirs, in [w] *)
Definition moved_to (N : net) (D : Z -> draws) (s : lstate) (w : world) : Prop :=
  load_links N (D (s_cur s)) (s_cur s) (s_assign s) (s_w s) = Ok w /\
  exists w', foldM (receive N (s_cur s)) w (n_dests N) = Ok w' /\
             load_once N (D (s_cur s)) (s_cur s) (s_assign s) (s_w s) = Ok w'.
Definition mmoved_to (M : mnet) (D : Z -> mdrawsI) (s : mlstate) (w : mworld) : Prop :=
  mload_links M (D (ms_cur s)) (ms_cur s) (ms_assign s) (ms_w s) = Ok w /\
  exists w', foldM (mreceive M (ms_cur s)) w (mn_dests M) = Ok w' /\
             mload_once M (D (ms_cur s)) (ms_cur s) (ms_assign s) (ms_w s) = Ok w'.

(** [G j]: what is seen of the links [E], in order, in interval [j] of [k] from [s] *)
Definition observed (N : net) (D : Z -> draws) (ev : Z -> bool) (E : list Z) (s : lstate) (k : nat) (G : nat -> list sighting) : Prop :=
  forall j, (j < k)%nat -> exists sj w, run N D j s = Ok sj /\ moved_to N D sj w /\
    Forall2 (fun l g => sees ev (w_link w l) g) E (G j).
Definition mobserved (M : mnet) (D : Z -> mdrawsI) (ev : bool -> Z -> bool) (E : list Z) (s : mlstate) (c : bool) (k : nat) (G : nat -> list sighting) : Prop :=
  forall j, (j < k)%nat -> exists sj w, mrun M D j s = Ok sj /\ mmoved_to M D sj w /\
    Forall2 (fun l g => msees (mw_cls w) (ev c) c (mw_link w l) g) E (G j).
(** vehicle [v] of class [c] was on one of the links [E] in one of [k] intervals *)
Definition on_some (M : mnet) (D : Z -> mdrawsI) (E : list Z) (s : mlstate) (c : bool) (k : nat) (v : Z) : Prop :=
  exists j sj w l, (j < k)%nat /\ mrun M D j s = Ok sj /\ mmoved_to M D sj w /\
    In v (f_live (mw_fac w)) /\ mw_cls w v = c /\ v_cur (mw_veh w v) = Some l /\ In l E.
(** vehicles alive at the same time have different addresses *)
Definition addresses_ok (M : mnet) (D : Z -> mdrawsI) (s : mlstate) (k : nat) (addr : Z -> Z) : Prop :=
  forall j sj w, (j < k)%nat -> mrun M D j s = Ok sj -> mmoved_to M D sj w ->
    forall u v, In u (f_live (mw_fac w)) -> In v (f_live (mw_fac w)) -> addr u = addr v -> u = v.
