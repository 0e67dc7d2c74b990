(** What can be seen of a charging station, interval by interval. *)
From Verif Require Import Base Model_Num Model_CC Model_Path Model_Link Model_World Model_Node Model_Ev.
Local Open Scope Z_scope.

(** The vehicles in the station, in all queues. *)
Definition at_station (x : sworld) : list Z := concat (s_pool (sw_st x)).
(** The vehicles that stand at the end of the given links. *)
Definition arriving (links : list Z) (x : sworld) : list Z := concat (map (fun a => l_fin (w_link (sw_w x) a)) links).

(** Nothing but the station itself touches it or the vehicles in it. *)
Definition untouched (x y : sworld) : Prop :=
  sw_st y = sw_st x /\
  forall v, In v (at_station x) -> sw_ev y v = sw_ev x v /\ w_veh (sw_w y) v = w_veh (sw_w x) v.

(** [n] successive intervals of a station built with the given parameters.  [b k] and [a k] are
    the states before and after its k-th interval; what the rest of the simulation does in
    between is arbitrary, but a vehicle is never in two places and never arrives with a
    running charging timer. *)
Record history (node : Z) (fs : Q) (unit slots time : Z) (price : Q) (ins outs : list Z) (t0 : Z)
    (b a : nat -> sworld) (n : nat) : Prop := {
  hi_new : sw_st (b O) = new_station node fs unit slots time price;
  hi_ins : NoDup ins;
  hi_step : forall k, (k < n)%nat -> exists order, Permutation order ins /\ station_evolve order outs (t0 + Z.of_nat k) (b k) = Ok (a k);
  hi_between : forall k, (S k < n)%nat -> untouched (a k) (b (S k));
  hi_one : forall k, (k < n)%nat -> NoDup (at_station (b k) ++ arriving ins (b k));
  hi_idle : forall k v e, (k < n)%nat -> In v (arriving ins (b k)) -> sw_ev (b k) v = Some e -> e_timer e <= 0 }.

(** How many intervals vehicle [v] has been charging. *)
Definition charging_since (x : sworld) (v : Z) : Z :=
  match sw_ev x v with Some e => Z.max 0 (e_timer e) | None => 0 end.
(** ... the vehicle at the head of a queue; nobody: 0 *)
Definition head_since (x : sworld) (q : list Z) : Z :=
  match q with [] => 0 | v :: _ => charging_since x v end.

(** Vehicle [v] is in the station until interval [d] and leaves it in interval [d], from
    interval [j] on, as far as the history of [n] intervals goes. *)
Definition leaves_in (a : nat -> sworld) (n : nat) (j : Z) (v : Z) (d : Z) : Prop :=
  (forall i, (i < n)%nat -> j <= Z.of_nat i < d -> In v (at_station (a i))) /\
  (forall i, (i < n)%nat -> Z.of_nat i = d -> ~ In v (at_station (a i)) /\
     exists b, v_next (w_veh (sw_w (a i)) v) = Some b /\ In v (l_in (w_link (sw_w (a i)) b))).

(** The link vehicle [v] enters next is [l]. *)
Definition heading (w : world) (l v : Z) : bool := match v_next (w_veh w v) with Some k => k =? l | None => false end.
(** The link vehicle [v] is on is [l]. *)
Definition coming (w : world) (l v : Z) : bool := match v_cur (w_veh w v) with Some k => k =? l | None => false end.
(** The last value of a counter. *)
Definition final_value (c : curve) : Q := match last_opt c with Some r => snd r | None => 0%Q end.
(** [k] more vehicles were counted by a counter of vehicles divided by the flow scalar, if it
    is installed. *)
Definition counted (fs : Q) (k : Z) (c c' : option curve) : Prop :=
  match c, c' with
  | Some c, Some c' => (final_value c' == final_value c + inject_Z k / fs)%Q
  | None, None => True
  | _, _ => False
  end.
(** A battery as full as it can be, and no station to go to. *)
Definition charged (o : option ev) : Prop :=
  exists e, o = Some e /\ e_range e = e_full e /\ e_after e = 0%Q /\ e_at e = None.
(** May enter the station: adaptive, electric, sent to this station, next link out of it. *)
Definition welcome (outs : list Z) (x : sworld) (v : Z) : Prop :=
  v_adapt (w_veh (sw_w x) v) = true /\ (exists e, sw_ev x v = Some e /\ e_at e = Some (s_node (sw_st x))) /\
  exists b, v_next (w_veh (sw_w x) v) = Some b /\ In b outs.
(** Slots with nobody in them. *)
Definition idle_slots (x : sworld) : nat := length (filter (fun q => match q with [] => true | _ => false end) (s_pool (sw_st x))).

(** A trip of an electric vehicle: it stays at its origin, where it may be sent to a station
    any number of times, and then travels. *)
Definition at_home (h : happening) : Prop := match h with HOrigin _ => True | _ => False end.
Definition on_road (h : happening) : Prop := match h with HOrigin _ => False | HDrive _ len => (0 <= len)%Q | _ => True end.
(** Miles of the links that count. *)
Definition miles_of (h : happening) : Q := match h with HDrive false len => (len / 1600)%Q | _ => 0%Q end.
