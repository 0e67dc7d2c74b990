(** What one update of a two-class node is supposed to do, in terms of the queues at
    the ends of the links, independently of how the node computes flows. *)
From Verif Require Import Base Spec_Path Model_CC Model_Path Model_Link Model_World Spec_Node Model_McLink Spec_McLink Model_McNode.

(** the vehicles of queue [q] heading for [b], in order *)
Definition mline (w : mworld) (b : Z) (q : list Z) : list Z :=
  filter (fun v => match v_next (mw_veh w v) with Some k => k =? b | None => false end) q.
(** passenger-car equivalents of a list of vehicles *)
Definition pce (pcu : Q) (cls : Z -> bool) (l : list Z) : Q := sumQ (map (fun v => if cls v then pcu else 1%Q) l).
(** number of vehicles of a class *)
Definition class_count (cls : Z -> bool) (k : bool) (l : list Z) : Q := inject_Z (Zlen (of_class cls k l)).

(** No curve ends after time [T]. *)
Definition mtimely (T : Z) (c : mcurves) : Prop :=
  (forall k l, otime T (mk_Nin c k l)) /\ (forall k l, otime T (mk_Nout c k l)) /\ (forall k l, ttime T (mk_Tin c k l)).

(** The links around a node are distinct, and none is a loop. *)
Definition around_ok (ins outs : list Z) : Prop := NoDup ins /\ NoDup outs /\ (forall l, In l ins -> ~ In l outs).
(** Every link out of the node answers with a receiving capacity >= 0. *)
Definition msupplies_ok (w : mworld) (outs : list Z) : Prop :=
  forall b, In b outs -> exists s, mlink_supply (mw_link w b) = Ok s /\ (0 <= s)%Q.
Definition mall_headed (w : mworld) (outs q : list Z) : Prop :=
  forall v, In v q -> exists b, In b outs /\ v_next (mw_veh w v) = Some b.

(** A junction is in a state where its update is expected to work. *)
Record mjunction_ready (fs pcu : Q) (ins outs : list Z) (shuf : Z -> list Z -> list Z) (t : Z) (w : mworld) : Prop := {
  mj_fs : (0 < fs)%Q; mj_pcu : (0 < pcu)%Q; mj_time : 0 <= t; mj_links : around_ok ins outs;
  mj_shuf : forall b, shuffle (shuf b); mj_timely : mtimely (t + 1) (mw_cc w); mj_supply : msupplies_ok w outs;
  mj_headed : forall a, In a ins -> mall_headed w outs (ml_fin (mw_link w a)) }.

(** Vehicles [pass a b] go from in link [a] to out link [b]: first come first served
    per movement, everybody else stays in order, in links are served in some order. *)
Record mpassage (ins outs : list Z) (w w' : mworld) (pass : Z -> Z -> list Z) : Prop := {
  mp_first : forall a b, In a ins -> In b outs ->
    mline w b (ml_fin (mw_link w a)) = pass a b ++ mline w b (ml_fin (mw_link w' a));
  mp_stay : forall a, In a ins -> subseq (ml_fin (mw_link w' a)) (ml_fin (mw_link w a));
  mp_split : forall a, In a ins ->
    Permutation (ml_fin (mw_link w a)) (concat (map (pass a) outs) ++ ml_fin (mw_link w' a));
  mp_enter : forall b, In b outs -> exists order, Permutation order ins /\
    ml_in (mw_link w' b) = ml_in (mw_link w b) ++ concat (map (fun a => pass a b) order);
  mp_in_only : forall a, In a ins -> mw_link w' a = ml_set_fin (mw_link w a) (ml_fin (mw_link w' a));
  mp_out_only : forall b, In b outs -> mw_link w' b = ml_set_in (mw_link w b) (ml_in (mw_link w' b));
  mp_others : forall l, ~ In l ins -> ~ In l outs -> mw_link w' l = mw_link w l;
  mp_queues : mw_oq w' = mw_oq w /\ mw_dq w' = mw_dq w }.

(** Passenger-car equivalents waiting at the end of [a] for [b], and the part of [room]
    that falls to [a] when it is shared in proportion to them. *)
Definition waiting_pce (pcu : Q) (w : mworld) (a b : Z) : Q := pce pcu (mw_cls w) (mline w b (ml_fin (mw_link w a))).
Definition fair_share (pcu : Q) (ins : list Z) (w : mworld) (room : Q) (a b : Z) : Q :=
  Qmin (waiting_pce pcu w a b) (waiting_pce pcu w a b / sumQ (map (fun i => waiting_pce pcu w i b) ins) * room).

(** Nothing about a vehicle changes but the link it is on and its mileage. *)
Definition same_plans (w w' : mworld) : Prop :=
  mw_cls w' = mw_cls w /\ mw_lab w' = mw_lab w /\ mw_fac w' = mw_fac w /\ mw_cf w' = mw_cf w /\ mw_trk w' = mw_trk w /\ mw_pt w' = mw_pt w /\
  forall v, let x := mw_veh w v in let y := mw_veh w' v in
    v_org y = v_org x /\ v_dst y = v_dst x /\ v_adapt y = v_adapt x /\ v_start y = v_start x /\ v_fin y = v_fin x /\
    v_assign y = v_assign x /\ v_next y = v_next x /\ v_path y = v_path x.

(** the total that a curve has counted *)
Definition cum_total (c : curve) : Q := match last_opt c with Some b => snd b | None => 0%Q end.
(** the last record is for time [T], up to the tolerance the code compares times with *)
Definition ends_at (T : Z) (c : curve) : Prop :=
  exists y, last_opt c = Some y /\ (Qabs (inject_Z T - fst y) <= (1 # 10000) * Qmax (Qabs (inject_Z T)) (Qabs (fst y)))%Q.
(** [c'] is [c] with [x] more counted at time [T], all but the last record unchanged *)
Definition counts (T : Z) (x : Q) (c c' : option curve) : Prop :=
  match c, c' with
  | None, None => True
  | Some c, Some c' => (cum_total c' == cum_total c + x)%Q /\ (exists tl, c' = (removelast c ++ tl)%list) /\ ((x == 0)%Q -> c' = c) /\
      (~ (x == 0)%Q -> ends_at T c')
  | _, _ => False
  end.
(** the total that the curve of path [p] and departure interval [d] has counted *)
Definition tree_total (tr : cctree) (p d : Z) : Q :=
  match tree_find tr (p, d) with Some c => cum_total c | None => 0%Q end.
(** vehicles of a list on path [p] (-1: none) that departed in interval [d] *)
Definition on_path (w : mworld) (p d : Z) (l : list Z) : list Z :=
  filter (fun v => (match v_path (mw_veh w v) with Some r => r_id r | None => -1 end =? p) && (v_assign (mw_veh w v) =? d)) l.

(** An origin node is in a state where its update is expected to work; its out links
    are point queues. *)
Definition is_point_queue (l : mlink) : Prop := exists s pool vc vt, ml_body l = MPq s pool vc vt.
Record morigin_ready (fs : Q) (outs : list Z) (r : Z -> Q) (t n : Z) (w : mworld) : Prop := {
  mo_fs : (0 < fs)%Q; mo_time : 0 <= t; mo_links : NoDup outs; mo_draws : forall b, unit_draw (r b);
  mo_timely : mtimely (t + 1) (mw_cc w); mo_supply : msupplies_ok w outs;
  mo_pq : forall b, In b outs -> is_point_queue (mw_link w b) }.
(** Vehicles [send b] leave the queue of origin [n] for link [b]. *)
Record morigin_sends (outs : list Z) (n : Z) (w w' : mworld) (send : Z -> list Z) : Prop := {
  ms_first : forall b, In b outs -> mline w b (mw_oq w n) = send b ++ mline w b (mw_oq w' n);
  ms_stay : subseq (mw_oq w' n) (mw_oq w n);
  ms_split : Permutation (mw_oq w n) (concat (map send outs) ++ mw_oq w' n);
  ms_enter : forall b, In b outs -> mw_link w' b = ml_set_in (mw_link w b) (ml_in (mw_link w b) ++ send b);
  ms_others : forall l, ~ In l outs -> mw_link w' l = mw_link w l;
  ms_queues : (forall n', n' <> n -> mw_oq w' n' = mw_oq w n') /\ mw_dq w' = mw_dq w }.
