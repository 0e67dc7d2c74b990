(** What the route report of a tracking run is to contain. *)
From Verif Require Import Base Model_CC Model_Path Model_Link Model_World Model_Node Model_Sim Model_McLink Model_McNode Model_McSim Spec_McSim Model_Track.
Local Open Scope Z_scope.

(** Released and not yet arrived. *)
Definition under_way (w : mworld) (v : Z) : Prop :=
  1 <= v <= f_num (mw_fac w) /\ ~ In v (map fst (f_done (mw_fac w))).
(** Row [r] describes vehicle [v] in state [w] at time [t]. *)
Definition describes (C : tconf) (t : Z) (w : mworld) (v : Z) (r : trow) : Prop :=
  let x := mw_veh w v in
  tr_time r = t /\ tr_veh r = v /\ tr_static r = negb (v_adapt x) /\ tr_start r = v_start x /\
  tr_oid r = tc_oid C (v_org x) /\ tr_onode r = v_org x /\ tr_did r = tc_did C (v_dst x) /\ tr_dnode r = v_dst x /\
  tr_cur r = v_cur x /\ tr_next r = v_next x.
(** Vehicle [v] departs in interval [b] with a trip the settings ask for, [b] is a
    report time, at the end of [b] it is already on a link out of its origin with a next
    link, and the sampling draws it. *)
Definition selected (M : mnet) (D : Z -> mdrawsI) (C : tconf) (U : Z -> Z -> Q) (w0 : mworld) (b : nat) (v : Z) : Prop :=
  let t := Z.of_nat b in
  (tc_freq C | t) /\ (tc_ints C = [] \/ In t (tc_ints C)) /\ (U t v <= tc_rate C)%Q /\
  exists s, mrun M D (S b) (minit M w0) = Ok s /\ under_way (ms_w s) v /\
    let x := mw_veh (ms_w s) v in
    v_start x = t /\ v_next x <> None /\ (exists l, v_cur x = Some l /\ In l (mn_out M (v_org x))) /\
    (tc_ods C = [] \/ In (tc_oid C (v_org x), tc_did C (v_dst x)) (tc_ods C)).
