(** Vehicle tracking of two-class runs: which vehicles are followed and the rows of the
    route report. *)
From Verif Require Import Base Model_CC Model_Path Model_Link Model_World Model_Node Model_Sim Model_McLink Model_McNode Model_McSim.
Local Open Scope Z_scope.

(** The tracking settings: OD pairs and departure intervals read from the two tracking
    files (src/io.cpp:468-536), sampling rate and report frequency
    (src/multiclass.cpp:4523-4526).  [tc_oid] and [tc_did] give the origin and
    destination IDs of a node (m_Origin_ID, m_Dest_ID); the model's vehicles carry the nodes. *)
Record tconf := { tc_ods : list (Z * Z); tc_ints : list Z; tc_rate : Q; tc_freq : Z; tc_oid : Z -> Z; tc_did : Z -> Z }.
(** a row of vehicle_route_cong_raw.txt (src/multiclass.cpp:5903-5931); -1 for a null
    link is [None]; the position on the link is not modelled *)
Record trow := { tr_time : Z; tr_veh : Z; tr_static : bool; tr_start : Z; tr_oid : Z; tr_onode : Z; tr_did : Z; tr_dnode : Z;
                 tr_cur : option Z; tr_next : option Z }.

(** src/multiclass.cpp:5903-5931, the fields of one vehicle *)
Definition route_row (C : tconf) (t : Z) (w : mworld) (v : Z) : trow :=
  let x := mw_veh w v in
  {| tr_time := t; tr_veh := v; tr_static := negb (v_adapt x); tr_start := v_start x; tr_oid := tc_oid C (v_org x); tr_onode := v_org x;
     tr_did := tc_did C (v_dst x); tr_dnode := v_dst x; tr_cur := v_cur x; tr_next := v_next x |}.

(** src/multiclass.cpp:5866-5901: the flag of one vehicle after the selection.  The tail of the current
    link is the origin node when the link is one of its outgoing links.  [u] is [rand_flt ()]. *)
Definition track_flag (M : mnet) (C : tconf) (t : Z) (u : Z -> Q) (w : mworld) (tracked : bool) (v : Z) : bool :=
  let x := mw_veh w v in
  let flg := match tc_ints C with [] => true | _ => memb t (tc_ints C) end in
  match v_cur x, v_next x with
  | Some l, Some _ =>
      if flg && (v_start x =? t) && negb tracked
      then if memb l (mn_out M (v_org x))
           then match tc_ods C with
                | [] => Qle_bool (u v) (tc_rate C)
                | _ => if existsb (fun p => (fst p =? tc_oid C (v_org x)) && (snd p =? tc_did C (v_dst x))) (tc_ods C)
                       then Qle_bool (u v) (tc_rate C) else tracked
                end
           else tracked
      else tracked
  | _, _ => tracked
  end.
(** src/multiclass.cpp:5864-5933, one turn of the loop over the vehicle map *)
Definition track_veh (M : mnet) (C : tconf) (t : Z) (u : Z -> Q) (w : mworld) (a : (Z -> bool) * list trow) (v : Z) : (Z -> bool) * list trow :=
  let b := track_flag M C t u w (fst a v) v in
  (upd (fst a) v b, if b then snd a ++ [route_row C t w v] else snd a).
(** src/multiclass.cpp:5814-5941 [print_vehicle_route_results], the file being writable: [order] is
    the vehicle map in its iteration order; returns the flags and the appended rows *)
Definition print_routes (M : mnet) (C : tconf) (t : Z) (u : Z -> Q) (order : list Z) (w : mworld) (trk : Z -> bool) : (Z -> bool) * list trow :=
  if tc_freq C =? 0 then (trk, [])
  else if Z.rem t (tc_freq C) =? 0 then fold_left (track_veh M C t u w) order (trk, []) else (trk, []).

(** src/multiclass.cpp:4540-4565, [k] iterations of the loop of [loading_vehicle_tracking]: a loading
    interval, then the report.  [U] are the draws of the reports, [R] the iteration orders of the map.
    The flags m_tracked start as false (src/vehicle.cpp:16). *)
Fixpoint track_run (M : mnet) (D : Z -> mdrawsI) (C : tconf) (U : Z -> Z -> Q) (R : Z -> list Z -> list Z) (k : nat) (s : mlstate) :
  res (mlstate * (Z -> bool) * list trow) :=
  match k with
  | O => Ok (s, fun _ => false, [])
  | S k' =>
      do x <- track_run M D C U R k' s;
      let '(s1, trk, rows) := x in
      do s2 <- mloop_body M D s1;
      let '(trk', more) := print_routes M C (ms_cur s1) (U (ms_cur s1)) (R (ms_cur s1) (f_live (mw_fac (ms_w s2)))) (ms_w s2) trk in
      Ok (s2, trk', rows ++ more)
  end.
