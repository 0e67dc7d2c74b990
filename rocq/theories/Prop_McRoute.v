(** C256: fixed-route cars and trucks traverse exactly their route. *)
From Verif Require Import Base Base_lemmas Model_Num Proof_Num Spec_Path Proof_Path Model_CC Spec_CC Proof_CC Model_Path Model_Link Spec_Link Spec_Node
  Proof_Link Proof_Link3 Proof_Link4 Proof_Link5 Model_World Model_Node Proof_Node Proof_Node3 Model_Sim Spec_Sim Proof_Sim1 Proof_Sim2 Proof_Sim3 Proof_Sim4 Proof_Sim5 Proof_Sim6 Spec_Route Proof_Sim7
  Model_McLink Spec_McLink Proof_McLink Model_McNode Spec_McNode Proof_McNode Model_McSim Spec_McSim Proof_McSim1 Proof_McSim2 Spec_McRoute Proof_McRoute1 Proof_McRoute2 Proof_McRoute3
  Ex_Net Ex_McNet Prop_Node Prop_Sim Prop_Route Prop_McSim.
Local Open Scope Z_scope.

(** A static car or truck is still at its origin and has seen no link, or it has a route
    of the table for its origin and destination, the links it has been on are the
    beginning of that route, the last of them is the one it is on now, and they are the
    whole route once it has arrived.  Any routing type, with or without separate shares
    per class. *)
Theorem C256_follows_route : forall M D w0 k s v, mnet_ok M -> mfresh_world M w0 -> (forall t, mdraws_valid (D t)) -> routes_ok (mw_pt w0) ->
  mrun M D k (minit M w0) = Ok s -> 1 <= v <= f_num (mw_fac (ms_w s)) -> v_adapt (mw_veh (ms_w s) v) = false ->
  let w := ms_w s in
  let h := mvisited M D w0 v k in
  (In v (m_at_origins M w (mw_cls w v)) /\ h = []) \/
  (exists p rest, v_path (mw_veh w v) = Some p /\ is_route (mw_pt w0) (v_org (mw_veh w v)) (v_dst (mw_veh w v)) p /\ r_links p = h ++ rest /\
    (forall l, In l (mn_links M) -> In v (on_mlink (mw_cls w) (mw_cls w v) (mw_link w l)) -> last_opt h = Some l) /\
    (In v (m_arrived w (mw_cls w v)) -> rest = [])).
Proof.
  intros M D w0 k s v K F DV RO H Hv Ad w h. apply (follows M); auto.
  - exact (run_minv M K D w0 F DV k s H).
  - exact (mrun_v M K D w0 F DV RO v k s H).
Qed.
Print Assumptions C256_follows_route.

(** Once a car or truck has a route it keeps it. *)
Theorem C256_route_kept : forall M D w0 j k s s' v p, mnet_ok M -> mfresh_world M w0 -> (forall t, mdraws_valid (D t)) -> routes_ok (mw_pt w0) ->
  (j <= k)%nat -> mrun M D j (minit M w0) = Ok s -> mrun M D k (minit M w0) = Ok s' -> v <= f_num (mw_fac (ms_w s)) ->
  v_path (mw_veh (ms_w s) v) = Some p -> v_path (mw_veh (ms_w s') v) = Some p.
Proof. intros M D w0 j k s s' v p K F DV RO L H H' Hv Hp. exact (mrun_path_kept M K D w0 F DV RO v j k s s' p L H H' Hv Hp). Qed.
Print Assumptions C256_route_kept.

(** car 4 goes by link 20, truck 6 by link 25 *)
Example C256_case : mnet_ok ym /\ mfresh_world ym ym_world /\ mdraws_valid ym_draws /\ routes_ok (mw_pt ym_world) /\
  mrun ym (fun _ => ym_draws) 8 (minit ym ym_world) = Ok (ym_at ym 8) /\
  map (fun v => (mw_cls (ms_w (ym_at ym 8)) v, v_adapt (mw_veh (ms_w (ym_at ym 8)) v))) [4; 6] = [(false, false); (true, false)] /\
  map (fun k => (mvisited ym (fun _ => ym_draws) ym_world 4 k, mvisited ym (fun _ => ym_draws) ym_world 6 k)) [0; 1; 3; 8]%nat =
    [([], []); ([10], [10]); ([10; 20], [10; 25]); ([10; 20; 30], [10; 25; 30])] /\
  option_map r_links (v_path (mw_veh (ms_w (ym_at ym 8)) 6)) = Some [10; 25; 30].
Proof.
  split; [apply ym_net_ok; reflexivity|]. split; [apply ym_fresh|]. split; [apply ym_draws_valid|]. split.
  - intros o d p (es & e & A & B & <-). cbn in A. destruct A as [A|[A|[]]]; injection A as <- <- <-; cbn in B;
      repeat (destruct B as [<-|B]; [apply no_repeat3; discriminate|]); destruct B.
  - split; [apply ym_mrun; vm_compute; reflexivity|]. split; [vm_compute; reflexivity|]. split; vm_compute; reflexivity.
Qed.
