(** C29: which route a draw gives; C103: routes of static vehicles in a run. *)
From Verif Require Import Base Base_lemmas Model_Num Spec_Path Model_CC Model_Path Model_Link Spec_Link Spec_Node Model_World Model_Node Model_Sim Spec_Sim Spec_Route Spec_Choice
  Proof_Sim5 Proof_Sim7 Proof_Choice Proof_Choice2 Ex_Net Prop_Node Prop_Sim Prop_Route.
Local Open Scope Q_scope.

(** C29: the route drawn is the one whose piece of the unit interval, cut in
    proportion to the shares, holds the random number (up to one part in ten thousand). *)
Theorem C29_draw_slice : forall ps r i, (forall p, In p ps -> 0 <= p) -> 0 <= r <= 1 -> draw ps r = Ok i -> in_slice ps r i.
Proof. exact draw_slice. Qed.
Print Assumptions C29_draw_slice.

(** C29: the same from flows, normalised first. *)
Theorem C29_draw_slice_of_flows : forall ws ps r i, 0 <= r <= 1 -> normalize_p ws = Ok ps -> draw ps r = Ok i -> in_slice (shares ws) r i.
Proof.
  intros ws ps r i Hr Hn Hd. destruct (normalize_shares ws ps Hn) as [F P]. eapply slice_ext; [exact F|]. now apply draw_slice.
Qed.
Print Assumptions C29_draw_slice_of_flows.

Example C29_slice_case : draw [1 # 4; 1 # 2; 1 # 4] (1 # 2) = Ok 1%nat /\ in_slice [1 # 4; 1 # 2; 1 # 4] (1 # 2) 1 /\ ~ in_slice [1 # 4; 1 # 2; 1 # 4] (1 # 2) 2 /\
  in_slice (shares [3; 6; 3]) (1 # 2) 1.
Proof. repeat split; try (vm_compute; congruence); try (cbn; lia). intros (_ & H & _). specialize (H ltac:(lia)). vm_compute in H. discriminate. Qed.

Local Open Scope Z_scope.
(** C103: at any time of a run, the route of a static vehicle is the one its random
    number picks with the flows of column [v_start / route_frq] of the path buffer,
    the last column once they run out. *)
Theorem C103_route_of_departure : forall N D w0 k s v, net_ok N -> fresh_world N w0 -> (forall t, draws_valid (D t)) -> n_routing N <> RAdaptive ->
  0 < n_rfreq N -> 0 < n_rlen N -> routes_ok (w_pt w0) -> run N D k (init_state N w0) = Ok s ->
  1 <= v <= f_num (w_fac (s_w s)) -> v_adapt (w_veh (s_w s) v) = false ->
  let t := v_start (w_veh (s_w s) v) in
  picked (w_pt w0) (flow_in (Z.min (t / n_rfreq N) (n_rlen N - 1))) (v_org (w_veh (s_w s) v)) (v_dst (w_veh (s_w s) v)) (d_route (D t) v) (v_path (w_veh (s_w s) v)).
Proof. intros N D w0 k s v K F DV NA Hf Hl RO H Hv Ad. exact (choice1_all N K D w0 F DV NA Hf Hl RO k s v H Hv Ad). Qed.
Print Assumptions C103_route_of_departure.

(** C103: without a path buffer the shares of the path table itself apply throughout. *)
Theorem C103_route_without_buffer : forall N D w0 j s s' v, net_ok N -> fresh_world N w0 -> (forall t, draws_valid (D t)) -> n_routing N <> RAdaptive ->
  n_rfreq N = -1 \/ n_rlen N = -1 -> (forall k es e, In (k, es) (w_pt w0) -> In e es -> (0 <= e_p e)%Q) ->
  run N D j (init_state N w0) = Ok s -> run N D (S j) (init_state N w0) = Ok s' -> In v (new_ids (s_w s) (s_w s')) -> v_adapt (w_veh (s_w s') v) = false ->
  exists es e i, In ((v_org (w_veh (s_w s') v), v_dst (w_veh (s_w s') v)), es) (w_pt w0) /\ nth_error es i = Some e /\
    in_slice (map e_p es) (d_route (D (Z.of_nat j)) v) i /\ v_path (w_veh (s_w s') v) = Some (e_path e).
Proof.
  intros N D w0 j s s' v K F DV NA NB P H H' Hv Ad. apply new_ids_In in Hv.
  destruct (still_new N K D w0 F DV NA NB j s s' v H H' Hv Ad) as (es & e & n & Fi & Dr & Ne & Ep). exists es, e, n.
  apply pt_find_In in Fi. split; [exact Fi|]. split; [exact Ne|]. split; [|exact Ep].
  refine (draw_slice _ _ _ _ _ Dr); [|apply DV]. intros p Hp. apply in_map_iff in Hp as (x & <- & Hx). eauto.
Qed.
Print Assumptions C103_route_without_buffer.

(** C103: the routes of the table and their flows are those given, at any time. *)
Theorem C103_table_kept : forall N D w0 k s, net_ok N -> fresh_world N w0 -> (forall t, draws_valid (D t)) -> n_routing N <> RAdaptive ->
  0 < n_rfreq N -> 0 < n_rlen N -> run N D k (init_state N w0) = Ok s -> plan (w_pt (s_w s)) = plan (w_pt w0).
Proof. intros N D w0 k s K F DV NA Hf Hl H. exact (plan1_run N K D w0 F DV NA Hf Hl k s H). Qed.
Print Assumptions C103_table_kept.

(** The same random number gives different routes in the two columns. *)
Example C103_case : net_ok xn /\ fresh_world xn xn_world /\ routes_ok xn_pt /\ xn_run 4 = Ok (xn_at 4) /\
  map (fun v => (v, v_start (w_veh (s_w (xn_at 4)) v), d_route xn_draws v, v_path (w_veh (s_w (xn_at 4)) v))) [1; 2; 7; 8] =
    [(1, 0, (9 # 10)%Q, Some {| r_id := 1; r_links := [10; 25; 30] |}); (2, 0, (1 # 10)%Q, Some {| r_id := 0; r_links := [10; 20; 30] |});
     (7, 3, (9 # 10)%Q, Some {| r_id := 1; r_links := [10; 25; 30] |}); (8, 3, (1 # 10)%Q, Some {| r_id := 0; r_links := [10; 20; 30] |})] /\
  in_slice (shares [1; 1]%Q) (3 # 10) 0 /\ in_slice (shares [1; 3]%Q) (3 # 10) 1 /\ ~ in_slice (shares [1; 3]%Q) (3 # 10) 0.
Proof.
  split; [apply xn_net_ok|]. split; [apply xn_fresh|]. split.
  - intros o d p (es & e & Hes & He & <-). cbn in Hes. destruct Hes as [E|[E|[]]]; injection E as <- <- <-; cbn in He;
      repeat (destruct He as [<-|He]; [apply no_repeat3; discriminate|]); destruct He.
  - split; [apply xn_run_at; vm_compute; reflexivity|]. split; [vm_compute; reflexivity|]. split; [|split].
    + repeat split; try (vm_compute; congruence); cbn; lia.
    + repeat split; try (vm_compute; congruence); cbn; lia.
    + intros (_ & _ & H). vm_compute in H. apply H. reflexivity.
Qed.
