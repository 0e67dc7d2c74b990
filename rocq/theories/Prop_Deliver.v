(** C122-C125: delivery vehicles. *)
From Verif Require Import Base Base_lemmas Model_Num Proof_Num Spec_Path Proof_Path Model_CC Spec_CC Proof_CC Model_Path Model_Link Spec_Link Spec_Node
  Proof_Link Proof_Link3 Proof_Link4 Proof_Link5 Model_World Model_Node Proof_Node Proof_Node2 Proof_Node3 Proof_Node4 Proof_Node5 Model_Sim Spec_Sim Spec_Route
  Proof_Sim1 Proof_Sim2 Proof_Sim3 Proof_Sim4 Proof_Sim5 Proof_Sim6 Proof_Sim7 Model_Deliver Spec_Deliver Proof_Deliver1 Proof_Deliver2 Proof_Deliver3
  Ex_Net Ex_Deliver Prop_Node Prop_Sim.
Local Open Scope Z_scope.

(** C122: every vehicle released, ordinary or delivering, is in exactly one place or has
    finished; the counters, the total travel time and the number of delivery vehicles. *)
Theorem C122_delivery_conserved : forall DN D k s, dnet_ok DN -> dreached DN D k s ->
  let w := dw_w (ds_d s) in
  Permutation (at_origins (dn_net DN) w ++ on_links (dn_net DN) w ++ at_dests (dn_net DN) w ++ arrived w) (ids (f_num (w_fac w))) /\
  f_num (w_fac w) = f_enroute (w_fac w) + f_finished (w_fac w) /\ f_finished (w_fac w) = Zlen (arrived w) /\
  (f_tt (w_fac w) == inject_Z (sumZ (map (fun d => snd (snd d) - fst (snd d))%Z (f_done (w_fac w)))))%Q /\
  Forall (fun d => 1 <= snd (snd d) - fst (snd d)) (f_done (w_fac w)) /\
  dw_made (ds_d s) = Zlen (deliveries (ds_d s)).
Proof.
  intros DN D k s K R w. destruct (dreached_dinv _ _ _ _ K R) as [V _]. pose proof (dv_s _ _ V) as I. fold w in I. split; [|split; [apply I|split; [|split; [apply I|split; [apply I|apply V]]]]].
  - apply perm_cnt. intros v. apply Nat2Z.inj. fold (zc v (ids (f_num (w_fac w)))).
    rewrite ids_count by apply I. rewrite <- (i_count _ _ I), zcount_places. fold (zc v (at_origins (dn_net DN) w ++ on_links (dn_net DN) w ++ at_dests (dn_net DN) w ++ arrived w)).
    rewrite !zc_app. lia.
  - unfold arrived. rewrite Zlen_map. apply I.
Qed.
Print Assumptions C122_delivery_conserved.
(** ... and an ordinary vehicle stops once, at its destination. *)
Theorem C122_ordinary_vehicles : forall DN D k s v, dnet_ok DN -> dreached DN D k s -> dw_tour (ds_d s) v = None ->
  (In v (arrived (dw_w (ds_d s))) -> places (ds_d s) v = [v_dst (w_veh (dw_w (ds_d s)) v)]) /\
  (~ In v (arrived (dw_w (ds_d s))) -> places (ds_d s) v = []).
Proof.
  intros DN D k s v K R H. destruct (dreached_dinv _ _ _ _ K R) as [V _]. pose proof (dv_plain _ _ V v H) as E. split; intros A; rewrite E.
  - apply memb_In in A. now rewrite A.
  - apply memb_false in A. now rewrite A.
Qed.
Print Assumptions C122_ordinary_vehicles.

(** C123: a delivery vehicle stops at the destinations of a planned tour in the order of
    the tour, without leaving one out; while it drives it heads for the next one, and it
    finishes at the first stop at the last destination of the tour. *)
Theorem C123_tour_in_order : forall DN D k s v tr, dnet_ok DN -> dreached DN D k s -> dw_tour (ds_d s) v = Some tr ->
  exists o dem m, In o (map o_node (n_origins (dn_net DN))) /\ In (tr_seq tr, dem) (dn_tours DN o) /\
    places (ds_d s) v = firstn m (route_of (tr_seq tr)) /\ (m <= length (tr_seq tr))%nat /\
    (~ In v (arrived (dw_w (ds_d s))) ->
       nth_error (tr_seq tr) m = Some (v_org (w_veh (dw_w (ds_d s)) v), v_dst (w_veh (dw_w (ds_d s)) v)) /\
       ~ In (snd (last (tr_seq tr) (0, 0))) (places (ds_d s) v)) /\
    (In v (arrived (dw_w (ds_d s))) ->
       exists before, places (ds_d s) v = before ++ [snd (last (tr_seq tr) (0, 0))] /\ ~ In (snd (last (tr_seq tr) (0, 0))) before).
Proof.
  intros DN D k s v tr K R H. destruct (dreached_dinv _ _ _ _ K R) as [V _]. destruct (dv_t _ _ V v tr H) as [H1 (o & dem & Ho & Hin) H3 H4 H5 HD H6 H7].
  exists o, dem. exists (tr_at tr + if memb v (arrived (dw_w (ds_d s))) then 1 else 0)%nat. split; [exact Ho|]. split; [exact Hin|]. split; [exact H7|].
  assert (L : (tr_at tr < length (tr_seq tr))%nat) by (apply nth_error_Some; rewrite H4; discriminate).
  assert (BF : forall j, (j <= tr_at tr)%nat -> ~ In (goal_of (tr_seq tr)) (firstn j (route_of (tr_seq tr)))).
  { intros j Hj X. apply In_nth_error in X as (i & X). assert (Hi : (i < j)%nat).
    { apply Nat.lt_le_trans with (length (firstn j (route_of (tr_seq tr)))); [apply nth_error_Some; rewrite X; discriminate|]. rewrite firstn_length. lia. }
    assert (X' : nth_error (route_of (tr_seq tr)) i = Some (goal_of (tr_seq tr))).
    { rewrite <- X. clear -Hi. revert i Hi. generalize (route_of (tr_seq tr)). induction j as [|j IH]; intros l i Hi; [lia|]. destruct l as [|a l]; [now destruct i|]. destruct i as [|i]; [reflexivity|]. cbn [firstn nth_error]. apply IH. lia. }
    unfold route_of in X'. rewrite nth_error_map in X'. destruct (nth_error (tr_seq tr) i) as [od|] eqn:E; [|discriminate]. cbn [option_map] in X'. injection X' as X'.
    apply (H5 i od); [lia|exact E|exact X']. }
  destruct (memb v (arrived (dw_w (ds_d s)))) eqn:M; (split; [lia|]).
  - apply memb_In in M. split; [contradiction|]. intros _. exists (firstn (tr_at tr) (route_of (tr_seq tr))). split; [|apply BF; lia].
    rewrite H7, Nat.add_1_r. apply firstn_S_nth. unfold route_of. rewrite nth_error_map, H4. cbn [option_map snd]. rewrite (H6 M). reflexivity.
  - apply memb_false in M. split; [|contradiction]. intros _. rewrite Nat.add_0_r in *. split; [exact H4|]. rewrite H7. apply BF. lia.
Qed.
Print Assumptions C123_tour_in_order.
(** A finished vehicle has made the whole tour when the last destination occurs in the
    tour only at its end; missing: tours that visit the last destination in between. *)
Theorem C123_whole_tour_partial : forall DN D k s v tr, dnet_ok DN -> dreached DN D k s -> dw_tour (ds_d s) v = Some tr ->
  (forall i od, nth_error (tr_seq tr) i = Some od -> snd od = snd (last (tr_seq tr) (0, 0)) -> S i = length (tr_seq tr)) ->
  In v (arrived (dw_w (ds_d s))) -> places (ds_d s) v = route_of (tr_seq tr).
Proof.
  intros DN D k s v tr K R H E A. destruct (dreached_dinv _ _ _ _ K R) as [V _]. destruct (dv_t _ _ V v tr H) as [H1 (o & dem & Ho & Hin) H3 H4 H5 HD H6 H7].
  rewrite H7, (proj2 (memb_In _ _) A). specialize (E _ _ H4). cbn [snd] in E. specialize (E (H6 A)). rewrite Nat.add_1_r, E. unfold route_of. rewrite <- (map_length snd). apply firstn_all.
Qed.
Print Assumptions C123_whole_tour_partial.

(** C124: two legs in a row with the same destination: nobody gets past the first. *)
Theorem C124_no_repeated_stop : forall DN D k s v, dnet_ok DN -> dreached DN D k s -> dw_tour (ds_d s) v <> None ->
  forall i a b, nth_error (places (ds_d s) v) i = Some a -> nth_error (places (ds_d s) v) (S i) = Some b -> a <> b.
Proof.
  intros DN D k s v K R H i a b Ha Hb. destruct (dreached_dinv _ _ _ _ K R) as [V _]. destruct (dw_tour (ds_d s) v) as [tr|] eqn:ET; [clear H|congruence].
  destruct (dv_t _ _ V v tr ET) as [H1 H2 H3 H4 H5 HD H6 H7]. rewrite H7 in Ha, Hb. set (m := (tr_at tr + _)%nat) in *.
  assert (Hi : (S i < m)%nat).
  { apply Nat.lt_le_trans with (length (firstn m (route_of (tr_seq tr)))); [apply nth_error_Some; rewrite Hb; discriminate|]. rewrite firstn_length. lia. }
  assert (NF : forall (l : list Z) j n, (j < n)%nat -> nth_error (firstn n l) j = nth_error l j).
  { intros l j n. revert l j. induction n as [|n IH]; intros l j Hj; [lia|]. destruct l as [|x l]; [now destruct j|]. destruct j as [|j]; [reflexivity|]. cbn [firstn nth_error]. apply IH. lia. }
  rewrite NF in Ha, Hb by lia. unfold route_of in Ha, Hb. rewrite nth_error_map in Ha, Hb.
  destruct (nth_error (tr_seq tr) i) as [pa|] eqn:Ea; [|discriminate]. destruct (nth_error (tr_seq tr) (S i)) as [pb|] eqn:Eb; [|discriminate].
  cbn [option_map] in Ha, Hb. injection Ha as <-. injection Hb as <-. apply (HD i pa pb); auto. unfold m in Hi. destruct (memb v _); lia.
Qed.
Print Assumptions C124_no_repeated_stop.
(** The run ends with a failed assertion when a vehicle reaches the first of them, or when
    a vehicle with a tour of one leg is to be released. *)
Theorem C124_repeated_stop_aborts : forall DN t n d v tr o o', dw_tour d v = Some tr -> v_dst (w_veh (dw_w d) v) = n ->
  nth_error (tr_seq tr) (tr_at tr) = Some (o, n) -> nth_error (tr_seq tr) (S (tr_at tr)) = Some (o', n) -> n <> snd (last (tr_seq tr) (0, 0)) ->
  dreceive_veh DN t n d v = Err EAssert.
Proof.
  intros DN t n d v tr o o' HT HD H1 H2 NL. unfold dreceive_veh. rewrite HD, Z.eqb_refl. cbn [guard bind]. rewrite HT. unfold receive_tour. rewrite H1.
  destruct (Z.eqb_spec (snd (last (tr_seq tr) (0, 0))) n); [congruence|]. cbn [negb]. rewrite Z.eqb_refl. cbn [guard bind].
  assert (L : (S (tr_at tr) < length (tr_seq tr))%nat) by (apply nth_error_Some; rewrite H2; discriminate).
  unfold next_at. rewrite (proj2 (Nat.ltb_lt _ _) L), H2, Z.eqb_refl. reflexivity.
Qed.
Print Assumptions C124_repeated_stop_aborts.
Theorem C124_single_leg_aborts : forall k D cur assign o ratio sq w, (length sq <= 1)%nat -> drelease_tour (S k) D cur assign o ratio sq w = Err EAssert.
Proof. intros k D cur assign o ratio sq w H. cbn [drelease_tour]. destruct (Nat.ltb_spec 1 (length sq)); [lia|reflexivity]. Qed.
Print Assumptions C124_single_leg_aborts.

(** C125: on connectors that are point queues a delivery vehicle does not enter the road
    before the pickup time of the origin is over: it stopped at [t], waits [t+1 ... t+W]. *)
Theorem C125_pickup_wait : forall DN D k s w0 v tr before t n, dnet_ok DN -> fresh_world (dn_net DN) w0 -> gates_pq (dn_net DN) w0 ->
  (forall i, draws_valid (dd_base (D i))) -> drun DN D k (dinit DN w0) = Ok s ->
  dw_tour (ds_d s) v = Some tr -> ~ In v (arrived (dw_w (ds_d s))) -> stops (ds_d s) v = before ++ [(t, n)] ->
  Z.of_nat k <= t + dn_pickup DN (v_org (w_veh (dw_w (ds_d s)) v)) + 1 ->
  at_gate (dn_net DN) (dw_w (ds_d s)) v.
Proof. intros. eapply waits_at_gate; eauto. Qed.
Print Assumptions C125_pickup_wait.

(** ** Examples *)
Lemma tn_draws_valid : draws_valid (dd_base tn_draws).
Proof.
  unfold draws_valid, unit_draw, shuffle. simpl. repeat split; intros; try (destruct (Z.even _)); try (destruct (_ =? _)); try (vm_compute; discriminate);
  symmetry; apply Permutation_rev.
Qed.
Lemma tn_fresh gate sq dem W : (exists p, fresh_link p gate) -> fresh_world (dn_net (tn sq dem W)) (tn_world gate).
Proof.
  intros G. constructor; try reflexivity; auto.
  intros l Hl. cbn in Hl. destruct Hl as [<-|[<-|[<-|[<-|[]]]]]; try (exists (xn_par KPq 10 100); reflexivity). exact G.
Qed.
Lemma tn_net_ok dem : net_ok (tn_net dem).
Proof.
  assert (INL : forall n l, In l (n_in (tn_net dem) n) -> In (n, l) [(3,11);(3,14);(2,12);(5,13)]).
  { intros n l. cbn [n_in tn_net]. destruct (Z.eqb_spec n 3); [|destruct (Z.eqb_spec n 2); [|destruct (Z.eqb_spec n 5); [|intros []]]]; subst; cbn [In]; intuition subst; auto 10. }
  assert (OUTL : forall n l, In l (n_out (tn_net dem) n) -> In (n, l) [(1,11);(4,14);(3,12);(3,13)]).
  { intros n l. cbn [n_out tn_net]. destruct (Z.eqb_spec n 1); [|destruct (Z.eqb_spec n 4); [|destruct (Z.eqb_spec n 3); [|intros []]]]; subst; cbn [In]; intuition subst; auto 10. }
  constructor.
  - reflexivity.
  - cbn. repeat constructor; cbn; intuition discriminate.
  - cbn. repeat constructor; cbn; intuition discriminate.
  - cbn. repeat constructor; cbn; intuition discriminate.
  - cbn. repeat constructor; cbn; intuition discriminate.
  - intros n. split; [|split].
    + cbn [n_in tn_net]. destruct (n =? 3), (n =? 2), (n =? 5); repeat constructor; cbn; intuition discriminate.
    + cbn [n_out tn_net]. destruct (n =? 1), (n =? 4), (n =? 3); repeat constructor; cbn; intuition discriminate.
    + intros l H1 H2. apply INL in H1. apply OUTL in H2. cbn [In] in H1, H2. intuition congruence.
  - intros n l H. apply INL in H. cbn [In] in H. intuition (match goal with H : (_, _) = (_, _) |- _ => injection H as <- <- end; cbn; auto 10).
  - intros n l H. apply OUTL in H. cbn [In] in H. intuition (match goal with H : (_, _) = (_, _) |- _ => injection H as <- <- end; cbn; auto 10).
  - intros n n' l H1 H2. apply OUTL in H1, H2. cbn [In] in H1, H2. intuition congruence.
  - intros n H. cbn in H |- *. intuition congruence.
  - intros n H. cbn in H |- *. intuition congruence.
Qed.
Lemma tn_ok sq dem W : match sq with [] => True | x :: _ => fst x = 1 end -> Forall (fun od => In (fst od) [1; 4]) sq -> dnet_ok (tn sq dem W).
Proof.
  intros H F. constructor.
  - apply tn_net_ok.
  - intros o Ho. cbn in Ho |- *. intuition congruence.
  - intros o q d Ho Hin Ne. cbn [tn dn_tours] in Hin. destruct (Z.eqb_spec o 1) as [->|_]; [|destruct Hin]. destruct Hin as [E|[]]. injection E as <- <-.
    split; [|exact F]. destruct sq; [congruence|exact H].
Qed.
Lemma tn_reached sq dem W gate k s : (exists p, fresh_link p gate) -> tn_run sq dem W gate k = Ok s -> dreached (tn sq dem W) (fun _ => tn_draws) k s.
Proof. intros G H. exists (tn_world gate). split; [now apply tn_fresh|]. split; [intros; apply tn_draws_valid|exact H]. Qed.
Lemma tn_run_at sq dem W gate k : is_ok (tn_run sq dem W gate k) = true -> tn_run sq dem W gate k = Ok (tn_at sq dem W gate k).
Proof. unfold tn_at. destruct (tn_run sq dem W gate k); [reflexivity|discriminate]. Qed.
Lemma tn_drun sq dem W gate k : is_ok (tn_run sq dem W gate k) = true ->
  drun (tn sq dem W) (fun _ => tn_draws) k (dinit (tn sq dem W) (tn_world gate)) = Ok (tn_at sq dem W gate k).
Proof. apply tn_run_at. Qed.
Lemma tn_wide_fresh : exists p, fresh_link p tn_wide. Proof. exists (xn_par KPq 10 100). reflexivity. Qed.
Lemma tn_narrow_fresh : exists p, fresh_link p tn_narrow. Proof. exists (xn_par KPq (1 # 10) 100). reflexivity. Qed.
Lemma tn_lq_fresh : exists p, fresh_link p tn_lq. Proof. exists (xn_par KLq 10 300). vm_compute. reflexivity. Qed.
Lemma tn_gates gate sq dem W : (exists m q vol, l_body gate = BPq m q vol) -> gates_pq (dn_net (tn sq dem W)) (tn_world gate).
Proof.
  intros G n l Hn Hl. cbn in Hn. assert (E : l = 11 \/ l = 14).
  { destruct Hn as [E|[E|[E|[E|[E|[]]]]]]; try discriminate E; injection E as <-; cbn in Hl; intuition congruence. }
  destruct E as [-> | ->]; [|exact G]. cbn. eauto.
Qed.
Definition tn_none : Z -> Q := fun _ => 0%Q.
Definition tn_some : Z -> Q := fun i => if i =? 0 then 9%Q else 0%Q.

(** Two delivery vehicles go out and back and finish; eleven vehicles share the narrow gate. *)
Example C122_C123_case : dnet_ok (tn tn_back tn_some 2) /\ dreached (tn tn_back tn_some 2) (fun _ => tn_draws) 12 (tn_at tn_back tn_some 2 tn_narrow 12) /\
  let d := ds_d (tn_at tn_back tn_some 2 tn_narrow 12) in
  dw_made d = 2 /\ f_num (w_fac (dw_w d)) = 11 /\ arrived (dw_w d) = [11; 10; 9; 8; 7; 1; 3; 2] /\ places d 1 = [5; 2] /\ places d 3 = [2] /\ places d 4 = [] /\
  option_map tr_seq (dw_tour d 1) = Some tn_back /\ dw_tour d 3 = None.
Proof.
  split; [apply tn_ok; [reflexivity|repeat (apply Forall_cons; [cbn; auto|]); apply Forall_nil]|]. split; [apply (tn_reached _ _ _ tn_narrow); [apply tn_narrow_fresh|apply tn_run_at; vm_compute; reflexivity]|].
  vm_compute. repeat split; reflexivity.
Qed.
(** REFUTED: "a finished vehicle has made its whole tour": the tour out-back-out-back ends
    at the first return. *)
Theorem C123_whole_tour_refuted : exists DN D k s v tr, dnet_ok DN /\ dreached DN D k s /\ dw_tour (ds_d s) v = Some tr /\ In v (arrived (dw_w (ds_d s))) /\
  route_of (tr_seq tr) = [5; 2; 5; 2] /\ places (ds_d s) v = [5; 2].
Proof.
  exists (tn tn_twice tn_none 0), (fun _ => tn_draws), 7%nat, (tn_at tn_twice tn_none 0 tn_wide 7), 1, {| tr_seq := tn_twice; tr_at := 1; tr_wait := 0 |}.
  split; [apply tn_ok; [reflexivity|repeat (apply Forall_cons; [cbn; auto|]); apply Forall_nil]|]. split; [apply (tn_reached _ _ _ tn_wide); [apply tn_wide_fresh|apply tn_run_at; vm_compute; reflexivity]|].
  split; [vm_compute; reflexivity|]. split; [vm_compute; auto|]. split; reflexivity.
Qed.
Print Assumptions C123_whole_tour_refuted.
(** REFUTED: "a loading with tours runs to its end": two stops in a row at one customer, or
    a tour of one leg. *)
Theorem C124_any_tour_refuted :
  (exists DN w D k, dnet_ok DN /\ fresh_world (dn_net DN) w /\ (forall i, draws_valid (dd_base (D i))) /\ drun DN D k (dinit DN w) = Err EAssert /\
     forall o sq dem, In (sq, dem) (dn_tours DN o) -> route_of sq = [5; 5; 2]) /\
  (exists DN w D k, dnet_ok DN /\ fresh_world (dn_net DN) w /\ (forall i, draws_valid (dd_base (D i))) /\ drun DN D k (dinit DN w) = Err EAssert /\
     forall o sq dem, In (sq, dem) (dn_tours DN o) -> route_of sq = [5]).
Proof.
  split.
  - exists (tn tn_stay tn_none 0), (tn_world tn_wide), (fun _ => tn_draws), 3%nat.
    split; [apply tn_ok; [reflexivity|repeat (apply Forall_cons; [cbn; auto|]); apply Forall_nil]|]. split; [apply tn_fresh, tn_wide_fresh|]. split; [intros; apply tn_draws_valid|]. split; [vm_compute; reflexivity|].
    intros o sq dem H. cbn [tn dn_tours] in H. destruct (o =? 1); [|destruct H]. destruct H as [E|[]]. injection E as <- _. reflexivity.
  - exists (tn tn_single tn_none 0), (tn_world tn_wide), (fun _ => tn_draws), 1%nat.
    split; [apply tn_ok; [reflexivity|repeat (apply Forall_cons; [cbn; auto|]); apply Forall_nil]|]. split; [apply tn_fresh, tn_wide_fresh|]. split; [intros; apply tn_draws_valid|]. split; [vm_compute; reflexivity|].
    intros o sq dem H. cbn [tn dn_tours] in H. destruct (o =? 1); [|destruct H]. destruct H as [E|[]]. injection E as <- _. reflexivity.
Qed.
Print Assumptions C124_any_tour_refuted.
(** the state before the abort *)
Example C124_case : let d := ds_d (tn_at tn_stay tn_none 0 tn_wide 2) in is_ok (tn_run tn_stay tn_none 0 tn_wide 2) = true /\
  option_map (fun tr => (nth_error (tr_seq tr) (tr_at tr), nth_error (tr_seq tr) (S (tr_at tr)))) (dw_tour d 2) = Some (Some (1, 5), Some (4, 5)) /\
  v_dst (w_veh (dw_w d) 2) = 5 /\ l_fin (w_link (dw_w d) 13) = [2; 1].
Proof. vm_compute. repeat split; reflexivity. Qed.

(** Stop in interval 2, wait 3: at the gate after intervals 3, 4 and 5 and on the road
    after 6. *)
Example C125_case : dnet_ok (tn tn_back tn_none 3) /\ fresh_world (dn_net (tn tn_back tn_none 3)) (tn_world tn_wide) /\ gates_pq (dn_net (tn tn_back tn_none 3)) (tn_world tn_wide) /\
  (forall i : Z, draws_valid (dd_base tn_draws)) /\
  (let d := ds_d (tn_at tn_back tn_none 3 tn_wide 6) in tn_run tn_back tn_none 3 tn_wide 6 = Ok (tn_at tn_back tn_none 3 tn_wide 6) /\
   stops d 1 = [(2, 5)] /\ arrived (dw_w d) = [] /\ v_org (w_veh (dw_w d) 1) = 4 /\ l_in (w_link (dw_w d) 14) = [2; 1]) /\
  (let d := ds_d (tn_at tn_back tn_none 3 tn_wide 7) in stops d 1 = [(2, 5)] /\ l_in (w_link (dw_w d) 14) = [] /\ l_fin (w_link (dw_w d) 14) = [2; 1]).
Proof.
  split; [apply tn_ok; [reflexivity|repeat (apply Forall_cons; [cbn; auto|]); apply Forall_nil]|]. split; [apply tn_fresh, tn_wide_fresh|]. split; [apply tn_gates; cbn; eauto|]. split; [intros; apply tn_draws_valid|].
  split; [split; [apply tn_run_at; vm_compute; reflexivity|vm_compute; repeat split; reflexivity]|vm_compute; repeat split; reflexivity].
Qed.
(** REFUTED: "when the pickup time is over and the vehicle is first at a gate that admits a
    vehicle per interval, it enters".  Stop in interval 2, wait 2; alone at an empty gate
    after interval 5 and still there after interval 6: the clock stood still while the
    vehicle queued. *)
Theorem C125_exact_wait_refuted : exists DN D w0 s6 s7 l, dnet_ok DN /\ fresh_world (dn_net DN) w0 /\ gates_pq (dn_net DN) w0 /\ (forall i, draws_valid (dd_base (D i))) /\
  drun DN D 6 (dinit DN w0) = Ok s6 /\ drun DN D 7 (dinit DN w0) = Ok s7 /\
  stops (ds_d s6) 1 = [(2, 5)] /\ v_org (w_veh (dw_w (ds_d s6)) 1) = 4 /\ dn_pickup DN 4 = 2 /\
  (pq_supply (l_par (w_link (dw_w (ds_d s6)) l)) * p_fs (l_par (w_link (dw_w (ds_d s6)) l)) == 1)%Q /\
  on_link (w_link (dw_w (ds_d s6)) l) = [1] /\ l_in (w_link (dw_w (ds_d s6)) l) = [1] /\ hd 0 (l_in (w_link (dw_w (ds_d s7)) l)) = 1 /\ inside (l_body (w_link (dw_w (ds_d s7)) l)) = [].
Proof.
  exists (tn tn_back tn_some 2), (fun _ => tn_draws), (tn_world tn_narrow), (tn_at tn_back tn_some 2 tn_narrow 6), (tn_at tn_back tn_some 2 tn_narrow 7), 14.
  split; [apply tn_ok; [reflexivity|repeat (apply Forall_cons; [cbn; auto|]); apply Forall_nil]|]. split; [apply tn_fresh, tn_narrow_fresh|]. split; [apply tn_gates; cbn; eauto|]. split; [intros; apply tn_draws_valid|].
  split; [apply (tn_drun tn_back tn_some 2 tn_narrow 6); vm_compute; reflexivity|]. split; [apply (tn_drun tn_back tn_some 2 tn_narrow 7); vm_compute; reflexivity|].
  split; [vm_compute; reflexivity|]. split; [vm_compute; reflexivity|]. split; [reflexivity|]. split; [vm_compute; reflexivity|]. vm_compute. repeat split; reflexivity.
Qed.
Print Assumptions C125_exact_wait_refuted.
(** REFUTED: "delivery vehicles wait at every origin": with a link queue as connector a
    vehicle that should wait 50 intervals is on the road in the next one. *)
Theorem C125_other_gates_refuted : exists DN D w0 s v tr, dnet_ok DN /\ fresh_world (dn_net DN) w0 /\ (forall i, draws_valid (dd_base (D i))) /\
  drun DN D 4 (dinit DN w0) = Ok s /\ dw_tour (ds_d s) v = Some tr /\ ~ In v (arrived (dw_w (ds_d s))) /\
  stops (ds_d s) v = [(2, 5)] /\ dn_pickup DN (v_org (w_veh (dw_w (ds_d s)) v)) = 50 /\ ~ at_gate (dn_net DN) (dw_w (ds_d s)) v.
Proof.
  exists (tn tn_back tn_none 50), (fun _ => tn_draws), (tn_world tn_lq), (tn_at tn_back tn_none 50 tn_lq 4), 1, {| tr_seq := tn_back; tr_at := 1; tr_wait := 50 |}.
  split; [apply tn_ok; [reflexivity|repeat (apply Forall_cons; [cbn; auto|]); apply Forall_nil]|]. split; [apply tn_fresh, tn_lq_fresh|]. split; [intros; apply tn_draws_valid|].
  split; [apply (tn_drun tn_back tn_none 50 tn_lq 4); vm_compute; reflexivity|]. split; [vm_compute; reflexivity|].
  assert (A : arrived (dw_w (ds_d (tn_at tn_back tn_none 50 tn_lq 4))) = []) by (vm_compute; reflexivity). split; [rewrite A; intros []|].
  split; [vm_compute; reflexivity|]. split; [reflexivity|].
  intros [(o & Ho & Hv)|(n & l & Hn & Hl & Hv)].
  - assert (E : w_oq (dw_w (ds_d (tn_at tn_back tn_none 50 tn_lq 4))) (o_node o) = []).
    { cbn [tn dn_net tn_net n_origins] in Ho. destruct Ho as [<-|[<-|[]]]; vm_compute; reflexivity. }
    rewrite E in Hv. destruct Hv.
  - assert (L : l = 11 \/ l = 14).
    { clear -Hn Hl. cbn in Hn. destruct Hn as [E|[E|[E|[E|[E|[]]]]]]; try discriminate E; injection E as <-; cbn in Hl; intuition congruence. }
    assert (E : l_in (w_link (dw_w (ds_d (tn_at tn_back tn_none 50 tn_lq 4))) l) = []) by (destruct L as [-> | ->]; vm_compute; reflexivity).
    rewrite E in Hv. destruct Hv.
Qed.
Print Assumptions C125_other_gates_refuted.
