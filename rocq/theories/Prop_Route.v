(** C30: fixed-route vehicles traverse exactly their route. *)
From Verif Require Import Base Base_lemmas Model_Num Proof_Num Spec_Path Proof_Path Model_CC Spec_CC Proof_CC Model_Path Model_Link Spec_Link Spec_Node
  Proof_Link Proof_Link3 Proof_Link4 Proof_Link5 Model_World Model_Node Model_Sim Spec_Sim Spec_Route Proof_Sim1 Proof_Sim2 Proof_Sim3 Proof_Sim4 Proof_Sim5 Proof_Sim6 Proof_Sim7
  Ex_Net Prop_Node Prop_Sim.
Local Open Scope Z_scope.

(** A static vehicle is still at its origin and has seen no link, or it has a route of
    the table for its origin and destination, the links it has been on are the
    beginning of that route, the last of them is the one it is on now, and they are the
    whole route once it has arrived. *)
Theorem C30_follows_route : forall N D w0 k s v, net_ok N -> fresh_world N w0 -> (forall t, draws_valid (D t)) -> routes_ok (w_pt w0) ->
  run N D k (init_state N w0) = Ok s -> 1 <= v <= f_num (w_fac (s_w s)) -> v_adapt (w_veh (s_w s) v) = false ->
  (In v (at_origins N (s_w s)) /\ visited N D w0 v k = []) \/
  (exists p rest, v_path (w_veh (s_w s) v) = Some p /\ is_route (w_pt w0) (v_org (w_veh (s_w s) v)) (v_dst (w_veh (s_w s) v)) p /\
    r_links p = visited N D w0 v k ++ rest /\
    (forall l, In l (n_links N) -> In v (on_link (w_link (s_w s) l)) -> last_opt (visited N D w0 v k) = Some l) /\
    (In v (arrived (s_w s)) -> rest = [])).
Proof.
  intros N D w0 k s v K F DV RO H Hv Ad. pose proof (run_v N D w0 v K F DV RO k s H) as [P1 P2 P3 P4]. destruct (P3 ltac:(lia) Ad) as [S1 S2 S3 S4].
  pose proof (reached_sinv N D k s K (ex_intro _ w0 (conj F (conj DV H)))) as I. pose proof (i_count _ _ I v) as C.
  rewrite (proj2 (Z.leb_le 1 v)), (proj2 (Z.leb_le v _)) in C by lia. cbn [andb one_if] in C. rewrite zcount_places, <- zc_app in C.
  assert (P : In v ((at_origins N (s_w s) ++ on_links N (s_w s) ++ at_dests N (s_w s)) ++ arrived (s_w s))) by (apply zc_In; lia).
  rewrite !in_app_iff in P. destruct P as [[P|[P|P]]|P].
  - left. split; [exact P|]. unfold at_origins in P. apply in_concat in P as (q & Hq & P). apply in_map_iff in Hq as (o & <- & Ho).
    eapply S1; [|exact P]. now apply in_map.
  - right. unfold on_links in P. apply in_concat in P as (q & Hq & P). apply in_map_iff in Hq as (l & <- & Hl).
    destruct (S2 l Hl P) as (p & pre & rest & [R1 R2] & Er & Eh & _). exists p, rest. split; [exact R1|]. split; [exact R2|].
    split; [rewrite Er, Eh, <- app_assoc; reflexivity|]. split.
    + intros l2 Hl2 P2'. rewrite (u_ll N _ I v l2 l Hl2 Hl P2' P), Eh. apply last_opt_snoc.
    + intros A. exfalso. exact (u_la N _ I v l Hl P A).
  - right. unfold at_dests in P. apply in_concat in P as (q & Hq & P). apply in_map_iff in Hq as (d & <- & Hd).
    destruct (S3 d Hd P) as (p & [R1 R2] & Eh). exists p, []. split; [exact R1|]. split; [exact R2|]. split; [rewrite Eh; now rewrite app_nil_r|]. split; [|auto].
    intros l Hl C2. exfalso. exact (u_ld N _ I v l d Hl Hd C2 P).
  - right. destruct (S4 P) as (p & [R1 R2] & Eh). exists p, []. split; [exact R1|]. split; [exact R2|]. split; [rewrite Eh; now rewrite app_nil_r|]. split; [|auto].
    intros l Hl C2. exfalso. exact (u_la N _ I v l Hl C2 P).
Qed.
Print Assumptions C30_follows_route.

(** Once a vehicle has a route it keeps it. *)
Theorem C30_route_kept : forall N D w0 j k s s' v p, net_ok N -> fresh_world N w0 -> (forall t, draws_valid (D t)) -> routes_ok (w_pt w0) ->
  (j <= k)%nat -> run N D j (init_state N w0) = Ok s -> run N D k (init_state N w0) = Ok s' -> v <= f_num (w_fac (s_w s)) ->
  v_path (w_veh (s_w s) v) = Some p -> v_path (w_veh (s_w s') v) = Some p.
Proof. intros. eapply run_path_kept; eauto. Qed.
Print Assumptions C30_route_kept.

Lemma no_repeat3 a b c : a <> b -> b <> c -> no_repeat [a; b; c].
Proof.
  intros H1 H2 pre x y post E. destruct pre as [|p [|p' [|p'' pre]]]; simpl in E.
  - injection E as -> -> _. exact H1.
  - injection E as _ -> -> _. exact H2.
  - discriminate.
  - apply (f_equal (@length Z)) in E. simpl in E. rewrite app_length in E. simpl in E. lia.
Qed.
Example C30_case : routes_ok (w_pt xn_world) /\ v_adapt (w_veh (s_w (xn_at 10)) 4) = false /\
  map (fun k => visited xn (fun _ => xn_draws) xn_world 4 k) [0; 1; 2; 6; 10]%nat = [[]; [10]; [10; 20]; [10; 20; 30]; [10; 20; 30]] /\
  v_path (w_veh (s_w (xn_at 10)) 4) = Some {| r_id := 0; r_links := [10; 20; 30] |} /\ In 4 (arrived (s_w (xn_at 10))).
Proof.
  split.
  - intros o d p (es & e & A & B & <-). cbn in A. destruct A as [A|[A|[]]]; injection A as <- <- <-; cbn in B;
      repeat (destruct B as [<-|B]; [apply no_repeat3; discriminate|]); destruct B.
  - split; [vm_compute; reflexivity|]. split; [vm_compute; reflexivity|]. split; [vm_compute; reflexivity|].
    replace (arrived (s_w (xn_at 10))) with [3; 1; 7; 6; 5; 4; 2; 9; 8] by (vm_compute; reflexivity). cbn. auto 10.
Qed.
