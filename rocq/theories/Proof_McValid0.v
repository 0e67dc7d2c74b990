(** Routing of cars and trucks with separate shares never fails on valid input. *)
From Verif Require Import Base Base_lemmas Model_Num Proof_Num Spec_Path Proof_Path Model_CC Spec_CC Proof_CC Model_Path Model_Link Spec_Link Spec_Node
  Proof_Link Proof_Link3 Proof_Link4 Proof_Link5 Model_World Model_Node Proof_Node Proof_Node2 Proof_Node3 Proof_Node4 Model_Sim Spec_Sim Proof_Sim1 Proof_Sim2 Proof_Sim3 Proof_Sim4 Proof_Sim5 Proof_Sim6 Spec_Route Proof_Sim7
  Spec_Valid Proof_Safe2
  Model_McLink Spec_McLink Proof_McLink Model_McNode Spec_McNode Proof_McNode Model_McSim Spec_McSim Proof_McSim1 Proof_McSim2 Proof_McRoute1 Proof_McRoute2.
Local Open Scope Z_scope.

Section Routing2.
Context (M : mnet) (w0 : world) (VA : rvalid (snet M) w0).
Let N := snet M.
Let pt0 := w_pt w0.
Notation rinv := (rinv N w0).
Notation moved_on := (moved_on N).

Lemma tbl_weak t pt : 0 <= t -> tbl N pt0 (t + 1) pt -> tbl N pt0 t pt.
Proof. intros Ht [A B C]. constructor; auto. destruct C as [C|(C1 & C2 & C3 & C4)]; [left; exact C|right]. split; [exact C1|]. split; [exact C2|]. split; [exact C3|]. intros _. apply C4. lia. Qed.

Lemma class_portion_total t k w : 0 <= t -> mn_rlen M <> 1 -> tbl N pt0 t (w_pt w) ->
  exists w1, class_portion M t k w = Ok w1 /\ w_veh w1 = w_veh w /\ w_trk w1 = w_trk w /\ sub_routes (w_pt w) (w_pt w1) /\
    tbl N pt0 (t + 1) (w_pt w1) /\ all_dist (w_pt w1).
Proof.
  intros Ht R3 [TK TF TD]. unfold class_portion. destruct TD as [[Un D]|(R1 & R2 & B & D)].
  - replace (_ || _) with true. 2:{ symmetry. apply orb_true_iff. destruct Un as [U|U]; cbn [N snet n_rfreq n_rlen] in U; rewrite U; [left|right]; reflexivity. }
    exists w. do 3 (split; [reflexivity|]). split; [apply sub_refl|]. split; [|exact D]. constructor; auto.
  - cbn [N snet n_rfreq n_rlen] in R1, R2. replace (_ || _) with false. 2:{ symmetry. apply orb_false_iff. split; apply Z.eqb_neq; lia. }
    replace (mn_rfreq M =? 0) with false by (symmetry; apply Z.eqb_neq; lia). cbn [negb guard bind]. cbv zeta.
    rewrite !Z.quot_div_nonneg by lia. pose proof (Z.div_pos t (mn_rfreq M) Ht R1) as Hp.
    pose proof (Z.div_mod (mn_rlen M) 2 ltac:(lia)) as DM. pose proof (Z.mod_pos_bound (mn_rlen M) 2 ltac:(lia)) as MB.
    destruct (Z.ltb_spec (t / mn_rfreq M) (mn_rlen M / 2)) as [C|C].
    + destruct (change_choice_total N (t / mn_rfreq M + (if k then mn_rlen M / 2 else 0)) (w_pt w)) as (pt' & E & F); [cbn [N snet n_rlen]; destruct k; lia|intros q es I; split; eauto|].
      rewrite E. cbn [bind]. eexists. split; [reflexivity|]. do 2 (split; [reflexivity|]). cbn [set_pt w_pt]. split; [eapply change_choice_routes; eauto|].
      assert (AD : all_dist pt'). { intros q es I. destruct (Forall2_In_r _ _ _ _ F I) as (a & _ & (_ & _ & _ & X)). exact X. }
      split; [|exact AD]. constructor.
      * intros q es I. destruct (TK q es I) as (es1 & I1). destruct (Forall2_In_l _ _ _ _ F I1) as ([k2 es2] & I2 & (E2 & _)). cbn [fst] in E2. subst k2. eauto.
      * intros q es I. destruct (Forall2_In_r _ _ _ _ F I) as (a & _ & (_ & X & _)). exact X.
      * right. split; [exact R1|]. split; [exact R2|]. split; [|auto]. intros q es I. destruct (Forall2_In_r _ _ _ _ F I) as (a & _ & (_ & _ & X & _)). exact X.
    + exists w. do 3 (split; [reflexivity|]). split; [apply sub_refl|].
      assert (Tp : 0 < t). { destruct (Z.eq_dec t 0) as [->|]; [exfalso; rewrite Z.div_0_l in C by lia; lia|lia]. }
      split; [|auto]. constructor; auto. right. auto.
Qed.

Definition untouched (w x : world) : Prop :=
  forall v, (forall n, In n (map o_node (n_origins N)) -> ~ In v (w_oq w n)) -> (forall l, In l (n_links N) -> ~ In v (l_fin (w_link w l))) -> w_veh x v = w_veh w v.

(** the pass over one class *)
Lemma class_total D t cls k w : draws_valid D -> 0 <= t -> mn_rlen M <> 1 -> rinv w -> tbl N pt0 t (w_pt w) ->
  exists w', class_routing M D t cls k w = Ok w' /\ rinv w' /\ tbl N pt0 (t + 1) (w_pt w') /\ same_q w w' /\ untouched w w' /\
    (forall u, w_trk w u <> None -> w_trk w' u <> None) /\ (forall u, moved_on w u -> moved_on w' u) /\
    (forall n v, In n (map o_node (n_origins N)) -> In v (w_oq w n) -> cls v = k -> w_trk w' v <> None) /\
    (forall l v, In l (n_links N) -> In v (l_fin (w_link w l)) -> cls v = k -> moved_on w' v).
Proof.
  intros DV Ht R3 R TB. unfold class_routing. cbv zeta.
  destruct (class_portion_total t k w Ht R3 TB) as (w1 & E1 & Ev1 & Et1 & Sr & TB1 & AD1). rewrite E1. cbn [bind].
  pose proof (class_portion_r M t k w w1 E1) as RR1. pose proof RR1 as [Q1 _].
  assert (R1 : rinv w1).
  { apply (rinv_veh N w0 w); auto. intros v. destruct (ri_v _ _ _ R v) as (h & V). exists h. apply (vinv_frame N pt0 v None w w1); auto; [now rewrite Ev1|now rewrite Et1]. }
  rewrite (origins_seen M _ (fun w n => foldM (fun w v => if Bool.eqb (cls v) k then fixed_origin_veh (seen_net M) D w v else Ok w) w (w_oq w n)) (fun s o => eq_refl)).
  set (P := fun x => rinv x /\ w_pt x = w_pt w1 /\ same_q w x /\ untouched w x /\ (forall u, w_trk w u <> None -> w_trk x u <> None) /\ (forall u, moved_on w u -> moved_on x u)).
  assert (P1 : P w1).
  { split; [exact R1|]. split; [reflexivity|]. split; [exact Q1|]. split; [intros v _ _; now rewrite Ev1|]. split; [intros u; now rewrite Et1|].
    intros u Mu l Hl Hf. rewrite Ev1. apply Mu; auto. destruct Q1 as (Q1 & _). now rewrite Q1 in Hf. }
  (* origins *)
  destruct (foldM_total_post (fun x o => foldM (fun w v => if Bool.eqb (cls v) k then fixed_origin_veh (seen_net M) D w v else Ok w) x (w_oq x (o_node o))) P
      (fun x o => forall v, In v (w_oq w (o_node o)) -> cls v = k -> w_trk x v <> None) (n_origins N)) with (s := w1) as (w2 & E2 & P2 & T2 & _); [|exact P1|].
  { intros x o Px Ho. assert (Hn : In (o_node o) (map o_node (n_origins N))) by now apply in_map.
    replace (w_oq x (o_node o)) with (w_oq w (o_node o)) by (destruct Px as (_ & _ & (_ & -> & _) & _); reflexivity).
    destruct (foldM_total_post (fun w v => if Bool.eqb (cls v) k then fixed_origin_veh (seen_net M) D w v else Ok w) P (fun y v => cls v = k -> w_trk y v <> None) (w_oq w (o_node o))) with (s := x) as (y & Ey & Py & Ty & My).
    - intros y v Py Hv. destruct (Bool.eqb (cls v) k) eqn:Ek.
      2:{ exists y. split; [reflexivity|]. split; [exact Py|]. split; [|auto]. intros C. rewrite C, eqb_reflx in Ek. discriminate. }
      destruct Py as (Ry & Epy & Qy & Uy & Ty & My). assert (Hv' : In v (w_oq y (o_node o))) by (destruct Qy as (_ & -> & _); exact Hv).
      change (fixed_origin_veh (seen_net M) D y v) with (fixed_origin_veh N D y v).
      destruct (origin_veh_total N w0 VA D y (o_node o) v (t + 1) DV Ry) as (z & Ez & Rz & Epz & Tz & Mz & Oz); auto; try (rewrite Epy; assumption).
      pose proof (fixed_origin_q _ _ _ _ _ Ez) as Qz.
      exists z. split; [exact Ez|]. split; [|split; [auto|intros b Hb Eb; apply Mz; auto]]. split; [exact Rz|]. split; [congruence|]. split; [eapply same_q_trans; eauto|]. split; [|split; [auto|]].
      + intros u A B. rewrite Oz; [apply Uy; auto|]. intros ->. eapply A; eauto.
      + intros u Mu l Hl Hf. destruct (Z.eq_dec u v) as [->|Ne].
        * exfalso. destruct Qz as (Qz & _). rewrite Qz in Hf. eapply (u_ol N y (ri_s _ _ _ Ry) v (o_node o) l); eauto. unfold on_link. apply in_or_app. now left.
        * rewrite Oz by exact Ne. apply (My u Mu); auto. destruct Qz as (Qz & _). now rewrite Qz in Hf.
    - exact Px.
    - exists y. split; [exact Ey|]. split; [exact Py|]. split; [exact Ty|]. intros b Hb v Hv Ec. apply My; auto. }
  cbv beta. fold N. rewrite E2. cbn [bind].
  (* links *)
  set (P' := fun x => P x /\ forall o v, In o (n_origins N) -> In v (w_oq w (o_node o)) -> cls v = k -> w_trk x v <> None).
  assert (P2' : P' w2) by (split; [exact P2|intros o v Ho; apply (T2 o Ho)]).
  assert (STEP : forall l y v, In l (n_links N) -> P' y -> In v (l_fin (w_link w l)) -> exists z, (if Bool.eqb (cls v) k then fixed_link_veh (seen_net M) l y v else Ok y) = Ok z /\ P' z /\ (cls v = k -> moved_on z v) /\ forall u, (cls u = k -> moved_on y u) -> (cls u = k -> moved_on z u)).
  { intros l y v Hl Py Hv. destruct (Bool.eqb (cls v) k) eqn:Ek.
    2:{ exists y. split; [reflexivity|]. split; [exact Py|]. split; [|auto]. intros C. rewrite C, eqb_reflx in Ek. discriminate. }
    destruct Py as ((Ry & Epy & Qy & Uy & Ty & My) & Oy). assert (Hv' : In v (l_fin (w_link y l))) by (destruct Qy as (-> & _); exact Hv).
    change (fixed_link_veh (seen_net M) l y v) with (fixed_link_veh N l y v).
    destruct (link_veh_total N w0 VA y l v Ry Hl Hv') as (z & Ez & Rz & Epz & Mz & Tz & Oz). exists z. split; [exact Ez|]. pose proof (fixed_link_q _ _ _ _ _ Ez) as Qz.
    assert (Mon : forall u, moved_on y u -> moved_on z u).
    { intros u Mu. destruct (Z.eq_dec u v) as [->|Ne]; [exact Mz|]. intros l2 Hl2 Hf. rewrite Oz by exact Ne. apply Mu; auto. destruct Qz as (Qz & _). now rewrite Qz in Hf. }
    split; [split; [|eauto]|split; auto]. split; [exact Rz|]. split; [congruence|]. split; [eapply same_q_trans; eauto|]. split; [|auto].
    intros u A B. rewrite Oz; [apply Uy; auto|]. intros ->. eapply B; eauto. }
  destruct (foldM_total_post (fun x l => foldM (fun w v => if Bool.eqb (cls v) k then fixed_link_veh (seen_net M) l w v else Ok w) x (l_fin (w_link x l))) P'
      (fun x l => forall v, In v (l_fin (w_link w l)) -> cls v = k -> moved_on x v) (n_links N)) with (s := w2)
    as (w3 & E3 & ((Rw & Ep3 & Q3 & U3 & T3 & N3) & O3) & M3 & _); [|exact P2'|].
  { intros x l Px Hl. replace (l_fin (w_link x l)) with (l_fin (w_link w l)) by (destruct Px as ((_ & _ & (-> & _) & _) & _); reflexivity).
    destruct (foldM_total_post (fun w v => if Bool.eqb (cls v) k then fixed_link_veh (seen_net M) l w v else Ok w) P' (fun y v => cls v = k -> moved_on y v) (l_fin (w_link w l))) with (s := x) as (y & Ey & Py & My & Sy).
    - intros y v Py Hv. destruct (STEP l y v Hl Py Hv) as (z & Ez & Pz & Mz & Sz). exists z. repeat (split; [assumption|]). exact Sz.
    - exact Px.
    - exists y. split; [exact Ey|]. split; [exact Py|]. split; [exact My|]. intros b Hb v Hv. auto. }
  exists w3. split; [exact E3|]. split; [exact Rw|]. split; [now rewrite Ep3|]. split; [exact Q3|]. split; [exact U3|]. split; [exact T3|]. split; [exact N3|]. split.
  - intros n v Hn Hv Ec. apply in_map_iff in Hn as (o & <- & Ho). eapply O3; eauto.
  - intros l v Hl Hv Ec. eapply M3; eauto.
Qed.

(** once everybody at an origin has a route and everybody at the end of a link has been
    moved on, next links are right *)
Lemma routed_next w : rinv w -> (forall n v, In n (map o_node (n_origins N)) -> In v (w_oq w n) -> w_trk w v <> None) ->
  (forall l v, In l (n_links N) -> In v (l_fin (w_link w l)) -> moved_on w v) ->
  (forall n v, In n (map o_node (n_origins N)) -> In v (w_oq w n) -> exists b, In b (n_out N n) /\ v_next (w_veh w v) = Some b) /\
  (forall l v, In l (n_links N) -> In v (l_fin (w_link w l)) ->
     (v_dst (w_veh w v) = n_to N l /\ v_next (w_veh w v) = None) \/
     (v_dst (w_veh w v) <> n_to N l /\ exists b, In b (n_out N (n_to N l)) /\ v_next (w_veh w v) = Some b)).
Proof.
  intros R3 T3 M3. pose proof R3 as [I3 V3 TR3 O3]. split.
  - intros n v Hn Hv. pose proof (known N w v I3 (or_introl (ex_intro _ n (conj Hn Hv)))) as Kn. destruct (TR3 v Kn) as (Ad & _).
    destruct (V3 v) as (h & [A1 A2 A3 A4]). destruct (A3 (proj2 Kn) Ad) as [S1 _ _ _]. destruct (S1 n Hn Hv) as (_ & [(C & _)|(p & L & rest & Rp & Er & Nx & _)]).
    + exfalso. eapply T3; eauto.
    + exists L. split; [|exact Nx]. destruct Rp as [_ Rp]. pose proof (rv_routes _ _ VA _ _ _ Rp) as LE. rewrite Er in LE. destruct LE as [LE _]. now rewrite (O3 n v Hn Hv) in LE.
  - intros l v Hl Hv. destruct (on_link_state N w0 VA w v l R3 Hl) as (Ad & Ec & rest & Sh & L & Dst & Nxt); [unfold on_link; apply in_or_app; now left|].
    assert (Mv : v_next (w_veh w v) <> Some l) by (apply (M3 l v); auto).
    destruct Sh as [[A B]|[(l' & r & A & B & C & E)|(A & B & C & E)]]; [contradiction| |auto].
    right. split; [exact E|]. exists l'. split; [eapply Nxt; eauto|exact B].
Qed.

Lemma routing2_total D t cls w : draws_valid D -> 0 <= t -> mn_rlen M <> 1 -> rinv w -> tbl N pt0 t (w_pt w) ->
  exists w', (do x <- class_routing M D t cls false w; class_routing M D t cls true x) = Ok w' /\ rinv w' /\ tbl N pt0 (t + 1) (w_pt w') /\
    (forall n v, In n (map o_node (n_origins N)) -> In v (w_oq w' n) -> exists b, In b (n_out N n) /\ v_next (w_veh w' v) = Some b) /\
    (forall l v, In l (n_links N) -> In v (l_fin (w_link w' l)) ->
       (v_dst (w_veh w' v) = n_to N l /\ v_next (w_veh w' v) = None) \/
       (v_dst (w_veh w' v) <> n_to N l /\ exists b, In b (n_out N (n_to N l)) /\ v_next (w_veh w' v) = Some b)) /\
    (forall v, (forall n, In n (map o_node (n_origins N)) -> ~ In v (w_oq w n)) -> (forall l, In l (n_links N) -> ~ In v (l_fin (w_link w l))) -> w_veh w' v = w_veh w v).
Proof.
  intros DV Ht R3 R TB.
  destruct (class_total D t cls false w DV Ht R3 R TB) as (x & Ex & Rx & Tx & Qx & Ux & Kx & Nx & Ox & Lx). rewrite Ex. cbn [bind].
  destruct (class_total D t cls true x DV Ht R3 Rx (tbl_weak _ _ Ht Tx)) as (y & Ey & Ry & Ty & Qy & Uy & Ky & Ny & Oy & Ly).
  exists y. split; [exact Ey|]. split; [exact Ry|]. split; [exact Ty|].
  pose proof Qx as (Ql & Qo & _). pose proof Qy as (Ql' & Qo' & _).
  destruct (routed_next y Ry) as [A B].
  - intros n v Hn Hv. rewrite Qo' in Hv. destruct (cls v) eqn:Ec; [eapply Oy; eauto|]. apply Ky. rewrite Qo in Hv. eapply Ox; eauto.
  - intros l v Hl Hv. rewrite Ql' in Hv. destruct (cls v) eqn:Ec; [eapply Ly; eauto|]. apply Ny. rewrite Ql in Hv. eapply Lx; eauto.
  - split; [exact A|]. split; [exact B|]. intros v Hn Hl. rewrite (Uy v); [apply Ux; auto| |]; [rewrite Qo; exact Hn|rewrite Ql; exact Hl].
Qed.
End Routing2.
