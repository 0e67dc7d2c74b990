(** Route choice in a two-class run with a routing of its own for each class. *)
From Verif Require Import Base Base_lemmas Model_Num Proof_Num Spec_Path Proof_Path Model_CC Model_Path Model_Link Spec_Link Spec_Node
  Proof_Link Proof_Link4 Model_World Model_Node Model_Sim Spec_Sim Spec_Route Spec_Choice Proof_Sim1 Proof_Sim3 Proof_Sim4 Proof_Sim7 Proof_Choice
  Model_McLink Spec_McLink Model_McNode Spec_McNode Model_McSim Spec_McSim Proof_McNode Proof_McSim1 Proof_McSim2 Proof_McSim3.

(** what the release leaves alone *)
Definition rkeep (a b : mworld) : Prop :=
  mw_link b = mw_link a /\ mw_dq b = mw_dq a /\ mdone b = mdone a /\ mw_trk b = mw_trk a /\ mw_pt b = mw_pt a.
Lemma rkeep_refl a : rkeep a a. Proof. repeat split. Qed.
Lemma rkeep_trans a b c : rkeep a b -> rkeep b c -> rkeep a c.
Proof. unfold rkeep. intros (?&?&?&?&?) (?&?&?&?&?). repeat split; congruence. Qed.
Lemma rkeep_n D cur a o k d r : forall j w, rkeep w (mrelease_n j D cur a o k d r w).
Proof. induction j as [|j IH]; intros w; [apply rkeep_refl|]. cbn [mrelease_n]. cbv zeta. eapply rkeep_trans; [|apply IH]. repeat split. Qed.
Lemma rkeep_dests M D cur a o k : forall ds r w, rkeep w (fst (mrelease_dests M D cur a o k r ds w)).
Proof.
  induction ds as [|[d dem] ds IH]; intros r w; [apply rkeep_refl|]. cbn [mrelease_dests]. cbv zeta. eapply rkeep_trans; [apply rkeep_n|apply IH].
Qed.
Lemma rkeep_one M D cur a w o : rkeep w (mrelease_one M D cur a w o).
Proof.
  unfold mrelease_one. destruct (a <? 0); [apply rkeep_refl|].
  pose proof (rkeep_dests M D cur a o false (og_demand o false) (mbase_ratio (mn_routing M) false) w) as R1.
  destruct (mrelease_dests M D cur a o false _ _ w) as [w1 x]. cbv zeta.
  match goal with |- context [mrelease_dests M D cur a o true ?y ?ds w1] => pose proof (rkeep_dests M D cur a o true ds y w1) as R2; destruct (mrelease_dests M D cur a o true y ds w1) as [w2 z] end.
  cbn [fst] in *. eapply rkeep_trans; [exact R1|]. eapply rkeep_trans; [exact R2|]. repeat split.
Qed.
Lemma rkeep_all M D cur a w w' : mrelease_all M D cur a w = Ok w' -> rkeep w w'.
Proof.
  unfold mrelease_all. intros H. apply bind_ok in H as (u & _ & H). destruct (_ =? 0); [|apply Ok_inj in H as <-; apply rkeep_refl].
  apply Ok_inj in H as <-. generalize (if mn_total_assign M <=? a then -1 else a). intros a'. revert w. induction (mn_origins M) as [|o os IH]; intros w; [apply rkeep_refl|].
  cbn [fold_left]. eapply rkeep_trans; [apply rkeep_one|apply IH].
Qed.

Section Choice.
Context (M : mnet) (K : mnet_ok M).

Lemma new_waits w w1 v : minv M w -> minv M w1 -> rkeep w w1 -> mnum w < v <= mnum w1 -> exists o, In o (mn_origins M) /\ In v (mw_oq w1 (og_node o)).
Proof.
  intros [_ C _ N _ _ _ _ _ _ _ _ _ _] [_ C1 _ _ _ _ _ _ _ _ _ _ _ _] (L & Q & Dn & _) H. specialize (C v). specialize (C1 v). unfold mnum in H.
  assert (E0 : (1 <=? v) && (v <=? f_num (mw_fac w)) = false) by lia. assert (E1 : (1 <=? v) && (v <=? f_num (mw_fac w1)) = true) by lia.
  rewrite E0 in C. rewrite E1 in C1. unfold one_if in *. rewrite Dn in C1. unfold mzcount in *.
  assert (El : mzl M w1 v = mzl M w v) by (unfold mzl; now rewrite L). assert (Ed : mzd M w1 v = mzd M w v) by (unfold mzd; now rewrite Q).
  pose proof (mzo_nonneg M w v). pose proof (mzl_nonneg M w v). pose proof (mzd_nonneg M w v). pose proof (zc_nonneg v (map fst (mdone w))).
  assert (E : 0 < mzo M w1 v) by lia. unfold mzo in E. rewrite map_map in E. clear - E. induction (mn_origins M) as [|o os IH]; [cbn in E; lia|]. cbn [map sumZ fold_right] in E.
  pose proof (zc_nonneg v (mw_oq w1 (og_node o))). destruct (Z.eq_dec (zc v (mw_oq w1 (og_node o))) 0) as [Z0|Nz].
  - unfold sumZ in *. cbn [fold_right] in E. destruct IH as (o' & A & B); [lia|]. exists o'. split; [now right|exact B].
  - exists o. split; [now left|]. apply zc_In. lia.
Qed.
Lemma old_queued w n v : minv M w -> In n (map og_node (mn_origins M)) -> In v (mw_oq w n) -> v <= mnum w.
Proof.
  intros [_ C _ _ _ _ _ _ _ _ _ _ _ _] Hn Hv. specialize (C v). unfold mzcount, mzo in C. rewrite map_map in C.
  assert (1 <= sumZ (map (fun o => zc v (mw_oq w (og_node o))) (mn_origins M))).
  { apply in_map_iff in Hn as (o & <- & Ho). clear - Ho Hv. induction (mn_origins M) as [|a os IH]; [destruct Ho|]. cbn [map]. unfold sumZ in *. cbn [fold_right].
    assert (P : forall l : list morigin, 0 <= fold_right Z.add 0 (map (fun o => zc v (mw_oq w (og_node o))) l)) by (induction l as [|b l IHl]; cbn [map fold_right]; [lia|pose proof (zc_nonneg v (mw_oq w (og_node b))); lia]).
    pose proof (zc_nonneg v (mw_oq w (og_node a))). pose proof (P os). destruct Ho as [->|Ho]; [apply zc_In in Hv; lia|specialize (IH Ho); lia]. }
  pose proof (mzl_nonneg M w v). pose proof (mzd_nonneg M w v). pose proof (zc_nonneg v (map fst (mdone w))).
  destruct ((1 <=? v) && (v <=? f_num (mw_fac w))) eqn:E; [apply andb_true_iff in E as [_ E]; apply Z.leb_le in E; exact E|exfalso; unfold one_if in C; lia].
Qed.

(** ** one class *)
Definition half : Z := mn_rlen M / 2.
Definition column (t : Z) (k : bool) : Z := t / mn_rfreq M + (if k then half else 0).
Lemma class_portion_case t k w w' : 0 <= t -> 0 < mn_rfreq M -> 2 <= mn_rlen M -> class_portion M t k w = Ok w' ->
  w_veh w' = w_veh w /\ w_trk w' = w_trk w /\ w_oq w' = w_oq w /\ w_link w' = w_link w /\
  if t / mn_rfreq M <? half then Forall2 (copied (column t k)) (w_pt w) (w_pt w') else w_pt w' = w_pt w.
Proof.
  intros Ht Hf Hl H. unfold class_portion in H. destruct (Z.eqb_spec (mn_rfreq M) (-1)); [lia|]. destruct (Z.eqb_spec (mn_rlen M) (-1)); [lia|]. cbn [orb] in H.
  apply bind_ok in H as (u & _ & H). cbv zeta in H. rewrite !Z.quot_div_nonneg in H by lia. fold half in H. fold (column t k) in H.
  destruct (_ <? _); [apply bind_ok in H as (pt & Hp & H); apply change_copied in Hp|]; apply Ok_inj in H as <-; repeat split. exact Hp.
Qed.
Context (D : draws) (t : Z) (cls : Z -> bool).
Lemma class_routing_case k w w' : 0 <= t -> 0 < mn_rfreq M -> 2 <= mn_rlen M -> class_routing M D t cls k w = Ok w' ->
  (if t / mn_rfreq M <? half then Forall2 (copied (column t k)) (w_pt w) (w_pt w') else w_pt w' = w_pt w) /\ w_oq w' = w_oq w /\
  (forall v, cls v <> k -> w_veh w' v = w_veh w v /\ w_trk w' v = w_trk w v) /\
  (forall v, (forall o, In o (mn_origins M) -> ~ In v (w_oq w (og_node o))) -> w_trk w v = None -> w_trk w' v = None) /\
  (forall v, cls v = k -> v_adapt (w_veh w v) = false -> w_trk w v = None -> (exists o, In o (mn_origins M) /\ In v (w_oq w (og_node o))) ->
    chosen (w_pt w') (d_route D v) (v_org (w_veh w v)) (v_dst (w_veh w v)) (v_path (w_veh w' v)) /\ stat (w_veh w' v) = stat (w_veh w v)).
Proof.
  intros Ht Hf Hl H. pose proof (class_routing_r _ _ _ _ _ _ _ H) as [Rq Rs]. unfold class_routing in H. cbv zeta in H. apply bind_ok in H as (w1 & H1 & H). apply bind_ok in H as (w2 & H2 & H3).
  destruct (class_portion_case _ _ _ _ Ht Hf Hl H1) as (Ev & Et & Eo & El & Pt). set (N := seen_net M) in *. set (mine := fun v => Bool.eqb (cls v) k).
  change (foldM (fun w o => foldM (org_step N D mine) w (w_oq w (o_node o))) w1 (n_origins N) = Ok w2) in H2.
  change (foldM (fun w l => foldM (lnk_step N mine l) w (l_fin (w_link w l))) w2 (n_links N) = Ok w') in H3.
  pose proof (org_loops_pt _ _ _ _ _ _ H2) as P2. destruct (lnk_loops _ _ _ _ _ H3) as [P3 Pv].
  assert (PT : w_pt w' = w_pt w1) by congruence. split; [rewrite PT; exact Pt|]. split; [apply Rq|]. split; [|split].
  - intros v Hv. assert (Mv : mine v = false) by (unfold mine; destruct (Bool.eqb_spec (cls v) k); congruence).
    destruct (not_mine N D mine v Mv _ _ _ _ _ H2 H3) as [A B]. rewrite A, B, Ev, Et. auto.
  - intros v Hq Tv. rewrite <- Et in Tv. rewrite <- Eo in Hq.
    assert (T2 : w_trk w2 v = None).
    { assert (Q2 : w_oq w2 = w_oq w1 /\ (w_trk w1 v = None -> w_trk w2 v = None)); [|apply Q2, Tv].
      clear - H2 Hq. assert (Hq' : forall o, In o (n_origins N) -> ~ In v (w_oq w1 (o_node o))).
      { intros o Ho. cbn [N seen_net n_origins] in Ho. apply in_map_iff in Ho as (o' & <- & Ho'). cbn [o_node]. auto. }
      clear Hq. revert w1 Hq' H2. generalize (n_origins N). induction l as [|o os IH]; intros w1 Hq H2; cbn [foldM] in H2; [apply Ok_inj in H2 as <-; auto|].
      apply bind_ok in H2 as (x & Hx & H2).
      assert (X : w_oq x = w_oq w1 /\ (w_trk w1 v = None -> w_trk x v = None)).
      { assert (Nv : ~ In v (w_oq w1 (o_node o))) by (apply Hq; now left). revert Hx. generalize (w_oq w1 (o_node o)) Nv. clear. intros vs. revert w1. induction vs as [|u vs IH]; intros w1 Nv H; cbn [foldM] in H; [apply Ok_inj in H as <-; auto|].
        apply bind_ok in H as (y & Hy & H). destruct (IH y) as [A B]; [intros I; apply Nv; now right|exact H|].
        assert (Y : w_oq y = w_oq w1 /\ w_trk y v = w_trk w1 v).
        { unfold org_step in Hy. destruct (mine u); [|apply Ok_inj in Hy as <-; auto]. split; [apply (fixed_origin_q _ _ _ _ _ Hy)|]. apply (fixed_origin_frame N D _ _ _ v) in Hy; [apply Hy|]. intros ->. apply Nv; now left. }
        destruct Y as [Y1 Y2]. split; [congruence|]. intros T. apply B. congruence. }
      destruct X as [X1 X2]. destruct (IH x) as [A B]; [intros o' Ho'; rewrite X1; apply Hq; now right|exact H2|]. split; [congruence|auto]. }
    clear - H3 T2. revert T2. revert H3. apply (foldM_rel (fun a b => w_trk a v = None -> w_trk b v = None)); [auto|auto|]. intros s l s' _.
    apply (foldM_rel (fun a b => w_trk a v = None -> w_trk b v = None)); [auto|auto|]. intros a u b _ E T. unfold lnk_step in E. destruct (mine u); [|apply Ok_inj in E as <-; auto].
    destruct (Z.eq_dec u v) as [->|Ne]; [|apply (fixed_link_frame N _ _ _ _ v Ne) in E; destruct E; congruence].
    unfold fixed_link_veh in E. rewrite T in E. destruct (v_adapt _); [apply Ok_inj in E as <-; auto|]. destruct (_ =? _); discriminate.
  - intros v Hc Ad Tv (o & Ho & Iv). assert (Mv : mine v = true) by (unfold mine; rewrite Hc; apply eqb_reflx).
    destruct (org_loops N D mine v (w_pt w1) (w_veh w v) Ad Mv (n_origins N) (w_oq w1) w1 w2 eq_refl H2) as [_ L].
    destruct L as (S1 & S2 & S3 & S4).
    + unfold waiting. rewrite Ev, Et. auto.
    + exists {| o_node := og_node o; o_demand := []; o_ratio := fun _ => None |}. split; [cbn [N seen_net n_origins]; apply in_map_iff; eauto|]. cbn [o_node]. now rewrite Eo.
    + rewrite PT, Pv. split; [exact S4|]. apply (proj1 (Rs v)).
Qed.
End Choice.

(** the table holds the shares of column [col], whatever the current shares were *)
Definition at_column (pt0 : ptable) (col : Z) (pt : ptable) : Prop := exists pt1, plan pt1 = plan pt0 /\ Forall2 (copied col) pt1 pt.
Lemma at_picked pt0 col pt r o d p : (0 <= r <= 1)%Q -> at_column pt0 col pt -> chosen pt r o d p -> picked pt0 (flow_in col) o d r p.
Proof. intros Hr (pt1 & P & C) Ch. eapply chosen_picked; eauto. Qed.
Lemma at_plan pt0 col pt : at_column pt0 col pt -> plan pt = plan pt0.
Proof. intros (pt1 & P & C). rewrite <- P. eapply copied_plan; eauto. Qed.

Section Run4.
Context (M : mnet) (K : mnet_ok M) (rc rt : Q) (B : mn_routing M = MRBiclass rc rt) (Hf : 0 < mn_rfreq M) (Hl : 2 <= mn_rlen M).
Context (D : Z -> mdrawsI) (w0 : mworld).

Definition last_col (j : nat) : Z := Z.min ((Z.of_nat j - 1) / mn_rfreq M) (half M - 1) + half M.
Definition used_col (t : Z) (k : bool) : Z := if t / mn_rfreq M <? half M then column M t k else half M - 1 + half M.
Record chinv (j : nat) (w : mworld) : Prop := {
  ch_trk : forall v, mnum w < v -> mw_trk w v = None;
  ch_pt : if (j =? 0)%nat then mw_pt w = mw_pt w0 else at_column (mw_pt w0) (last_col j) (mw_pt w) }.
Lemma half_pos : 1 <= half M. Proof. unfold half. apply Z.div_le_lower_bound; lia. Qed.

Lemma choice_step j w w' a : chinv j w -> minv M w -> mdraws_valid (D (Z.of_nat j)) -> mload_once M (D (Z.of_nat j)) (Z.of_nat j) a w = Ok w' ->
  chinv (S j) w' /\
  forall v, mnum w < v <= mnum w' -> v_adapt (mw_veh w' v) = false ->
    picked (mw_pt w0) (flow_in (used_col (Z.of_nat j) (mw_cls w' v))) (v_org (mw_veh w' v)) (v_dst (mw_veh w' v))
           (d_route (r_base (D (Z.of_nat j))) v) (v_path (mw_veh w' v)).
Proof.
  intros [Ct Cp] I DV H. set (t := Z.of_nat j) in *. unfold mload_once in H. apply bind_ok in H as (w1 & H1 & H). apply bind_ok in H as (w2 & H2 & H).
  apply bind_ok in H as (w3 & H3 & H). apply bind_ok in H as (w4 & H4 & H5).
  destruct (release_all_minv M K _ _ _ _ _ DV H1 I) as [I1 G1]. pose proof (rkeep_all _ _ _ _ _ _ H1) as RK. pose proof RK as (_ & _ & _ & Rt & Rp).
  assert (Gn : mnum w <= mnum w1) by apply G1.
  (* after the routing nothing about routes changes *)
  set (R := fun a b : mworld => mw_pt b = mw_pt a /\ mnum b = mnum a /\ mw_cls b = mw_cls a /\ (forall v, mw_trk a v = None -> mw_trk b v = None) /\
              forall v, v_path (mw_veh b v) = v_path (mw_veh a v) /\ stat (mw_veh b v) = stat (mw_veh a v)).
  assert (Rr : forall a, R a a) by (repeat split; auto).
  assert (Rtr : forall a b c, R a b -> R b c -> R a c).
  { intros x y z (A1 & A2 & A3 & A4 & A5) (B1 & B2 & B3 & B4 & B5). repeat split; try congruence; auto; destruct (A5 v), (B5 v); congruence. }
  assert (R3 : R w2 w3).
  { revert H3. apply foldM_rel; auto. intros s nk s' Hin E. destruct (node_meff M K _ t s s' nk DV Hin E) as (e & lv & J). destruct J as [P _ _ _ _ _ _].
    pose proof (stat_plans _ _ P) as Sp. destruct P as (p1 & p2 & p3 & p4 & p5 & p6 & p7). unfold R, mnum. rewrite p3, p5. repeat split; auto. apply (p7 v). }
  assert (R4 : R w3 w4).
  { revert H4. apply foldM_rel; auto. intros s l s' _ E. unfold mlink_step in E. apply bind_ok in E as (x & _ & E). apply bind_ok in E as (y & _ & E). apply Ok_inj in E as <-. repeat split; auto. }
  assert (R5 : R w4 w').
  { revert H5. apply foldM_rel; auto. intros s n s' _ E. unfold mreceive in E. apply bind_ok in E as (x & E1 & E). apply Ok_inj in E as <-.
    apply (Rtr s x); [|repeat split; auto]. revert E1. apply foldM_rel; auto. intros p u q _ E. pose proof (mreceive_veh_eff _ _ _ _ _ _ E) as Ef.
    destruct Ef as [A1 A2 A3 A4 A5 Ac Al A6 A7 A8 A9 A10 A11 A12 A13 A15 A16]. unfold R, mnum. repeat split; auto.
    - intros v T. unfold mreceive_veh in E. apply bind_ok in E as (g & _ & E). cbv zeta in E. apply bind_ok in E as (q2 & Eq & E).
      assert (T2 : mw_trk q2 v = None).
      { assert (Tv : mw_trk (mset_vehs p (upd (mw_veh p) u (set_vfin t (mw_veh p u)))) v = None) by exact T.
        destruct (mn_routing M); try (apply Ok_inj in Eq as <-; exact Tv);
          (apply bind_ok in Eq as (g1 & _ & Eq); match type of Eq with context [mw_trk ?a u] => destruct (mw_trk a u) end;
           [apply bind_ok in Eq as (g2 & _ & Eq); apply Ok_inj in Eq as <-; cbn [mset_trk mw_trk]; destruct (Z.eq_dec v u) as [->|Ne]; [now rewrite upd_same|rewrite upd_other by exact Ne; exact Tv]
           |apply Ok_inj in Eq as <-; exact Tv]). }
      apply bind_ok in E as (? & _ & E). apply bind_ok in E as (? & _ & E). apply bind_ok in E as (? & _ & E). apply bind_ok in E as (? & _ & E). apply bind_ok in E as (? & _ & E).
      apply Ok_inj in E as <-. exact T2.
    - rewrite A13. destruct (memb v _); reflexivity.
    - rewrite A13. destruct (memb v _); reflexivity. }
  destruct (Rtr _ _ _ R3 (Rtr _ _ _ R4 R5)) as (S1 & S2 & S3 & S4 & S5). clear R3 R4 R5 H3 H4 H5 Rr Rtr R.
  (* the routing *)
  unfold mupdate_routing in H2. apply bind_ok in H2 as (x & Hx & H2). apply Ok_inj in H2 as <-. rewrite B in Hx.
  apply bind_ok in Hx as (x1 & Hx1 & Hx). apply bind_ok in Hx as (x2 & Hx2 & Hx3).
  assert (A1 : w_pt x1 = mw_pt w1 /\ w_trk x1 = mw_trk w1 /\ w_oq x1 = mw_oq w1 /\ (forall v, stat (w_veh x1 v) = stat (mw_veh w1 v))).
  { destruct (_ || _); [|apply Ok_inj in Hx1 as <-; repeat split]. destruct (adaptive_static _ _ _ _ Hx1) as (A & Bq & C & _). repeat split; auto. pose proof (adaptive_routing_r _ _ _ _ Hx1) as [Q _]. apply Q. }
  destruct A1 as (Ap & At & Ao & As).
  assert (Ht : 0 <= t) by (unfold t; lia).
  destruct (class_routing_case M _ _ _ false _ _ Ht Hf Hl Hx2) as (P2 & O2 & F2 & T2 & C2).
  destruct (class_routing_case M _ _ _ true _ _ Ht Hf Hl Hx3) as (P3 & O3 & F3 & T3 & C3).
  cbn [madopt mw_pt mw_trk mw_veh mw_cls mw_fac mnum] in S1, S2, S3, S4, S5.
  assert (En : mnum w' = mnum w1) by exact S2.
  assert (Qs : forall v, mnum w1 < v -> forall o, In o (mn_origins M) -> ~ In v (mw_oq w1 (og_node o))).
  { intros v Hv o Ho Iv. assert (v <= mnum w1) by (eapply old_queued; [exact I1|apply in_map; exact Ho|exact Iv]). lia. }
  assert (PlW : plan (mw_pt w1) = plan (mw_pt w0)).
  { rewrite Rp. destruct (j =? 0)%nat; [now rewrite Cp|eapply at_plan; eauto]. }
  pose proof half_pos as Hh.
  (* columns of the two halves *)
  assert (CA : if t / mn_rfreq M <? half M
               then at_column (mw_pt w0) (column M t false) (w_pt x2) /\ at_column (mw_pt w0) (column M t true) (w_pt x)
               else w_pt x2 = mw_pt w /\ w_pt x = mw_pt w).
  { destruct (_ <? _); [|split; congruence]. split; [exists (mw_pt w1); split; [exact PlW|now rewrite <- Ap]|]. exists (w_pt x2). split; [|exact P3].
    rewrite (copied_plan _ _ _ P2), Ap. exact PlW. }
  assert (Clast : t / mn_rfreq M <? half M = false -> (j <> 0)%nat /\ last_col j = half M - 1 + half M).
  { intros L. destruct j as [|j]; [unfold t in L; change (Z.of_nat 0) with 0 in L; rewrite Z.div_0_l in L by lia; lia|]. split; [lia|]. unfold last_col.
    assert (half M - 1 <= (Z.of_nat (S j) - 1) / mn_rfreq M); [|lia]. apply Z.div_le_lower_bound; [exact Hf|].
    apply Z.ltb_ge in L. assert (mn_rfreq M * half M <= t); [|unfold t in *; nia]. etransitivity; [apply Z.mul_le_mono_nonneg_l; [lia|exact L]|]. apply Z.mul_div_le. exact Hf. }
  assert (Used : forall k, at_column (mw_pt w0) (used_col t k) (w_pt (if k then x else x2))).
  { intros k. unfold used_col. destruct (t / mn_rfreq M <? half M) eqn:L; [destruct k; apply CA|]. destruct (Clast eq_refl) as [Nz E]. destruct CA as [E2 E3].
    destruct (Nat.eqb_spec j 0); [contradiction|]. rewrite E in Cp. destruct k; [rewrite E3|rewrite E2]; exact Cp. }
  split.
  - constructor.
    + intros v Hv. rewrite En in Hv. apply S4. apply T3; [rewrite O2, Ao; auto|]. apply T2; [rewrite Ao; auto|]. rewrite At, Rt. apply Ct. lia.
    + cbn [Nat.eqb]. rewrite S1. specialize (Used true). cbn iota in Used. replace (last_col (S j)) with (used_col t true); [exact Used|].
      unfold used_col, last_col, column. replace (Z.of_nat (S j) - 1) with t by (unfold t; lia). destruct (Z.ltb_spec (t / mn_rfreq M) (half M)); lia.
  - intros v Hv Ad. rewrite En in Hv. rewrite S3. destruct (S5 v) as [Sp Ss]. pose proof (new_waits M w w1 v I I1 RK Hv) as (o & Ho & Iv).
    assert (U : (0 <= d_route (r_base (D t)) v <= 1)%Q) by apply DV.
    assert (Tr1 : w_trk x1 v = None) by (rewrite At, Rt; apply Ct; lia).
    set (k := mw_cls w1 v) in *. rewrite Sp.
    assert (X : stat (w_veh x v) = stat (w_veh x1 v) /\ (v_adapt (w_veh x1 v) = false ->
                chosen (w_pt (if k then x else x2)) (d_route (r_base (D t)) v) (v_org (w_veh x1 v)) (v_dst (w_veh x1 v)) (v_path (w_veh x v)))).
    { pose proof (class_routing_r _ _ _ _ _ _ _ Hx2) as [_ Rs2]. pose proof (class_routing_r _ _ _ _ _ _ _ Hx3) as [_ Rs3]. destruct (Rs2 v) as [Rs2v _]. destruct (Rs3 v) as [Rs3v _].
      split; [congruence|]. intros Ax. unfold k. destruct (mw_cls w1 v) eqn:Ek.
      - destruct (F2 v ltac:(congruence)) as [Fv Ft]. destruct (C3 v Ek) as [Ch _]; [now rewrite Fv|now rewrite Ft|rewrite O2, Ao; eauto|]. rewrite Fv in Ch. exact Ch.
      - destruct (F3 v ltac:(congruence)) as [Fv Ft]. destruct (C2 v Ek) as [Ch _]; [exact Ax|exact Tr1|rewrite Ao; eauto|]. rewrite Fv. exact Ch. }
    destruct X as [Xs Xc]. assert (Es : stat (mw_veh w' v) = stat (w_veh x1 v)) by congruence. unfold stat in Es.
    injection Es as -> -> Ea _ _. eapply at_picked; [exact U|apply Used|]. apply Xc. congruence.
Qed.
End Run4.
