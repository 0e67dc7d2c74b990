(** Whole two-class runs: steps, labels, shares. *)
From Verif Require Import Base Base_lemmas Model_Num Proof_Num Spec_Path Proof_Path Model_CC Model_Path Model_Link Spec_Link Spec_Node
  Proof_Link Proof_Link4 Model_World Model_Node Model_Sim Spec_Sim Spec_Route Spec_Choice Proof_Sim1 Proof_Sim3 Proof_Sim4 Proof_Sim7 Proof_Choice
  Model_McLink Spec_McLink Model_McNode Spec_McNode Model_McSim Spec_McSim Proof_McNode Proof_McSim1 Proof_McSim2 Proof_McSim3 Proof_McSim4.

Lemma mreached_valid M D j s : mreached M D j s -> forall t, mdraws_valid (D t).
Proof. intros (w0 & _ & DV & _). exact DV. Qed.
Lemma mstep M D j s s' : 0 < mn_freq M -> mreached M D j s -> mloop_body M D s = Ok s' ->
  mload_once M (D (Z.of_nat j)) (Z.of_nat j) (m_assign_at M j) (ms_w s) = Ok (ms_w s').
Proof.
  intros Hf R H. apply mloop_body_inv in H as (w & H & _ & -> & _). rewrite (mreached_cur _ _ _ _ R), (mreached_assign _ _ _ _ Hf R) in H. exact H.
Qed.
Lemma mrun_app M D j n s0 s s' : mrun M D j s0 = Ok s -> mrun M D n s = Ok s' -> mrun M D (n + j) s0 = Ok s'.
Proof.
  intros H. revert s'. induction n as [|n IH]; intros s' Hn; [apply Ok_inj in Hn as <-; exact H|]. apply mrun_S in Hn as (s1 & H1 & H2). cbn [Nat.add mrun].
  rewrite (IH _ H1). exact H2.
Qed.
Lemma mreached_more M D j n s s' : mreached M D j s -> mrun M D n s = Ok s' -> mreached M D (n + j) s'.
Proof. intros (w0 & F & DV & H) Hn. exists w0. split; [exact F|]. split; [exact DV|]. eapply mrun_app; eauto. Qed.
Lemma mkept M D : mnet_ok M -> forall n j s s', mreached M D j s -> mrun M D n s = Ok s' ->
  f_num (mw_fac (ms_w s)) <= f_num (mw_fac (ms_w s')) /\
  (forall v, v <= f_num (mw_fac (ms_w s)) -> stat (mw_veh (ms_w s') v) = stat (mw_veh (ms_w s) v) /\ mw_cls (ms_w s') v = mw_cls (ms_w s) v /\ mw_lab (ms_w s') v = mw_lab (ms_w s) v) /\
  exists more, mdone (ms_w s') = mdone (ms_w s) ++ more.
Proof.
  intros K. induction n as [|n IH]; intros j s s' R H; [apply Ok_inj in H as <-; split; [lia|]; split; [auto|]; exists []; now rewrite app_nil_r|].
  apply mrun_S in H as (s1 & H1 & H2). destruct (IH _ _ _ R H1) as (A & B & x & C). pose proof (mreached_more _ _ _ _ _ _ R H1) as R1.
  apply mloop_body_inv in H2 as (w & H2 & _ & -> & _). destruct (load_once_minv M K _ _ _ _ _ (mreached_valid _ _ _ _ R _) H2 (mreached_minv M K _ _ _ R1)) as [_ (G1 & G2 & _ & y & G4 & _)].
  split; [lia|]. split.
  - intros v Hv. destruct (B v Hv) as (a & b & c). destruct (G2 v ltac:(lia)) as (a' & b' & c'). repeat split; congruence.
  - exists (x ++ y). rewrite G4, C. now rewrite app_assoc.
Qed.
Lemma menr_record M D j s : mreached M D (S j) s -> exists pre, length pre = j /\ ms_enr s = pre ++ [f_enroute (mw_fac (ms_w s))].
Proof.
  intros (w0 & _ & _ & H). revert s H. induction j as [|j IH]; intros s H; apply mrun_S in H as (s1 & H1 & H2); apply mloop_body_inv in H2 as (w & _ & _ & -> & -> & _).
  - apply Ok_inj in H1 as <-. exists []. auto.
  - destruct (IH _ H1) as (pre & L & E). exists (ms_enr s1). split; [|reflexivity]. rewrite E, app_length, L. cbn [length]. lia.
Qed.

(** places of one class *)
Lemma arrived_class w k : m_arrived w k = of_class (mw_cls w) k (map fst (f_done (mw_fac w))).
Proof.
  unfold m_arrived, m_trips, of_class. induction (f_done (mw_fac w)) as [|d l IH]; [reflexivity|]. cbn [map filter]. destruct (Bool.eqb (mw_cls w (fst d)) k); cbn [map]; now rewrite IH.
Qed.
Lemma class_sum_len cls (l : list Z) : Zlen l = Zlen (of_class cls false l) + Zlen (of_class cls true l).
Proof.
  unfold of_class, Zlen. induction l as [|x l IH]; [reflexivity|]. cbn [filter]. destruct (cls x); cbn [Bool.eqb length]; lia.
Qed.
Lemma trips_sum_len cls (ds : list (Z * (Z * Z))) : Zlen ds = Zlen (filter (fun d => Bool.eqb (cls (fst d)) false) ds) + Zlen (filter (fun d => Bool.eqb (cls (fst d)) true) ds).
Proof. unfold Zlen. induction ds as [|x l IH]; [reflexivity|]. cbn [filter]. destruct (cls (fst x)); cbn [Bool.eqb length]; lia. Qed.
Lemma trips_sum_tt cls (ds : list (Z * (Z * Z))) : sumZ (map trip ds) = sumZ (map trip (filter (fun d => Bool.eqb (cls (fst d)) false) ds)) + sumZ (map trip (filter (fun d => Bool.eqb (cls (fst d)) true) ds)).
Proof. unfold sumZ. induction ds as [|x l IH]; [reflexivity|]. cbn [filter map fold_right]. destruct (cls (fst x)); cbn [Bool.eqb map fold_right]; lia. Qed.

(** labels *)
Lemma label_draw : forall ps i r, label_from i r ps = match draw ps r with Ok j => (i + Z.of_nat j)%Z | Err _ => -1 end.
Proof.
  induction ps as [|p ps IH]; intros i r; [reflexivity|]. cbn [label_from draw]. destruct (negb (approx_lt p r tol)); [cbn; lia|]. rewrite IH.
  destruct (draw ps (r - p)) as [j|e]; cbn [bind]; [rewrite Nat2Z.inj_succ; lia|reflexivity].
Qed.
Lemma label_in_slice ps r : (forall p, In p ps -> 0 <= p)%Q -> (0 <= r <= 1)%Q ->
  generate_label ps r = -1 \/ exists i, generate_label ps r = Z.of_nat i /\ in_slice ps r i.
Proof.
  intros Hp Hr. unfold generate_label. destruct (forallb _ ps); [now left|]. rewrite label_draw. destruct (draw ps r) as [j|e] eqn:E; [right|now left].
  exists j. split; [lia|now apply draw_slice].
Qed.
Lemma label_found ps r : (forall p, In p ps -> 0 <= p)%Q -> (sumQ ps == 1)%Q -> (0 <= r <= 1)%Q -> exists i, generate_label ps r = Z.of_nat i /\ in_slice ps r i.
Proof.
  intros Hp Hs Hr. destruct (label_in_slice ps r Hp Hr) as [E|X]; [|exact X]. exfalso. revert E. unfold generate_label.
  destruct (forallb (fun p => Qle_bool p 0) ps) eqn:F.
  - rewrite forallb_forall in F. assert (sumQ ps <= 0)%Q; [|lra]. clear - F. induction ps as [|p ps IH]; [cbn; lra|].
    assert (p <= 0)%Q by (apply Qle_bool_iff, F; now left). assert (sumQ ps <= 0)%Q by (apply IH; intros x Hx; apply F; now right). unfold sumQ in *. cbn [fold_right]. lra.
  - rewrite label_draw. assert (N : ps <> []) by (intros ->; cbn in Hs; lra). destruct (draw_ok ps r Hp N) as (i & Ei & _); [lra|lra|]. rewrite Ei. lia.
Qed.

(** shares *)
Lemma mratio_at_none o k a r ds d : (forall x, In x (map fst ds) -> og_ratio o k x = None) -> mratio_at o k a r ds d = r.
Proof.
  revert r. induction ds as [|[x dem] ds IH]; intros r H; simpl; [reflexivity|]. rewrite (H x) by (now left).
  destruct (x =? d); [reflexivity|]. apply IH. intros y Hy. apply H. now right.
Qed.
Lemma mratio_end_none o k a r ds : (forall x, In x (map fst ds) -> og_ratio o k x = None) -> mratio_end o k a r ds = r.
Proof.
  revert r. induction ds as [|[x dem] ds IH]; intros r H; simpl; [reflexivity|]. rewrite (H x) by (now left). apply IH. intros y Hy. apply H. now right.
Qed.
Lemma mratio_at_some o k a r ds d : In d (map fst ds) -> (forall x, In x (map fst ds) -> og_ratio o k x <> None) ->
  exists f, og_ratio o k d = Some f /\ mratio_at o k a r ds d = f a.
Proof.
  revert r. induction ds as [|[x dem] ds IH]; intros r I H; [destruct I|]. simpl.
  destruct (Z.eqb_spec x d) as [->|Ne].
  - destruct (og_ratio o k d) as [f|] eqn:E; [eauto|]. exfalso. apply (H d); [now left|exact E].
  - destruct I as [E|I]; [contradiction|]. apply IH; [exact I|]. intros y Hy. apply H. now right.
Qed.

(** route choice over a run *)
Section Run5.
Context (M : mnet) (K : mnet_ok M) (rc rt : Q) (B : mn_routing M = MRBiclass rc rt) (Hf : 0 < mn_rfreq M) (Hl : 2 <= mn_rlen M) (Hq : 0 < mn_freq M).
Context (D : Z -> mdrawsI) (w0 : mworld) (F : mfresh_world M w0) (DV : forall t, mdraws_valid (D t)).
Lemma choice_run j s : mrun M D j (minit M w0) = Ok s -> chinv M w0 j (ms_w s).
Proof.
  revert s. induction j as [|j IH]; intros s H.
  - apply Ok_inj in H as <-. constructor; [intros v _; apply F|reflexivity].
  - apply mrun_S in H as (s1 & H1 & H2). assert (R : mreached M D j s1) by (exists w0; auto). pose proof (mstep _ _ _ _ _ Hq R H2) as E.
    apply (choice_step M K rc rt B Hf Hl D w0 j (ms_w s1) (ms_w s) _ (IH _ H1) (mreached_minv M K _ _ _ R) (DV _) E).
Qed.
Lemma choice_new j s s' v : mrun M D j (minit M w0) = Ok s -> mrun M D (S j) (minit M w0) = Ok s' -> In v (m_new (ms_w s) (ms_w s')) -> v_adapt (mw_veh (ms_w s') v) = false ->
  picked (mw_pt w0) (flow_in (used_col M (Z.of_nat j) (mw_cls (ms_w s') v))) (v_org (mw_veh (ms_w s') v)) (v_dst (mw_veh (ms_w s') v))
           (d_route (r_base (D (Z.of_nat j))) v) (v_path (mw_veh (ms_w s') v)).
Proof.
  intros H H' Hv Ad. apply mrun_S in H' as (s1 & H1 & H2). rewrite H in H1. apply Ok_inj in H1 as <-. assert (R : mreached M D j s) by (exists w0; auto).
  pose proof (mstep _ _ _ _ _ Hq R H2) as E. apply m_new_In in Hv.
  destruct (choice_step M K rc rt B Hf Hl D w0 j (ms_w s) (ms_w s') _ (choice_run _ _ H) (mreached_minv M K _ _ _ R) (DV _) E) as [_ X]. now apply X.
Qed.
Lemma plan_run j s : mrun M D j (minit M w0) = Ok s -> plan (mw_pt (ms_w s)) = plan (mw_pt w0).
Proof. intros H. destruct (choice_run _ _ H) as [_ C]. destruct (j =? 0)%nat; [now rewrite C|eapply at_plan; eauto]. Qed.
End Run5.
