(** Two-class runs on valid input never fail: routing, releases, links, arrivals. *)
From Verif Require Import Base Base_lemmas Model_Num Proof_Num Spec_Path Proof_Path Model_CC Spec_CC Proof_CC Model_Path Model_Link Spec_Link Spec_Node
  Proof_Link Proof_Link3 Proof_Link4 Proof_Link5 Model_World Model_Node Proof_Node Proof_Node2 Proof_Node3 Proof_Node4 Model_Sim Spec_Sim Proof_Sim1 Proof_Sim2 Proof_Sim3 Proof_Sim4 Proof_Sim5 Proof_Sim6 Spec_Route Proof_Sim7
  Spec_Valid Proof_Safe2
  Model_McLink Spec_McLink Proof_McLink Proof_McLink3 Proof_McLink5 Proof_McLink6 Model_McNode Spec_McNode Proof_McNode Model_McSim Spec_McSim Proof_McSim1 Proof_McSim2 Proof_McRoute1 Proof_McRoute2 Spec_McValid.
Local Open Scope Z_scope.

(** ** links *)
Definition mgood (l : mlink) : Prop :=
  msane l /\ match ml_body l with MCtm _ _ => (0 <= mp_ut (ml_par l))%Q | MLq _ _ _ _ _ _ => False | MPq _ _ _ _ => (0 <= mpq_supply (ml_par l))%Q end.
Lemma mgood_same l l' : ml_body l' = ml_body l -> ml_par l' = ml_par l -> mgood l -> mgood l'.
Proof. unfold mgood, msane. intros -> ->. auto. Qed.
Lemma mgood_supply l : mgood l -> exists s, mlink_supply l = Ok s /\ (0 <= s)%Q.
Proof.
  unfold mgood, msane, mlink_supply. destruct (ml_body l) as [f cs|f qc qt vc vt sp|m pool vc vt]; intros [A B]; [|contradiction|eauto].
  destruct A as [A _]. destruct cs as [|c cs]; [congruence|]. cbn [mctm_supply]. eexists. split; [reflexivity|]. apply Qmult_le_0_compat; [|exact B]. apply Q.le_max_l.
Qed.
Lemma mgood_fresh p l : fresh_mlink p l -> mp_kind p <> MKLq -> (0 < mp_pcu p)%Q -> (0 < mp_ut p)%Q -> (0 <= mp_flow_c p)%Q -> mgood l.
Proof.
  intros E Hk Hp Hu Hf. split; [eapply msane_new; [exact E|intros C; rewrite C in Hp; apply (Qlt_irrefl 0), Hp]|]. unfold fresh_mlink in E. destruct (mp_kind p); [|congruence|].
  - destruct (make_mctm_inv _ _ E) as (p' & lens & Ad & -> & _). cbn [mnew ml_body ml_par].
    enough (X : mp_ut p' = mp_ut p) by (rewrite X; apply Qlt_le_weak, Hu). unfold mctm_adjust in Ad.
    repeat (match type of Ad with (do _ <- _; _) = _ => apply bind_ok in Ad as (? & _ & Ad) | (if ?b then _ else _) = _ => destruct b | (let _ := _ in _) = _ => cbv zeta in Ad end);
      apply Ok_inj in Ad as <-; reflexivity.
  - unfold make_mpq in E. apply bind_ok in E as ([] & B & E). apply bind_ok in E as (? & _ & E). apply bind_ok in E as (m & _ & E). apply Ok_inj in E as <-. cbn [mnew ml_body ml_par].
    unfold mbase_checks in B. apply bind_ok in B as (? & _ & B). apply bind_ok in B as (? & B & _). apply guard_ok in B. apply Z.leb_le in B. unfold mpq_supply.
    apply Qmult_le_0_compat; [apply Qmult_le_0_compat; [exact Hf|]|apply Qlt_le_weak, Hu]. change 0%Q with (inject_Z 0). now rewrite <- Zle_Qle.
Qed.
Lemma mline_in k cs v : In v (Proof_McLink.mline k cs) -> exists c, In c cs /\ In v (if k then mc_qt c else mc_qc c).
Proof. unfold Proof_McLink.mline. intros H. apply in_concat in H as (q & Hq & Hv). apply in_rev in Hq. apply in_map_iff in Hq as (c & <- & Hc). eauto. Qed.
Lemma of_class_in cls k l (v : Z) : In v (of_class cls k l) -> In v l.
Proof. unfold of_class. intros H. apply filter_In in H. apply H. Qed.
(** one update of a link whose vehicles know where to go next *)
Lemma link_good cls hn D l : mgood l -> mbody_inv cls (ml_body l) -> mdraws_ok D -> (forall v, In v (minall (ml_body l) ++ ml_in l) -> hn v = true) ->
  exists x y, mlink_clear cls l = Ok x /\ mlink_evolve cls hn D x = Ok y /\ mgood y /\ (is_point_queue l -> is_point_queue y) /\
    forall v, In v (minall (ml_body y) ++ ml_in y) -> In v (minall (ml_body l) ++ ml_in l).
Proof.
  intros [S G] B HD HN. set (l0 := with_body l (ml_in l) [] (ml_body l)).
  assert (S0 : msane l0) by exact S.
  assert (E0 : moffered l0 (ml_fin l) [] = l) by (unfold moffered, l0, with_body; cbn; rewrite app_nil_r; destruct l; reflexivity).
  destruct (mlink_total cls l0 (ml_fin l) [] hn D S0) as (x & y & Ex & Ey).
  { intros v k [Hv|[]]. apply HN. unfold on_mlink, l0 in Hv. cbn [with_body ml_fin ml_body ml_in app] in Hv. cbn [of_class filter app] in Hv.
    apply in_app_or in Hv as [Hv|Hv]; apply in_or_app; [left|right; eapply of_class_in; exact Hv].
    destruct (ml_body l) as [f cs|f qc qt vc vt sp|m pool vc vt]; cbn [minside minall] in *.
    - apply in_or_app. destruct k; [right|left]; exact Hv. - contradiction. - eapply of_class_in; exact Hv. }
  rewrite E0 in Ex. exists x, y. split; [exact Ex|]. split; [exact Ey|].
  assert (IV : minterval cls (with_body l (ml_in l) (ml_fin l) (ml_body l)) [] y).
  { exists (ml_fin l), hn, D, x. split; [apply subseq_refl|]. split; [exact HD|]. split; [|exact Ey]. unfold moffered, with_body. cbn. rewrite app_nil_r. rewrite <- Ex. f_equal. destruct l; reflexivity. }
  assert (Sy : msane y) by (eapply msane_step; [exact IV|exact S]).
  assert (FK : (exists z, ml_fin y = ml_fin l ++ z) /\ (is_point_queue l -> is_point_queue y) /\ mgood y).
  { unfold mgood. clear IV E0 S0. unfold mlink_clear in Ex. unfold is_point_queue in *. destruct (ml_body l) as [f cs|f qc qt vc vt sp|m pool vc vt].
    - apply bind_ok in Ex as (cs' & _ & Ex). apply Ok_inj in Ex as <-. unfold mlink_evolve in Ey. cbn [with_body ml_body ml_par ml_fin] in Ey. apply bind_ok in Ey as ([cs2 fin2] & Em & Ey). apply Ok_inj in Ey as <-.
      cbn [settle ml_body ml_par ml_fin fst snd with_body] in *. split; [|split; [intros (s & pool & a & b & C); discriminate|split; [exact Sy|exact G]]].
      destruct cs' as [|c tl]; [discriminate|]. destruct (mouts f (mp_ut (ml_par l)) (mp_fs (ml_par l)) D 0 (c :: tl)) as [os|e] eqn:Eo.
      + rewrite (mctm_evolve_eq _ _ _ _ _ _ _ _ _ Eo) in Em. cbv zeta in Em. destruct (forallb hn _); [|discriminate]. apply Ok_inj in Em. injection Em as _ <-. eauto.
      + unfold mctm_evolve in Em. rewrite Eo in Em. discriminate.
    - contradiction.
    - apply Ok_inj in Ex as <-. unfold mlink_evolve in Ey. cbn [with_body ml_body ml_par ml_fin] in Ey. apply Ok_inj in Ey as <-.
      cbn [settle ml_body ml_par ml_fin with_body] in *. split; [eauto|]. split; [eauto 6|]. split; [exact Sy|exact G]. }
  destruct FK as ((z & Fz) & PQ & Gy). split; [exact Gy|]. split; [exact PQ|]. intros v Hv.
  pose proof (mall_in cls l x D hn y B Ex Ey v) as C. unfold mall in C. rewrite Fz, !zc_app in C. apply zc_In in Hv. apply zc_In. rewrite zc_app in *. pose proof (zc_nonneg v z). lia.
Qed.

(** ** arrivals *)
Lemma mreceive_loop_total M t n : mn_routing M = MRFixed \/ mn_routing M = MRBiclass 0 0 -> forall vs w, NoDup vs ->
  (forall v, In v vs -> v_dst (mw_veh w v) = n /\ 0 <= v_start (mw_veh w v) < t /\ v_adapt (mw_veh w v) = false /\ In v (f_live (mw_fac w))) ->
  f_num (mw_fac w) = f_enroute (mw_fac w) + f_finished (mw_fac w) -> (forall k, cf_num (mw_cf w k) = cf_enroute (mw_cf w k) + cf_finished (mw_cf w k)) ->
  exists w', foldM (mreceive_veh M t n) w vs = Ok w'.
Proof.
  intros RF. assert (RX : forall (A : Type) (a b : A), match mn_routing M with MRAdaptive => a | _ => b end = b) by (destruct RF as [-> | ->]; reflexivity).
  induction vs as [|v vs IH]; intros w ND H B BC; cbn [foldM]; [eauto|]. apply NoDup_cons_iff in ND as [Nv ND].
  destruct (H v (or_introl eq_refl)) as (H1 & H2 & H3 & H4).
  assert (X : exists w', mreceive_veh M t n w v = Ok w').
  { unfold mreceive_veh. rewrite H1, Z.eqb_refl. cbn [guard bind]. cbv zeta. rewrite RX. cbn [v_fin v_start v_adapt set_vfin]. rewrite H3.
    replace ((0 <? t) && (v_start (mw_veh w v) <? t)) with true by (symmetry; apply andb_true_iff; split; apply Z.ltb_lt; lia).
    replace (v_start (mw_veh w v) <? t) with true by (symmetry; apply Z.ltb_lt; lia). cbn [guard bind negb mset_vehs mw_trk].
    assert (G : f_num (mw_fac w) =? f_finished (mw_fac w) + 1 + (f_enroute (mw_fac w) - 1) = true) by (apply Z.eqb_eq; lia).
    pose proof (BC false) as Bf. pose proof (BC true) as Bt.
    destruct (mw_trk w v); cbn [guard bind negb mset_vehs mset_trk mw_fac mw_cf mw_cls f_num f_finished f_enroute f_live]; rewrite (proj2 (memb_In _ _) H4); cbn [guard bind]; rewrite G; cbn [guard bind];
      unfold updb; destruct (mw_cls w v); cbn [Bool.eqb cf_num cf_finished cf_enroute];
      (rewrite (proj2 (Z.eqb_eq _ _)) by lia); cbn [guard bind]; (rewrite (proj2 (Z.eqb_eq _ _)) by lia); cbn [guard bind]; eauto. }
  destruct X as (w1 & E1). rewrite E1. cbn [bind]. assert (E2 : foldM (mreceive_veh M t n) w [v] = Ok w1) by (cbn [foldM]; rewrite E1; reflexivity).
  apply mreceive_loop_eff in E2. destruct E2 as [A1 A2 A3 A4 A5 Ac Al A6 A7 A8 A9 A10 A11 A12 A13 A15 A16].
  apply IH; [exact ND| | |].
  - intros u Hu. assert (Ne : u <> v) by (intros ->; contradiction). destruct (H u (or_intror Hu)) as (G1 & G2 & G3 & G4).
    assert (Mb : memb u [v] = false) by (apply memb_false; intros [C|[]]; congruence). rewrite A13, Mb. repeat (split; [assumption|]).
    apply zc_In. rewrite A12, Mb. apply zc_In in G4. exact G4.
  - rewrite A6, A8, A9. lia.
  - intros k. destruct (A16 k) as (C1 & C2 & C3 & _). rewrite C1, C2, C3. pose proof (BC k). lia.
Qed.
