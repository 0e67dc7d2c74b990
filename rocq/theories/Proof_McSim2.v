(** Two-class runs: conservation and counters through a whole run. *)
From Verif Require Import Base Base_lemmas Model_Num Proof_Num Spec_Path Proof_Path Model_CC Spec_CC Proof_CC Model_Path Model_Link Spec_Link Spec_Node
  Proof_Link Proof_Link3 Proof_Link4 Proof_Link5 Model_World Model_Node Proof_Node Proof_Node3 Model_Sim Spec_Sim Proof_Sim1 Proof_Sim3 Proof_Sim4
  Model_McLink Spec_McLink Proof_McLink Model_McNode Spec_McNode Model_McSim Spec_McSim Proof_McSim1.
Local Open Scope Z_scope.

Definition mdone (w : mworld) : list (Z * (Z * Z)) := f_done (mw_fac w).
Record minv (M : mnet) (w : mworld) : Prop := {
  n_body : forall l, In l (mn_links M) -> mbody_inv (mw_cls w) (ml_body (mw_link w l));
  n_count : forall v, mzcount M w v + zc v (map fst (mdone w)) = one_if ((1 <=? v) && (v <=? f_num (mw_fac w)));
  n_live : forall v, zc v (f_live (mw_fac w)) = mzcount M w v;
  n_num : 0 <= f_num (mw_fac w);
  n_bal : forall k l c c', In l (mn_links M) -> mk_Nin (mw_cc w) k l = Some c -> mk_Nout (mw_cc w) k l = Some c' ->
    ((cum_total c - cum_total c') * mn_fs M == inject_Z (Zlen (on_mlink (mw_cls w) k (mw_link w l))))%Q;
  n_enr : f_num (mw_fac w) = f_enroute (mw_fac w) + f_finished (mw_fac w);
  n_fin : f_finished (mw_fac w) = Zlen (mdone w);
  n_tt : (f_tt (mw_fac w) == inject_Z (sumZ (map trip (mdone w))))%Q;
  n_gap : Forall (fun d => 1 <= trip d) (mdone w);
  n_cnum : forall k, cf_num (mw_cf w k) = Zlen (m_ids w k);
  n_cenr : forall k, cf_num (mw_cf w k) = cf_enroute (mw_cf w k) + cf_finished (mw_cf w k);
  n_cfin : forall k, cf_finished (mw_cf w k) = Zlen (m_trips w k);
  n_ctt : forall k, (cf_tt (mw_cf w k) == inject_Z (sumZ (map trip (m_trips w k))))%Q;
  n_start : Forall (fun d => fst (snd d) = v_start (mw_veh w (fst d))) (mdone w) }.

(** how a state grows: [t] is the interval in which new vehicles appear and trips end *)
Definition mgrow (t : Z) (w w' : mworld) : Prop :=
  f_num (mw_fac w) <= f_num (mw_fac w') /\
  (forall v, v <= f_num (mw_fac w) -> stat (mw_veh w' v) = stat (mw_veh w v) /\ mw_cls w' v = mw_cls w v /\ mw_lab w' v = mw_lab w v) /\
  (forall v, f_num (mw_fac w) < v <= f_num (mw_fac w') -> v_start (mw_veh w' v) = t) /\
  (exists more, mdone w' = mdone w ++ more /\ Forall (fun d => snd (snd d) = t) more).
Lemma mgrow_refl t w : mgrow t w w.
Proof. split; [lia|]. split; [auto|]. split; [intros; lia|]. exists []. rewrite app_nil_r. auto. Qed.
Lemma mgrow_trans t a b c : mgrow t a b -> mgrow t b c -> mgrow t a c.
Proof.
  intros (A1 & A2 & A3 & x & A4 & A5) (B1 & B2 & B3 & y & B4 & B5). split; [lia|]. split; [|split].
  - intros v Hv. destruct (A2 v Hv) as (p & q & r). destruct (B2 v ltac:(lia)) as (p' & q' & r'). repeat split; congruence.
  - intros v Hv. destruct (Z_le_gt_dec v (f_num (mw_fac b))) as [L|L]; [|apply B3; lia].
    rewrite (stat_start _ _ (proj1 (B2 v L))). apply A3. lia.
  - exists (x ++ y). rewrite B4, A4, app_assoc. split; [reflexivity|]. apply Forall_app. auto.
Qed.
Lemma mgrow_keep t w w' : mw_fac w' = mw_fac w -> mw_cls w' = mw_cls w -> mw_lab w' = mw_lab w ->
  (forall v, stat (mw_veh w' v) = stat (mw_veh w v)) -> mgrow t w w'.
Proof.
  intros E E1 E2 H. split; [rewrite E; lia|]. split; [intros v _; rewrite E1, E2; auto|]. split; [rewrite E; intros; lia|].
  exists []. unfold mdone. rewrite E, app_nil_r. auto.
Qed.

Lemma trips_ext w w' k : mdone w' = mdone w -> (forall v, In v (map fst (mdone w)) -> mw_cls w' v = mw_cls w v) -> m_trips w' k = m_trips w k.
Proof.
  unfold m_trips. intros E H. fold (mdone w) (mdone w'). rewrite E. apply filter_ext_in. intros d Hd. rewrite H; [reflexivity|]. now apply in_map.
Qed.
Lemma mids_ext w w' k : f_num (mw_fac w') = f_num (mw_fac w) -> mw_cls w' = mw_cls w -> m_ids w' k = m_ids w k.
Proof. unfold m_ids. now intros -> ->. Qed.
Lemma ids_next n : 0 <= n -> ids (n + 1) = ids n ++ [n + 1].
Proof.
  intros H. unfold ids. replace (Z.to_nat (n + 1)) with (S (Z.to_nat n)) by lia. rewrite seq_S, map_app. f_equal. cbn [map]. f_equal. lia.
Qed.
Lemma in_ids n v : 0 <= n -> In v (ids n) <-> 1 <= v <= n.
Proof.
  intros H. rewrite zc_In, ids_count by exact H. unfold one_if. destruct (Z.leb_spec 1 v), (Z.leb_spec v n); cbn [andb]; lia.
Qed.

(** a state whose counts, links, curves and counters agree *)
Lemma minv_same M w w' : mw_cls w' = mw_cls w -> mw_link w' = mw_link w -> mw_oq w' = mw_oq w -> mw_dq w' = mw_dq w -> mw_cc w' = mw_cc w ->
  mw_fac w' = mw_fac w -> mw_cf w' = mw_cf w -> (forall v, stat (mw_veh w' v) = stat (mw_veh w v)) -> minv M w -> minv M w'.
Proof.
  intros E1 E2 E3 E4 E5 E6 E7 E8 [H1 H2 H3 H4 H5 H6 H7 H8 H9 H10 H11 H12 H13 H14].
  assert (Z0 : forall v, mzcount M w' v = mzcount M w v) by (intros v; unfold mzcount, mzo, mzl, mzd; now rewrite E2, E3, E4).
  assert (ED : mdone w' = mdone w) by (unfold mdone; now rewrite E6).
  assert (ET : forall k, m_trips w' k = m_trips w k) by (intros k; apply trips_ext; [exact ED|now rewrite E1]).
  assert (EI : forall k, m_ids w' k = m_ids w k) by (intros k; apply mids_ext; [now rewrite E6|exact E1]).
  constructor; rewrite ?E1, ?E2, ?E5, ?E6, ?E7, ?ED; auto.
  - intros v. rewrite Z0. apply H2.
  - intros v. rewrite Z0. apply H3.
  - intros k. rewrite EI. apply H10.
  - intros k. rewrite ET. apply H12.
  - intros k. rewrite ET. apply H13.
  - eapply Forall_impl; [|exact H14]. intros d E. rewrite E. symmetry. apply stat_start, E8.
Qed.

Section Run.
Context (M : mnet) (K : mnet_ok M).

Lemma mzcount_oq w w' o v x : In o (map og_node (mn_origins M)) -> mw_link w' = mw_link w -> mw_dq w' = mw_dq w ->
  (forall n, n <> o -> mw_oq w' n = mw_oq w n) -> zc v (mw_oq w' o) = zc v (mw_oq w o) + x -> mzcount M w' v = mzcount M w v + x.
Proof.
  intros Ho A B C E. unfold mzcount, mzl, mzd. rewrite A, B. enough (mzo M w' v - mzo M w v = x) by lia.
  unfold mzo. rewrite <- sumZ_map_minus, (sumZ_support1 _ _ o (mno_origins M K) Ho); [lia|]. intros n _ Hn. rewrite C by exact Hn. lia.
Qed.
Lemma mcount_pos w v : 0 <= mzcount M w v.
Proof. pose proof (mzo_nonneg M w v). pose proof (mzl_nonneg M w v). pose proof (mzd_nonneg M w v). unfold mzcount. lia. Qed.
(** the next ID is nowhere *)
Lemma fresh_id w v : minv M w -> ~ (1 <= v <= f_num (mw_fac w)) ->
  (forall l, In l (mn_links M) -> ~ In v (mall (mw_link w l))) /\ ~ In v (map fst (mdone w)).
Proof.
  intros I Hv. pose proof (n_count M w I v) as C. pose proof (mcount_pos w v) as P. pose proof (zc_nonneg v (map fst (mdone w))) as P'.
  assert (Z0 : mzcount M w v = 0 /\ zc v (map fst (mdone w)) = 0).
  { unfold one_if in C. destruct (Z.leb_spec 1 v), (Z.leb_spec v (f_num (mw_fac w))); cbn [andb] in C; lia. }
  destruct Z0 as [Z1 Z2]. split; [|rewrite zc_In; lia].
  intros l Hl. rewrite zc_In. pose proof (mzl_ge M w v l Hl). pose proof (mzo_nonneg M w v). pose proof (mzd_nonneg M w v). unfold mzcount in Z1. lia.
Qed.

Lemma release_one_minv start ad k o d a lab w w1 w2 : In o (map og_node (mn_origins M)) -> minv M w ->
  w1 = mmake_veh w start ad k o d a lab -> w2 = mset_oq w1 o (mw_oq w1 o ++ [f_num (mw_fac w) + 1]) -> minv M w2 /\ mgrow start w w2.
Proof.
  intros Ho I -> ->. set (id := f_num (mw_fac w) + 1). set (w2 := mset_oq _ o _).
  destruct (fresh_id w id I ltac:(subst id; lia)) as [FL FD]. destruct I as [H1 H2 H3 H4 H5 H6 H7 H8 H9 H10 H11 H12 H13 H14].
  assert (Z0 : forall v, mzcount M w2 v = mzcount M w v + one_if (v =? id)).
  { intros v. eapply mzcount_oq; eauto.
    - intros n Hn. unfold w2. cbn [mset_oq mw_oq]. now rewrite upd_other.
    - unfold w2. cbn [mset_oq mw_oq]. rewrite upd_same, zc_app, zc_one. reflexivity. }
  assert (EC : forall v, v <> id -> mw_cls w2 v = mw_cls w v) by (intros v Hv; unfold w2; cbn [mset_oq mmake_veh mw_cls]; now rewrite upd_other).
  assert (EI : mw_cls w2 id = k) by (unfold w2; cbn [mset_oq mmake_veh mw_cls]; apply upd_same).
  assert (EL : mw_link w2 = mw_link w) by reflexivity. assert (EK : mw_cc w2 = mw_cc w) by reflexivity.
  assert (EN : f_num (mw_fac w2) = id) by reflexivity. assert (ED : mdone w2 = mdone w) by reflexivity.
  assert (ET : forall k', m_trips w2 k' = m_trips w k').
  { intros k'. apply trips_ext; [exact ED|]. intros v Hv. apply EC. intros ->. contradiction. }
  assert (EJ : forall k', m_ids w2 k' = m_ids w k' ++ if Bool.eqb k k' then [id] else []).
  { intros k'. unfold m_ids. rewrite EN. replace (ids id) with (ids (f_num (mw_fac w)) ++ [id]) by (symmetry; apply ids_next; exact H4). rewrite of_class_app. f_equal.
    - apply of_class_ext. intros v Hv. apply in_ids in Hv; [|exact H4]. apply EC. subst id. lia.
    - unfold of_class. cbn [filter]. rewrite EI. destruct (Bool.eqb k k'); reflexivity. }
  assert (ECF : forall k', mw_cf w2 k' = if Bool.eqb k' k then {| cf_num := cf_num (mw_cf w k) + 1; cf_enroute := cf_enroute (mw_cf w k) + 1; cf_finished := cf_finished (mw_cf w k); cf_tt := cf_tt (mw_cf w k) |} else mw_cf w k') by reflexivity.
  assert (EV : forall v, v <> id -> mw_veh w2 v = mw_veh w v) by (intros v Hv; unfold w2; cbn [mset_oq mmake_veh mw_veh]; now rewrite upd_other).
  assert (INV : minv M w2).
  { constructor.
    - intros l Hl. rewrite EL. apply (mbody_inv_ext (mw_cls w)); [|auto]. intros v Hv. apply EC. intros ->. apply (FL l Hl). unfold mall. apply in_or_app. right. apply in_or_app. now left.
    - intros v. rewrite Z0, ED, EN. specialize (H2 v). subst id.
      destruct (Z.eqb_spec v (f_num (mw_fac w) + 1)), (Z.leb_spec 1 v), (Z.leb_spec v (f_num (mw_fac w))), (Z.leb_spec v (f_num (mw_fac w) + 1)); cbn [andb one_if] in *; lia.
    - intros v. rewrite Z0, <- H3. unfold w2. cbn [mset_oq mmake_veh mw_fac f_live]. rewrite zc_app, zc_one. reflexivity.
    - rewrite EN. subst id. lia.
    - intros k' l c c' Hl. rewrite EK, EL. intros E E'. rewrite (on_mlink_ext (mw_cls w)); [now apply H5|]. intros v Hv. apply EC. intros ->. exact (FL l Hl Hv).
    - unfold w2. cbn [mset_oq mmake_veh mw_fac f_num f_enroute f_finished]. lia.
    - exact H7.
    - exact H8.
    - exact H9.
    - intros k'. rewrite ECF, EJ, Zlen_app. destruct k, k'; cbn [Bool.eqb cf_num]; rewrite ?H10; unfold Zlen; cbn [length]; lia.
    - intros k'. rewrite ECF. destruct (Bool.eqb_spec k' k) as [->|]; cbn [cf_num cf_enroute cf_finished]; [specialize (H11 k); lia|apply H11].
    - intros k'. rewrite ECF, ET. destruct (Bool.eqb_spec k' k) as [->|]; cbn [cf_finished]; apply H12.
    - intros k'. rewrite ECF, ET. destruct (Bool.eqb_spec k' k) as [->|]; cbn [cf_tt]; apply H13.
    - rewrite ED. rewrite Forall_forall in *. intros x Hx. rewrite (H14 x Hx). rewrite EV; [reflexivity|]. intros E. apply FD. rewrite <- E. now apply in_map. }
  split; [exact INV|]. split; [rewrite EN; subst id; lia|]. split; [|split].
  - intros v Hv. assert (Ne : v <> id) by (subst id; lia). rewrite EV, EC by exact Ne. repeat split. unfold w2. cbn [mset_oq mmake_veh mw_lab]. now rewrite upd_other.
  - intros v Hv. rewrite EN in Hv. replace v with id by (subst id; lia). unfold w2. cbn [mset_oq mmake_veh mw_veh]. fold id. now rewrite upd_same.
  - exists []. rewrite ED, app_nil_r. auto.
Qed.

Lemma release_n_minv D cur assign o k d ratio : In (og_node o) (map og_node (mn_origins M)) ->
  forall j w, minv M w -> minv M (mrelease_n j D cur assign o k d ratio w) /\ mgrow cur w (mrelease_n j D cur assign o k d ratio w).
Proof.
  intros Ho. induction j as [|j IH]; intros w I; [split; [exact I|apply mgrow_refl]|]. simpl.
  destruct (release_one_minv cur (pick_adaptive ratio (d_adapt (r_base D) (f_num (mw_fac w) + 1))) k (og_node o) d assign
              (generate_label (og_labels o k) (r_label D (f_num (mw_fac w) + 1))) w _ _ Ho I eq_refl eq_refl) as [I1 G1].
  destruct (IH _ I1) as [I2 G2]. split; [exact I2|]. eapply mgrow_trans; eauto.
Qed.
Lemma release_dests_minv D cur assign o k : In (og_node o) (map og_node (mn_origins M)) ->
  forall ds ratio w w' x, mrelease_dests M D cur assign o k ratio ds w = (w', x) -> minv M w -> minv M w' /\ mgrow cur w w'.
Proof.
  intros Ho. induction ds as [|[d dem] ds IH]; intros ratio w w' x E I; simpl in E.
  - injection E as <- _. split; [exact I|apply mgrow_refl].
  - match type of E with mrelease_dests _ _ _ _ _ _ ?r _ (mrelease_n ?j _ _ ?a _ _ _ _ _) = _ => destruct (release_n_minv D cur a o k d r Ho j w I) as [I1 G1] end.
    destruct (IH _ _ _ _ E I1) as [I2 G2]. split; [exact I2|]. eapply mgrow_trans; eauto.
Qed.
Lemma shuffle_minv t w o l : In o (map og_node (mn_origins M)) -> Permutation l (mw_oq w o) -> minv M w -> minv M (mset_oq w o l) /\ mgrow t w (mset_oq w o l).
Proof.
  intros Ho P [H1 H2 H3 H4 H5 H6 H7 H8 H9 H10 H11 H12 H13 H14]. split; [|now apply mgrow_keep].
  assert (Z0 : forall v, mzcount M (mset_oq w o l) v = mzcount M w v).
  { intros v. rewrite <- (Z.add_0_r (mzcount M w v)). eapply mzcount_oq; eauto.
    - intros n Hn. cbn [mset_oq mw_oq]. now rewrite upd_other.
    - cbn [mset_oq mw_oq]. rewrite upd_same, (zc_perm v _ _ P). lia. }
  constructor; auto; intros v; rewrite Z0; apply H2 || apply H3.
Qed.
Lemma release_one_origin D cur asg w o : mdraws_valid D -> In o (mn_origins M) -> minv M w -> minv M (mrelease_one M D cur asg w o) /\ mgrow cur w (mrelease_one M D cur asg w o).
Proof.
  intros ((_ & _ & Hs & _) & _) Ho I. assert (Ho' : In (og_node o) (map og_node (mn_origins M))) by now apply in_map.
  unfold mrelease_one. destruct (asg <? 0); [split; [exact I|apply mgrow_refl]|].
  destruct (mrelease_dests M D cur asg o false _ _ w) as [w1 x] eqn:E1. destruct (release_dests_minv D cur asg o false Ho' _ _ _ _ _ E1 I) as [I1 G1].
  destruct (mrelease_dests M D cur asg o true _ _ w1) as [w2 y] eqn:E2. destruct (release_dests_minv D cur asg o true Ho' _ _ _ _ _ E2 I1) as [I2 G2].
  destruct (shuffle_minv cur w2 (og_node o) (d_oshuf (r_base D) (og_node o) (mw_oq w2 (og_node o))) Ho' (Hs _ _) I2) as [I3 G3].
  split; [exact I3|]. eapply mgrow_trans; [exact G1|]. eapply mgrow_trans; eauto.
Qed.
Lemma release_all_minv D cur assign w w' : mdraws_valid D -> mrelease_all M D cur assign w = Ok w' -> minv M w -> minv M w' /\ mgrow cur w w'.
Proof.
  intros DV H I. unfold mrelease_all in H. apply bind_ok in H as (u & _ & H).
  destruct (_ =? 0); apply Ok_inj in H as <-; [|split; [exact I|apply mgrow_refl]].
  set (asg := if mn_total_assign M <=? assign then -1 else assign). clearbody asg.
  assert (X : forall os w, (forall o, In o os -> In o (mn_origins M)) -> minv M w -> minv M (fold_left (mrelease_one M D cur asg) os w) /\ mgrow cur w (fold_left (mrelease_one M D cur asg) os w)).
  { induction os as [|o os IH]; intros w0 So I0; [split; [exact I0|apply mgrow_refl]|]. simpl.
    destruct (release_one_origin D cur asg w0 o DV (So o (or_introl eq_refl)) I0) as [I1 G1].
    destruct (IH _ (fun o H => So o (or_intror H)) I1) as [I2 G2]. split; [exact I2|]. eapply mgrow_trans; eauto. }
  apply X; auto.
Qed.

(** ** routing *)
Lemma class_portion_r t k w w' : class_portion M t k w = Ok w' -> rrel w w'.
Proof.
  unfold class_portion. destruct (_ || _); [intros H; apply Ok_inj in H as <-; apply rrel_refl|].
  intros H. apply bind_ok in H as (u & _ & H). destruct (_ <? _); [|apply Ok_inj in H as <-; apply rrel_refl].
  apply bind_ok in H as (pt & _ & H). apply Ok_inj in H as <-. repeat split.
Qed.
Lemma class_routing_r D t cls k w w' : class_routing M D t cls k w = Ok w' -> rrel w w'.
Proof.
  unfold class_routing. intros H. apply bind_ok in H as (w1 & H1 & H). apply bind_ok in H as (w2 & H2 & H3).
  eapply rrel_trans; [eapply class_portion_r; eauto|]. eapply rrel_trans.
  - eapply foldM_rel; [apply rrel_refl|apply rrel_trans| |exact H2]. intros s o s' _ E.
    eapply foldM_rel; [apply rrel_refl|apply rrel_trans| |exact E]. intros x v y _ G. cbv beta in G. destruct (Bool.eqb (cls v) k); [eapply fixed_origin_r; eauto|apply Ok_inj in G as <-; apply rrel_refl].
  - eapply foldM_rel; [apply rrel_refl|apply rrel_trans| |exact H3]. intros s o s' _ E.
    eapply foldM_rel; [apply rrel_refl|apply rrel_trans| |exact E]. intros x v y _ G. cbv beta in G. destruct (Bool.eqb (cls v) k); [eapply fixed_link_r; eauto|apply Ok_inj in G as <-; apply rrel_refl].
Qed.
Lemma routing_view D t w w' : mupdate_routing M D t w = Ok w' -> exists x, rrel (mview w) x /\ w' = madopt w x.
Proof.
  unfold mupdate_routing. intros H. apply bind_ok in H as (x & Hx & H). apply Ok_inj in H as <-. exists x. split; [|reflexivity].
  destruct (mn_routing M) as [| |a|a b]; try (eapply update_routing_r; eassumption).
  apply bind_ok in Hx as (x1 & H1 & Hx). apply bind_ok in Hx as (x2 & H2 & Hx).
  eapply rrel_trans; [|eapply rrel_trans; [eapply class_routing_r; exact H2|eapply class_routing_r; exact Hx]].
  destruct (_ || _); [eapply adaptive_routing_r; eauto|apply Ok_inj in H1 as <-; apply rrel_refl].
Qed.
Lemma routing_stat D t w w' : mupdate_routing M D t w = Ok w' ->
  mw_cls w' = mw_cls w /\ mw_lab w' = mw_lab w /\ mw_link w' = mw_link w /\ mw_oq w' = mw_oq w /\ mw_dq w' = mw_dq w /\ mw_cc w' = mw_cc w /\
  mw_fac w' = mw_fac w /\ mw_cf w' = mw_cf w /\ (forall v, stat (mw_veh w' v) = stat (mw_veh w v)).
Proof.
  intros H. destruct (routing_view _ _ _ _ H) as (x & [_ Rs] & ->). repeat split. intros v. apply (proj1 (Rs v)).
Qed.
Lemma routing_minv D t w w' : mupdate_routing M D t w = Ok w' -> minv M w -> minv M w' /\ mgrow t w w'.
Proof.
  intros H I. destruct (routing_stat _ _ _ _ H) as (A & B & C & E & F & G & J & L & S). split; [eapply minv_same; eauto|now apply mgrow_keep].
Qed.

(** ** nodes *)
Lemma stat_plans w w' : same_plans w w' -> forall v, stat (mw_veh w' v) = stat (mw_veh w v).
Proof. intros (_ & _ & _ & _ & _ & _ & P) v. destruct (P v) as (a & b & c & d & _ & e & _). unfold stat. congruence. Qed.
Lemma of_class_perm cls k l l' : Permutation l l' -> Zlen (of_class cls k l) = Zlen (of_class cls k l').
Proof.
  intros P. unfold Zlen. f_equal. apply Permutation_length. unfold of_class. clear -P.
  induction P; cbn [filter]; auto; [destruct (Bool.eqb _ _); auto|destruct (Bool.eqb (cls x) k), (Bool.eqb (cls y) k); auto; apply perm_swap|eapply Permutation_trans; eauto].
Qed.
Lemma meff_minv t w w' e lv : meff M w w' e lv -> minv M w -> minv M w' /\ mgrow t w w'.
Proof.
  intros J I. destruct J as [P1 P2 P3 P4 P5 P6 P7]. pose proof P1 as (E1 & E2 & E3 & E4 & _). pose proof (stat_plans _ _ P1) as S.
  split; [|now apply mgrow_keep]. destruct I as [H1 H2 H3 H4 H5 H6 H7 H8 H9 H10 H11 H12 H13 H14].
  assert (ED : mdone w' = mdone w) by (unfold mdone; now rewrite E3).
  assert (ET : forall k, m_trips w' k = m_trips w k) by (intros k; apply trips_ext; [exact ED|now rewrite E1]).
  assert (EI : forall k, m_ids w' k = m_ids w k) by (intros k; apply mids_ext; [now rewrite E3|exact E1]).
  constructor; rewrite ?E1, ?E3, ?E4, ?ED; auto.
  - intros l Hl. destruct (P2 l) as [-> _]. auto.
  - intros v. rewrite P7. apply H2.
  - intros v. rewrite P7. apply H3.
  - intros k l c c' Hl Ec Ec'. pose proof (P5 k l) as B. pose proof (P6 k l) as B'. rewrite Ec in B. rewrite Ec' in B'.
    destruct (mk_Nin (mw_cc w) k l) as [c0|] eqn:X0; [|contradiction]. destruct (mk_Nout (mw_cc w) k l) as [c1|] eqn:X1; [|contradiction].
    cbn [cadds] in B, B'. specialize (H5 k l c0 c1 Hl X0 X1). unfold on_mlink in *. destruct (P2 l) as [-> _]. rewrite P3. rewrite of_class_app, !Zlen_app in *.
    pose proof (of_class_perm (mw_cls w) k _ _ (P4 l)) as PP. rewrite of_class_app, Zlen_app in PP. rewrite PP in H5. unfold class_count in *.
    replace (Zlen (of_class (mw_cls w) k (ml_fin (mw_link w' l))) + (Zlen (minside (mw_cls w) k (ml_body (mw_link w l))) + (Zlen (of_class (mw_cls w) k (ml_in (mw_link w l))) + Zlen (of_class (mw_cls w) k (e l)))))
      with ((Zlen (of_class (mw_cls w) k (lv l)) + Zlen (of_class (mw_cls w) k (ml_fin (mw_link w' l))) + (Zlen (minside (mw_cls w) k (ml_body (mw_link w l))) + Zlen (of_class (mw_cls w) k (ml_in (mw_link w l))))) + Zlen (of_class (mw_cls w) k (e l)) - Zlen (of_class (mw_cls w) k (lv l))) by lia.
    unfold Z.sub. rewrite inject_Z_plus, inject_Z_plus, inject_Z_opp, <- H5, B, B'. pose proof (mno_fs M K). field. lra.
  - intros k. rewrite EI. apply H10.
  - intros k. rewrite ET. apply H12.
  - intros k. rewrite ET. apply H13.
  - eapply Forall_impl; [|exact H14]. intros d E. rewrite E. symmetry. apply stat_start, S.
Qed.

(** an invariant and a growing relation through a loop *)
Lemma foldM_both {A} (f : mworld -> A -> res mworld) t l w w' :
  (forall a s s', In a l -> f s a = Ok s' -> minv M s -> minv M s' /\ mgrow t s s') -> foldM f w l = Ok w' -> minv M w -> minv M w' /\ mgrow t w w'.
Proof.
  intros Hf. revert w. induction l as [|a l IH]; intros w H I; simpl in H; [apply Ok_inj in H as <-; split; [exact I|apply mgrow_refl]|].
  apply bind_ok in H as (w1 & H1 & H2). destruct (Hf a w w1 (or_introl eq_refl) H1 I) as [I1 G1].
  destruct (IH (fun a s s' Ha => Hf a s s' (or_intror Ha)) w1 H2 I1) as [I2 G2]. split; [exact I2|eapply mgrow_trans; eauto].
Qed.

(** ** links *)
Lemma link_step_minv D t w l w' : In l (mn_links M) -> mlink_step D w l = Ok w' -> minv M w -> minv M w' /\ mgrow t w w'.
Proof.
  intros Hl H [H1 H2 H3 H4 H5 H6 H7 H8 H9 H10 H11 H12 H13 H14]. unfold mlink_step in H. apply bind_ok in H as (x & Hx & H). apply bind_ok in H as (y & Hy & H).
  apply Ok_inj in H as <-. split; [|now apply mgrow_keep].
  assert (Bx : mbody_inv (mw_cls w) (ml_body x)) by (apply (mlink_clear_line _ _ _ false Hx (H1 l Hl))).
  assert (By : mbody_inv (mw_cls w) (ml_body y)) by (apply (mlink_evolve_line _ _ _ _ _ false Hy Bx)).
  assert (Ey : forall k, on_mlink (mw_cls w) k y = on_mlink (mw_cls w) k (mw_link w l)).
  { intros k. destruct (mlink_clear_line _ _ _ k Hx (H1 l Hl)) as (_ & E1 & _). destruct (mlink_evolve_line _ _ _ _ _ k Hy Bx) as (_ & E2 & _). congruence. }
  assert (OL : forall k l', on_mlink (mw_cls w) k (mw_link (mset_link w l y) l') = on_mlink (mw_cls w) k (mw_link w l')).
  { intros k l'. cbn [mset_link mw_link]. destruct (Z.eq_dec l' l) as [->|Ne]; [rewrite upd_same; apply Ey|now rewrite upd_other]. }
  assert (BI : forall l', In l' (mn_links M) -> mbody_inv (mw_cls w) (ml_body (mw_link (mset_link w l y) l'))).
  { intros l' Hl'. cbn [mset_link mw_link]. destruct (Z.eq_dec l' l) as [->|Ne]; [now rewrite upd_same|rewrite upd_other by exact Ne; auto]. }
  assert (Z0 : forall v, mzcount M (mset_link w l y) v = mzcount M w v).
  { intros v. unfold mzcount, mzo, mzl, mzd. f_equal. f_equal. apply sumZ_map_ext. intros l' Hl'.
    rewrite (mall_split _ _ v (BI l' Hl')), (mall_split _ _ v (H1 l' Hl')). now rewrite !OL. }
  constructor; auto.
  - intros v. rewrite Z0. apply H2.
  - intros v. rewrite Z0. apply H3.
  - intros k l' c c' Hl' Ec Ec'. specialize (H5 k l' c c' Hl' Ec Ec'). change (mw_cls (mset_link w l y)) with (mw_cls w). rewrite OL. exact H5.
Qed.

(** ** arrivals *)
Definition ctrips (cls : Z -> bool) (k : bool) (ds : list (Z * (Z * Z))) : list (Z * (Z * Z)) := filter (fun d => Bool.eqb (cls (fst d)) k) ds.
Record mreff (t n : Z) (vs : list Z) (w w' : mworld) : Prop := {
  mre_link : mw_link w' = mw_link w; mre_oq : mw_oq w' = mw_oq w; mre_dq : mw_dq w' = mw_dq w; mre_cc : mw_cc w' = mw_cc w; mre_pt : mw_pt w' = mw_pt w;
  mre_cls : mw_cls w' = mw_cls w; mre_lab : mw_lab w' = mw_lab w;
  mre_num : f_num (mw_fac w') = f_num (mw_fac w);
  mre_done : mdone w' = mdone w ++ map (fun v => (v, (v_start (mw_veh w v), t))) vs;
  mre_enr : f_enroute (mw_fac w') = f_enroute (mw_fac w) - Zlen vs;
  mre_fin : f_finished (mw_fac w') = f_finished (mw_fac w) + Zlen vs;
  mre_tt : (f_tt (mw_fac w') == f_tt (mw_fac w) + inject_Z (sumZ (map (fun v => t - v_start (mw_veh w v))%Z vs)))%Q;
  mre_start : Forall (fun v => v_start (mw_veh w v) < t /\ v_dst (mw_veh w v) = n) vs;
  mre_live : forall v, zc v (f_live (mw_fac w')) = if memb v vs then 0 else zc v (f_live (mw_fac w));
  mre_veh : forall v, mw_veh w' v = if memb v vs then set_vfin t (mw_veh w v) else mw_veh w v;
  mre_in : forall v, In v vs -> In v (f_live (mw_fac w));
  mre_cf : forall k, cf_num (mw_cf w' k) = cf_num (mw_cf w k) /\
    cf_enroute (mw_cf w' k) = cf_enroute (mw_cf w k) - Zlen (of_class (mw_cls w) k vs) /\
    cf_finished (mw_cf w' k) = cf_finished (mw_cf w k) + Zlen (of_class (mw_cls w) k vs) /\
    (cf_tt (mw_cf w' k) == cf_tt (mw_cf w k) + inject_Z (sumZ (map (fun v => t - v_start (mw_veh w v))%Z (of_class (mw_cls w) k vs))))%Q }.

Lemma mreceive_veh_eff t n w v w' : mreceive_veh M t n w v = Ok w' -> mreff t n [v] w w'.
Proof.
  unfold mreceive_veh. intros H. apply bind_ok in H as (u & G & H). apply guard_ok in G. apply Z.eqb_eq in G. cbv zeta in H.
  apply bind_ok in H as (w2 & H2 & H).
  assert (X : mw_fac w2 = mw_fac w /\ mw_cf w2 = mw_cf w /\ mw_cls w2 = mw_cls w /\ mw_lab w2 = mw_lab w /\ mw_link w2 = mw_link w /\ mw_oq w2 = mw_oq w /\
              mw_dq w2 = mw_dq w /\ mw_cc w2 = mw_cc w /\ mw_pt w2 = mw_pt w /\ mw_veh w2 = upd (mw_veh w) v (set_vfin t (mw_veh w v))).
  { destruct (mn_routing M).
    2:{ apply Ok_inj in H2 as <-. repeat split; auto. }
    all: apply bind_ok in H2 as (u2 & _ & H2); cbn [mset_vehs mw_trk] in H2; destruct (mw_trk w v) eqn:Et; [apply bind_ok in H2 as (u3 & _ & H2)|].
    all: apply Ok_inj in H2 as <-; repeat split; auto. }
  destruct X as (Xf & Xg & Xk & Xb & Xl & Xo & Xd & Xc & Xp & Xv). rewrite Xf, Xg, Xk in H.
  apply bind_ok in H as (u4 & G4 & H). apply guard_ok in G4. apply Z.ltb_lt in G4. cbn [set_vfin v_fin v_start] in G4.
  apply bind_ok in H as (u3 & G3 & H). apply guard_ok in G3. apply memb_In in G3.
  apply bind_ok in H as (u5 & _ & H). apply bind_ok in H as (u6 & _ & H). apply bind_ok in H as (u7 & _ & H). apply Ok_inj in H as <-.
  constructor; unfold mdone; cbn [mset_fac mw_cls mw_lab mw_link mw_oq mw_dq mw_cc mw_pt mw_fac mw_cf mw_veh f_num f_done f_enroute f_finished f_tt f_live map set_vfin v_fin v_start]; auto.
  - cbn [sumZ fold_right]. rewrite Z.add_0_r. reflexivity.
  - intros v'. rewrite zc_filter_neq. unfold memb. simpl. rewrite orb_false_r, Z.eqb_sym. destruct (v =? v'); reflexivity.
  - intros v'. rewrite Xv. unfold memb. simpl. rewrite orb_false_r. destruct (Z.eqb_spec v' v) as [->|Ne]; [now rewrite upd_same|now rewrite upd_other].
  - intros v' [<-|[]]. exact G3.
  - intros k. unfold updb, of_class. cbn [filter]. replace (Bool.eqb k (mw_cls w v)) with (Bool.eqb (mw_cls w v) k) by (destruct k, (mw_cls w v); reflexivity). destruct (Bool.eqb_spec (mw_cls w v) k) as [<-|Ne];
      cbn [cf_num cf_enroute cf_finished cf_tt map sumZ fold_right].
    + rewrite Z.add_0_r. unfold Zlen. cbn [length]. repeat split; lia || reflexivity.
    + unfold Zlen. cbn [length]. change (inject_Z 0) with 0%Q. repeat split; lia || lra.
Qed.
Lemma mreff_trans t n a b w w1 w2 : mreff t n a w w1 -> mreff t n b w1 w2 -> mreff t n (a ++ b) w w2.
Proof.
  intros [A1 A2 A3 A4 A5 Ac Al A6 A7 A8 A9 A10 A11 A12 A13 A15 A16] [B1 B2 B3 B4 B5 Bc Bl B6 B7 B8 B9 B10 B11 B12 B13 B15 B16].
  assert (S1 : forall v, v_start (mw_veh w1 v) = v_start (mw_veh w v)) by (intros v; rewrite A13; destruct (memb v a); reflexivity).
  assert (D1 : forall v, v_dst (mw_veh w1 v) = v_dst (mw_veh w v)) by (intros v; rewrite A13; destruct (memb v a); reflexivity).
  constructor; try congruence.
  - rewrite B7, A7, map_app, <- app_assoc. f_equal. f_equal. apply map_ext. intros v. now rewrite S1.
  - rewrite B8, A8, Zlen_app. lia.
  - rewrite B9, A9, Zlen_app. lia.
  - rewrite B10, A10, map_app, sumZ_app, inject_Z_plus. rewrite (sumZ_map_ext (fun v => t - v_start (mw_veh w1 v)) (fun v => t - v_start (mw_veh w v)) b) by (intros; now rewrite S1). lra.
  - apply Forall_app. split; [exact A11|]. eapply Forall_impl; [|exact B11]. cbv beta. intros v. rewrite S1, D1. auto.
  - intros v. rewrite B12, A12, memb_app. destruct (memb v a), (memb v b); reflexivity.
  - intros v. rewrite B13, A13, memb_app. destruct (memb v a), (memb v b); reflexivity.
  - intros v Hv. apply in_app_or in Hv as [Hv|Hv]; [auto|]. apply B15 in Hv. rewrite zc_In in *. rewrite A12 in Hv. destruct (memb v a); [lia|exact Hv].
  - intros k. destruct (A16 k) as (p1 & p2 & p3 & p4). destruct (B16 k) as (q1 & q2 & q3 & q4). rewrite Ac in *. rewrite of_class_app, Zlen_app, map_app, sumZ_app, inject_Z_plus.
    rewrite (sumZ_map_ext (fun v => t - v_start (mw_veh w1 v)) (fun v => t - v_start (mw_veh w v)) (of_class (mw_cls w) k b)) in q4 by (intros; now rewrite S1).
    repeat split; try lia. rewrite q4, p4. lra.
Qed.
Lemma mreff_nil t n w : mreff t n [] w w.
Proof.
  constructor; auto; try (intros ? []); try lia; try (unfold Zlen; simpl; lia).
  - now rewrite app_nil_r.
  - simpl. change (inject_Z 0) with 0%Q. lra.
  - unfold Zlen. simpl. change (inject_Z 0) with 0%Q. repeat split; try lia; lra.
Qed.
Lemma mreceive_loop_eff t n : forall vs w w', foldM (mreceive_veh M t n) w vs = Ok w' -> mreff t n vs w w'.
Proof.
  induction vs as [|v vs IH]; intros w w' H; simpl in H; [apply Ok_inj in H as <-; apply mreff_nil|].
  apply bind_ok in H as (w1 & H1 & H2). apply mreceive_veh_eff in H1. apply IH in H2. exact (mreff_trans t n [v] vs w w1 w' H1 H2).
Qed.
Lemma ctrips_new cls k (f : Z -> Z) t vs : ctrips cls k (map (fun v => (v, (f v, t))) vs) = map (fun v => (v, (f v, t))) (of_class cls k vs).
Proof. unfold ctrips, of_class. induction vs as [|v vs IH]; [reflexivity|]. cbn [map filter fst]. destruct (Bool.eqb (cls v) k); cbn [map]; now rewrite IH. Qed.
Lemma receive_minv t n w w' : In n (mn_dests M) -> mreceive M t w n = Ok w' -> minv M w -> minv M w' /\ mgrow t w w'.
Proof.
  intros Hn H I. unfold mreceive in H. apply bind_ok in H as (w1 & H1 & H). apply Ok_inj in H as <-.
  apply mreceive_loop_eff in H1. destruct H1 as [A1 A2 A3 A4 A5 Ac Al A6 A7 A8 A9 A10 A11 A12 A13 A15 A16]. destruct I as [H1 H2 H3 H4 H5 H6 H7 H8 H9 H10 H11 H12 H13 H14].
  assert (Z0 : forall v, mzcount M (mset_dq w1 n []) v = mzcount M w v - zc v (mw_dq w n)).
  { intros v. unfold mzcount, mzo, mzl. cbn [mset_dq mw_oq mw_link]. rewrite A1, A2.
    enough (mzd M (mset_dq w1 n []) v - mzd M w v = - zc v (mw_dq w n)) by lia.
    unfold mzd. rewrite <- sumZ_map_minus, (sumZ_support1 _ _ n (mno_dests M K) Hn).
    - cbn [mset_dq mw_dq]. rewrite upd_same, zc_nil. lia.
    - intros y _ Hy. cbn [mset_dq mw_dq]. rewrite upd_other, A3 by exact Hy. lia. }
  assert (ED : mdone (mset_dq w1 n []) = mdone w ++ map (fun v => (v, (v_start (mw_veh w v), t))) (mw_dq w n)) by exact A7.
  assert (AR : forall v, zc v (map fst (mdone (mset_dq w1 n []))) = zc v (map fst (mdone w)) + zc v (mw_dq w n)).
  { intros v. rewrite ED, map_app, map_map, zc_app. cbn [fst]. now rewrite map_id. }
  pose proof (fun v => mcount_pos (mset_dq w1 n []) v) as CC.
  assert (SS : forall v, stat (mw_veh (mset_dq w1 n []) v) = stat (mw_veh w v)).
  { intros v. cbn [mset_dq mw_veh]. rewrite A13. destruct (memb v (mw_dq w n)); reflexivity. }
  assert (ET : forall k, m_trips (mset_dq w1 n []) k = m_trips w k ++ map (fun v => (v, (v_start (mw_veh w v), t))) (of_class (mw_cls w) k (mw_dq w n))).
  { intros k. rewrite <- ctrips_new. unfold m_trips, ctrips. fold (mdone (mset_dq w1 n [])) (mdone w). rewrite ED, filter_app. cbn [mset_dq mw_cls]. now rewrite Ac. }
  assert (EI : forall k, m_ids (mset_dq w1 n []) k = m_ids w k) by (intros k; unfold m_ids; cbn [mset_dq mw_fac mw_cls]; now rewrite A6, Ac).
  split.
  2:{ split; [cbn [mset_dq mw_fac]; lia|]. split; [intros v _; cbn [mset_dq mw_cls mw_lab]; rewrite Ac, Al; auto|]. split; [cbn [mset_dq mw_fac]; intros; lia|].
      eexists. split; [exact ED|]. apply Forall_map. apply Forall_forall. reflexivity. }
  constructor.
  - cbn [mset_dq mw_cls mw_link]. rewrite Ac, A1. exact H1.
  - intros v. rewrite Z0, AR. cbn [mset_dq mw_fac]. rewrite A6, <- H2. lia.
  - intros v. cbn [mset_dq mw_fac]. rewrite A12, Z0, H3. destruct (memb v (mw_dq w n)) eqn:Mb.
    + apply memb_In in Mb. apply zc_In in Mb. specialize (CC v). rewrite Z0 in CC.
      specialize (H2 v). pose proof (zc_nonneg v (map fst (mdone w))). unfold one_if in H2. destruct (_ && _); lia.
    + apply memb_false in Mb. unfold zc. rewrite cnt_zero_notin by exact Mb. simpl. lia.
  - cbn [mset_dq mw_fac]. rewrite A6. exact H4.
  - cbn [mset_dq mw_cc mw_link mw_cls]. rewrite A4, A1, Ac. exact H5.
  - cbn [mset_dq mw_fac]. lia.
  - cbn [mset_dq mw_fac]. rewrite ED, A9, H7, Zlen_app, Zlen_map. reflexivity.
  - cbn [mset_dq mw_fac]. rewrite ED, A10, H8, map_app, map_map, sumZ_app, inject_Z_plus. reflexivity.
  - rewrite ED. apply Forall_app. split; [exact H9|]. apply Forall_map. eapply Forall_impl; [|exact A11]. intros v [L _]. unfold trip. simpl. lia.
  - intros k. rewrite EI. cbn [mset_dq mw_cf]. rewrite (proj1 (A16 k)). apply H10.
  - intros k. cbn [mset_dq mw_cf]. destruct (A16 k) as (p1 & p2 & p3 & _). specialize (H11 k). lia.
  - intros k. rewrite ET, Zlen_app, Zlen_map. cbn [mset_dq mw_cf]. destruct (A16 k) as (_ & _ & -> & _). now rewrite H12.
  - intros k. rewrite ET, map_app, map_map, sumZ_app, inject_Z_plus. cbn [mset_dq mw_cf]. destruct (A16 k) as (_ & _ & _ & ->). rewrite H13. reflexivity.
  - rewrite ED. apply Forall_app. split.
    + eapply Forall_impl; [|exact H14]. intros d E. rewrite E. symmetry. apply stat_start, SS.
    + apply Forall_map. apply Forall_forall. intros v _. cbn [fst snd]. symmetry. apply stat_start, SS.
Qed.

(** ** interval and run *)
Lemma load_once_minv D t a w w' : mdraws_valid D -> mload_once M D t a w = Ok w' -> minv M w -> minv M w' /\ mgrow t w w'.
Proof.
  intros DV H I. unfold mload_once in H. apply bind_ok in H as (w1 & H1 & H). apply bind_ok in H as (w2 & H2 & H).
  apply bind_ok in H as (w3 & H3 & H). apply bind_ok in H as (w4 & H4 & H5).
  destruct (release_all_minv _ _ _ _ _ DV H1 I) as [I1 G1]. destruct (routing_minv _ _ _ _ H2 I1) as [I2 G2].
  assert (X3 : minv M w3 /\ mgrow t w2 w3).
  { eapply foldM_both; [|exact H3|exact I2]. intros nk s s' Hin E Hs. destruct (node_meff M K D t s s' nk DV Hin E) as (e & lv & J). eapply meff_minv; eauto. }
  destruct X3 as [I3 G3].
  assert (X4 : minv M w4 /\ mgrow t w3 w4) by (eapply foldM_both; [|exact H4|exact I3]; intros; eapply link_step_minv; eauto).
  destruct X4 as [I4 G4].
  assert (X5 : minv M w' /\ mgrow t w4 w') by (eapply foldM_both; [|exact H5|exact I4]; intros; eapply receive_minv; eauto).
  destruct X5 as [I5 G5]. split; [exact I5|].
  eapply mgrow_trans; [exact G1|]. eapply mgrow_trans; [exact G2|]. eapply mgrow_trans; [exact G3|]. eapply mgrow_trans; eauto.
Qed.
Lemma fresh_minv w : mfresh_world M w -> minv M w.
Proof.
  intros [F1 F2 F3 F4 F5 F6 F7].
  assert (OL : forall l, In l (mn_links M) -> mbody_inv (mw_cls w) (ml_body (mw_link w l)) /\ forall k, on_mlink (mw_cls w) k (mw_link w l) = []).
  { intros l Hl. destruct (F3 l Hl) as (p & Hp). split; apply (fresh_mempty _ _ Hp (mw_cls w)). }
  assert (Z0 : forall v, mzcount M w v = 0).
  { intros v. unfold mzcount, mzo, mzl, mzd. rewrite !sumZ_map_zero; [reflexivity| | |].
    - intros; now rewrite F2. - intros l Hl. destruct (OL l Hl) as [B E]. rewrite (mall_split _ _ v B). now rewrite !E. - intros; now rewrite F1. }
  constructor; unfold mdone, m_ids, m_trips; rewrite ?F6; cbn [f_num f_live f_enroute f_finished f_tt f_done map filter]; auto; try lia; try reflexivity.
  - intros l Hl. apply (OL l Hl).
  - intros v. rewrite Z0, zc_nil. destruct (Z.leb_spec 1 v), (Z.leb_spec v 0); simpl; lia.
  - intros k l c c' Hl E E'. rewrite (proj2 (OL l Hl)). destruct (F4 k l) as ([A|A] & [B|B] & _); rewrite A in E; rewrite B in E'; try discriminate.
    injection E as <-. injection E' as <-. change (inject_Z (Zlen [])) with 0%Q. lra.
  - intros k. rewrite F7. reflexivity.
  - intros k. rewrite F7. reflexivity.
  - intros k. rewrite F7. reflexivity.
  - intros k. rewrite F7. reflexivity.
Qed.
Lemma mrun_S D k s s' : mrun M D (S k) s = Ok s' -> exists s1, mrun M D k s = Ok s1 /\ mloop_body M D s1 = Ok s'.
Proof. simpl. intros H. apply bind_ok in H as (s1 & H1 & H2). eauto. Qed.
Lemma mloop_body_inv D s s' : mloop_body M D s = Ok s' -> exists w, mload_once M (D (ms_cur s)) (ms_cur s) (ms_assign s) (ms_w s) = Ok w /\
  ms_cur s' = ms_cur s + 1 /\ ms_w s' = w /\ ms_enr s' = ms_enr s ++ [f_enroute (mw_fac w)] /\
  ms_assign s' = (if Z.rem (ms_cur s + 1) (mn_freq M) =? 0 then ms_assign s + 1 else ms_assign s).
Proof.
  unfold mloop_body. intros H. apply bind_ok in H as (w & H1 & H). cbv zeta in H. apply Ok_inj in H as <-. exists w. repeat split. exact H1.
Qed.
Lemma mreached_minv D k s : mreached M D k s -> minv M (ms_w s).
Proof.
  intros (w0 & F & DV & H). revert s H. induction k as [|k IH]; intros s H.
  - simpl in H. apply Ok_inj in H as <-. now apply fresh_minv.
  - apply mrun_S in H as (s1 & H1 & H2). apply mloop_body_inv in H2 as (w & H2 & _ & <- & _). eapply load_once_minv; eauto.
Qed.
Lemma mreached_cur D k s : mreached M D k s -> ms_cur s = Z.of_nat k.
Proof.
  intros (w0 & _ & _ & H). revert s H. induction k as [|k IH]; intros s H.
  - simpl in H. apply Ok_inj in H as <-. reflexivity.
  - apply mrun_S in H as (s1 & H1 & H2). apply mloop_body_inv in H2 as (w & H2 & -> & _). rewrite (IH _ H1). lia.
Qed.
End Run.
