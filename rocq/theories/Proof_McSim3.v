(** What a two-class origin releases, and when. *)
From Verif Require Import Base Base_lemmas Model_Num Proof_Num Spec_Path Proof_Path Model_CC Spec_CC Proof_CC Model_Path Model_Link Spec_Link Spec_Node
  Proof_Link Proof_Link3 Proof_Link4 Proof_Link5 Model_World Model_Node Proof_Node Proof_Node3 Model_Sim Spec_Sim Proof_Sim1 Proof_Sim3 Proof_Sim4 Proof_Sim5
  Model_McLink Spec_McLink Proof_McLink Model_McNode Spec_McNode Model_McSim Spec_McSim Proof_McSim1 Proof_McSim2.
Local Open Scope Z_scope.

Definition mnum (w : mworld) : Z := f_num (mw_fac w).
Lemma m_new_In w w' v : In v (m_new w w') <-> mnum w < v <= mnum w'.
Proof.
  unfold m_new, mnum. rewrite in_map_iff. split.
  - intros (i & <- & Hi). apply in_seq in Hi. lia.
  - intros H. exists (Z.to_nat (v - f_num (mw_fac w) - 1)). split; [lia|]. apply in_seq. lia.
Qed.
Lemma m_new_app w w1 w2 : mnum w <= mnum w1 -> mnum w1 <= mnum w2 -> m_new w w2 = m_new w w1 ++ m_new w1 w2.
Proof.
  unfold m_new, mnum. intros A B.
  replace (Z.to_nat (f_num (mw_fac w2) - f_num (mw_fac w))) with (Z.to_nat (f_num (mw_fac w1) - f_num (mw_fac w)) + Z.to_nat (f_num (mw_fac w2) - f_num (mw_fac w1)))%nat by lia.
  rewrite seq_app, map_app. f_equal. simpl. rewrite (seq_off (Z.to_nat _)), map_map. apply map_ext. intros; lia.
Qed.
Lemma m_new_len w w' : mnum w <= mnum w' -> Zlen (m_new w w') = mnum w' - mnum w.
Proof. intros H. unfold m_new, Zlen, mnum in *. rewrite map_length, seq_length. lia. Qed.

(** old vehicles are left alone *)
Definition keepold (w w' : mworld) : Prop :=
  mnum w <= mnum w' /\ forall v, v <= mnum w -> mw_veh w' v = mw_veh w v /\ mw_cls w' v = mw_cls w v /\ mw_lab w' v = mw_lab w v.
Lemma keepold_refl w : keepold w w. Proof. split; [lia|auto]. Qed.
Lemma keepold_trans a b c : keepold a b -> keepold b c -> keepold a c.
Proof.
  intros [A1 A2] [B1 B2]. split; [lia|]. intros v Hv. destruct (A2 v Hv) as (p & q & r). destruct (B2 v ltac:(lia)) as (p' & q' & r'). repeat split; congruence.
Qed.
Lemma m_released_app w w1 w2 k o d : keepold w w1 -> keepold w1 w2 -> m_released k o d w w2 = m_released k o d w w1 ++ m_released k o d w1 w2.
Proof.
  intros (A1 & A2) (B1 & B2). unfold m_released. rewrite (m_new_app w w1 w2) by assumption. rewrite filter_app. f_equal.
  apply filter_ext_in. intros v Hv. apply m_new_In in Hv. destruct (B2 v ltac:(lia)) as (-> & -> & _). reflexivity.
Qed.
Lemma m_released_same k o d w w' : mnum w' = mnum w -> m_released k o d w w' = [].
Proof. unfold m_released, m_new, mnum. intros ->. now rewrite Z.sub_diag. Qed.

(** everything the release writes about a new vehicle: data, class, label *)
Definition newM (P : Z -> veh -> bool -> Z -> Prop) (w w' : mworld) : Prop :=
  forall v, mnum w < v <= mnum w' -> P v (mw_veh w' v) (mw_cls w' v) (mw_lab w' v).

Section Rel.
Context (M : mnet) (D : mdrawsI) (cur : Z).

Definition made (o : morigin) (k : bool) (d assign : Z) (ratio : Q) (v : Z) (x : veh) (c : bool) (lb : Z) : Prop :=
  x = {| v_org := og_node o; v_dst := d; v_adapt := pick_adaptive ratio (d_adapt (r_base D) v); v_start := cur; v_fin := -1; v_assign := assign;
         v_cur := None; v_next := None; v_path := None; v_miles := 0%Q |} /\ c = k /\ lb = generate_label (og_labels o k) (r_label D v).
Lemma mrelease_n_new assign o k d ratio : forall j w, let w' := mrelease_n j D cur assign o k d ratio w in
  mnum w' = mnum w + Z.of_nat j /\ keepold w w' /\ newM (made o k d assign ratio) w w'.
Proof.
  induction j as [|j IH]; intros w; cbv zeta.
  - simpl. split; [lia|]. split; [apply keepold_refl|]. intros v Hv. lia.
  - cbn [mrelease_n]. match goal with |- context [mrelease_n j D cur assign o k d ratio ?x] => set (w2 := x) end.
    set (id := f_num (mw_fac w) + 1) in *.
    assert (N1 : mnum w2 = mnum w + 1) by reflexivity.
    assert (K1 : keepold w w2).
    { split; [lia|]. intros v Hv. unfold mnum in Hv. unfold w2. cbn [mset_oq mmake_veh mw_veh mw_cls mw_lab]. fold id. rewrite !upd_other by (subst id; lia). auto. }
    assert (P1 : made o k d assign ratio id (mw_veh w2 id) (mw_cls w2 id) (mw_lab w2 id)).
    { unfold w2, made. cbn [mset_oq mmake_veh mw_veh mw_cls mw_lab]. fold id. rewrite !upd_same. auto. }
    destruct (IH w2) as (N2 & K2 & P2). split; [lia|]. split; [eapply keepold_trans; eauto|].
    intros v Hv. destruct (Z_le_gt_dec v (mnum w2)) as [L|L]; [|apply P2; lia]. destruct (proj2 K2 v L) as (-> & -> & ->).
    replace v with id by (unfold id, mnum in *; lia). exact P1.
Qed.

Lemma mrelease_n_for assign o k d ratio j w k' o' d' : let w' := mrelease_n j D cur assign o k d ratio w in
  Zlen (m_released k' o' d' w w') = if Bool.eqb k k' && (og_node o =? o') && (d =? d') then Z.of_nat j else 0.
Proof.
  cbv zeta. destruct (mrelease_n_new assign o k d ratio j w) as (Nn & _ & P). set (w' := mrelease_n _ _ _ _ _ _ _ _ _) in *. unfold m_released.
  destruct (Bool.eqb k k' && (og_node o =? o') && (d =? d')) eqn:E.
  - rewrite filter_all_true, m_new_len; [lia|lia|]. intros v Hv. apply m_new_In in Hv. destruct (P v Hv) as (-> & -> & _). exact E.
  - rewrite filter_all_false; [reflexivity|]. intros v Hv. apply m_new_In in Hv. destruct (P v Hv) as (-> & -> & _). exact E.
Qed.

(** the ratio used for destination [d] when the loop of class [k] starts with [ratio], and the one it ends with *)
Fixpoint mratio_at (o : morigin) (k : bool) (asg : Z) (ratio : Q) (ds : list (Z * (Z -> Q))) (d : Z) : Q :=
  match ds with
  | [] => ratio
  | (d', _) :: ds' =>
      let ratio' := match og_ratio o k d' with Some f => f asg | None => ratio end in
      if d' =? d then ratio' else mratio_at o k asg ratio' ds' d
  end.
Fixpoint mratio_end (o : morigin) (k : bool) (asg : Z) (ratio : Q) (ds : list (Z * (Z -> Q))) : Q :=
  match ds with
  | [] => ratio
  | (d', _) :: ds' => mratio_end o k asg (match og_ratio o k d' with Some f => f asg | None => ratio end) ds'
  end.

Definition mnew_veh (o : morigin) (k : bool) (ratio : Q) (ds : list (Z * (Z -> Q))) (asg : Z) (v : Z) (x : veh) (c : bool) (lb : Z) : Prop :=
  In (v_dst x) (map fst ds) /\ made o k (v_dst x) (Z.quot cur (mn_freq M)) (mratio_at o k asg ratio ds (v_dst x)) v x c lb.

Lemma mrelease_dests_new asg o k : forall ds ratio w w' r', NoDup (map fst ds) -> mrelease_dests M D cur asg o k ratio ds w = (w', r') ->
  keepold w w' /\ newM (mnew_veh o k ratio ds asg) w w' /\
  (forall d dem, In (d, dem) ds -> Zlen (m_released k (og_node o) d w w') = Z.max 0 (rround (r_rel D k (og_node o) d) (dem asg * mn_fs M))) /\
  (forall k' o' d, k' <> k \/ o' <> og_node o \/ ~ In d (map fst ds) -> m_released k' o' d w w' = []) /\ r' = mratio_end o k asg ratio ds.
Proof.
  induction ds as [|[d0 dem0] ds IH]; intros ratio w w' r' ND E.
  - simpl in E. injection E as <- <-. split; [apply keepold_refl|]. split; [intros v Hv; lia|]. split; [intros ? ? []|]. split; [|reflexivity]. intros. apply m_released_same. reflexivity.
  - cbn [map fst] in ND. apply NoDup_cons_iff in ND as [Nd ND]. cbn [mrelease_dests mratio_end] in E |- *.
    set (ratio' := match og_ratio o k d0 with Some f => f asg | None => ratio end) in *.
    set (j := Z.to_nat (rround (r_rel D k (og_node o) d0) (dem0 asg * mn_fs M))) in *.
    set (w1 := mrelease_n j D cur (Z.quot cur (mn_freq M)) o k d0 ratio' w) in *.
    destruct (mrelease_n_new (Z.quot cur (mn_freq M)) o k d0 ratio' j w) as (N1 & K1 & P1). fold w1 in N1, K1, P1.
    destruct (IH ratio' w1 w' r' ND E) as (K2 & P2 & F2 & X2 & R2).
    split; [eapply keepold_trans; eauto|]. split; [|split; [|split; [|exact R2]]].
    + intros v Hv. destruct (Z_le_gt_dec v (mnum w1)) as [L|L].
      * destruct (proj2 K2 v L) as (-> & -> & ->). pose proof (P1 v ltac:(lia)) as Q. unfold mnew_veh. cbn [mratio_at map fst]. fold ratio'.
        assert (Ed : v_dst (mw_veh w1 v) = d0) by (destruct Q as [-> _]; reflexivity). rewrite Ed, Z.eqb_refl. split; [now left|exact Q].
      * destruct (P2 v ltac:(lia)) as (A & B). unfold mnew_veh. cbn [mratio_at map fst]. fold ratio'.
        destruct (Z.eqb_spec d0 (v_dst (mw_veh w' v))) as [Ed|_]; [exfalso; apply Nd; rewrite Ed; exact A|]. split; [now right|exact B].
    + intros d dem [E1|I].
      * injection E1 as -> ->. rewrite (m_released_app w w1 w') by assumption. rewrite Zlen_app, X2 by (right; right; exact Nd).
        subst w1. rewrite mrelease_n_for. rewrite !Z.eqb_refl, Bool.eqb_reflx. cbn [andb]. change (Zlen []) with 0. unfold j. lia.
      * assert (d0 <> d) by (intros ->; apply Nd; apply in_map_iff; exists (d, dem); auto).
        rewrite (m_released_app w w1 w') by assumption. rewrite Zlen_app, (F2 d dem I). subst w1. rewrite mrelease_n_for.
        destruct (Z.eqb_spec d0 d); [contradiction|]. rewrite andb_false_r. lia.
    + intros k' o' d H. rewrite (m_released_app w w1 w') by assumption. rewrite X2; [|cbn [map fst In] in H; tauto]. rewrite app_nil_r.
      assert (E1 : Zlen (m_released k' o' d w w1) = 0).
      { subst w1. rewrite mrelease_n_for. destruct (Bool.eqb_spec k k'), (Z.eqb_spec (og_node o) o'), (Z.eqb_spec d0 d); cbn [andb]; auto. exfalso. subst. cbn [map fst In] in H. tauto. }
      destruct (m_released k' o' d w w1); [reflexivity|]. unfold Zlen in E1. simpl in E1. lia.
Qed.

(** the ratio the loop of class [k] starts with *)
Definition mratio_start (o : morigin) (asg : Z) (k : bool) : Q :=
  if k then match mn_routing M with
            | MRBiclass _ _ => mbase_ratio (mn_routing M) true
            | _ => mratio_end o false asg (mbase_ratio (mn_routing M) false) (og_demand o false)
            end
  else mbase_ratio (mn_routing M) false.
Definition released_by (os : list morigin) (asg : Z) (v : Z) (x : veh) (c : bool) (lb : Z) : Prop :=
  exists o, In o os /\ mnew_veh o c (mratio_start o asg c) (og_demand o c) asg v x c lb.

Lemma mrelease_one_new asg o w : 0 <= asg -> (forall k, NoDup (map fst (og_demand o k))) -> let w' := mrelease_one M D cur asg w o in
  keepold w w' /\ newM (released_by [o] asg) w w' /\
  (forall k d dem, In (d, dem) (og_demand o k) -> Zlen (m_released k (og_node o) d w w') = Z.max 0 (rround (r_rel D k (og_node o) d) (dem asg * mn_fs M))) /\
  (forall k o' d, o' <> og_node o -> m_released k o' d w w' = []).
Proof.
  intros Ha ND. cbv zeta. unfold mrelease_one. destruct (Z.ltb_spec asg 0); [lia|].
  destruct (mrelease_dests M D cur asg o false _ _ w) as [w1 x] eqn:E1. destruct (mrelease_dests_new asg o false _ _ _ _ _ (ND false) E1) as (K1 & P1 & F1 & X1 & R1).
  match goal with |- context [mrelease_dests M D cur asg o true ?yy (og_demand o true) w1] => set (y := yy) end.
  destruct (mrelease_dests M D cur asg o true y (og_demand o true) w1) as [w2 x2] eqn:E2.
  destruct (mrelease_dests_new asg o true _ _ _ _ _ (ND true) E2) as (K2 & P2 & F2 & X2 & _).
  set (w' := mset_oq w2 (og_node o) _).
  assert (ER : forall k o' d a, m_released k o' d a w' = m_released k o' d a w2) by reflexivity.
  assert (EY : y = mratio_start o asg true) by (unfold y, mratio_start; rewrite <- R1; reflexivity).
  split; [exact (keepold_trans w w1 w2 K1 K2)|]. split; [|split].
  - intros v Hv. change (mnum w') with (mnum w2) in Hv. change (mw_veh w') with (mw_veh w2). change (mw_cls w') with (mw_cls w2). change (mw_lab w') with (mw_lab w2).
    exists o. split; [now left|]. destruct (Z_le_gt_dec v (mnum w1)) as [L|L].
    + destruct (proj2 K2 v L) as (-> & -> & ->). pose proof (P1 v ltac:(lia)) as Q. assert (Ec : mw_cls w1 v = false) by (destruct Q as (_ & _ & Q & _); exact Q). rewrite Ec in *. exact Q.
    + pose proof (P2 v ltac:(lia)) as Q. assert (Ec : mw_cls w2 v = true) by (destruct Q as (_ & _ & Q & _); exact Q). rewrite Ec in *. rewrite <- EY. exact Q.
  - intros k d dem I. rewrite ER, (m_released_app w w1 w2) by assumption. rewrite Zlen_app. destruct k.
    + rewrite X1 by (left; discriminate). change (Zlen []) with 0. rewrite (F2 d dem I). lia.
    + rewrite (X2 false) by (left; discriminate). change (Zlen []) with 0. rewrite (F1 d dem I). lia.
  - intros k o' d Ho. rewrite ER, (m_released_app w w1 w2) by assumption. rewrite X1, X2 by (right; left; exact Ho). reflexivity.
Qed.

Lemma fold_mrelease_new asg : 0 <= asg -> forall os w, NoDup (map og_node os) -> (forall o k, In o os -> NoDup (map fst (og_demand o k))) ->
  let w' := fold_left (mrelease_one M D cur asg) os w in
  keepold w w' /\ newM (released_by os asg) w w' /\
  (forall o k d dem, In o os -> In (d, dem) (og_demand o k) ->
    Zlen (m_released k (og_node o) d w w') = Z.max 0 (rround (r_rel D k (og_node o) d) (dem asg * mn_fs M))) /\
  (forall k o' d, ~ In o' (map og_node os) -> m_released k o' d w w' = []).
Proof.
  intros Ha. induction os as [|o os IH]; intros w ND Hd; cbv zeta.
  - simpl. split; [apply keepold_refl|]. split; [intros v Hv; lia|]. split; [intros ? ? ? ? []|]. intros. apply m_released_same. reflexivity.
  - cbn [map] in ND. apply NoDup_cons_iff in ND as [No ND]. cbn [fold_left].
    destruct (mrelease_one_new asg o w Ha (fun k => Hd o k (or_introl eq_refl))) as (K1 & P1 & F1 & X1).
    set (w1 := mrelease_one M D cur asg w o) in *.
    destruct (IH w1 ND) as (K2 & P2 & F2 & X2); [intros; apply Hd; now right|].
    set (w' := fold_left (mrelease_one M D cur asg) os w1) in *.
    split; [eapply keepold_trans; eauto|]. split; [|split].
    + intros v Hv. destruct (Z_le_gt_dec v (mnum w1)) as [L|L].
      * destruct (proj2 K2 v L) as (-> & -> & ->). destruct (P1 v ltac:(lia)) as (o2 & [<-|[]] & Q). exists o. split; [now left|exact Q].
      * destruct (P2 v ltac:(lia)) as (o2 & I2 & Q). exists o2. split; [now right|exact Q].
    + intros o2 k d dem [<-|I2] Id.
      * rewrite (m_released_app w w1 w') by assumption. rewrite Zlen_app, X2 by exact No. rewrite (F1 k d dem Id). change (Zlen []) with 0. lia.
      * assert (og_node o2 <> og_node o) by (intros E; apply No; rewrite <- E; apply in_map, I2).
        rewrite (m_released_app w w1 w') by assumption. rewrite Zlen_app, (F2 o2 k d dem I2 Id), X1 by assumption. change (Zlen []) with 0. lia.
    + intros k o' d H. cbn [map In] in H. rewrite (m_released_app w w1 w') by assumption. rewrite X2, X1; [reflexivity|intros ->; tauto|tauto].
Qed.

Lemma mrelease_all_new assign w w' : mnet_ok M -> mdemands_ok M -> 0 < mn_freq M -> 0 <= cur -> mrelease_all M D cur assign w = Ok w' ->
  keepold w w' /\
  (cur mod mn_freq M = 0 /\ 0 <= assign < mn_total_assign M ->
    newM (released_by (mn_origins M) assign) w w' /\
    (forall o k d dem, In o (mn_origins M) -> In (d, dem) (og_demand o k) ->
      Zlen (m_released k (og_node o) d w w') = Z.max 0 (rround (r_rel D k (og_node o) d) (dem assign * mn_fs M)))) /\
  (~ (cur mod mn_freq M = 0 /\ 0 <= assign < mn_total_assign M) -> w' = w).
Proof.
  intros K Dm Hf Hc H. unfold mrelease_all in H. apply bind_ok in H as (u & _ & H). rewrite Z.rem_mod_nonneg in H by lia.
  assert (NEG : forall a, a < 0 -> forall os w, fold_left (mrelease_one M D cur a) os w = w).
  { intros a La. induction os as [|o os IH]; intros w0; simpl; auto. rewrite IH. unfold mrelease_one. destruct (Z.ltb_spec a 0); [reflexivity|lia]. }
  destruct (Z.eqb_spec (cur mod mn_freq M) 0) as [E|E]; apply Ok_inj in H as <-.
  2:{ split; [apply keepold_refl|]. split; [tauto|auto]. }
  destruct (Z.leb_spec (mn_total_assign M) assign) as [L|L].
  - rewrite NEG by lia. split; [apply keepold_refl|]. split; [lia|auto].
  - destruct (Z_lt_ge_dec assign 0) as [Neg|Pos].
    + rewrite NEG by exact Neg. split; [apply keepold_refl|]. split; [lia|auto].
    + destruct (fold_mrelease_new assign ltac:(lia) (mn_origins M) w (mno_origins M K) (fun o k => Dm o k)) as (A & C & G & _).
      split; [exact A|]. split; [split; [exact C|exact G]|]. intros Hn. exfalso. apply Hn. lia.
Qed.
End Rel.

(** nothing after the release touches what the release wrote *)
Definition samerel (a b : mworld) : Prop :=
  mnum b = mnum a /\ mw_cls b = mw_cls a /\ mw_lab b = mw_lab a /\ forall v, stat (mw_veh b v) = stat (mw_veh a v).
Lemma samerel_refl a : samerel a a. Proof. repeat split. Qed.
Lemma samerel_trans a b c : samerel a b -> samerel b c -> samerel a c.
Proof. intros (A & B & C & E) (A' & B' & C' & E'). repeat split; congruence. Qed.
Lemma mload_once_after_release M D t a w w1 w' : mnet_ok M -> mdraws_valid D -> mrelease_all M D t a w = Ok w1 ->
  mload_once M D t a w = Ok w' -> samerel w1 w'.
Proof.
  intros K DV H1 H. unfold mload_once in H. rewrite H1 in H. cbn [bind] in H. apply bind_ok in H as (w2 & H2 & H).
  apply bind_ok in H as (w3 & H3 & H). apply bind_ok in H as (w4 & H4 & H).
  destruct (routing_stat _ _ _ _ _ H2) as (A & B & _ & _ & _ & _ & F & _ & S). assert (Q2 : samerel w1 w2) by (unfold samerel, mnum; rewrite F; auto).
  assert (Q3 : samerel w2 w3).
  { revert H3. apply foldM_rel; [apply samerel_refl|apply samerel_trans|]. intros s nk s' Hin E. destruct (node_meff M K D t s s' nk DV Hin E) as (e & lv & J).
    destruct J as [P _ _ _ _ _ _]. pose proof (stat_plans _ _ P). destruct P as (p1 & p2 & p3 & _). unfold samerel, mnum. rewrite p3. auto. }
  assert (Q4 : samerel w3 w4).
  { revert H4. apply foldM_rel; [apply samerel_refl|apply samerel_trans|]. intros s l s' _ E. unfold mlink_step in E. apply bind_ok in E as (x & _ & E). apply bind_ok in E as (y & _ & E).
    apply Ok_inj in E as <-. repeat split. }
  assert (Q5 : samerel w4 w').
  { revert H. apply foldM_rel; [apply samerel_refl|apply samerel_trans|]. intros s n s' _ E. unfold mreceive in E. apply bind_ok in E as (x & E1 & E). apply Ok_inj in E as <-. apply mreceive_loop_eff in E1.
    destruct E1 as [A1 A2 A3 A4 A5 Ac Al A6 A7 A8 A9 A10 A11 A12 A13 A15 A16]. unfold samerel, mnum. cbn [mset_dq mw_fac mw_cls mw_lab mw_veh]. repeat split; auto.
    intros v. rewrite A13. destruct (memb v _); reflexivity. }
  eapply samerel_trans; [exact Q2|]. eapply samerel_trans; [exact Q3|]. eapply samerel_trans; eauto.
Qed.
Lemma mreached_assign M D k s : 0 < mn_freq M -> mreached M D k s -> ms_assign s = m_assign_at M k.
Proof.
  intros Hf (w0 & F & DV & H). revert s H. induction k as [|k IH]; intros s H.
  - simpl in H. apply Ok_inj in H as <-. unfold m_assign_at. cbn [minit ms_assign]. change (Z.of_nat 0) with 0. rewrite Z.div_0_l by lia. lia.
  - pose proof H as H0. apply mrun_S in H as (s1 & H1 & H2). apply mloop_body_inv in H2 as (w & _ & Ec & _ & _ & ->). rewrite (IH _ H1).
    assert (C1 : ms_cur s1 = Z.of_nat k) by (apply (mreached_cur M D k s1); exists w0; auto). rewrite C1. unfold m_assign_at.
    rewrite Z.rem_mod_nonneg by lia. replace (Z.of_nat (S k)) with (Z.of_nat k + 1) by lia.
    pose proof (Z.div_mod (Z.of_nat k) (mn_freq M) ltac:(lia)) as Q1. pose proof (Z.mod_pos_bound (Z.of_nat k) (mn_freq M) Hf) as B1.
    pose proof (Z.div_mod (Z.of_nat k + 1) (mn_freq M) ltac:(lia)) as Q2. pose proof (Z.mod_pos_bound (Z.of_nat k + 1) (mn_freq M) Hf) as B2.
    destruct (Z.eqb_spec ((Z.of_nat k + 1) mod mn_freq M) 0) as [E|E]; nia.
Qed.
