(** What an origin releases, and when. *)
From Verif Require Import Base Base_lemmas Model_Num Proof_Num Spec_Path Proof_Path Model_CC Spec_CC Proof_CC Model_Path Model_Link Spec_Link Spec_Node
  Proof_Link Proof_Link3 Proof_Link4 Proof_Link5 Model_World Model_Node Proof_Node Proof_Node2 Proof_Node3 Proof_Node4 Proof_Node5 Model_Sim Spec_Sim Proof_Sim1 Proof_Sim2 Proof_Sim3 Proof_Sim4.
Local Open Scope Z_scope.

Definition num (w : world) : Z := f_num (w_fac w).
Lemma new_ids_In w w' v : In v (new_ids w w') <-> num w < v <= num w'.
Proof.
  unfold new_ids, num. rewrite in_map_iff. split.
  - intros (i & <- & Hi). apply in_seq in Hi. lia.
  - intros H. exists (Z.to_nat (v - f_num (w_fac w) - 1)). split; [lia|]. apply in_seq. lia.
Qed.
Lemma seq_off n : forall m, seq n m = map (fun i => (n + i)%nat) (seq 0 m).
Proof.
  intros m. revert n. induction m as [|m IH]; intros n; [reflexivity|]. simpl. rewrite Nat.add_0_r. f_equal.
  rewrite IH, <- seq_shift, map_map. apply map_ext. intros; lia.
Qed.
Lemma new_ids_app w w1 w2 : num w <= num w1 -> num w1 <= num w2 -> new_ids w w2 = new_ids w w1 ++ new_ids w1 w2.
Proof.
  unfold new_ids, num. intros A B.
  replace (Z.to_nat (f_num (w_fac w2) - f_num (w_fac w))) with (Z.to_nat (f_num (w_fac w1) - f_num (w_fac w)) + Z.to_nat (f_num (w_fac w2) - f_num (w_fac w1)))%nat by lia.
  rewrite seq_app, map_app. f_equal. simpl. rewrite (seq_off (Z.to_nat _)), map_map. apply map_ext. intros; lia.
Qed.
Lemma stat_od x y o d : stat x = stat y -> ((v_org x =? o) && (v_dst x =? d))%bool = ((v_org y =? o) && (v_dst y =? d))%bool.
Proof. unfold stat. intros E. injection E as -> -> _ _ _. reflexivity. Qed.
Lemma released_app t w w1 w2 o d : srel t w w1 -> srel t w1 w2 -> released_for o d w w2 = released_for o d w w1 ++ released_for o d w1 w2.
Proof.
  intros (A1 & A2 & A3) (B1 & B2 & B3). unfold released_for. rewrite (new_ids_app w w1 w2) by assumption. rewrite filter_app. f_equal.
  apply filter_ext_in. intros v Hv. apply new_ids_In in Hv. apply stat_od. apply B2. unfold num in Hv. lia.
Qed.
Lemma released_same o d w w' : num w' = num w -> released_for o d w w' = [].
Proof. unfold released_for, new_ids, num. intros ->. now rewrite Z.sub_diag. Qed.

(** everything the release writes about a new vehicle *)
Definition newP (P : Z -> veh -> Prop) (w w' : world) : Prop := forall v, num w < v <= num w' -> P v (w_veh w' v).

Section Rel.
Context (N : net) (D : draws) (cur : Z).

Lemma push_srel assign o d ratio w : let id := num w + 1 in
  let w1 := make_veh w cur (pick_adaptive ratio (d_adapt D id)) o d assign in
  let w2 := set_oq w1 o (w_oq w1 o ++ [id]) in
  srel cur w w2 /\ num w2 = num w + 1 /\ w_veh w2 id =
   {| v_org := o; v_dst := d; v_adapt := pick_adaptive ratio (d_adapt D id); v_start := cur; v_fin := -1; v_assign := assign;
      v_cur := None; v_next := None; v_path := None; v_miles := 0%Q |} /\ (forall v, v <= num w -> w_veh w2 v = w_veh w v).
Proof.
  cbv zeta. split; [exact (release_n_srel D cur assign o d ratio 1 w)|]. split; [reflexivity|].
  cbn [set_oq make_veh set_fac set_vehs w_veh]. split; [apply upd_same|]. intros v Hv. apply upd_other. unfold num in Hv. lia.
Qed.

Lemma release_n_new assign o d ratio : forall k w, let w' := release_n k D cur assign o d ratio w in
  num w' = num w + Z.of_nat k /\ (forall v, v <= num w -> w_veh w' v = w_veh w v) /\
  newP (fun v x => x = {| v_org := o; v_dst := d; v_adapt := pick_adaptive ratio (d_adapt D v); v_start := cur; v_fin := -1; v_assign := assign;
      v_cur := None; v_next := None; v_path := None; v_miles := 0%Q |}) w w'.
Proof.
  induction k as [|k IH]; intros w; cbv zeta.
  - simpl. split; [lia|]. split; [auto|]. intros v Hv. lia.
  - cbn [release_n]. destruct (push_srel assign o d ratio w) as (S1 & N1 & V1 & K1).
    match goal with |- context [release_n k D cur assign o d ratio ?x] => set (w2 := x) end. fold (num w) in *.
    change (f_num (w_fac w) + 1) with (num w + 1) in w2. fold w2 in S1, N1, V1, K1.
    destruct (IH w2) as (N2 & K2 & P2). split; [lia|]. split.
    + intros v Hv. rewrite K2 by lia. auto.
    + intros v Hv. destruct (Z_le_gt_dec v (num w2)) as [L|L]; [|apply P2; lia]. rewrite K2 by exact L.
      replace v with (num w + 1) by lia. exact V1.
Qed.

Lemma filter_all_true {A} (f : A -> bool) l : (forall x, In x l -> f x = true) -> filter f l = l.
Proof. induction l as [|a l IH]; intros H; simpl; [reflexivity|]. rewrite (H a) by now left. f_equal. apply IH. intros; apply H; now right. Qed.
Lemma new_ids_len w w' : num w <= num w' -> Zlen (new_ids w w') = num w' - num w.
Proof. intros H. unfold new_ids, Zlen, num in *. rewrite map_length, seq_length. lia. Qed.

Lemma release_n_for assign o d ratio k w o' d' : let w' := release_n k D cur assign o d ratio w in
  Zlen (released_for o' d' w w') = if (o =? o') && (d =? d') then Z.of_nat k else 0.
Proof.
  cbv zeta. destruct (release_n_new assign o d ratio k w) as (Nn & _ & P). set (w' := release_n _ _ _ _ _ _ _ _) in *. unfold released_for.
  destruct ((o =? o') && (d =? d')) eqn:E.
  - rewrite filter_all_true, new_ids_len; [lia|lia|]. intros v Hv. apply new_ids_In in Hv. now rewrite (P v Hv).
  - rewrite filter_all_false; [reflexivity|]. intros v Hv. apply new_ids_In in Hv. now rewrite (P v Hv).
Qed.

(** the ratio used for destination [d] when the loop starts with [ratio] *)
Fixpoint ratio_at (o : origin) (assign : Z) (ratio : Q) (ds : list (Z * (Z -> Q))) (d : Z) : Q :=
  match ds with
  | [] => ratio
  | (d', _) :: ds' =>
      let ratio' := match o_ratio o d' with Some f => f assign | None => ratio end in
      if d' =? d then ratio' else ratio_at o assign ratio' ds' d
  end.

Definition new_veh (o : origin) (ratio : Q) (ds : list (Z * (Z -> Q))) (asg : Z) (v : Z) (x : veh) : Prop :=
  v_org x = o_node o /\ In (v_dst x) (map fst ds) /\ v_start x = cur /\ v_assign x = Z.quot cur (n_freq N) /\
  v_adapt x = pick_adaptive (ratio_at o asg ratio ds (v_dst x)) (d_adapt D v) /\ v_next x = None /\ v_cur x = None /\ v_path x = None.

Lemma release_dests_new asg o : forall ds ratio w, NoDup (map fst ds) -> let w' := release_dests N D cur asg o ratio ds w in
  num w <= num w' /\ (forall v, v <= num w -> w_veh w' v = w_veh w v) /\
  newP (new_veh o ratio ds asg) w w' /\
  (forall d dem, In (d, dem) ds -> Zlen (released_for (o_node o) d w w') = Z.max 0 (rround (d_rel D (o_node o) d) (dem asg * n_fs N))) /\
  (forall o' d, o' <> o_node o \/ ~ In d (map fst ds) -> released_for o' d w w' = []).
Proof.
  induction ds as [|[d0 dem0] ds IH]; intros ratio w ND; cbv zeta.
  - simpl. split; [lia|]. split; [auto|]. split; [intros v Hv; lia|]. split; [intros ? ? []|]. intros. apply released_same. reflexivity.
  - cbn [map fst] in ND. apply NoDup_cons_iff in ND as [Nd ND]. cbn [release_dests].
    set (ratio' := match o_ratio o d0 with Some f => f asg | None => ratio end).
    set (k := Z.to_nat (rround (d_rel D (o_node o) d0) (dem0 asg * n_fs N))).
    set (w1 := release_n k D cur (Z.quot cur (n_freq N)) (o_node o) d0 ratio' w).
    destruct (release_n_new (Z.quot cur (n_freq N)) (o_node o) d0 ratio' k w) as (N1 & K1 & P1). fold w1 in N1, K1, P1.
    destruct (IH ratio' w1 ND) as (N2 & K2 & P2 & F2 & X2). set (w' := release_dests N D cur asg o ratio' ds w1) in *.
    assert (S1 : srel cur w w1) by apply release_n_srel. assert (S2 : srel cur w1 w') by apply release_dests_srel.
    split; [lia|]. split; [intros v Hv; rewrite K2 by lia; auto|]. split; [|split].
    + intros v Hv. destruct (Z_le_gt_dec v (num w1)) as [L|L].
      * rewrite K2 by exact L. rewrite (P1 v) by lia. unfold new_veh. cbn [v_org v_dst v_start v_assign v_adapt v_next v_cur v_path ratio_at map fst]. fold ratio'.
        rewrite Z.eqb_refl. repeat split. now left.
      * destruct (P2 v ltac:(lia)) as (A & B & C & E & G & H). unfold new_veh. cbn [ratio_at map fst]. fold ratio'.
        destruct (Z.eqb_spec d0 (v_dst (w_veh w' v))) as [Ed|_]; [exfalso; apply Nd; rewrite Ed; exact B|].
        repeat (split; [assumption || (now right)|]). exact H.
    + intros d dem [E|I].
      * injection E as -> ->. rewrite (released_app cur w w1 w') by assumption. rewrite Zlen_app, X2 by (right; exact Nd).
        subst w1. rewrite release_n_for. rewrite !Z.eqb_refl. cbn [andb]. change (Zlen []) with 0. unfold k. lia.
      * assert (d0 <> d) by (intros ->; apply Nd; apply in_map_iff; exists (d, dem); auto).
        rewrite (released_app cur w w1 w') by assumption. rewrite Zlen_app, (F2 d dem I). subst w1. rewrite release_n_for.
        destruct (Z.eqb_spec d0 d); [contradiction|]. rewrite andb_false_r. lia.
    + intros o' d H. rewrite (released_app cur w w1 w') by assumption. rewrite X2; [|cbn [map fst In] in H; tauto]. rewrite app_nil_r.
      assert (E : Zlen (released_for o' d w w1) = 0).
      { subst w1. rewrite release_n_for. destruct (Z.eqb_spec (o_node o) o'), (Z.eqb_spec d0 d); cbn [andb]; auto. exfalso. subst. cbn [map fst In] in H. tauto. }
      destruct (released_for o' d w w1); [reflexivity|]. unfold Zlen in E. simpl in E. lia.
Qed.

Lemma fold_release_new asg base : 0 <= asg -> forall os w, NoDup (map o_node os) -> (forall o, In o os -> NoDup (map fst (o_demand o))) ->
  let w' := fold_left (release_one N D cur asg base) os w in
  num w <= num w' /\ (forall v, v <= num w -> w_veh w' v = w_veh w v) /\
  newP (fun v x => exists o, In o os /\ new_veh o base (o_demand o) asg v x) w w' /\
  (forall o d dem, In o os -> In (d, dem) (o_demand o) ->
    Zlen (released_for (o_node o) d w w') = Z.max 0 (rround (d_rel D (o_node o) d) (dem asg * n_fs N))) /\
  (forall o' d, ~ In o' (map o_node os) -> released_for o' d w w' = []).
Proof.
  intros Ha. induction os as [|o os IH]; intros w ND Hd; cbv zeta.
  - simpl. split; [lia|]. split; [auto|]. split; [intros v Hv; lia|]. split; [intros ? ? ? []|]. intros. apply released_same. reflexivity.
  - cbn [map] in ND. apply NoDup_cons_iff in ND as [No ND]. cbn [fold_left].
    destruct (release_dests_new asg o (o_demand o) base w (Hd o (or_introl eq_refl))) as (N1 & K1 & P1 & F1 & X1).
    assert (ER : release_one N D cur asg base w o = let w' := release_dests N D cur asg o base (o_demand o) w in set_oq w' (o_node o) (d_oshuf D (o_node o) (w_oq w' (o_node o)))).
    { unfold release_one. destruct (Z.ltb_spec asg 0); [lia|reflexivity]. }
    set (w1 := release_one N D cur asg base w o) in *. cbv zeta in ER. set (w1' := release_dests N D cur asg o base (o_demand o) w) in *.
    assert (E1 : num w1 = num w1' /\ w_veh w1 = w_veh w1') by (rewrite ER; split; reflexivity). destruct E1 as [En Ev].
    assert (ERel : forall o' d, released_for o' d w w1 = released_for o' d w w1').
    { intros. unfold released_for, new_ids. rewrite Ev. unfold num in En. now rewrite En. }
    destruct (IH w1 ND) as (N2 & K2 & P2 & F2 & X2); [intros; apply Hd; now right|].
    set (w' := fold_left (release_one N D cur asg base) os w1) in *.
    assert (S1 : srel cur w w1).
    { rewrite ER. eapply srel_trans; [apply release_dests_srel|]. now apply srel_keep. }
    assert (S2 : srel cur w1 w').
    { split; [exact N2|]. split; [intros v Hv; now rewrite K2|]. intros v Hv. destruct (P2 v Hv) as (o2 & _ & _ & _ & Q & _). exact Q. }
    split; [lia|]. split; [intros v Hv; rewrite K2, Ev by lia; auto|]. split; [|split].
    + intros v Hv. destruct (Z_le_gt_dec v (num w1)) as [L|L].
      * rewrite K2, Ev by exact L. exists o. split; [now left|]. apply P1. lia.
      * destruct (P2 v ltac:(lia)) as (o2 & I2 & Q). exists o2. split; [now right|exact Q].
    + intros o2 d dem [<-|I2] Id.
      * rewrite (released_app cur w w1 w') by assumption. rewrite Zlen_app, X2 by exact No. rewrite ERel, (F1 d dem Id). change (Zlen []) with 0. lia.
      * assert (o_node o2 <> o_node o) by (intros E; apply No; rewrite <- E; apply in_map, I2).
        rewrite (released_app cur w w1 w') by assumption. rewrite Zlen_app, (F2 o2 d dem I2 Id), ERel, X1 by (left; assumption). change (Zlen []) with 0. lia.
    + intros o' d H. cbn [map In] in H. rewrite (released_app cur w w1 w') by assumption. rewrite X2, ERel, X1; [reflexivity|left; intros ->; tauto|tauto].
Qed.
End Rel.

Lemma release_all_new N D cur assign w w' : net_ok N -> demands_ok N -> 0 < n_freq N -> 0 <= cur ->
  release_all N D cur assign w = Ok w' ->
  num w <= num w' /\ (forall v, v <= num w -> w_veh w' v = w_veh w v) /\
  (cur mod n_freq N = 0 /\ 0 <= assign < n_total_assign N ->
    newP (fun v x => exists o, In o (n_origins N) /\ new_veh N D cur o (base_ratio (n_routing N)) (o_demand o) assign v x) w w' /\
    (forall o d dem, In o (n_origins N) -> In (d, dem) (o_demand o) ->
      Zlen (released_for (o_node o) d w w') = Z.max 0 (rround (d_rel D (o_node o) d) (dem assign * n_fs N)))) /\
  (~ (cur mod n_freq N = 0 /\ 0 <= assign < n_total_assign N) -> w' = w).
Proof.
  intros K Dm Hf Hc H. unfold release_all in H. apply bind_ok in H as (u & _ & H). rewrite Z.rem_mod_nonneg in H by lia.
  assert (NEG : forall os b w, fold_left (release_one N D cur (-1) b) os w = w) by (induction os as [|o os IH]; intros; simpl; auto).
  destruct (Z.eqb_spec (cur mod n_freq N) 0) as [E|E]; apply Ok_inj in H as <-.
  2:{ split; [lia|]. split; [auto|]. split; [tauto|auto]. }
  destruct (Z.leb_spec (n_total_assign N) assign) as [L|L].
  - rewrite NEG. split; [lia|]. split; [auto|]. split; [lia|auto].
  - destruct (Z_lt_ge_dec assign 0) as [Neg|Pos].
    + assert (NEG' : forall os b w, fold_left (release_one N D cur assign b) os w = w).
      { induction os as [|o os IH]; intros; simpl; auto. rewrite IH. unfold release_one. destruct (Z.ltb_spec assign 0); [reflexivity|lia]. }
      rewrite NEG'. split; [lia|]. split; [auto|]. split; [lia|auto].
    + destruct (fold_release_new N D cur assign (base_ratio (n_routing N)) ltac:(lia) (n_origins N) w (no_origins N K) Dm) as (A & B & C & G & _).
      split; [exact A|]. split; [exact B|]. split; [split; [exact C|exact G]|]. intros Hn. exfalso. apply Hn. lia.
Qed.

Lemma load_once_after_release N D t a w w1 w' : net_ok N -> draws_valid D -> sinv N w -> release_all N D t a w = Ok w1 ->
  load_once N D t a w = Ok w' -> num w' = num w1 /\ forall v, stat (w_veh w' v) = stat (w_veh w1 v).
Proof.
  intros K DV I H1 H. unfold load_once in H. rewrite H1 in H. cbn [bind] in H. apply bind_ok in H as (w2 & H2 & H).
  apply bind_ok in H as (w3 & H3 & H). apply bind_ok in H as (w4 & H4 & H).
  pose proof (release_all_sinv _ _ _ _ _ _ K DV H1 I) as I1. pose proof (update_routing_r _ _ _ _ _ H2) as [Q2 R2].
  pose proof (sinv_q _ _ _ Q2 I1) as I2. unfold num.
  assert (X : f_num (w_fac w') = f_num (w_fac w4) /\ forall v, stat (w_veh w' v) = stat (w_veh w4 v)).
  { revert H. apply (foldM_rel (fun a b => f_num (w_fac b) = f_num (w_fac a) /\ forall v, stat (w_veh b v) = stat (w_veh a v))).
    - auto. - intros x y z [A B] [A' B']. split; [congruence|]. intros v. rewrite B'. apply B.
    - intros s n s' _ E. unfold receive in E. apply bind_ok in E as (x & E1 & E). apply Ok_inj in E as <-. apply receive_loop_eff in E1.
      destruct E1 as [A1 A2 A3 A4 A5 A6 A7 A8 A9 A10 A11 A12 A13 A14 A15]. split; [exact A6|]. intros v. cbn [set_dq w_veh]. rewrite A13. destruct (memb v _); reflexivity. }
  assert (Y : forall v, stat (w_veh w4 v) = stat (w_veh w3 v)).
  { revert H4. apply (foldM_rel (fun a b => forall v, stat (w_veh b v) = stat (w_veh a v))); [auto|congruence|].
    intros s l s' _ E. unfold link_step in E. apply bind_ok in E as (x & _ & E). apply bind_ok in E as (y & _ & E). now apply Ok_inj in E as <-. }
  assert (Z : forall v, stat (w_veh w3 v) = stat (w_veh w2 v)).
  { enough (X' : sinv N w3 /\ forall v, stat (w_veh w3 v) = stat (w_veh w2 v)) by apply X'.
    eapply (foldM_inv (node_evolve N D t) (fun x => sinv N x /\ forall v, stat (w_veh x v) = stat (w_veh w2 v))); [|split; [exact I2|reflexivity]|exact H3].
    intros nk s s' Hin [Hs R] E. destruct (node_neff N D t s s' nk K DV (i_paired N s Hs) Hin E) as (e & lv & o & d & J).
    split; [eapply neff_sinv; eauto|]. destruct (ne_keep _ _ _ _ _ _ _ _ J) as (_ & _ & _ & V). intros v. rewrite <- R. apply vkeep_stat, V. }
  destruct X as [X1 X2]. split.
  - rewrite X1, (links_fac _ _ _ _ H4), (nodes_fac _ _ _ _ _ K DV I2 H3). destruct Q2 as (_ & _ & _ & _ & ->). reflexivity.
  - intros v. rewrite X2, Y, Z. apply R2.
Qed.

Lemma reached_assign N D k s : 0 < n_freq N -> reached N D k s -> s_assign s = assign_at N k.
Proof.
  intros Hf (w0 & F & DV & H). revert s H. induction k as [|k IH]; intros s H.
  - simpl in H. apply Ok_inj in H as <-. unfold assign_at. cbn [init_state s_assign]. change (Z.of_nat 0) with 0. rewrite Z.div_0_l by lia. lia.
  - pose proof H as H'. apply run_S in H' as (s1 & H1 & _). destruct (st_step N D w0 F DV _ _ _ H1 H) as (_ & _ & ->). rewrite (IH _ H1).
    unfold assign_at. rewrite Z.rem_mod_nonneg by lia. rewrite Nat2Z.inj_succ. unfold Z.succ.
    set (x := Z.of_nat k). set (f := n_freq N) in *. pose proof (Z.div_mod x f ltac:(lia)) as E1. pose proof (Z.div_mod (x + 1) f ltac:(lia)) as E2.
    pose proof (Z.mod_pos_bound x f Hf). pose proof (Z.mod_pos_bound (x + 1) f Hf).
    destruct (Z.eqb_spec ((x + 1) mod f) 0) as [E|E]; nia.
Qed.
