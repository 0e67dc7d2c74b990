(** C135: what a loading with delivery vehicles releases. *)
From Verif Require Import Base Base_lemmas Model_Num Proof_Num Spec_Path Proof_Path Model_CC Spec_CC Proof_CC Model_Path Model_Link Spec_Link Spec_Node
  Proof_Link Proof_Link3 Proof_Link4 Proof_Link5 Model_World Model_Node Model_Sim Spec_Sim Proof_Sim1 Proof_Sim2 Proof_Sim3 Proof_Sim4 Proof_Sim5
  Model_Deliver Spec_Deliver Proof_Deliver1 Proof_Deliver2 Proof_Deliver4 Ex_Net Ex_Deliver Prop_Node Prop_Sim Prop_Deliver.
Local Open Scope Z_scope.

Lemma rround_rounded r x : unit_draw r -> rounded x (rround r x).
Proof. intros [R _] X. split; [split; [now apply rround_gt|now apply rround_lt]|]. intros z Ez. rewrite (rround_comp _ _ _ Ez). now apply rround_int. Qed.

Lemma combine_snd {A} (l : list A) : map snd (combine (seq 0 (length l)) l) = l.
Proof. generalize 0%nat. induction l as [|x l IH]; intros i; [reflexivity|]. cbn [length seq combine map snd]. f_equal. apply IH. Qed.
Lemma combine_nth {A} (l : list A) i x : In (i, x) (combine (seq 0 (length l)) l) -> nth_error l i = Some x.
Proof.
  assert (G : forall (l : list A) b, In (i, x) (combine (seq b (length l)) l) -> (b <= i)%nat /\ nth_error l (i - b) = Some x).
  { induction l0 as [|y l0 IH]; intros b H; [destruct H|]. cbn [length seq combine] in H. destruct H as [E|H].
    - injection E as -> ->. rewrite Nat.sub_diag. split; [lia|reflexivity].
    - apply IH in H as [L E]. split; [lia|]. replace (i - b)%nat with (S (i - S b)) by lia. exact E. }
  intros H. apply G in H as [_ H]. now rewrite Nat.sub_0_r in H.
Qed.
Lemma dstep DN D w0 k s s' : dnet_ok DN -> fresh_world (dn_net DN) w0 -> (forall t, draws_valid (dd_base (D t))) -> 0 < n_freq (dn_net DN) ->
  drun DN D k (dinit DN w0) = Ok s -> drun DN D (S k) (dinit DN w0) = Ok s' ->
  exists d1, drelease_all DN (D (Z.of_nat k)) (Z.of_nat k) (assign_at (dn_net DN) k) (ds_d s) = Ok d1 /\ kept d1 (ds_d s').
Proof.
  intros K F DV Hf H H'. assert (R : dreached DN D k s) by (exists w0; auto). destruct (dreached_dinv _ _ _ _ K R) as [I C]. pose proof (dassign _ _ _ _ Hf R) as A.
  apply drun_S in H' as (s1 & H1 & H2). rewrite H in H1. apply Ok_inj in H1 as <-. apply dloop_body_inv in H2 as [H2 _]. rewrite C, A in H2. eapply load_kept; eauto.
Qed.

(** in a release interval every demand row and every tour gets its demand, rounded, and
    the vehicles released are exactly these *)
Theorem C135_release_matches_demand : forall DN D w0 k s s', dnet_ok DN -> 0 < n_freq (dn_net DN) -> fresh_world (dn_net DN) w0 ->
  (forall t, draws_valid (dd_base (D t))) -> (forall t o i, unit_draw (dd_rel (D t) o i)) ->
  drun DN D k (dinit DN w0) = Ok s -> drun DN D (S k) (dinit DN w0) = Ok s' -> release_time (dn_net DN) k ->
  exists nd nt,
    map (purpose_of (ds_d s')) (new_ids (dw_w (ds_d s)) (dw_w (ds_d s'))) = release_list DN (Z.of_nat k) nd nt /\
    (forall o i d dem, nth_error (o_demand o) i = Some (d, dem) -> rounded (dem (assign_at (dn_net DN) k) * n_fs (dn_net DN)) (nd o i)) /\
    (forall o i sq dem, nth_error (dn_tours DN (o_node o)) i = Some (sq, dem) -> rounded (dem (assign_at (dn_net DN) k) * n_fs (dn_net DN)) (nt o i)).
Proof.
  intros DN D w0 k s s' K Hf F DV DT H H' RT. destruct (dstep DN D w0 k s s' K F DV Hf H H') as (d1 & H1 & KP).
  destruct (adds_all DN _ _ _ _ _ Hf (Zle_0_nat k) H1) as [X _]. specialize (X RT). pose proof (adds_keep _ _ _ _ X KP) as AD.
  set (a := assign_at (dn_net DN) k) in *. set (fs := n_fs (dn_net DN)) in *. set (E := D (Z.of_nat k)) in *.
  exists (fun o i => match nth_error (o_demand o) i with Some r => rround (d_rel (dd_base E) (o_node o) (fst r)) (snd r a * fs) | None => 0 end),
         (fun o i => match nth_error (dn_tours DN (o_node o)) i with Some r => rround (dd_rel E (o_node o) i) (snd r a * fs) | None => 0 end).
  split; [|split].
  - rewrite (ad_new _ _ _ AD). unfold release_list. f_equal. apply map_ext. intros o. unfold made_for, copies. f_equal; f_equal.
    + rewrite <- (combine_snd (o_demand o)) at 1. rewrite map_map. apply map_ext_in. intros [i r] Hr. cbn [fst snd]. now rewrite (combine_nth _ _ _ Hr).
    + apply map_ext_in. intros [i r] Hr. cbn [fst snd]. now rewrite (combine_nth _ _ _ Hr).
  - intros o i d dem Hi. rewrite Hi. cbn [fst snd]. apply rround_rounded. apply (DV (Z.of_nat k)).
  - intros o i sq dem Hi. rewrite Hi. cbn [snd]. apply rround_rounded. apply DT.
Qed.
Print Assumptions C135_release_matches_demand.

(** otherwise nothing is released *)
Theorem C135_nothing_released_otherwise : forall DN D w0 k s s', dnet_ok DN -> 0 < n_freq (dn_net DN) -> fresh_world (dn_net DN) w0 ->
  (forall t, draws_valid (dd_base (D t))) ->
  drun DN D k (dinit DN w0) = Ok s -> drun DN D (S k) (dinit DN w0) = Ok s' -> ~ release_time (dn_net DN) k ->
  new_ids (dw_w (ds_d s)) (dw_w (ds_d s')) = [] /\ dw_made (ds_d s') = dw_made (ds_d s).
Proof.
  intros DN D w0 k s s' K Hf F DV H H' RT. destruct (dstep DN D w0 k s s' K F DV Hf H H') as (d1 & H1 & KP).
  destruct (adds_all DN _ _ _ _ _ Hf (Zle_0_nat k) H1) as [_ X]. specialize (X RT). subst d1. split.
  - unfold new_ids. destruct KP as [KN _]. unfold fnum, num in KN. rewrite KN, Z.sub_diag. reflexivity.
  - assert (R : dreached DN D k s) by (exists w0; auto). assert (R' : dreached DN D (S k) s') by (exists w0; auto).
    destruct (dreached_dinv _ _ _ _ K R) as [I _]. destruct (dreached_dinv _ _ _ _ K R') as [I' _]. rewrite (dv_made _ _ I), (dv_made _ _ I'). f_equal.
    destruct KP as [KN KL]. unfold deliveries. unfold fnum, num in KN. rewrite KN. apply filter_ext. intros v. specialize (KL v). unfold purpose_of in KL. destruct (dw_tour (ds_d s') v), (dw_tour (ds_d s) v); congruence.
Qed.
Print Assumptions C135_nothing_released_otherwise.

(** what a vehicle was released for never changes *)
Theorem C135_purpose_kept : forall DN D w0 k s s' v, dnet_ok DN -> 0 < n_freq (dn_net DN) -> fresh_world (dn_net DN) w0 ->
  (forall t, draws_valid (dd_base (D t))) ->
  drun DN D k (dinit DN w0) = Ok s -> drun DN D (S k) (dinit DN w0) = Ok s' -> 1 <= v <= f_num (w_fac (dw_w (ds_d s))) ->
  purpose_of (ds_d s') v = purpose_of (ds_d s) v.
Proof.
  intros DN D w0 k s s' v K Hf F DV H H' Hv. destruct (dstep DN D w0 k s s' K F DV Hf H H') as (d1 & H1 & KP).
  destruct (adds_all DN _ _ _ _ _ Hf (Zle_0_nat k) H1) as [X Y]. destruct KP as [_ KL]. rewrite KL.
  destruct (Z.eq_dec (Z.of_nat k mod n_freq (dn_net DN)) 0) as [M|M]; [|rewrite Y; [reflexivity|tauto]].
  destruct (Z_le_gt_dec 0 (assign_at (dn_net DN) k)) as [L|L]; [|rewrite Y; [reflexivity|lia]].
  destruct (Z_lt_ge_dec (assign_at (dn_net DN) k) (n_total_assign (dn_net DN))) as [L2|L2]; [|rewrite Y; [reflexivity|lia]].
  apply (ad_old _ _ _ (X (conj M (conj L L2)))). unfold fnum, num. lia.
Qed.
Print Assumptions C135_purpose_kept.

(** interval 0 releases two vehicles for the tour and nine ordinary vehicles *)
Example C135_case : release_time (dn_net (tn tn_back tn_some 2)) 0 /\ ~ release_time (dn_net (tn tn_back tn_some 2)) 1 /\ (forall o i, unit_draw (dd_rel tn_draws o i)) /\
  let d := fun k => ds_d (tn_at tn_back tn_some 2 tn_narrow k) in
  map (purpose_of (d 1%nat)) (new_ids (dw_w (d 0%nat)) (dw_w (d 1%nat))) = release_list (tn tn_back tn_some 2) 0 (fun _ _ => 9) (fun _ _ => 2) /\
  length (release_list (tn tn_back tn_some 2) 0 (fun _ _ => 9) (fun _ _ => 2)) = 11%nat /\
  map (purpose_of (d 12%nat)) [1; 2; 3] = [Tour 0 tn_back; Tour 0 tn_back; Car 0 4 2].
Proof.
  split; [unfold release_time, assign_at; vm_compute; auto using Z.le_refl; repeat split; discriminate|]. split; [intros [X _]; vm_compute in X; discriminate|].
  split; [intros o i; split; vm_compute; discriminate|]. cbv zeta. split; [vm_compute; reflexivity|split; vm_compute; reflexivity].
Qed.
