(** What a loading with delivery vehicles releases. *)
From Verif Require Import Base Base_lemmas Model_Num Proof_Num Spec_Path Proof_Path Model_CC Spec_CC Proof_CC Model_Path Model_Link Spec_Link Spec_Node
  Proof_Link Proof_Link3 Proof_Link4 Proof_Link5 Model_World Model_Node Proof_Node Proof_Node2 Proof_Node3 Proof_Node4 Proof_Node5 Model_Sim Spec_Sim Proof_Sim1 Proof_Sim2 Proof_Sim3 Proof_Sim4 Proof_Sim5
  Model_Deliver Spec_Deliver Proof_Deliver1 Proof_Deliver2.
Local Open Scope Z_scope.

Definition fnum (d : dworld) : Z := num (dw_w d).
(** ** after the release *)
Definition kept (d d' : dworld) : Prop := fnum d' = fnum d /\ forall v, purpose_of d' v = purpose_of d v.
Lemma kept_refl d : kept d d. Proof. split; auto. Qed.
Lemma kept_trans a b c : kept a b -> kept b c -> kept a c.
Proof. intros [A B] [A' B']. split; [congruence|]. intros v. now rewrite B'. Qed.
Lemma tsame_kept d d' : tsame d d' -> kept d d'.
Proof.
  intros [F L M S T]. split; [unfold fnum, num; unfold fac_of in F; now rewrite F|]. intros v. unfold purpose_of. specialize (S v). specialize (T v). unfold stat in S. injection S as S1 S2 S3 S4 S5.
  destruct (dw_tour d v), (dw_tour d' v); try contradiction; rewrite ?S1, ?S2, ?S4; [|reflexivity]. destruct T as [-> _]. reflexivity.
Qed.
Lemma reff_kept t n v d d' : reff t n [v] (dw_w d) (dw_w d') -> dw_tour d' = dw_tour d -> kept d d'.
Proof.
  intros R E. split; [unfold fnum, num; apply R|]. intros x. unfold purpose_of. rewrite E, (re_veh _ _ _ _ _ R). destruct (memb x [v]); reflexivity.
Qed.
Lemma recv_kept DN t n d v d' : dreceive_veh DN t n d v = Ok d' -> kept d d'.
Proof.
  intros H. apply dreceive_veh_eff in H as (_ & R & _ & _). destruct R as [TN RE ET|tr o TS EN RE ET|tr o o' e' TS EN NL E2 NE ET F1 F2 F3 F4 F5 FV FT].
  - eapply reff_kept; eauto.
  - eapply reff_kept; eauto.
  - split; [unfold fnum, num; now rewrite F4|]. intros x. unfold purpose_of. rewrite ET, FV. destruct (Z.eqb_spec x v) as [->|Ne].
    + rewrite upd_same, TS. reflexivity.
    + now rewrite upd_other.
Qed.
Lemma receive_kept DN t d n d' : dreceive DN t d n = Ok d' -> kept d d'.
Proof.
  intros H. unfold dreceive in H. apply bind_ok in H as (d1 & H1 & H). apply Ok_inj in H as <-. eapply kept_trans; [|split; reflexivity].
  revert H1. apply (foldM_rel kept); [apply kept_refl|apply kept_trans|]. intros s v s' _ E. eapply recv_kept; eauto.
Qed.
Lemma load_kept DN D t a d d' : dnet_ok DN -> draws_valid (dd_base D) -> dload_once DN D t a d = Ok d' -> dinv DN d ->
  exists d1, drelease_all DN D t a d = Ok d1 /\ kept d1 d'.
Proof.
  intros K DV H I. pose proof (dk_net _ K) as KN. unfold dload_once in H. cbv zeta in H.
  apply bind_ok in H as (d1 & H1 & H). apply bind_ok in H as (d2 & H2 & H). apply bind_ok in H as (d3 & H3 & H). apply bind_ok in H as (d4 & H4 & H).
  exists d1. split; [exact H1|]. assert (I1 : dinv DN d1) by (eapply drelease_all_dinv; eauto).
  unfold on_world in H2. apply bind_ok in H2 as (w2 & W2 & H2). apply Ok_inj in H2 as <-. apply update_routing_r in W2 as [Q2 S2].
  assert (K2 : kept d1 (dset_w d1 w2)) by (apply tsame_kept, tsame_w; [apply Q2|intros v; apply S2]).
  unfold on_world in H3. apply bind_ok in H3 as (w3 & W3 & H3). apply Ok_inj in H3 as <-. cbn [dset_w dw_w] in W3.
  destruct (nodes_stat _ _ _ _ _ KN DV (sinv_q _ _ _ Q2 (dv_s _ _ I1)) W3) as [F3 S3].
  assert (K3 : kept (dset_w d1 w2) (dset_w (dset_w d1 w2) w3)) by (apply tsame_kept, tsame_w; [exact F3|exact S3]).
  eapply kept_trans; [exact K2|]. eapply kept_trans; [exact K3|].
  eapply kept_trans.
  - refine (foldM_rel kept _ _ _ _ _ _ _ H4); [apply kept_refl|apply kept_trans|]. intros s l s' _ E. apply tsame_kept. eapply dlink_step_same; eauto.
  - refine (foldM_rel kept _ _ _ _ _ _ _ H); [apply kept_refl|apply kept_trans|]. intros s n s' _ E. eapply receive_kept; eauto.
Qed.

(** ** the release *)
Record adds (d d' : dworld) (L : list purpose) : Prop := {
  ad_num : fnum d' = fnum d + Zlen L;
  ad_old : forall v, v <= fnum d -> purpose_of d' v = purpose_of d v;
  ad_new : map (purpose_of d') (new_ids (dw_w d) (dw_w d')) = L }.
Lemma adds_kept d d' : kept d d' -> adds d d' [].
Proof.
  intros [A B]. constructor; [change (Zlen []) with 0; lia|auto|]. unfold new_ids. fold (num (dw_w d)) (num (dw_w d')). change (num (dw_w d')) with (fnum d'). rewrite A. unfold fnum. rewrite Z.sub_diag. reflexivity.
Qed.
Lemma adds_trans a b c L1 L2 : adds a b L1 -> adds b c L2 -> adds a c (L1 ++ L2).
Proof.
  intros [N1 O1 W1] [N2 O2 W2]. pose proof (Zle_0_nat (length L1)). pose proof (Zle_0_nat (length L2)). unfold Zlen in *. constructor.
  - unfold Zlen. rewrite app_length. lia.
  - intros v Hv. rewrite O2, O1 by lia. reflexivity.
  - rewrite (new_ids_app (dw_w a) (dw_w b) (dw_w c)) by (unfold fnum in *; lia). rewrite map_app, W2. f_equal. rewrite <- W1. apply map_ext_in. intros v Hv. apply new_ids_In in Hv. apply O2. unfold fnum. lia.
Qed.
Lemma adds_keep a b c L : adds a b L -> kept b c -> adds a c L.
Proof. intros A K. rewrite <- (app_nil_r L). eapply adds_trans; [exact A|]. now apply adds_kept. Qed.

Lemma adds_n D cur assign o dst ratio : forall k w, adds w (drelease_n k D cur assign o dst ratio w) (repeat (Car cur o dst) k).
Proof.
  induction k as [|k IH]; intros w; cbn [drelease_n repeat]; [apply adds_kept, kept_refl|]. change (Car cur o dst :: repeat (Car cur o dst) k) with ([Car cur o dst] ++ repeat (Car cur o dst) k).
  eapply adds_trans; [|apply IH]. set (id := f_num (w_fac (dw_w w)) + 1). constructor.
  - reflexivity.
  - intros v Hv. unfold fnum, num in Hv. unfold purpose_of. cbn [dset_tour dset_w dw_w dw_tour set_oq make_veh set_fac set_vehs w_veh]. fold id. rewrite !upd_other by (unfold id; lia). reflexivity.
  - unfold new_ids. cbn [dset_tour dset_w dw_w set_oq make_veh set_fac set_vehs w_fac f_num]. replace (Z.to_nat _) with 1%nat by lia. cbn [seq map]. unfold purpose_of.
    cbn [dset_tour dset_w dw_w dw_tour set_oq make_veh set_fac set_vehs w_veh]. rewrite Z.add_0_r. fold id. rewrite !upd_same. reflexivity.
Qed.
Lemma adds_dests N D cur assign o ratio : forall ds w,
  adds w (drelease_dests N D cur assign o ratio ds w) (concat (map (fun r => repeat (Car cur o (fst r)) (Z.to_nat (rround (d_rel (dd_base D) o (fst r)) (snd r assign * n_fs N)))) ds)).
Proof.
  induction ds as [|[d dem] ds IH]; intros w; cbn [drelease_dests map concat fst snd]; [apply adds_kept, kept_refl|]. eapply adds_trans; [apply adds_n|apply IH].
Qed.
Lemma adds_tour D cur assign o ratio sq : forall k w w', drelease_tour k D cur assign o ratio sq w = Ok w' -> adds w w' (repeat (Tour cur sq) k).
Proof.
  induction k as [|k IH]; intros w w' H; cbn [drelease_tour repeat] in *; [apply Ok_inj in H as <-; apply adds_kept, kept_refl|]. change (Tour cur sq :: repeat (Tour cur sq) k) with ([Tour cur sq] ++ repeat (Tour cur sq) k).
  apply bind_ok in H as (u & _ & H). eapply adds_trans; [|eapply IH; exact H]. set (id := f_num (w_fac (dw_w w)) + 1). constructor.
  - reflexivity.
  - intros v Hv. unfold fnum, num in Hv. unfold purpose_of. cbn [dset_tour dset_w dw_w dw_tour set_oq make_veh set_fac set_vehs w_veh]. fold id. rewrite !upd_other by (unfold id; lia). reflexivity.
  - unfold new_ids. cbn [dset_tour dset_w dw_w set_oq make_veh set_fac set_vehs w_fac f_num]. replace (Z.to_nat _) with 1%nat by lia. cbn [seq map]. unfold purpose_of.
    cbn [dset_tour dset_w dw_w dw_tour set_oq make_veh set_fac set_vehs w_veh]. rewrite Z.add_0_r. fold id. rewrite !upd_same. reflexivity.
Qed.
Lemma adds_tours N D cur assign o ratio : forall ts i w w', drelease_tours N D cur assign o ratio i ts w = Ok w' ->
  adds w w' (concat (map (fun ir => repeat (Tour cur (fst (snd ir))) (Z.to_nat (rround (dd_rel D o (fst ir)) (snd (snd ir) assign * n_fs N)))) (combine (seq i (length ts)) ts))).
Proof.
  induction ts as [|[sq dem] ts IH]; intros i w w' H; cbn [drelease_tours] in H; [apply Ok_inj in H as <-; apply adds_kept, kept_refl|].
  apply bind_ok in H as (w1 & H1 & H). cbn [length seq combine map concat fst snd]. eapply adds_trans; [eapply adds_tour; exact H1|eapply IH; exact H].
Qed.

Definition made_for (DN : dnet) (D : ddraws) (cur assign : Z) (o : origin) : list purpose :=
  concat (map (fun r => repeat (Car cur (o_node o) (fst r)) (Z.to_nat (rround (d_rel (dd_base D) (o_node o) (fst r)) (snd r assign * n_fs (dn_net DN))))) (o_demand o)) ++
  concat (map (fun ir => repeat (Tour cur (fst (snd ir))) (Z.to_nat (rround (dd_rel D (o_node o) (fst ir)) (snd (snd ir) assign * n_fs (dn_net DN)))))
    (combine (seq 0 (length (dn_tours DN (o_node o)))) (dn_tours DN (o_node o)))).
Lemma adds_one DN D cur assign ratio w o w' : 0 <= assign -> drelease_one DN D cur assign ratio w o = Ok w' -> adds w w' (made_for DN D cur assign o).
Proof.
  intros A H. unfold drelease_one in H. destruct (Z.ltb_spec assign 0); [lia|]. apply bind_ok in H as (w2 & H2 & H). apply Ok_inj in H as <-.
  apply (adds_keep w w2); [|split; reflexivity]. unfold made_for. eapply adds_trans; [apply adds_dests|eapply adds_tours; exact H2].
Qed.
Lemma adds_all DN D cur assign w w' : 0 < n_freq (dn_net DN) -> 0 <= cur -> drelease_all DN D cur assign w = Ok w' ->
  (cur mod n_freq (dn_net DN) = 0 /\ 0 <= assign < n_total_assign (dn_net DN) -> adds w w' (concat (map (made_for DN D cur assign) (n_origins (dn_net DN))))) /\
  (~ (cur mod n_freq (dn_net DN) = 0 /\ 0 <= assign < n_total_assign (dn_net DN)) -> w' = w).
Proof.
  intros Hf Hc H. unfold drelease_all in H. cbv zeta in H. apply bind_ok in H as (u & _ & H). rewrite Z.rem_mod_nonneg in H by lia.
  assert (NEG : forall a b os w w', a < 0 -> foldM (drelease_one DN D cur a b) w os = Ok w' -> w' = w).
  { intros a b. induction os as [|o os IH]; intros x x' Ha E; cbn [foldM] in E; [apply Ok_inj in E; congruence|]. apply bind_ok in E as (y & E1 & E). unfold drelease_one in E1. destruct (Z.ltb_spec a 0); [|lia]. apply Ok_inj in E1 as <-. now apply IH. }
  destruct (Z.eqb_spec (cur mod n_freq (dn_net DN)) 0) as [E|E].
  2:{ apply Ok_inj in H as <-. split; [tauto|auto]. }
  destruct (Z.leb_spec (n_total_assign (dn_net DN)) assign) as [L|L].
  - apply NEG in H; [|lia]. split; [lia|auto].
  - destruct (Z_lt_ge_dec assign 0) as [Neg|Pos].
    + apply NEG in H; [|exact Neg]. split; [lia|auto].
    + split; [intros _|intros Hn; exfalso; apply Hn; lia]. revert w H. induction (n_origins (dn_net DN)) as [|o os IH]; intros w H; cbn [foldM] in H.
      * apply Ok_inj in H as <-. apply adds_kept, kept_refl.
      * apply bind_ok in H as (w1 & H1 & H). cbn [map concat]. eapply adds_trans; [eapply adds_one; [lia|exact H1]|now apply IH].
Qed.

Lemma dassign DN D k s : 0 < n_freq (dn_net DN) -> dreached DN D k s -> ds_assign s = assign_at (dn_net DN) k.
Proof.
  intros Hf (w0 & F & DV & H). assert (X : ds_cur s = Z.of_nat k /\ ds_assign s = assign_at (dn_net DN) k); [|apply X]. revert s H. induction k as [|k IH]; intros s H.
  - simpl in H. apply Ok_inj in H as <-. cbn [dinit ds_cur ds_assign]. unfold assign_at. change (Z.of_nat 0) with 0. rewrite Z.div_0_l by lia. split; lia.
  - apply drun_S in H as (s1 & H1 & H2). destruct (IH s1 H1) as [C A]. unfold dloop_body in H2. apply bind_ok in H2 as (w & _ & H2). cbv zeta in H2. apply Ok_inj in H2 as <-. cbn [ds_cur ds_assign].
    rewrite C. split; [lia|]. rewrite Z.rem_mod_nonneg by lia. unfold assign_at in *. rewrite Nat2Z.inj_succ. unfold Z.succ. rewrite A. set (q := Z.of_nat k) in *. set (f := n_freq (dn_net DN)) in *.
    pose proof (Z.div_mod q f ltac:(lia)). pose proof (Z.mod_pos_bound q f ltac:(lia)). destruct (Z.eqb_spec ((q + 1) mod f) 0) as [E|E].
    + apply Z.div_exact in E; [|lia]. assert ((q + 1) / f = q / f + 1); [|lia]. nia.
    + pose proof (Z.div_mod (q + 1) f ltac:(lia)). pose proof (Z.mod_pos_bound (q + 1) f ltac:(lia)). assert ((q + 1) / f = q / f); [|lia]. nia.
Qed.
