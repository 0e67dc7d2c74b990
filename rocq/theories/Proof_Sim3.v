(** Conservation through a whole loading interval and a whole run. *)
From Verif Require Import Base Base_lemmas Model_Num Proof_Num Spec_Path Proof_Path Model_CC Spec_CC Proof_CC Model_Path Model_Link Spec_Link Spec_Node
  Proof_Link Proof_Link3 Proof_Link4 Proof_Link5 Model_World Model_Node Proof_Node Proof_Node2 Proof_Node3 Proof_Node4 Proof_Node5 Model_Sim Spec_Sim Proof_Sim1 Proof_Sim2.
Local Open Scope Z_scope.

Definition one_if (b : bool) : Z := if b then 1 else 0.
Definition trip (d : Z * (Z * Z)) : Z := snd (snd d) - fst (snd d).

Record sinv (N : net) (w : world) : Prop := {
  i_paired : paired (w_cc w);
  i_body : forall l, In l (n_links N) -> body_inv (l_body (w_link w l));
  i_count : forall v, zcount N w v + zc v (arrived w) = one_if ((1 <=? v) && (v <=? f_num (w_fac w)));
  i_live : forall v, zc v (f_live (w_fac w)) = zcount N w v;
  i_num : 0 <= f_num (w_fac w);
  i_bal : forall l c c', In l (n_links N) -> cc_Nin (w_cc w) l = Some c -> cc_Nout (w_cc w) l = Some c' ->
    ((last_value c - last_value c') * n_fs N == inject_Z (Zlen (on_link (w_link w l))))%Q;
  i_enr : f_num (w_fac w) = f_enroute (w_fac w) + f_finished (w_fac w);
  i_fin : f_finished (w_fac w) = Zlen (f_done (w_fac w));
  i_tt : (f_tt (w_fac w) == inject_Z (sumZ (map trip (f_done (w_fac w)))))%Q;
  i_gap : Forall (fun d => 1 <= trip d) (f_done (w_fac w)) }.

(** what the invariant looks at *)
Definition same_q (w w' : world) : Prop :=
  w_link w' = w_link w /\ w_oq w' = w_oq w /\ w_dq w' = w_dq w /\ w_cc w' = w_cc w /\ w_fac w' = w_fac w.
Lemma same_q_refl w : same_q w w. Proof. repeat split. Qed.
Lemma same_q_trans a b c : same_q a b -> same_q b c -> same_q a c.
Proof. unfold same_q. intuition congruence. Qed.
Lemma zcount_q N w w' v : w_link w' = w_link w -> w_oq w' = w_oq w -> w_dq w' = w_dq w -> zcount N w' v = zcount N w v.
Proof. intros A B C. unfold zcount, zo, zl, zd. now rewrite A, B, C. Qed.
Lemma sinv_q N w w' : same_q w w' -> sinv N w -> sinv N w'.
Proof.
  intros (A & B & C & D & E) [H1 H2 H3 H4 H5 H6 H7 H8 H9 H10]. constructor; unfold arrived; rewrite ?A, ?D, ?E; auto.
  - intros v. rewrite (zcount_q N w w' v) by assumption. apply H3.
  - intros v. rewrite (zcount_q N w w' v) by assumption. apply H4.
Qed.

(** ** release *)
Lemma zcount_oq N w w' o v x : net_ok N -> In o (map o_node (n_origins N)) -> w_link w' = w_link w -> w_dq w' = w_dq w ->
  (forall n, n <> o -> w_oq w' n = w_oq w n) -> zc v (w_oq w' o) = zc v (w_oq w o) + x -> zcount N w' v = zcount N w v + x.
Proof.
  intros K Ho A B C E. unfold zcount, zl, zd. rewrite A, B. enough (zo N w' v - zo N w v = x) by lia.
  unfold zo. rewrite <- sumZ_map_minus, (sumZ_support1 _ _ o (no_origins N K) Ho); [lia|]. intros n _ Hn. rewrite C by exact Hn. lia.
Qed.

Lemma zc_one v x : zc v [x] = one_if (v =? x).
Proof. unfold zc. simpl. destruct (Z.eqb_spec v x); reflexivity. Qed.

Lemma release_one_sinv N start ad o d a w w1 w2 : net_ok N -> In o (map o_node (n_origins N)) -> sinv N w ->
  w1 = make_veh w start ad o d a -> w2 = set_oq w1 o (w_oq w1 o ++ [f_num (w_fac w) + 1]) -> sinv N w2.
Proof.
  intros K Ho [H1 H2 H3 H4 H5 H6 H7 H8 H9 H10] -> ->. set (id := f_num (w_fac w) + 1).
  assert (Z0 : forall v, zcount N (set_oq (make_veh w start ad o d a) o (w_oq (make_veh w start ad o d a) o ++ [id])) v = zcount N w v + one_if (v =? id)).
  { intros v. eapply zcount_oq; eauto.
    - intros n Hn. cbn [set_oq w_oq]. now rewrite upd_other.
    - cbn [set_oq w_oq]. rewrite upd_same, zc_app, zc_one. reflexivity. }
  constructor; unfold arrived; cbn [set_oq make_veh set_fac set_vehs w_link w_dq w_oq w_cc w_fac f_num f_live f_enroute f_finished f_tt f_done];
    fold id; auto; try lia.
  - intros v. rewrite Z0. specialize (H3 v). unfold arrived in H3. subst id.
    destruct (Z.eqb_spec v (f_num (w_fac w) + 1)), (Z.leb_spec 1 v), (Z.leb_spec v (f_num (w_fac w))), (Z.leb_spec v (f_num (w_fac w) + 1));
      cbn [andb one_if] in *; lia.
  - intros v. rewrite Z0, zc_app, zc_one, H4. reflexivity.
Qed.

Lemma release_n_sinv N D cur assign o d ratio : net_ok N -> In o (map o_node (n_origins N)) ->
  forall k w, sinv N w -> sinv N (release_n k D cur assign o d ratio w).
Proof.
  intros K Ho. induction k as [|k IH]; intros w I; [exact I|]. simpl. apply IH. eapply release_one_sinv; eauto.
Qed.
Lemma release_dests_sinv N D cur assign o : net_ok N -> In (o_node o) (map o_node (n_origins N)) ->
  forall ds ratio w, sinv N w -> sinv N (release_dests N D cur assign o ratio ds w).
Proof.
  intros K Ho. induction ds as [|[d dem] ds IH]; intros ratio w I; [exact I|]. simpl. apply IH. apply release_n_sinv; auto.
Qed.
Lemma shuffle_sinv N w o l : net_ok N -> In o (map o_node (n_origins N)) -> Permutation l (w_oq w o) -> sinv N w -> sinv N (set_oq w o l).
Proof.
  intros K Ho P [H1 H2 H3 H4 H5 H6 H7 H8 H9 H10].
  assert (Z0 : forall v, zcount N (set_oq w o l) v = zcount N w v).
  { intros v. rewrite <- (Z.add_0_r (zcount N w v)). eapply zcount_oq; eauto.
    - intros n Hn. cbn [set_oq w_oq]. now rewrite upd_other.
    - cbn [set_oq w_oq]. rewrite upd_same, (zc_perm v _ _ P). lia. }
  constructor; unfold arrived; cbn [set_oq w_link w_dq w_oq w_cc w_fac]; auto; intros v; rewrite Z0; apply H3 || apply H4.
Qed.
Lemma release_all_sinv N D cur assign w w' : net_ok N -> draws_valid D -> release_all N D cur assign w = Ok w' -> sinv N w -> sinv N w'.
Proof.
  intros K (_ & _ & Hs & _) H I. unfold release_all in H. apply bind_ok in H as (u & _ & H).
  destruct (_ =? 0); apply Ok_inj in H as <-; [|exact I].
  set (asg := if n_total_assign N <=? assign then -1 else assign). clearbody asg.
  assert (X : forall os w, (forall o, In o os -> In o (n_origins N)) -> sinv N w -> sinv N (fold_left (release_one N D cur asg (base_ratio (n_routing N))) os w)).
  { induction os as [|o os IH]; intros w0 So I0; [exact I0|]. simpl. apply IH; [intros; apply So; now right|].
    assert (Ho : In (o_node o) (map o_node (n_origins N))) by (apply in_map, So; now left).
    unfold release_one. destruct (asg <? 0); [exact I0|]. apply shuffle_sinv; auto; [apply Hs|]. now apply release_dests_sinv. }
  apply X; auto.
Qed.

(** ** routing *)
Lemma foldM_rel {S A} (R : S -> S -> Prop) (f : S -> A -> res S) : (forall s, R s s) -> (forall a b c, R a b -> R b c -> R a c) ->
  forall l s s', (forall s a s', In a l -> f s a = Ok s' -> R s s') -> foldM f s l = Ok s' -> R s s'.
Proof.
  intros Hr Ht. induction l as [|a l IH]; intros s s' Hf H; simpl in H; [apply Ok_inj in H as <-; apply Hr|].
  apply bind_ok in H as (s1 & H1 & H2). eapply Ht; [eapply Hf; [now left|exact H1]|]. apply IH; auto. intros. eapply Hf; eauto. now right.
Qed.
Lemma advance_q N w v w' : advance N w v = Ok w' -> same_q w w'.
Proof.
  unfold advance. destruct (w_trk w v) as [[|l r]|]; try discriminate. intros H. apply bind_ok in H as (u & _ & H). apply Ok_inj in H as <-. repeat split.
Qed.
Lemma register_q D w v b w' : register_veh D w v b = Ok w' -> same_q w w'.
Proof.
  unfold register_veh. cbv zeta. destruct (pt_find _ _); [|discriminate]. intros H. apply bind_ok in H as (i & _ & H).
  destruct (nth_error _ _); [|discriminate]. apply Ok_inj in H as <-. destruct b; [destruct (w_trk w v)|]; repeat split.
Qed.
Lemma fixed_origin_q N D w v w' : fixed_origin_veh N D w v = Ok w' -> same_q w w'.
Proof.
  unfold fixed_origin_veh. destruct (v_adapt _).
  - destruct (v_path _); [intros H; apply Ok_inj in H as <-; apply same_q_refl|apply register_q].
  - destruct (w_trk w v); [intros H; apply Ok_inj in H as <-; apply same_q_refl|].
    intros H. apply bind_ok in H as (w1 & H1 & H2). apply register_q in H1. apply advance_q in H2. eapply same_q_trans; eauto.
Qed.
Lemma fixed_link_q N l w v w' : fixed_link_veh N l w v = Ok w' -> same_q w w'.
Proof.
  unfold fixed_link_veh. destruct (v_adapt _); [intros H; apply Ok_inj in H as <-; apply same_q_refl|].
  destruct (_ =? _).
  - destruct (w_trk w v); [|discriminate]. intros H. apply bind_ok in H as (u & _ & H). apply Ok_inj in H as <-. repeat split.
  - destruct (w_trk w v); [|discriminate]. destruct (opt_eqb _ _); [apply advance_q|intros H; apply Ok_inj in H as <-; apply same_q_refl].
Qed.
Lemma fixed_portion_q N t w w' : fixed_portion N t w = Ok w' -> same_q w w'.
Proof.
  unfold fixed_portion. destruct (_ || _); [intros H; apply Ok_inj in H as <-; apply same_q_refl|].
  intros H. apply bind_ok in H as (u & _ & H). destruct (_ && _); [|apply Ok_inj in H as <-; apply same_q_refl].
  apply bind_ok in H as (pt & _ & H). apply Ok_inj in H as <-. repeat split.
Qed.
Lemma fixed_routing_q N D t w w' : fixed_routing N D t w = Ok w' -> same_q w w'.
Proof.
  unfold fixed_routing. intros H. apply bind_ok in H as (w1 & H1 & H). apply bind_ok in H as (w2 & H2 & H3).
  eapply same_q_trans; [eapply fixed_portion_q; eauto|]. eapply same_q_trans.
  - eapply foldM_rel; [apply same_q_refl|apply same_q_trans| |exact H2]. intros s o s' _ E.
    eapply foldM_rel; [apply same_q_refl|apply same_q_trans| |exact E]. intros. eapply fixed_origin_q; eauto.
  - eapply foldM_rel; [apply same_q_refl|apply same_q_trans| |exact H3]. intros s o s' _ E.
    eapply foldM_rel; [apply same_q_refl|apply same_q_trans| |exact E]. intros. eapply fixed_link_q; eauto.
Qed.
Lemma adaptive_routing_q N D w w' : adaptive_routing N D w = Ok w' -> same_q w w'.
Proof.
  unfold adaptive_routing. intros H. apply bind_ok in H as (w2 & H2 & H3). eapply same_q_trans.
  - eapply foldM_rel; [apply same_q_refl|apply same_q_trans| |exact H2]. intros s o s' _ E.
    eapply foldM_rel; [apply same_q_refl|apply same_q_trans| |exact E]. intros x v y _ G.
    unfold adaptive_origin_veh in G. destruct (v_adapt _); [|apply Ok_inj in G as <-; apply same_q_refl].
    cbv zeta in G. apply bind_ok in G as (u & _ & G). apply bind_ok in G as (u' & _ & G). apply Ok_inj in G as <-. repeat split.
  - eapply foldM_rel; [apply same_q_refl|apply same_q_trans| |exact H3]. intros s o s' _ E.
    eapply foldM_rel; [apply same_q_refl|apply same_q_trans| |exact E]. intros x v y _ G.
    unfold adaptive_link_veh in G. destruct (v_adapt _); [|apply Ok_inj in G as <-; apply same_q_refl].
    apply bind_ok in G as (u & _ & G). destruct (_ =? _); [apply Ok_inj in G as <-; repeat split|].
    cbv zeta in G. apply bind_ok in G as (u' & _ & G). apply bind_ok in G as (u'' & _ & G). apply Ok_inj in G as <-. repeat split.
Qed.
Lemma update_routing_q N D t w w' : update_routing N D t w = Ok w' -> same_q w w'.
Proof.
  unfold update_routing. destruct (n_routing N) as [| |x].
  all: try apply fixed_routing_q; try apply adaptive_routing_q.
  intros H. apply bind_ok in H as (w1 & H1 & H2). eapply same_q_trans; [|eapply fixed_routing_q; eauto].
  destruct (Qltb 0 x); [eapply adaptive_routing_q; eauto|apply Ok_inj in H1 as <-; apply same_q_refl].
Qed.

(** ** nodes *)
Lemma on_link_len l : Zlen (on_link l) = Zlen (l_fin l) + Zlen (inside (l_body l)) + Zlen (l_in l).
Proof. unfold on_link. rewrite !Zlen_app. lia. Qed.
Lemma neff_bal N t w w' e lv o d l c c' : (0 < n_fs N)%Q -> neff N t w w' e lv o d ->
  (forall c c', cc_Nin (w_cc w) l = Some c -> cc_Nout (w_cc w) l = Some c' ->
    ((last_value c - last_value c') * n_fs N == inject_Z (Zlen (on_link (w_link w l))))%Q) ->
  cc_Nin (w_cc w') l = Some c -> cc_Nout (w_cc w') l = Some c' ->
  ((last_value c - last_value c') * n_fs N == inject_Z (Zlen (on_link (w_link w' l))))%Q.
Proof.
  intros Hf J H Ec Ec'. pose proof (ne_Nin _ _ _ _ _ _ _ _ J l) as B. pose proof (ne_Nout _ _ _ _ _ _ _ _ J l) as B'.
  destruct (cc_Nin (w_cc w) l) as [c0|] eqn:E0; [|apply bump_none in B; congruence].
  destruct (cc_Nout (w_cc w) l) as [c1|] eqn:E1; [|apply bump_none in B'; congruence].
  apply bump_last in B as (x & Ex & B). apply bump_last in B' as (x' & Ex' & B').
  rewrite Ec in Ex. injection Ex as <-. rewrite Ec' in Ex'. injection Ex' as <-.
  specialize (H c0 c1 eq_refl eq_refl). rewrite on_link_len in *.
  rewrite (ne_in _ _ _ _ _ _ _ _ J l). destruct (ne_like _ _ _ _ _ _ _ _ J l) as [_ ->].
  pose proof (Permutation_length (ne_fin _ _ _ _ _ _ _ _ J l)) as P. rewrite app_length in P.
  assert (P' : Zlen (l_fin (w_link w l)) = Zlen (lv l) + Zlen (l_fin (w_link w' l))) by (unfold Zlen; lia).
  rewrite Zlen_app. rewrite P' in H.
  replace (Zlen (l_fin (w_link w' l)) + Zlen (inside (l_body (w_link w l))) + (Zlen (l_in (w_link w l)) + Zlen (e l)))
    with ((Zlen (lv l) + Zlen (l_fin (w_link w' l)) + Zlen (inside (l_body (w_link w l))) + Zlen (l_in (w_link w l))) + Zlen (e l) - Zlen (lv l)) by lia.
  unfold Z.sub. rewrite inject_Z_plus, inject_Z_plus, inject_Z_opp, <- H, B, B'. field. lra.
Qed.
Lemma neff_sinv N t w w' e lv o d : net_ok N -> neff N t w w' e lv o d -> sinv N w -> sinv N w'.
Proof.
  intros K J I. pose proof (ne_keep _ _ _ _ _ _ _ _ J) as (Ef & _). destruct I as [H1 H2 H3 H4 H5 H6 H7 H8 H9 H10].
  constructor; unfold arrived; rewrite ?Ef; auto.
  - eapply neff_paired; eauto.
  - intros l Hl. destruct (ne_like _ _ _ _ _ _ _ _ J l) as [_ ->]. auto.
  - intros v. rewrite (ne_count _ _ _ _ _ _ _ _ J v). apply H3.
  - intros v. rewrite (ne_count _ _ _ _ _ _ _ _ J v). apply H4.
  - intros l c c' Hl. eapply neff_bal; eauto using no_fs.
Qed.
Lemma nodes_sinv N D t w w' : net_ok N -> draws_valid D -> foldM (node_evolve N D t) w (n_nodes N) = Ok w' -> sinv N w -> sinv N w'.
Proof.
  intros K DV H I. eapply (foldM_inv (node_evolve N D t) (sinv N)); eauto.
  intros nk s s' Hin Hs E. destruct (node_neff N D t s s' nk K DV (i_paired N s Hs) Hin E) as (e & lv & o & d & J). eapply neff_sinv; eauto.
Qed.

(** ** links *)
Lemma link_step_sinv N D w l w' : net_ok N -> In l (n_links N) -> link_step D w l = Ok w' -> sinv N w -> sinv N w'.
Proof.
  intros K Hl H [H1 H2 H3 H4 H5 H6 H7 H8 H9 H10]. unfold link_step in H. apply bind_ok in H as (x & Hx & H). apply bind_ok in H as (y & Hy & H).
  apply Ok_inj in H as <-. destruct (link_clear_line _ _ Hx (H2 l Hl)) as (Bx & Ex & _).
  destruct (link_evolve_line _ _ _ _ Hy Bx) as (By & Ey & _).
  assert (OL : forall l', on_link (w_link (set_link w l y) l') = on_link (w_link w l')).
  { intros l'. cbn [set_link w_link]. destruct (Z.eq_dec l' l) as [->|Ne]; [rewrite upd_same; congruence|now rewrite upd_other]. }
  assert (Z0 : forall v, zcount N (set_link w l y) v = zcount N w v).
  { intros v. unfold zcount, zo, zl, zd. cbn [set_link w_oq w_dq]. f_equal. f_equal. apply sumZ_map_ext. intros l' _. now rewrite OL. }
  constructor; unfold arrived; cbn [set_link w_cc w_fac]; auto.
  - intros l' Hl'. cbn [set_link w_link]. destruct (Z.eq_dec l' l) as [->|Ne]; [now rewrite upd_same|rewrite upd_other by exact Ne; auto].
  - intros v. rewrite Z0. apply H3.
  - intros v. rewrite Z0. apply H4.
  - intros l' c c' Hl' Ec Ec'. specialize (H6 l' c c' Hl' Ec Ec'). fold (set_link w l y). rewrite OL. exact H6.
Qed.
Lemma links_sinv N D w w' : net_ok N -> foldM (link_step D) w (n_links N) = Ok w' -> sinv N w -> sinv N w'.
Proof.
  intros K H I. eapply (foldM_inv (link_step D) (sinv N)); eauto. intros l s s' Hl Hs E. eapply link_step_sinv; eauto.
Qed.

(** ** arrivals *)
Record reff (t n : Z) (vs : list Z) (w w' : world) : Prop := {
  re_link : w_link w' = w_link w; re_oq : w_oq w' = w_oq w; re_dq : w_dq w' = w_dq w; re_cc : w_cc w' = w_cc w; re_pt : w_pt w' = w_pt w;
  re_num : f_num (w_fac w') = f_num (w_fac w);
  re_done : f_done (w_fac w') = f_done (w_fac w) ++ map (fun v => (v, (v_start (w_veh w v), t))) vs;
  re_enr : f_enroute (w_fac w') = f_enroute (w_fac w) - Zlen vs;
  re_fin : f_finished (w_fac w') = f_finished (w_fac w) + Zlen vs;
  re_tt : (f_tt (w_fac w') == f_tt (w_fac w) + inject_Z (sumZ (map (fun v => t - v_start (w_veh w v))%Z vs)))%Q;
  re_start : Forall (fun v => v_start (w_veh w v) < t /\ v_dst (w_veh w v) = n) vs;
  re_live : forall v, zc v (f_live (w_fac w')) = if memb v vs then 0 else zc v (f_live (w_fac w));
  re_veh : forall v, w_veh w' v = if memb v vs then set_vfin t (w_veh w v) else w_veh w v;
  re_trk : forall v, w_trk w' v = w_trk w v \/ (In v vs /\ w_trk w' v = None);
  re_in : forall v, In v vs -> In v (f_live (w_fac w)) }.

Lemma zc_filter_neq v y l : zc v (filter (fun x => negb (x =? y)) l) = if v =? y then 0 else zc v l.
Proof.
  unfold zc. induction l as [|x l IH]; simpl; [destruct (v =? y); reflexivity|].
  destruct (Z.eqb_spec x y) as [->|Ne]; simpl.
  - rewrite IH. destruct (Z.eqb_spec v y); reflexivity.
  - destruct (Z.eqb_spec v x) as [->|]; [|exact IH]. destruct (Z.eqb_spec x y); [contradiction|]. lia.
Qed.

Lemma receive_veh_eff N t n w v w' : receive_veh N t n w v = Ok w' -> reff t n [v] w w'.
Proof.
  unfold receive_veh. intros H. apply bind_ok in H as (u & G & H). apply guard_ok in G. apply Z.eqb_eq in G. cbv zeta in H.
  apply bind_ok in H as (w2 & H2 & H).
  assert (X : w_fac w2 = w_fac w /\ w_link w2 = w_link w /\ w_oq w2 = w_oq w /\ w_dq w2 = w_dq w /\ w_cc w2 = w_cc w /\ w_pt w2 = w_pt w /\
              w_veh w2 = upd (w_veh w) v (set_vfin t (w_veh w v)) /\ (forall y, w_trk w2 y = w_trk w y \/ (y = v /\ w_trk w2 y = None))).
  { destruct (n_routing N).
    2:{ apply Ok_inj in H2 as <-. repeat split; auto. }
    all: apply bind_ok in H2 as (u2 & _ & H2); cbn [set_vehs w_trk] in H2; destruct (w_trk w v) eqn:Et; [apply bind_ok in H2 as (u3 & _ & H2)|].
    all: apply Ok_inj in H2 as <-; repeat split; auto.
    all: intros y; cbn [set_trk w_trk]; destruct (Z.eq_dec y v) as [->|Ne]; [right; split; [reflexivity|apply upd_same]|left; now rewrite upd_other]. }
  destruct X as (Xf & Xl & Xo & Xd & Xc & Xp & Xv & Xt). rewrite Xf in H.
  apply bind_ok in H as (u3 & G3 & H). apply guard_ok in G3. apply memb_In in G3.
  apply bind_ok in H as (u4 & G4 & H). apply guard_ok in G4. apply Z.ltb_lt in G4. cbn [set_vfin v_fin v_start] in G4.
  apply bind_ok in H as (u5 & _ & H). apply Ok_inj in H as <-.
  constructor; cbn [set_fac w_link w_oq w_dq w_cc w_pt w_fac w_veh w_trk f_num f_done f_enroute f_finished f_tt f_live map sumZ fold_right set_vfin v_fin v_start]; auto.
  - rewrite Z.add_0_r. reflexivity.
  - intros v'. rewrite zc_filter_neq. unfold memb. simpl. rewrite orb_false_r, Z.eqb_sym. destruct (v =? v'); reflexivity.
  - intros v'. rewrite Xv. unfold memb. simpl. rewrite orb_false_r. destruct (Z.eqb_spec v' v) as [->|Ne]; [now rewrite upd_same|now rewrite upd_other].
  - intros y. destruct (Xt y) as [E|[-> E]]; [now left|right; split; [now left|exact E]].
  - intros v' [<-|[]]. exact G3.
Qed.

Lemma memb_app v a b : memb v (a ++ b) = memb v a || memb v b.
Proof. unfold memb. apply existsb_app. Qed.

Lemma reff_trans t n a b w w1 w2 : reff t n a w w1 -> reff t n b w1 w2 -> reff t n (a ++ b) w w2.
Proof.
  intros [A1 A2 A3 A4 A5 A6 A7 A8 A9 A10 A11 A12 A13 A14 A15] [B1 B2 B3 B4 B5 B6 B7 B8 B9 B10 B11 B12 B13 B14 B15].
  assert (S1 : forall v, v_start (w_veh w1 v) = v_start (w_veh w v)) by (intros v; rewrite A13; destruct (memb v a); reflexivity).
  assert (D1 : forall v, v_dst (w_veh w1 v) = v_dst (w_veh w v)) by (intros v; rewrite A13; destruct (memb v a); reflexivity).
  constructor; try congruence.
  - rewrite B7, A7, map_app, <- app_assoc. f_equal. f_equal. apply map_ext. intros v. now rewrite S1.
  - rewrite B8, A8, Zlen_app. lia.
  - rewrite B9, A9, Zlen_app. lia.
  - rewrite B10, A10, map_app, sumZ_app, inject_Z_plus. rewrite (sumZ_map_ext (fun v => t - v_start (w_veh w1 v)) (fun v => t - v_start (w_veh w v)) b) by (intros; now rewrite S1). lra.
  - apply Forall_app. split; [exact A11|]. eapply Forall_impl; [|exact B11]. cbv beta. intros v. rewrite S1, D1. auto.
  - intros v. rewrite B12, A12, memb_app. destruct (memb v a), (memb v b); reflexivity.
  - intros v. rewrite B13, A13, memb_app. destruct (memb v a), (memb v b); reflexivity.
  - intros v. rewrite in_app_iff. destruct (B14 v) as [E|[I E]]; [|right; auto]. destruct (A14 v) as [E'|[I' E']]; [left; congruence|right; split; [auto|congruence]].
  - intros v Hv. apply in_app_or in Hv as [Hv|Hv]; [auto|]. apply B15 in Hv. rewrite zc_In in *. rewrite A12 in Hv. destruct (memb v a); [lia|exact Hv].
Qed.
Lemma reff_nil t n w : reff t n [] w w.
Proof.
  constructor; auto; try (intros ? []); try lia; try (unfold Zlen; simpl; lia).
  - now rewrite app_nil_r.
  - simpl. change (inject_Z 0) with 0%Q. lra.
Qed.
Lemma receive_loop_eff N t n : forall vs w w', foldM (receive_veh N t n) w vs = Ok w' -> reff t n vs w w'.
Proof.
  induction vs as [|v vs IH]; intros w w' H; simpl in H; [apply Ok_inj in H as <-; apply reff_nil|].
  apply bind_ok in H as (w1 & H1 & H2). apply receive_veh_eff in H1. apply IH in H2. exact (reff_trans t n [v] vs w w1 w' H1 H2).
Qed.
Lemma receive_sinv N t n w w' : net_ok N -> In n (n_dests N) -> receive N t w n = Ok w' -> sinv N w -> sinv N w'.
Proof.
  intros K Hn H I. unfold receive in H. apply bind_ok in H as (w1 & H1 & H). apply Ok_inj in H as <-.
  apply receive_loop_eff in H1. destruct H1 as [A1 A2 A3 A4 A5 A6 A7 A8 A9 A10 A11 A12 A13 A14 A15]. destruct I as [H1 H2 H3 H4 H5 H6 H7 H8 H9 H10].
  assert (Z0 : forall v, zcount N (set_dq w1 n []) v = zcount N w v - zc v (w_dq w n)).
  { intros v. unfold zcount, zo, zl. cbn [set_dq w_oq w_link]. rewrite A1, A2.
    enough (zd N (set_dq w1 n []) v - zd N w v = - zc v (w_dq w n)) by lia.
    unfold zd. rewrite <- sumZ_map_minus, (sumZ_support1 _ _ n (no_dests N K) Hn).
    - cbn [set_dq w_dq]. rewrite upd_same, zc_nil. lia.
    - intros y _ Hy. cbn [set_dq w_dq]. rewrite upd_other, A3 by exact Hy. lia. }
  assert (AR : forall v, zc v (arrived (set_dq w1 n [])) = zc v (arrived w) + zc v (w_dq w n)).
  { intros v. unfold arrived. cbn [set_dq w_fac]. rewrite A7, map_app, map_map, zc_app. cbn [fst]. now rewrite map_id. }
  assert (CC : forall v, 0 <= zcount N (set_dq w1 n []) v).
  { intros v. rewrite zcount_places. apply zc_nonneg. }
  constructor; cbn [set_dq w_cc w_link w_fac]; rewrite ?A4, ?A1, ?A6, ?A8, ?A9, ?A10; auto.
  - intros v. rewrite Z0, AR, <- H3. lia.
  - intros v. rewrite A12, Z0, H4. destruct (memb v (w_dq w n)) eqn:M.
    + apply memb_In in M. apply zc_In in M. specialize (CC v). rewrite Z0 in CC.
      specialize (H3 v). pose proof (zc_nonneg v (arrived w)). unfold one_if in H3. destruct (_ && _); lia.
    + apply memb_false in M. unfold zc. rewrite cnt_zero_notin by exact M. simpl. lia.
  - lia.
  - rewrite H8, A7, Zlen_app, Zlen_map. reflexivity.
  - rewrite H9, A7, map_app, map_map, sumZ_app, inject_Z_plus. reflexivity.
  - rewrite A7. apply Forall_app. split; [exact H10|]. apply Forall_map. eapply Forall_impl; [|exact A11]. intros v [L _]. unfold trip. simpl. lia.
Qed.
Lemma dests_sinv N t w w' : net_ok N -> foldM (receive N t) w (n_dests N) = Ok w' -> sinv N w -> sinv N w'.
Proof.
  intros K H I. eapply (foldM_inv (receive N t) (sinv N)); eauto. intros n s s' Hn Hs E. eapply receive_sinv; eauto.
Qed.

(** ** interval and run *)
Lemma load_once_sinv N D t a w w' : net_ok N -> draws_valid D -> load_once N D t a w = Ok w' -> sinv N w -> sinv N w'.
Proof.
  intros K DV H I. unfold load_once in H. apply bind_ok in H as (w1 & H1 & H). apply bind_ok in H as (w2 & H2 & H).
  apply bind_ok in H as (w3 & H3 & H). apply bind_ok in H as (w4 & H4 & H).
  eapply dests_sinv; eauto. eapply links_sinv; eauto. eapply nodes_sinv; eauto. eapply sinv_q; [eapply update_routing_q; eauto|]. eapply release_all_sinv; eauto.
Qed.
Lemma fresh_sinv N w : net_ok N -> fresh_world N w -> sinv N w.
Proof.
  intros K [F1 F2 F3 F4 F5 F6 F7].
  assert (OL : forall l, In l (n_links N) -> on_link (w_link w l) = []).
  { intros l Hl. destruct (F3 l Hl) as (p & Hp). apply (fresh_empty _ _ Hp). }
  assert (Z0 : forall v, zcount N w v = 0).
  { intros v. unfold zcount, zo, zl, zd. rewrite !sumZ_map_zero; [reflexivity| | |].
    - intros; now rewrite F2. - intros l Hl. now rewrite OL. - intros; now rewrite F1. }
  constructor; unfold arrived; rewrite ?F7; cbn [f_num f_live f_enroute f_finished f_tt f_done map]; auto; try lia; try reflexivity.
  - intros l. destruct (F4 l) as [[-> ->]|[-> ->]]; split; intros; congruence.
  - intros l Hl. destruct (F3 l Hl) as (p & Hp). apply (fresh_empty _ _ Hp).
  - intros v. rewrite Z0, zc_nil. destruct (Z.leb_spec 1 v), (Z.leb_spec v 0); simpl; lia.
  - intros l c c' Hl E E'. rewrite (OL l Hl). destruct (F4 l) as [[A B]|[A B]]; rewrite A in E; rewrite B in E'; [discriminate|].
    injection E as <-. injection E' as <-. change (inject_Z (Zlen [])) with 0%Q. lra.
Qed.
Lemma run_S N D k s s' : run N D (S k) s = Ok s' -> exists s1, run N D k s = Ok s1 /\ loop_body N D s1 = Ok s'.
Proof. simpl. intros H. apply bind_ok in H as (s1 & H1 & H2). eauto. Qed.
Lemma loop_body_inv N D s s' : loop_body N D s = Ok s' -> exists w, load_once N (D (s_cur s)) (s_cur s) (s_assign s) (s_w s) = Ok w /\
  s_cur s' = s_cur s + 1 /\ s_w s' = w /\ s_enroute s' = s_enroute s ++ [f_enroute (w_fac w)] /\
  s_assign s' = (if Z.rem (s_cur s + 1) (n_freq N) =? 0 then s_assign s + 1 else s_assign s).
Proof.
  unfold loop_body. intros H. apply bind_ok in H as (w & H1 & H). cbv zeta in H. apply Ok_inj in H as <-. exists w. repeat split. exact H1.
Qed.
Lemma reached_sinv N D k s : net_ok N -> reached N D k s -> sinv N (s_w s).
Proof.
  intros K (w0 & F & DV & H). revert s H. induction k as [|k IH]; intros s H.
  - simpl in H. apply Ok_inj in H as <-. now apply fresh_sinv.
  - apply run_S in H as (s1 & H1 & H2). apply loop_body_inv in H2 as (w & H2 & _ & <- & _). eapply load_once_sinv; eauto.
Qed.
Lemma reached_cur N D k s : reached N D k s -> s_cur s = Z.of_nat k.
Proof.
  intros (w0 & _ & _ & H). revert s H. induction k as [|k IH]; intros s H.
  - simpl in H. apply Ok_inj in H as <-. reflexivity.
  - apply run_S in H as (s1 & H1 & H2). apply loop_body_inv in H2 as (w & H2 & -> & _). rewrite (IH _ H1). lia.
Qed.

Lemma ids_count n v : 0 <= n -> zc v (ids n) = one_if ((1 <=? v) && (v <=? n)).
Proof.
  intros Hn. unfold ids, zc.
  assert (ND : NoDup (map Z.of_nat (seq 1 (Z.to_nat n)))).
  { apply FinFun.Injective_map_NoDup; [intros a b; lia|apply seq_NoDup]. }
  assert (I : In v (map Z.of_nat (seq 1 (Z.to_nat n))) <-> 1 <= v <= n).
  { rewrite in_map_iff. split.
    - intros (x & <- & Hx). apply in_seq in Hx. lia.
    - intros H. exists (Z.to_nat v). split; [lia|]. apply in_seq. lia. }
  destruct (Z.leb_spec 1 v), (Z.leb_spec v n); cbn [andb one_if].
  1:{ pose proof (proj1 (NoDup_cnt _) ND v). assert (J : In v (map Z.of_nat (seq 1 (Z.to_nat n)))) by (apply I; lia). apply cnt_In in J. lia. }
  all: rewrite cnt_zero_notin; [reflexivity|]; rewrite I; lia.
Qed.
