(** What never changes about a vehicle, and the time line of its trip. *)
From Verif Require Import Base Base_lemmas Model_Num Proof_Num Spec_Path Proof_Path Model_CC Spec_CC Proof_CC Model_Path Model_Link Spec_Link Spec_Node
  Proof_Link Proof_Link3 Proof_Link4 Proof_Link5 Model_World Model_Node Proof_Node Proof_Node2 Proof_Node3 Proof_Node4 Proof_Node5 Model_Sim Spec_Sim Proof_Sim1 Proof_Sim2 Proof_Sim3.
Local Open Scope Z_scope.

Definition stat (x : veh) := (v_org x, v_dst x, v_adapt x, v_start x, v_assign x).
(** [t]: the interval in which new vehicles appear *)
Definition srel (t : Z) (w w' : world) : Prop :=
  f_num (w_fac w) <= f_num (w_fac w') /\
  (forall v, v <= f_num (w_fac w) -> stat (w_veh w' v) = stat (w_veh w v)) /\
  (forall v, f_num (w_fac w) < v <= f_num (w_fac w') -> v_start (w_veh w' v) = t).
Lemma srel_refl t w : srel t w w. Proof. split; [lia|]. split; [reflexivity|]. intros; lia. Qed.
Lemma stat_start x y : stat x = stat y -> v_start x = v_start y. Proof. unfold stat. congruence. Qed.
Lemma srel_trans t a b c : srel t a b -> srel t b c -> srel t a c.
Proof.
  intros (A1 & A2 & A3) (B1 & B2 & B3). split; [lia|]. split.
  - intros v Hv. rewrite B2 by lia. auto.
  - intros v Hv. destruct (Z_le_gt_dec v (f_num (w_fac b))) as [L|L]; [|apply B3; lia].
    rewrite (stat_start _ _ (B2 v L)). apply A3. lia.
Qed.
Lemma srel_keep t w w' : w_fac w' = w_fac w -> (forall v, stat (w_veh w' v) = stat (w_veh w v)) -> srel t w w'.
Proof. intros E H. split; [rewrite E; lia|]. split; [auto|]. rewrite E. intros; lia. Qed.

Lemma release_n_srel D cur assign o d ratio : forall k w, srel cur w (release_n k D cur assign o d ratio w).
Proof.
  induction k as [|k IH]; intros w; [apply srel_refl|]. simpl. eapply srel_trans; [|apply IH].
  split; [|split]; cbn [set_oq make_veh set_fac set_vehs w_fac w_veh f_num]; [lia| |].
  - intros v Hv. rewrite upd_other by lia. reflexivity.
  - intros v Hv. replace v with (f_num (w_fac w) + 1) by lia. now rewrite upd_same.
Qed.
Lemma release_dests_srel N D cur assign o : forall ds ratio w, srel cur w (release_dests N D cur assign o ratio ds w).
Proof.
  induction ds as [|[d dem] ds IH]; intros ratio w; [apply srel_refl|]. simpl. eapply srel_trans; [|apply IH]. apply release_n_srel.
Qed.
Lemma release_all_srel N D cur assign w w' : release_all N D cur assign w = Ok w' -> srel cur w w'.
Proof.
  intros H. unfold release_all in H. apply bind_ok in H as (u & _ & H).
  destruct (_ =? 0); apply Ok_inj in H as <-; [|apply srel_refl].
  set (asg := if n_total_assign N <=? assign then -1 else assign). clearbody asg. generalize (n_origins N). intros os.
  revert w. induction os as [|o os IH]; intros w; [apply srel_refl|]. simpl. eapply srel_trans; [|apply IH].
  unfold release_one. destruct (asg <? 0); [apply srel_refl|]. eapply srel_trans; [apply release_dests_srel|]. now apply srel_keep.
Qed.

(** routing changes only next link, path and tracker *)
Definition rrel (w w' : world) : Prop := same_q w w' /\ (forall v, stat (w_veh w' v) = stat (w_veh w v) /\ v_cur (w_veh w' v) = v_cur (w_veh w v)).
Lemma rrel_refl w : rrel w w. Proof. repeat split. Qed.
Lemma rrel_trans a b c : rrel a b -> rrel b c -> rrel a c.
Proof. intros [A B] [A' B']. split; [eapply same_q_trans; eauto|]. intros v. destruct (B v), (B' v). split; congruence. Qed.
Lemma veh_next_r w v x : rrel w (veh_next w v x).
Proof.
  split; [repeat split|]. intros y. unfold veh_next. cbn [set_vehs w_veh]. destruct (Z.eq_dec y v) as [->|Ne]; [rewrite upd_same|rewrite upd_other by exact Ne]; split; reflexivity.
Qed.
Lemma advance_r N w v w' : advance N w v = Ok w' -> rrel w w'.
Proof.
  unfold advance. destruct (w_trk w v) as [[|l r]|]; try discriminate. intros H. apply bind_ok in H as (u & _ & H). apply Ok_inj in H as <-.
  destruct (veh_next_r w v (Some l)) as [_ Q]. split; [repeat split|exact Q].
Qed.
Lemma register_r D w v b w' : register_veh D w v b = Ok w' -> rrel w w'.
Proof.
  intros H. pose proof (register_q _ _ _ _ _ H) as Q. split; [exact Q|]. revert H.
  unfold register_veh. cbv zeta. destruct (pt_find _ _); [|discriminate]. intros H. apply bind_ok in H as (i & _ & H).
  destruct (nth_error _ _) as [e|]; [|discriminate]. apply Ok_inj in H as <-. intros y. cbn [set_vehs w_veh].
  assert (E : forall (B : bool) r, w_veh (if B then match w_trk w v with Some _ => w | None => set_trk w v r end else w) = w_veh w).
  { intros [] r; [destruct (w_trk w v)|]; reflexivity. }
  rewrite E. destruct (Z.eq_dec y v) as [->|Ne]; [rewrite upd_same|rewrite upd_other by exact Ne]; split; reflexivity.
Qed.
Lemma fixed_origin_r N D w v w' : fixed_origin_veh N D w v = Ok w' -> rrel w w'.
Proof.
  unfold fixed_origin_veh. destruct (v_adapt _).
  - destruct (v_path _); [intros H; apply Ok_inj in H as <-; apply rrel_refl|apply register_r].
  - destruct (w_trk w v); [intros H; apply Ok_inj in H as <-; apply rrel_refl|].
    intros H. apply bind_ok in H as (w1 & H1 & H2). apply register_r in H1. apply advance_r in H2. eapply rrel_trans; eauto.
Qed.
Lemma fixed_link_r N l w v w' : fixed_link_veh N l w v = Ok w' -> rrel w w'.
Proof.
  unfold fixed_link_veh. destruct (v_adapt _); [intros H; apply Ok_inj in H as <-; apply rrel_refl|].
  destruct (_ =? _).
  - destruct (w_trk w v); [|discriminate]. intros H. apply bind_ok in H as (u & _ & H). apply Ok_inj in H as <-. apply veh_next_r.
  - destruct (w_trk w v); [|discriminate]. destruct (opt_eqb _ _); [apply advance_r|intros H; apply Ok_inj in H as <-; apply rrel_refl].
Qed.
Lemma fixed_portion_r N t w w' : fixed_portion N t w = Ok w' -> rrel w w'.
Proof.
  unfold fixed_portion. destruct (_ || _); [intros H; apply Ok_inj in H as <-; apply rrel_refl|].
  intros H. apply bind_ok in H as (u & _ & H). destruct (_ && _); [|apply Ok_inj in H as <-; apply rrel_refl].
  apply bind_ok in H as (pt & _ & H). apply Ok_inj in H as <-. repeat split.
Qed.
Lemma fixed_routing_r N D t w w' : fixed_routing N D t w = Ok w' -> rrel w w'.
Proof.
  unfold fixed_routing. intros H. apply bind_ok in H as (w1 & H1 & H). apply bind_ok in H as (w2 & H2 & H3).
  eapply rrel_trans; [eapply fixed_portion_r; eauto|]. eapply rrel_trans.
  - eapply foldM_rel; [apply rrel_refl|apply rrel_trans| |exact H2]. intros s o s' _ E.
    eapply foldM_rel; [apply rrel_refl|apply rrel_trans| |exact E]. intros. eapply fixed_origin_r; eauto.
  - eapply foldM_rel; [apply rrel_refl|apply rrel_trans| |exact H3]. intros s o s' _ E.
    eapply foldM_rel; [apply rrel_refl|apply rrel_trans| |exact E]. intros. eapply fixed_link_r; eauto.
Qed.
Lemma adaptive_routing_r N D w w' : adaptive_routing N D w = Ok w' -> rrel w w'.
Proof.
  unfold adaptive_routing. intros H. apply bind_ok in H as (w2 & H2 & H3). eapply rrel_trans.
  - eapply foldM_rel; [apply rrel_refl|apply rrel_trans| |exact H2]. intros s o s' _ E.
    eapply foldM_rel; [apply rrel_refl|apply rrel_trans| |exact E]. intros x v y _ G.
    unfold adaptive_origin_veh in G. destruct (v_adapt _); [|apply Ok_inj in G as <-; apply rrel_refl].
    cbv zeta in G. apply bind_ok in G as (u & _ & G). apply bind_ok in G as (u' & _ & G). apply Ok_inj in G as <-. apply veh_next_r.
  - eapply foldM_rel; [apply rrel_refl|apply rrel_trans| |exact H3]. intros s o s' _ E.
    eapply foldM_rel; [apply rrel_refl|apply rrel_trans| |exact E]. intros x v y _ G.
    unfold adaptive_link_veh in G. destruct (v_adapt _); [|apply Ok_inj in G as <-; apply rrel_refl].
    apply bind_ok in G as (u & _ & G). destruct (_ =? _); [apply Ok_inj in G as <-; apply veh_next_r|].
    cbv zeta in G. apply bind_ok in G as (u' & _ & G). apply bind_ok in G as (u'' & _ & G). apply Ok_inj in G as <-. apply veh_next_r.
Qed.
Lemma update_routing_r N D t w w' : update_routing N D t w = Ok w' -> rrel w w'.
Proof.
  unfold update_routing. destruct (n_routing N) as [| |x].
  all: try apply fixed_routing_r; try apply adaptive_routing_r.
  intros H. apply bind_ok in H as (w1 & H1 & H2). eapply rrel_trans; [|eapply fixed_routing_r; eauto].
  destruct (Qltb 0 x); [eapply adaptive_routing_r; eauto|apply Ok_inj in H1 as <-; apply rrel_refl].
Qed.

Lemma vkeep_stat x y : vkeep x y -> stat x = stat y.
Proof. intros (A & B & C & D & E & F & _). unfold stat. congruence. Qed.

Lemma nodes_srel N D t w w' : net_ok N -> draws_valid D -> sinv N w -> foldM (node_evolve N D t) w (n_nodes N) = Ok w' -> srel t w w'.
Proof.
  intros K DV I H. enough (X : sinv N w' /\ srel t w w') by apply X.
  eapply (foldM_inv (node_evolve N D t) (fun x => sinv N x /\ srel t w x)); [|split; [exact I|apply srel_refl]|exact H].
  intros nk s s' Hin [Hs R] E. destruct (node_neff N D t s s' nk K DV (i_paired N s Hs) Hin E) as (e & lv & o & d & J).
  split; [eapply neff_sinv; eauto|]. eapply srel_trans; [exact R|]. destruct (ne_keep _ _ _ _ _ _ _ _ J) as (Ef & _ & _ & V).
  apply srel_keep; [exact Ef|]. intros v. apply vkeep_stat, V.
Qed.
Lemma links_srel D t ls w w' : foldM (link_step D) w ls = Ok w' -> srel t w w'.
Proof.
  apply foldM_rel; [apply srel_refl|apply srel_trans|]. intros s l s' _ H. unfold link_step in H.
  apply bind_ok in H as (x & _ & H). apply bind_ok in H as (y & _ & H). apply Ok_inj in H as <-. now apply srel_keep.
Qed.
Lemma set_vfin_stat t x : stat (set_vfin t x) = stat x. Proof. reflexivity. Qed.
Lemma dests_srel N t ds w w' : foldM (receive N t) w ds = Ok w' -> srel t w w'.
Proof.
  apply foldM_rel; [apply srel_refl|apply srel_trans|]. intros s n s' _ H. unfold receive in H. apply bind_ok in H as (w1 & H1 & H).
  apply Ok_inj in H as <-. apply receive_loop_eff in H1. destruct H1 as [A1 A2 A3 A4 A5 A6 A7 A8 A9 A10 A11 A12 A13 A14 A15].
  split; [|split]; cbn [set_dq w_fac w_veh]; rewrite ?A6; [lia| |intros; lia]. intros v _. rewrite A13. destruct (memb v _); reflexivity.
Qed.
Lemma load_once_srel N D t a w w' : net_ok N -> draws_valid D -> sinv N w -> load_once N D t a w = Ok w' -> srel t w w'.
Proof.
  intros K DV I H. unfold load_once in H. apply bind_ok in H as (w1 & H1 & H). apply bind_ok in H as (w2 & H2 & H).
  apply bind_ok in H as (w3 & H3 & H). apply bind_ok in H as (w4 & H4 & H).
  pose proof (release_all_sinv _ _ _ _ _ _ K DV H1 I) as I1. pose proof (update_routing_r _ _ _ _ _ H2) as [Q2 R2].
  pose proof (sinv_q _ _ _ Q2 I1) as I2.
  eapply srel_trans; [eapply release_all_srel; eauto|]. eapply srel_trans; [apply (srel_keep t w1 w2)|].
  - apply Q2. - intros v. apply R2.
  - eapply srel_trans; [eapply nodes_srel; eauto|]. eapply srel_trans; [eapply links_srel; eauto|]. eapply dests_srel; eauto.
Qed.

(** arrivals of one interval *)
Definition drel (t : Z) (w w' : world) : Prop := exists new, f_done (w_fac w') = f_done (w_fac w) ++ new /\
  Forall (fun d => snd (snd d) = t /\ fst (snd d) = v_start (w_veh w' (fst d))) new /\ (forall v, v_start (w_veh w' v) = v_start (w_veh w v)).
Lemma drel_refl t w : drel t w w. Proof. exists []. rewrite app_nil_r. auto. Qed.
Lemma drel_trans t a b c : drel t a b -> drel t b c -> drel t a c.
Proof.
  intros (n1 & E1 & F1 & S1) (n2 & E2 & F2 & S2). exists (n1 ++ n2). split; [rewrite E2, E1; now rewrite app_assoc|]. split.
  - apply Forall_app. split; [|exact F2]. eapply Forall_impl; [|exact F1]. cbv beta. intros d [A B]. rewrite S2. auto.
  - intros v. rewrite S2. apply S1.
Qed.
Lemma dests_drel N t ds w w' : foldM (receive N t) w ds = Ok w' -> drel t w w'.
Proof.
  apply foldM_rel; [apply drel_refl|apply drel_trans|]. intros s n s' _ H. unfold receive in H. apply bind_ok in H as (w1 & H1 & H).
  apply Ok_inj in H as <-. apply receive_loop_eff in H1. destruct H1 as [A1 A2 A3 A4 A5 A6 A7 A8 A9 A10 A11 A12 A13 A14 A15].
  assert (S1 : forall v, v_start (w_veh w1 v) = v_start (w_veh s v)) by (intros v; rewrite A13; destruct (memb v _); reflexivity).
  eexists. split; [exact A7|]. split; [|exact S1]. apply Forall_map. apply Forall_forall. intros v _. cbn [fst snd set_dq w_veh]. split; [reflexivity|]. now rewrite S1.
Qed.
Lemma release_done N D cur assign w w' : release_all N D cur assign w = Ok w' -> f_done (w_fac w') = f_done (w_fac w).
Proof.
  intros H. unfold release_all in H. apply bind_ok in H as (u & _ & H).
  destruct (_ =? 0); apply Ok_inj in H as <-; [|reflexivity].
  set (asg := if n_total_assign N <=? assign then -1 else assign). clearbody asg. generalize (n_origins N). intros os.
  assert (X : forall o d a r k w, f_done (w_fac (release_n k D cur a o d r w)) = f_done (w_fac w)).
  { intros o d a r. induction k as [|k IH]; intros v; [reflexivity|]. simpl. now rewrite IH. }
  assert (Y : forall o ds r w, f_done (w_fac (release_dests N D cur asg o r ds w)) = f_done (w_fac w)).
  { intros o. induction ds as [|[d dem] ds IH]; intros r v; [reflexivity|]. simpl. now rewrite IH, X. }
  revert w. induction os as [|o os IH]; intros w; [reflexivity|]. simpl. rewrite IH. unfold release_one.
  destruct (asg <? 0); [reflexivity|]. cbn [set_oq w_fac]. apply Y.
Qed.
Lemma nodes_fac N D t w w' : net_ok N -> draws_valid D -> sinv N w -> foldM (node_evolve N D t) w (n_nodes N) = Ok w' -> w_fac w' = w_fac w.
Proof.
  intros K DV I H. enough (X : sinv N w' /\ w_fac w' = w_fac w) by apply X.
  eapply (foldM_inv (node_evolve N D t) (fun x => sinv N x /\ w_fac x = w_fac w)); [|split; [exact I|reflexivity]|exact H].
  intros nk s s' Hin [Hs R] E. destruct (node_neff N D t s s' nk K DV (i_paired N s Hs) Hin E) as (e & lv & o & d & J).
  split; [eapply neff_sinv; eauto|]. destruct (ne_keep _ _ _ _ _ _ _ _ J) as (Ef & _). congruence.
Qed.
Lemma links_fac D ls w w' : foldM (link_step D) w ls = Ok w' -> w_fac w' = w_fac w.
Proof.
  apply (foldM_rel (fun a b => w_fac b = w_fac a)); [reflexivity|congruence|]. intros s l s' _ H. unfold link_step in H.
  apply bind_ok in H as (x & _ & H). apply bind_ok in H as (y & _ & H). now apply Ok_inj in H as <-.
Qed.
Lemma load_once_done N D t a w w' : net_ok N -> draws_valid D -> sinv N w -> load_once N D t a w = Ok w' ->
  exists new, f_done (w_fac w') = f_done (w_fac w) ++ new /\ Forall (fun d => snd (snd d) = t /\ fst (snd d) = v_start (w_veh w' (fst d))) new.
Proof.
  intros K DV I H. unfold load_once in H. apply bind_ok in H as (w1 & H1 & H). apply bind_ok in H as (w2 & H2 & H).
  apply bind_ok in H as (w3 & H3 & H). apply bind_ok in H as (w4 & H4 & H).
  pose proof (release_all_sinv _ _ _ _ _ _ K DV H1 I) as I1. pose proof (update_routing_r _ _ _ _ _ H2) as [Q2 R2].
  pose proof (sinv_q _ _ _ Q2 I1) as I2.
  apply dests_drel in H as (new & E & F & _). exists new. split; [|exact F].
  rewrite E, (links_fac _ _ _ _ H4), (nodes_fac _ _ _ _ _ K DV I2 H3). destruct Q2 as (_ & _ & _ & _ & ->). now rewrite (release_done _ _ _ _ _ _ H1).
Qed.

(** ** the time line *)
Section Run.
Context (N : net) (D : Z -> draws) (w0 : world) (K : net_ok N) (F : fresh_world N w0) (DV : forall t, draws_valid (D t)).
Notation st k s := (run N D k (init_state N w0) = Ok s).

Lemma st_reached k s : st k s -> reached N D k s.
Proof. intros H. exists w0. auto. Qed.
Lemma st_before j k s : (j <= k)%nat -> st k s -> exists sj, st j sj.
Proof.
  intros L. revert s. induction k as [|k IH]; intros s H.
  - replace j with 0%nat by lia. eauto.
  - destruct (Nat.eq_dec j (S k)) as [->|Ne]; [eauto|]. apply run_S in H as (s1 & H1 & _). apply (IH ltac:(lia) _ H1).
Qed.
Lemma st_step k s s' : st k s -> st (S k) s' ->
  load_once N (D (Z.of_nat k)) (Z.of_nat k) (s_assign s) (s_w s) = Ok (s_w s') /\ s_enroute s' = s_enroute s ++ [f_enroute (w_fac (s_w s'))] /\
  s_assign s' = (if Z.rem (Z.of_nat k + 1) (n_freq N) =? 0 then s_assign s + 1 else s_assign s).
Proof.
  intros H H'. apply run_S in H' as (s1 & H1 & H2). rewrite H in H1. apply Ok_inj in H1 as <-.
  apply loop_body_inv in H2 as (w & E & _ & -> & -> & ->). pose proof (reached_cur _ _ _ _ (st_reached _ _ H)) as C. rewrite C in *. auto.
Qed.
Lemma enroute_record k s : st k s -> length (s_enroute s) = k /\
  forall j sj, (1 <= j <= k)%nat -> st j sj -> nth_error (s_enroute s) (j - 1) = Some (f_enroute (w_fac (s_w sj))).
Proof.
  revert s. induction k as [|k IH]; intros s H.
  - simpl in H. apply Ok_inj in H as <-. split; [reflexivity|]. intros; lia.
  - pose proof H as H'. apply run_S in H' as (s1 & H1 & _). destruct (st_step _ _ _ H1 H) as (_ & E & _). destruct (IH _ H1) as (L & R).
    rewrite E. split; [rewrite app_length, L; simpl; lia|]. intros j sj Hj Hs. destruct (Nat.eq_dec j (S k)) as [->|Ne].
    + rewrite H in Hs. apply Ok_inj in Hs as <-. rewrite nth_error_app2 by lia. replace (S k - 1 - length (s_enroute s1))%nat with 0%nat by lia. reflexivity.
    + rewrite nth_error_app1 by lia. apply R; [lia|exact Hs].
Qed.
Lemma st_srel k s s' : st k s -> st (S k) s' -> srel (Z.of_nat k) (s_w s) (s_w s').
Proof.
  intros H H'. destruct (st_step _ _ _ H H') as (E & _). eapply load_once_srel; eauto. eapply reached_sinv; eauto using st_reached.
Qed.
Lemma st_num_mono j k sj s : (j <= k)%nat -> st j sj -> st k s -> f_num (w_fac (s_w sj)) <= f_num (w_fac (s_w s)).
Proof.
  intros L Hj. revert s. induction L as [|k L IH]; intros s H.
  - rewrite H in Hj. apply Ok_inj in Hj as <-. lia.
  - pose proof H as H'. apply run_S in H' as (s1 & H1 & _). specialize (IH _ H1). destruct (st_srel _ _ _ H1 H) as (A & _). lia.
Qed.
(** a released vehicle carries the interval of its release *)
Lemma start_time k s v : st k s -> 1 <= v <= f_num (w_fac (s_w s)) ->
  exists a sa sa', v_start (w_veh (s_w s) v) = Z.of_nat a /\ (a < k)%nat /\ st a sa /\ st (S a) sa' /\
    f_num (w_fac (s_w sa)) < v <= f_num (w_fac (s_w sa')).
Proof.
  revert s. induction k as [|k IH]; intros s H Hv.
  - simpl in H. apply Ok_inj in H as <-. cbn [init_state s_w] in Hv. rewrite (fw_fac N w0 F) in Hv. simpl in Hv. lia.
  - pose proof H as H'. apply run_S in H' as (s1 & H1 & _). destruct (st_srel _ _ _ H1 H) as (A & B & C).
    destruct (Z_le_gt_dec v (f_num (w_fac (s_w s1)))) as [L|L].
    + destruct (IH _ H1 ltac:(lia)) as (a & sa & sa' & E & La & Ha & Ha' & R). exists a, sa, sa'. rewrite (stat_start _ _ (B v L)). repeat split; auto; lia.
    + exists k, s1, s. split; [apply C; lia|]. repeat split; auto; lia.
Qed.
Lemma done_times k s v a b : st k s -> In (v, (a, b)) (f_done (w_fac (s_w s))) ->
  a = v_start (w_veh (s_w s) v) /\ exists j sj sj', b = Z.of_nat j /\ (j < k)%nat /\ st j sj /\ st (S j) sj' /\
    ~ In v (arrived (s_w sj)) /\ In v (arrived (s_w sj')) /\ 1 <= v <= f_num (w_fac (s_w s)).
Proof.
  revert s. induction k as [|k IH]; intros s H Hv.
  - simpl in H. apply Ok_inj in H as <-. cbn [init_state s_w] in Hv. rewrite (fw_fac N w0 F) in Hv. destruct Hv.
  - pose proof H as H'. apply run_S in H' as (s1 & H1 & _). pose proof (st_srel _ _ _ H1 H) as (A & B & C).
    destruct (st_step _ _ _ H1 H) as (E & _). pose proof (reached_sinv _ _ _ _ K (st_reached _ _ H1)) as I1.
    pose proof (reached_sinv _ _ _ _ K (st_reached _ _ H)) as I.
    destruct (load_once_done _ _ _ _ _ _ K (DV _) I1 E) as (new & En & Fn). rewrite En in Hv. apply in_app_or in Hv as [Hv|Hv].
    + destruct (IH _ H1 Hv) as (Ea & j & sj & sj' & R1 & R2 & R3 & R4 & R5 & R6 & R7). split; [rewrite (stat_start _ _ (B v ltac:(lia))); exact Ea|].
      exists j, sj, sj'. repeat split; auto; lia.
    + rewrite Forall_forall in Fn. destruct (Fn _ Hv) as [T S]. cbn [fst snd] in T, S. split; [exact S|]. exists k, s1, s. split; [exact T|].
      split; [lia|]. split; [exact H1|]. split; [exact H|].
      assert (AR : forall u, zc u (arrived (s_w s)) = zc u (arrived (s_w s1)) + zc u (map fst new)) by (intros u; unfold arrived; now rewrite En, map_app, zc_app).
      assert (NV : 1 <= zc v (map fst new)) by (apply zc_In; apply in_map_iff; exists (v, (a, b)); auto).
      pose proof (i_count N _ I v) as Cv. pose proof (i_live N _ I v) as Lv. pose proof (zc_nonneg v (f_live (w_fac (s_w s)))).
      pose proof (zc_nonneg v (arrived (s_w s1))). specialize (AR v).
      assert (zc v (arrived (s_w s)) <= 1) by (unfold one_if in Cv; destruct (_ && _); lia).
      split; [rewrite zc_In; lia|]. split; [rewrite zc_In; lia|]. unfold one_if in Cv.
      destruct (Z.leb_spec 1 v), (Z.leb_spec v (f_num (w_fac (s_w s)))); cbn [andb] in Cv; lia.
Qed.
End Run.
