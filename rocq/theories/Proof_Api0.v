(** Vehicles that are still under way have no finish time. *)
From Verif Require Import Base Base_lemmas Model_Num Proof_Num Spec_Path Proof_Path Model_CC Spec_CC Proof_CC Model_Path Model_Link Spec_Link Spec_Node
  Proof_Link Proof_Link3 Proof_Link4 Proof_Link5 Model_World Model_Node Proof_Node Proof_Node2 Proof_Node3 Proof_Node4 Proof_Node5 Model_Sim Spec_Sim Proof_Sim1 Proof_Sim2 Proof_Sim3 Proof_Sim4.
Local Open Scope Z_scope.

(** routing changes only next link, path and tracker *)
Definition frel (w w' : world) : Prop := same_q w w' /\ (forall v, v_fin (w_veh w' v) = v_fin (w_veh w v) /\ v_cur (w_veh w' v) = v_cur (w_veh w v)).
Lemma frel_refl w : frel w w. Proof. repeat split. Qed.
Lemma frel_trans a b c : frel a b -> frel b c -> frel a c.
Proof. intros [A B] [A' B']. split; [eapply same_q_trans; eauto|]. intros v. destruct (B v), (B' v). split; congruence. Qed.
Lemma veh_next_f w v x : frel w (veh_next w v x).
Proof.
  split; [repeat split|]. intros y. unfold veh_next. cbn [set_vehs w_veh]. destruct (Z.eq_dec y v) as [->|Ne]; [rewrite upd_same|rewrite upd_other by exact Ne]; split; reflexivity.
Qed.
Lemma advance_f N w v w' : advance N w v = Ok w' -> frel w w'.
Proof.
  unfold advance. destruct (w_trk w v) as [[|l r]|]; try discriminate. intros H. apply bind_ok in H as (u & _ & H). apply Ok_inj in H as <-.
  destruct (veh_next_f w v (Some l)) as [_ Q]. split; [repeat split|exact Q].
Qed.
Lemma register_f D w v b w' : register_veh D w v b = Ok w' -> frel w w'.
Proof.
  intros H. pose proof (register_q _ _ _ _ _ H) as Q. split; [exact Q|]. revert H.
  unfold register_veh. cbv zeta. destruct (pt_find _ _); [|discriminate]. intros H. apply bind_ok in H as (i & _ & H).
  destruct (nth_error _ _) as [e|]; [|discriminate]. apply Ok_inj in H as <-. intros y. cbn [set_vehs w_veh].
  assert (E : forall (B : bool) r, w_veh (if B then match w_trk w v with Some _ => w | None => set_trk w v r end else w) = w_veh w).
  { intros [] r; [destruct (w_trk w v)|]; reflexivity. }
  rewrite E. destruct (Z.eq_dec y v) as [->|Ne]; [rewrite upd_same|rewrite upd_other by exact Ne]; split; reflexivity.
Qed.
Lemma fixed_origin_f N D w v w' : fixed_origin_veh N D w v = Ok w' -> frel w w'.
Proof.
  unfold fixed_origin_veh. destruct (v_adapt _).
  - destruct (v_path _); [intros H; apply Ok_inj in H as <-; apply frel_refl|apply register_f].
  - destruct (w_trk w v); [intros H; apply Ok_inj in H as <-; apply frel_refl|].
    intros H. apply bind_ok in H as (w1 & H1 & H2). apply register_f in H1. apply advance_f in H2. eapply frel_trans; eauto.
Qed.
Lemma fixed_link_f N l w v w' : fixed_link_veh N l w v = Ok w' -> frel w w'.
Proof.
  unfold fixed_link_veh. destruct (v_adapt _); [intros H; apply Ok_inj in H as <-; apply frel_refl|].
  destruct (_ =? _).
  - destruct (w_trk w v); [|discriminate]. intros H. apply bind_ok in H as (u & _ & H). apply Ok_inj in H as <-. apply veh_next_f.
  - destruct (w_trk w v); [|discriminate]. destruct (opt_eqb _ _); [apply advance_f|intros H; apply Ok_inj in H as <-; apply frel_refl].
Qed.
Lemma fixed_portion_f N t w w' : fixed_portion N t w = Ok w' -> frel w w'.
Proof.
  unfold fixed_portion. destruct (_ || _); [intros H; apply Ok_inj in H as <-; apply frel_refl|].
  intros H. apply bind_ok in H as (u & _ & H). destruct (_ && _); [|apply Ok_inj in H as <-; apply frel_refl].
  apply bind_ok in H as (pt & _ & H). apply Ok_inj in H as <-. repeat split.
Qed.
Lemma fixed_routing_f N D t w w' : fixed_routing N D t w = Ok w' -> frel w w'.
Proof.
  unfold fixed_routing. intros H. apply bind_ok in H as (w1 & H1 & H). apply bind_ok in H as (w2 & H2 & H3).
  eapply frel_trans; [eapply fixed_portion_f; eauto|]. eapply frel_trans.
  - eapply foldM_rel; [apply frel_refl|apply frel_trans| |exact H2]. intros s o s' _ E.
    eapply foldM_rel; [apply frel_refl|apply frel_trans| |exact E]. intros. eapply fixed_origin_f; eauto.
  - eapply foldM_rel; [apply frel_refl|apply frel_trans| |exact H3]. intros s o s' _ E.
    eapply foldM_rel; [apply frel_refl|apply frel_trans| |exact E]. intros. eapply fixed_link_f; eauto.
Qed.
Lemma adaptive_routing_f N D w w' : adaptive_routing N D w = Ok w' -> frel w w'.
Proof.
  unfold adaptive_routing. intros H. apply bind_ok in H as (w2 & H2 & H3). eapply frel_trans.
  - eapply foldM_rel; [apply frel_refl|apply frel_trans| |exact H2]. intros s o s' _ E.
    eapply foldM_rel; [apply frel_refl|apply frel_trans| |exact E]. intros x v y _ G.
    unfold adaptive_origin_veh in G. destruct (v_adapt _); [|apply Ok_inj in G as <-; apply frel_refl].
    cbv zeta in G. apply bind_ok in G as (u & _ & G). apply bind_ok in G as (u' & _ & G). apply Ok_inj in G as <-. apply veh_next_f.
  - eapply foldM_rel; [apply frel_refl|apply frel_trans| |exact H3]. intros s o s' _ E.
    eapply foldM_rel; [apply frel_refl|apply frel_trans| |exact E]. intros x v y _ G.
    unfold adaptive_link_veh in G. destruct (v_adapt _); [|apply Ok_inj in G as <-; apply frel_refl].
    apply bind_ok in G as (u & _ & G). destruct (_ =? _); [apply Ok_inj in G as <-; apply veh_next_f|].
    cbv zeta in G. apply bind_ok in G as (u' & _ & G). apply bind_ok in G as (u'' & _ & G). apply Ok_inj in G as <-. apply veh_next_f.
Qed.
Lemma update_routing_f N D t w w' : update_routing N D t w = Ok w' -> frel w w'.
Proof.
  unfold update_routing. destruct (n_routing N) as [| |x].
  all: try apply fixed_routing_f; try apply adaptive_routing_f.
  intros H. apply bind_ok in H as (w1 & H1 & H2). eapply frel_trans; [|eapply fixed_routing_f; eauto].
  destruct (Qltb 0 x); [eapply adaptive_routing_f; eauto|apply Ok_inj in H1 as <-; apply frel_refl].
Qed.
Definition unfinished (w : world) : Prop := forall v, In v (f_live (w_fac w)) -> v_fin (w_veh w v) = -1.
Lemma unfinished_keep w w' : w_fac w' = w_fac w -> (forall v, v_fin (w_veh w' v) = v_fin (w_veh w v)) -> unfinished w -> unfinished w'.
Proof. intros E H U v. rewrite E, H. apply U. Qed.
Lemma release_n_u D cur assign o d ratio : forall k w, (forall v, In v (f_live (w_fac w)) -> v <= f_num (w_fac w)) -> unfinished w ->
  unfinished (release_n k D cur assign o d ratio w) /\ forall v, In v (f_live (w_fac (release_n k D cur assign o d ratio w))) -> v <= f_num (w_fac (release_n k D cur assign o d ratio w)).
Proof.
  induction k as [|k IH]; intros w L U; [auto|]. simpl. apply IH.
  - intros v. cbn [set_oq make_veh set_fac set_vehs w_fac w_veh f_num f_live]. intros I. apply in_app_iff in I as [I|[<-|[]]]; [apply L in I; lia|lia].
  - intros v. cbn [set_oq make_veh set_fac set_vehs w_fac w_veh f_num f_live]. intros I. apply in_app_iff in I as [I|[<-|[]]]; [|now rewrite upd_same].
    pose proof (L v I). rewrite upd_other by lia. apply U, I.
Qed.
Lemma release_all_u N D cur assign w w' : release_all N D cur assign w = Ok w' -> (forall v, In v (f_live (w_fac w)) -> v <= f_num (w_fac w)) -> unfinished w -> unfinished w'.
Proof.
  intros H L U. unfold release_all in H. apply bind_ok in H as (u & _ & H).
  destruct (_ =? 0); apply Ok_inj in H as <-; [|exact U].
  set (asg := if n_total_assign N <=? assign then -1 else assign). clearbody asg. generalize (n_origins N). intros os.
  revert w L U. induction os as [|o os IH]; intros w L U; [exact U|]. simpl. 
  assert (Y : forall ds r w, (forall v, In v (f_live (w_fac w)) -> v <= f_num (w_fac w)) -> unfinished w -> unfinished (release_dests N D cur asg o r ds w) /\
     forall v, In v (f_live (w_fac (release_dests N D cur asg o r ds w))) -> v <= f_num (w_fac (release_dests N D cur asg o r ds w))).
  { induction ds as [|[d dem] ds IHd]; intros r x Lx Ux; [auto|]. simpl. apply IHd; apply release_n_u; auto. }
  apply IH; unfold release_one; (destruct (asg <? 0); [assumption|]); apply Y; assumption.
Qed.
Lemma nodes_u N D t w w' : net_ok N -> draws_valid D -> sinv N w -> foldM (node_evolve N D t) w (n_nodes N) = Ok w' -> unfinished w -> unfinished w'.
Proof.
  intros K DV I H U. enough (X : sinv N w' /\ unfinished w') by apply X.
  eapply (foldM_inv (node_evolve N D t) (fun x => sinv N x /\ unfinished x)); [|split; [exact I|exact U]|exact H].
  intros nk s s' Hin [Hs R] E. destruct (node_neff N D t s s' nk K DV (i_paired N s Hs) Hin E) as (e & lv & o & d & J).
  split; [eapply neff_sinv; eauto|]. destruct (ne_keep _ _ _ _ _ _ _ _ J) as (Ef & _ & _ & V).
  apply (unfinished_keep s); [exact Ef| |exact R]. intros v. symmetry. destruct (V v) as (_ & _ & _ & _ & A & B & _); congruence.
Qed.
Lemma links_u D ls w w' : foldM (link_step D) w ls = Ok w' -> unfinished w -> unfinished w'.
Proof.
  intros H U. eapply (foldM_inv (link_step D) unfinished); [|exact U|exact H]. intros l s s' _ Us E. unfold link_step in E.
  apply bind_ok in E as (x & _ & E). apply bind_ok in E as (y & _ & E). apply Ok_inj in E as <-. exact Us.
Qed.
Lemma dests_u N t ds w w' : foldM (receive N t) w ds = Ok w' -> unfinished w -> unfinished w'.
Proof.
  intros H U. eapply (foldM_inv (receive N t) unfinished); [|exact U|exact H]. intros n s s' _ Us E. unfold receive in E. apply bind_ok in E as (w1 & H1 & E).
  apply Ok_inj in E as <-. apply receive_loop_eff in H1. destruct H1 as [A1 A2 A3 A4 A5 A6 A7 A8 A9 A10 A11 A12 A13 A14 A15].
  intros v. cbn [set_dq w_fac w_veh]. rewrite zc_In, A12, A13. destruct (memb v (w_dq s n)); [lia|]. rewrite <- zc_In. apply Us.
Qed.
Lemma sinv_live_num N w : sinv N w -> forall v, In v (f_live (w_fac w)) -> 1 <= v <= f_num (w_fac w).
Proof.
  intros I v Hv. pose proof (i_count N _ I v) as Cv. pose proof (i_live N _ I v) as Lv. apply zc_In in Hv. pose proof (zc_nonneg v (arrived w)).
  unfold one_if in Cv. destruct (Z.leb_spec 1 v), (Z.leb_spec v (f_num (w_fac w))); cbn [andb] in Cv; lia.
Qed.
Lemma load_once_u N D t a w w' : net_ok N -> draws_valid D -> sinv N w -> load_once N D t a w = Ok w' -> unfinished w -> unfinished w'.
Proof.
  intros K DV I H U. unfold load_once in H. apply bind_ok in H as (w1 & H1 & H). apply bind_ok in H as (w2 & H2 & H).
  apply bind_ok in H as (w3 & H3 & H). apply bind_ok in H as (w4 & H4 & H).
  pose proof (release_all_sinv _ _ _ _ _ _ K DV H1 I) as I1. pose proof (update_routing_f _ _ _ _ _ H2) as [Q2 R2].
  pose proof (sinv_q _ _ _ Q2 I1) as I2.
  assert (U1 : unfinished w1) by (eapply release_all_u; eauto; intros v Hv; now apply (sinv_live_num N w I)).
  assert (U2 : unfinished w2) by (apply (unfinished_keep w1); [apply Q2|intros v; apply R2|exact U1]).
  eapply dests_u; eauto. eapply links_u; eauto. eapply nodes_u; eauto.
Qed.
Lemma run_unfinished N D w0 k s : net_ok N -> fresh_world N w0 -> (forall t, draws_valid (D t)) -> run N D k (init_state N w0) = Ok s -> unfinished (s_w s).
Proof.
  intros K F DV. revert s. induction k as [|k IH]; intros s H.
  - simpl in H. apply Ok_inj in H as <-. intros v. cbn [init_state s_w]. rewrite (fw_fac N w0 F). intros [].
  - pose proof H as H'. apply run_S in H' as (s1 & H1 & _). destruct (st_step N D w0 F DV k s1 s H1 H) as (E & _).
    eapply load_once_u; eauto. eapply reached_sinv; eauto. eapply st_reached; eauto.
Qed.
