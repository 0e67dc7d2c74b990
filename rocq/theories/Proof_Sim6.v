(** The loading loop. *)
From Verif Require Import Base Base_lemmas Model_Num Proof_Num Spec_Path Proof_Path Model_CC Spec_CC Proof_CC Model_Path Model_Link Spec_Link Spec_Node
  Proof_Link Proof_Link3 Proof_Link4 Proof_Link5 Model_World Model_Node Model_Sim Spec_Sim Proof_Sim1 Proof_Sim2 Proof_Sim3 Proof_Sim4 Proof_Sim5.
Local Open Scope Z_scope.

Lemma run_front N D : forall k s s1 s', loop_body N D s = Ok s1 -> run N D k s1 = Ok s' -> run N D (S k) s = Ok s'.
Proof.
  induction k as [|k IH]; intros s s1 s' H1 H2.
  - simpl in *. apply Ok_inj in H2 as <-. exact H1.
  - apply run_S in H2 as (s2 & H2 & H3). change (bind (run N D (S k) s) (loop_body N D) = Ok s').
    rewrite (IH _ _ _ H1 H2). exact H3.
Qed.
Lemma run_front_inv N D : forall k s s', run N D (S k) s = Ok s' -> exists s1, loop_body N D s = Ok s1 /\ run N D k s1 = Ok s'.
Proof.
  induction k as [|k IH]; intros s s' H.
  - apply run_S in H as (s1 & H1 & H2). simpl in H1. apply Ok_inj in H1 as <-. exists s'. auto.
  - apply run_S in H as (s1 & H1 & H2). destruct (IH _ _ H1) as (s2 & H3 & H4). exists s2. split; [exact H3|].
    change (bind (run N D k s2) (loop_body N D) = Ok s'). rewrite H4. exact H2.
Qed.
Lemma loading_run N D : forall fuel s s', loading N D fuel s = Ok s' ->
  exists k, run N D k s = Ok s' /\ loop_cond N s' = false /\ (forall j sj, (j < k)%nat -> run N D j s = Ok sj -> loop_cond N sj = true).
Proof.
  induction fuel as [|fuel IH]; intros s s' H; simpl in H; destruct (loop_cond N s) eqn:C; try discriminate.
  - apply Ok_inj in H as <-. exists 0%nat. split; [reflexivity|]. split; [exact C|]. intros; lia.
  - apply bind_ok in H as (s1 & H1 & H2). destruct (IH _ _ H2) as (k & R & C' & B). exists (S k). split; [eapply run_front; eauto|]. split; [exact C'|].
    intros [|j] sj Hj Hs; [simpl in Hs; apply Ok_inj in Hs as <-; exact C|].
    apply run_front_inv in Hs as (s2 & H3 & H4). rewrite H1 in H3. apply Ok_inj in H3 as <-. eapply B; [|exact H4]. lia.
  - apply Ok_inj in H as <-. exists 0%nat. split; [reflexivity|]. split; [exact C|]. intros; lia.
Qed.
(** with a total number of intervals, the loop ends *)
Lemma run_loading N D : forall k s s', run N D k s = Ok s' -> loop_cond N s' = false ->
  (forall j sj, (j < k)%nat -> run N D j s = Ok sj -> loop_cond N sj = true) -> forall fuel, (k <= fuel)%nat -> loading N D fuel s = Ok s'.
Proof.
  induction k as [|k IH]; intros s s' H C B fuel L.
  - simpl in H. apply Ok_inj in H as <-. destruct fuel; simpl; now rewrite C.
  - destruct fuel as [|fuel]; [lia|]. simpl. rewrite (B 0%nat s ltac:(lia) eq_refl).
    apply run_front_inv in H as (s1 & H1 & H2). rewrite H1. cbn [bind]. apply IH; auto; [|lia].
    intros j sj Hj Hs. apply (B (S j)); [lia|]. eapply run_front; eauto.
Qed.

Lemma assign_lt N k : 0 < n_freq N -> assign_at N k < n_total_assign N <-> Z.of_nat k < (n_total_assign N - n_start_assign N) * n_freq N.
Proof.
  intros Hf. unfold assign_at. set (x := Z.of_nat k). set (f := n_freq N) in *.
  pose proof (Z.div_mod x f ltac:(lia)). pose proof (Z.mod_pos_bound x f Hf). split; intros; nia.
Qed.
