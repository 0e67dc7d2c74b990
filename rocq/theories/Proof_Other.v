(** A loading with an unknown routing type stays empty; random routing. *)
From Verif Require Import Base Base_lemmas Model_Num Proof_Num Spec_Path Proof_Path Model_CC Spec_CC Proof_CC Model_Path Model_Link Spec_Link Spec_Node
  Proof_Link Proof_Link3 Proof_Link4 Proof_Link5 Model_World Model_Node Proof_Node Proof_Node2 Proof_Node3 Proof_Node4 Proof_Node5 Model_Sim Spec_Sim
  Proof_Sim1 Proof_Sim2 Proof_Sim3 Proof_Sim4 Model_Other Spec_Other.
Local Open Scope Z_scope.

Lemma untracked_ok N : net_ok N -> net_ok (untracked N).
Proof. intros [A B C D E F G H I J K]. constructor; auto. Qed.
Lemma untracked_sinv N w : sinv N w -> sinv (untracked N) w.
Proof. intros [A B C D E F G H I J]. constructor; auto. Qed.
Lemma sinv_untracked N w : sinv (untracked N) w -> sinv N w.
Proof. intros [A B C D E F G H I J]. constructor; auto. Qed.

Lemma zc_all_zero l : (forall v, zc v l = 0) -> l = [].
Proof. destruct l as [|v l]; [reflexivity|]. intros H. assert (X : 1 <= zc v (v :: l)) by (apply zc_In; now left). specialize (H v). lia. Qed.
Lemma sumZ_zero_each {A} (f : A -> Z) l : (forall x, 0 <= f x) -> sumZ (map f l) = 0 -> forall x, In x l -> f x = 0.
Proof.
  intros P. induction l as [|y l IH]; intros E x H; [destruct H|]. change (sumZ (map f (y :: l))) with (f y + sumZ (map f l)) in E.
  assert (X : 0 <= sumZ (map f l)). { clear E IH H. induction l as [|z l IH]; [reflexivity|]. change (sumZ (map f (z :: l))) with (f z + sumZ (map f l)). specialize (P z). lia. }
  pose proof (P y). destruct H as [<-|H]; [lia|]. apply IH; [lia|exact H].
Qed.

(** an empty state, place by place *)
Lemma empty_places N w : sinv N w -> f_num (w_fac w) = 0 ->
  (forall o, In o (n_origins N) -> w_oq w (o_node o) = []) /\ (forall l, In l (n_links N) -> on_link (w_link w l) = []) /\
  (forall d, In d (n_dests N) -> w_dq w d = []) /\ f_done (w_fac w) = [].
Proof.
  intros I Z0.
  assert (C : forall v, zo N w v = 0 /\ zl N w v = 0 /\ zd N w v = 0 /\ zc v (arrived w) = 0).
  { intros v. pose proof (i_count _ _ I v) as E. rewrite Z0 in E. unfold zcount in E.
    assert (P : 0 <= zo N w v /\ 0 <= zl N w v /\ 0 <= zd N w v).
    { unfold zo, zl, zd. rewrite <- !zc_concat. repeat split; apply zc_nonneg. }
    pose proof (zc_nonneg v (arrived w)). destruct (Z.leb_spec 1 v), (Z.leb_spec v 0); cbn [andb one_if] in E; lia. }
  repeat split.
  - intros o Ho. apply zc_all_zero. intros v. destruct (C v) as (A & _). unfold zo in A.
    apply (sumZ_zero_each _ _ (fun n => zc_nonneg v (w_oq w n)) A). now apply in_map.
  - intros l Hl. apply zc_all_zero. intros v. destruct (C v) as (_ & A & _). unfold zl in A.
    apply (sumZ_zero_each _ _ (fun n => zc_nonneg v (on_link (w_link w n))) A). exact Hl.
  - intros d Hd. apply zc_all_zero. intros v. destruct (C v) as (_ & _ & A & _). unfold zd in A.
    apply (sumZ_zero_each _ _ (fun n => zc_nonneg v (w_dq w n)) A). exact Hd.
  - assert (A : arrived w = []) by (apply zc_all_zero; intros v; apply C). unfold arrived in A. now apply map_eq_nil in A.
Qed.
Lemma empty_nobody N w : sinv N w -> f_num (w_fac w) = 0 -> nobody N w.
Proof.
  intros I Z0. destruct (empty_places N w I Z0) as (A & B & C & D). pose proof (i_fin _ _ I) as Fi. rewrite D in Fi. change (Zlen []) with 0 in Fi.
  pose proof (i_enr _ _ I) as En. split; [exact Z0|]. split; [exact Fi|]. split; [lia|]. split; [exact D|].
  unfold at_origins, on_links, at_dests. repeat split; apply concat_nil_Forall, Forall_map, Forall_forall; auto.
Qed.

(** nobody to route *)
Lemma foldM_idle {A St} (f : St -> A -> res St) (s : St) l : (forall a, In a l -> f s a = Ok s) -> foldM f s l = Ok s.
Proof. induction l as [|a l IH]; intros H; [reflexivity|]. cbn [foldM]. rewrite (H a (or_introl eq_refl)). apply IH. intros b Hb. apply H. now right. Qed.
Lemma random_idle N r w : sinv N w -> f_num (w_fac w) = 0 -> random_routing N r w = Ok w.
Proof.
  intros I Z0. destruct (empty_places N w I Z0) as (A & B & _). unfold random_routing.
  rewrite (foldM_idle (fun w o => foldM (random_origin_veh N r (o_node o)) w (w_oq w (o_node o)))) by (intros o Ho; now rewrite (A o Ho)). cbn [bind].
  apply foldM_idle. intros l Hl. specialize (B l Hl). unfold on_link in B. apply app_eq_nil in B as [B _]. now rewrite B.
Qed.

Lemma load_other_empty N D r t w w' : net_ok N -> draws_valid D -> sinv N w -> f_num (w_fac w) = 0 -> load_other N D r t w = Ok w' ->
  sinv N w' /\ f_num (w_fac w') = 0.
Proof.
  intros K DV I Z0 H. unfold load_other in H. apply bind_ok in H as (u & _ & H). apply bind_ok in H as (w2 & H2 & H).
  rewrite (random_idle N r w I Z0) in H2. apply Ok_inj in H2 as <-. apply bind_ok in H as (w3 & H3 & H). apply bind_ok in H as (w4 & H4 & H).
  pose proof (nodes_sinv _ _ _ _ _ K DV H3 I) as I3. pose proof (links_sinv _ _ _ _ K H4 I3) as I4.
  assert (Z4 : f_num (w_fac w4) = 0) by (rewrite (links_fac _ _ _ _ H4), (nodes_fac _ _ _ _ _ K DV I H3); exact Z0).
  split; [apply sinv_untracked; eapply (dests_sinv (untracked N)); [now apply untracked_ok|exact H|now apply untracked_sinv]|].
  enough (X : f_num (w_fac w') = f_num (w_fac w4)) by lia. clear - H. revert H.
  apply (foldM_rel (fun a b => f_num (w_fac b) = f_num (w_fac a))); [reflexivity|congruence|]. intros s n s' _ E. unfold receive in E.
  apply bind_ok in E as (x & E1 & E). apply Ok_inj in E as <-. apply receive_loop_eff in E1. destruct E1 as [A1 A2 A3 A4 A5 A6 A7 A8 A9 A10 A11 A12 A13 A14 A15]. exact A6.
Qed.
Lemma loading_other_empty N D r : net_ok N -> (forall t, draws_valid (D t)) -> forall fuel s s', sinv N (s_w s) -> f_num (w_fac (s_w s)) = 0 ->
  (forall x, In x (s_enroute s) -> x = 0) -> loading_other N D r fuel s = Ok s' ->
  sinv N (s_w s') /\ f_num (w_fac (s_w s')) = 0 /\ (forall x, In x (s_enroute s') -> x = 0).
Proof.
  intros K DV. induction fuel as [|fuel IH]; intros s s' I Z0 E H; cbn [loading_other] in H; destruct (loop_cond N s).
  - discriminate H.
  - apply Ok_inj in H as <-. auto.
  - apply bind_ok in H as (s1 & H1 & H). unfold body_other in H1. apply bind_ok in H1 as (w & H1 & H2). cbv zeta in H2. apply Ok_inj in H2 as <-.
    destruct (load_other_empty _ _ _ _ _ _ K (DV _) I Z0 H1) as (I' & Z'). apply IH in H; cbn [s_w s_enroute]; auto.
    intros x Hx. apply in_app_or in Hx as [Hx|[<-|[]]]; [auto|]. destruct (empty_nobody N w I' Z') as (_ & _ & X & _). exact X.
  - apply Ok_inj in H as <-. auto.
Qed.

(** ** the draws *)
Lemma pick_out_In r outs b : pick_out r outs = Some b -> In b outs.
Proof. apply nth_error_In. Qed.
Lemma pick_out_some r outs : outs <> [] -> exists b, pick_out r outs = Some b.
Proof.
  intros H. destruct (pick_out r outs) eqn:E; [eauto|]. exfalso. apply nth_error_None in E.
  assert (length outs <> 0%nat) by (now destruct outs). pose proof (Nat.mod_upper_bound r (length outs) H0). lia.
Qed.
Lemma pick_out_all outs b : In b outs -> exists r, pick_out r outs = Some b.
Proof.
  intros H. apply In_nth_error in H as (i & E). exists i. unfold pick_out. rewrite Nat.mod_small; [exact E|]. apply nth_error_Some. congruence.
Qed.
