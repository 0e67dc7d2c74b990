(** Who moves over which link in one node update, and what the per-path trees record. *)
From Verif Require Import Base Base_lemmas Model_Num Proof_Num Spec_Path Proof_Path Model_CC Spec_CC Proof_CC Proof_CC2 Proof_CC3 Model_Path Model_Link Spec_Link Spec_Node
  Proof_Link Proof_Link3 Proof_Link4 Proof_Link5 Model_World Model_Node Proof_Node Proof_Node2 Proof_Node3 Proof_Node4 Proof_Node5 Model_Sim Spec_Sim Proof_Sim1 Proof_Sim2 Proof_Sim3.
Local Open Scope Z_scope.

(** from tree [x] to tree [y] by the entries [ops]; nothing if not installed *)
Definition tgrow (ops : list flow_op) (x y : option cctree) : Prop :=
  match x, y with None, None => True | Some a, Some b => foldM apply_op a ops = Ok b | _, _ => False end.
Lemma tgrow_nil x : tgrow [] x x. Proof. destruct x; simpl; auto. Qed.
Lemma tgrow_app o1 o2 x y z : tgrow o1 x y -> tgrow o2 y z -> tgrow (o1 ++ o2) x z.
Proof. destruct x, y, z; simpl; try tauto. intros A B. rewrite foldM_app, A. exact B. Qed.

Definition op (fs : Q) (t : Z) (w : world) (v : Z) : flow_op :=
  ((path_key (w_veh w v), v_assign (w_veh w v)), (inject_Z (t + 1), (1 / fs)%Q)).
Lemma op_keep fs t w w' v : vkeep (w_veh w' v) (w_veh w v) -> op fs t w' v = op fs t w v.
Proof. intros (_ & _ & _ & _ & _ & E1 & _ & E2). unfold op, path_key. rewrite E1, E2. reflexivity. Qed.

Definition on_ {A} (l b : Z) (vs : list A) : list A := if l =? b then vs else [].
Lemma on_map {A B} (f : A -> B) l b vs : map f (on_ l b vs) = on_ l b (map f vs).
Proof. unfold on_. destruct (l =? b); reflexivity. Qed.

Lemma tree_inc_grow fs t a b w v w' : tree_inc fs t a b w v = Ok w' ->
  forall l, tgrow (on_ l b [op fs t w v]) (cc_Tin (w_cc w) l) (cc_Tin (w_cc w') l) /\
            tgrow (on_ l a [op fs t w v]) (cc_Tout (w_cc w) l) (cc_Tout (w_cc w') l).
Proof.
  unfold tree_inc. cbv zeta. intros H l. apply bind_ok in H as (w1 & H1 & H2).
  assert (A : tgrow (on_ l b [op fs t w v]) (cc_Tin (w_cc w) l) (cc_Tin (w_cc w1) l) /\ cc_Tout (w_cc w1) = cc_Tout (w_cc w)).
  { unfold on_. destruct (cc_Tin (w_cc w) b) as [tr|] eqn:E.
    - apply bind_ok in H1 as (tr' & H0 & H1). apply Ok_inj in H1 as <-. cbn [w_cc set_cc cc_Tin cc_Tout set_Tin]. split; [|reflexivity].
      destruct (Z.eqb_spec l b) as [->|N]; [rewrite upd_same, E|rewrite upd_other by auto; apply tgrow_nil].
      cbn [tgrow foldM]. unfold apply_op, op at 1 2 3 4. cbn [fst snd]. rewrite H0. reflexivity.
    - apply Ok_inj in H1 as <-. split; [|reflexivity]. destruct (Z.eqb_spec l b) as [->|N]; [rewrite E; exact I|apply tgrow_nil]. }
  destruct A as [A A']. rewrite <- A'. 
  assert (B : tgrow (on_ l a [op fs t w v]) (cc_Tout (w_cc w1) l) (cc_Tout (w_cc w') l) /\ cc_Tin (w_cc w') = cc_Tin (w_cc w1)).
  { unfold on_. destruct (cc_Tout (w_cc w1) a) as [tr|] eqn:E.
    - apply bind_ok in H2 as (tr' & H0 & H2). apply Ok_inj in H2 as <-. cbn [w_cc set_cc cc_Tin cc_Tout set_Tout]. split; [|reflexivity].
      destruct (Z.eqb_spec l a) as [->|N]; [rewrite upd_same, E|rewrite upd_other by auto; apply tgrow_nil].
      cbn [tgrow foldM]. unfold apply_op, op at 1 2 3 4. cbn [fst snd]. rewrite H0. reflexivity.
    - apply Ok_inj in H2 as <-. split; [|reflexivity]. destruct (Z.eqb_spec l a) as [->|N]; [rewrite E; exact I|apply tgrow_nil]. }
  destruct B as [B B']. rewrite B'. split; assumption.
Qed.
Lemma trees_grow fs t a b : forall vs w w', foldM (tree_inc fs t a b) w vs = Ok w' ->
  forall l, tgrow (on_ l b (map (op fs t w) vs)) (cc_Tin (w_cc w) l) (cc_Tin (w_cc w') l) /\
            tgrow (on_ l a (map (op fs t w) vs)) (cc_Tout (w_cc w) l) (cc_Tout (w_cc w') l).
Proof.
  induction vs as [|v vs IH]; intros w w' H l; simpl in H.
  - apply Ok_inj in H as <-. unfold on_. cbn [map]. destruct (l =? b), (l =? a); split; apply tgrow_nil.
  - apply bind_ok in H as (w1 & H1 & H2). pose proof (tree_inc_grow _ _ _ _ _ _ _ H1 l) as [A B]. apply tree_inc_keep in H1 as [K _].
    destruct (IH _ _ H2 l) as [C D]. assert (E : map (op fs t w1) vs = map (op fs t w) vs).
    { apply map_ext. intros x. unfold op. destruct K as (-> & _). reflexivity. }
    rewrite E in C, D. cbn [map]. change (op fs t w v :: map (op fs t w) vs) with ([op fs t w v] ++ map (op fs t w) vs).
    assert (X : forall c, on_ l c ([op fs t w v] ++ map (op fs t w) vs) = on_ l c [op fs t w v] ++ on_ l c (map (op fs t w) vs)).
    { intros c. unfold on_. destruct (l =? c); reflexivity. }
    rewrite !X. split; eapply tgrow_app; eauto.
Qed.

Lemma pull_perm f : forall q n vs rest m, pull f n q = (vs, rest, m) -> Permutation q (vs ++ rest).
Proof.
  induction q as [|v q IH]; intros n vs rest m H; simpl in H.
  - injection H as <- <- _. constructor.
  - destruct (0 <? n); [|injection H as <- <- _; reflexivity]. destruct (f v).
    + destruct (pull f (n - 1) q) as [[t r] m'] eqn:E. injection H as <- <- _. simpl. constructor. eapply IH; eauto.
    + destruct (pull f n q) as [[t r] m'] eqn:E. injection H as <- <- _. etransitivity; [constructor; eapply IH; eauto|]. apply Permutation_middle.
Qed.

(** one update: [ent l] went on link [l], [lea l] left it; trees record them *)
Record mgrow (fs : Q) (t : Z) (w w' : world) (ent lea : Z -> list Z) : Prop := {
  mg_keep : wkeep w w';
  mg_in : forall l, l_in (w_link w' l) = l_in (w_link w l) ++ ent l;
  mg_fin : forall l, Permutation (l_fin (w_link w l)) (lea l ++ l_fin (w_link w' l));
  mg_Tin : forall l, tgrow (map (op fs t w) (ent l)) (cc_Tin (w_cc w) l) (cc_Tin (w_cc w') l);
  mg_Tout : forall l, tgrow (map (op fs t w) (lea l)) (cc_Tout (w_cc w) l) (cc_Tout (w_cc w') l) }.
Lemma mgrow_refl fs t w : mgrow fs t w w (fun _ => []) (fun _ => []).
Proof. split; [apply wkeep_refl| | | |]; intros l; [now rewrite app_nil_r|reflexivity|apply tgrow_nil|apply tgrow_nil]. Qed.
Lemma map_op_keep fs t w w' vs : wkeep w w' -> map (op fs t w') vs = map (op fs t w) vs.
Proof. intros (_ & _ & _ & V). apply map_ext. intros v. apply op_keep, V. Qed.
Lemma mgrow_trans fs t a b c e l e' l' : mgrow fs t a b e l -> mgrow fs t b c e' l' -> mgrow fs t a c (fun x => e x ++ e' x) (fun x => l x ++ l' x).
Proof.
  intros [K1 I1 F1 T1 O1] [K2 I2 F2 T2 O2]. split; [eapply wkeep_trans; eauto| | | |]; intros x.
  - now rewrite I2, I1, app_assoc.
  - rewrite (F1 x), (F2 x), app_assoc. reflexivity.
  - rewrite map_app. eapply tgrow_app; [apply T1|]. rewrite <- (map_op_keep fs t a b _ K1). apply T2.
  - rewrite map_app. eapply tgrow_app; [apply O1|]. rewrite <- (map_op_keep fs t a b _ K1). apply O2.
Qed.

Lemma move_pair_grow fs t a b k w w' : move_pair fs t a b k w = Ok w' -> exists ent lea, mgrow fs t w w' ent lea.
Proof.
  unfold move_pair. destruct (pull _ _ _) as [[vs rest] lft] eqn:P. apply pull_perm in P. intros H. apply bind_ok in H as (w4 & H1 & H). apply bind_ok in H as (? & _ & H). apply Ok_inj in H as <-.
  pose proof (trees_keep _ _ _ _ _ _ _ H1) as [K _]. pose proof (trees_grow _ _ _ _ _ _ _ H1) as G.
  match type of H1 with foldM _ ?x _ = _ => set (w3 := x) in * end.
  assert (V : forall v, vkeep (w_veh w3 v) (w_veh w v)).
  { intros v. unfold w3. cbn [set_vehs w_veh]. apply on_vehs_keep. intros y. repeat split. }
  assert (W : wkeep w w4). { destruct K as (E1 & E2 & E3 & E4 & E5 & E6 & E7). split; [rewrite E5; reflexivity|]. split; [rewrite E6; reflexivity|]. split; [rewrite E7; reflexivity|]. intros v. rewrite E1. apply V. }
  assert (L : forall l, w_link w4 l = w_link w3 l) by (intros l; destruct K as (_ & -> & _); reflexivity).
  exists (fun l => on_ l b vs), (fun l => on_ l a vs). split; [exact W| | | |]; intros l.
  - rewrite L. unfold w3, on_. cbn [set_vehs set_link w_link]. unfold upd. destruct (Z.eqb_spec l b) as [->|N].
    + cbn [set_in l_in]. destruct (Z.eqb_spec b a) as [->|]; reflexivity.
    + rewrite app_nil_r. destruct (Z.eqb_spec l a) as [->|]; reflexivity.
  - rewrite L. unfold w3, on_. cbn [set_vehs set_link w_link]. unfold upd. destruct (Z.eqb_spec l b) as [->|N].
    + cbn [set_in l_fin]. destruct (Z.eqb_spec b a) as [->|]; [exact P|reflexivity].
    + destruct (Z.eqb_spec l a) as [->|]; [exact P|reflexivity].
  - rewrite on_map. destruct (G l) as [A _]. replace (map (op fs t w) vs) with (map (op fs t w3) vs); [exact A|]. apply map_ext. intros v. apply op_keep, V.
  - rewrite on_map. destruct (G l) as [_ A]. replace (map (op fs t w) vs) with (map (op fs t w3) vs); [exact A|]. apply map_ext. intros v. apply op_keep, V.
Qed.
Lemma foldM_grow {A} fs t (f : world -> A -> res world) : forall l w w',
  (forall w a w', In a l -> f w a = Ok w' -> exists e x, mgrow fs t w w' e x) -> foldM f w l = Ok w' -> exists e x, mgrow fs t w w' e x.
Proof.
  induction l as [|a l IH]; intros w w' Hf H; simpl in H.
  - apply Ok_inj in H as <-. eexists. eexists. apply mgrow_refl.
  - apply bind_ok in H as (w1 & H1 & H2). destruct (Hf _ _ _ (or_introl eq_refl) H1) as (e & x & M1).
    destruct (IH _ _ (fun w a w' Ha => Hf w a w' (or_intror Ha)) H2) as (e' & x' & M2). eexists. eexists. eapply mgrow_trans; eauto.
Qed.
Definition tkeep (w w' : world) : Prop := cc_Tin (w_cc w') = cc_Tin (w_cc w) /\ cc_Tout (w_cc w') = cc_Tout (w_cc w).
Lemma tkeep_refl w : tkeep w w. Proof. split; reflexivity. Qed.
Lemma tkeep_trans a b c : tkeep a b -> tkeep b c -> tkeep a c. Proof. intros [A B] [C D]. split; congruence. Qed.
Lemma keep_grow fs t w w' : cc_keep w w' -> tkeep w w' -> mgrow fs t w w' (fun _ => []) (fun _ => []).
Proof.
  intros K [T1 T2]. pose proof (cc_keep_wkeep _ _ K) as W. destruct K as (_ & L & _). split; [exact W| | | |]; intros l; rewrite ?L, ?T1, ?T2; [now rewrite app_nil_r|reflexivity|apply tgrow_nil|apply tgrow_nil].
Qed.
Lemma inc_in_t w l t x w' : inc_in w l t x = Ok w' -> cc_keep w w' /\ tkeep w w'.
Proof. intros H. apply inc_in_ok in H as (K & _ & T1 & T2 & _). split; [exact K|split; assumption]. Qed.
Lemma inc_out_t w l t x w' : inc_out w l t x = Ok w' -> cc_keep w w' /\ tkeep w w'.
Proof. intros H. apply inc_out_ok in H as (K & _ & T1 & T2 & _). split; [exact K|split; assumption]. Qed.
Lemma record_grow fs t ins m w w' : record_curves fs t ins m w = Ok w' -> exists e x, mgrow fs t w w' e x.
Proof.
  unfold record_curves. intros H. apply bind_ok in H as (w1 & H1 & H2).
  assert (G1 : exists e x, mgrow fs t w w1 e x).
  { revert H1. apply foldM_grow. intros a bc b _ E. unfold record_out in E. exists (fun _ => []), (fun _ => []). apply keep_grow.
    - destruct (cc_Nout _ _); [|apply Ok_inj in E as <-; apply cc_keep_refl]. destruct (0 <? _); [apply inc_in_t in E; apply E|apply Ok_inj in E as <-; apply cc_keep_refl].
    - destruct (cc_Nout _ _); [|apply Ok_inj in E as <-; apply tkeep_refl]. destruct (0 <? _); [apply inc_in_t in E; apply E|apply Ok_inj in E as <-; apply tkeep_refl]. }
  assert (G2 : exists e x, mgrow fs t w1 w' e x).
  { revert H2. apply foldM_grow. intros a bc b _ E. unfold record_in in E. exists (fun _ => []), (fun _ => []). apply keep_grow.
    - destruct (cc_Nin _ _); [|apply Ok_inj in E as <-; apply cc_keep_refl]. destruct (0 <? _); [apply inc_out_t in E; apply E|apply Ok_inj in E as <-; apply cc_keep_refl].
    - destruct (cc_Nin _ _); [|apply Ok_inj in E as <-; apply tkeep_refl]. destruct (0 <? _); [apply inc_out_t in E; apply E|apply Ok_inj in E as <-; apply tkeep_refl]. }
  destruct G1 as (e & x & G1), G2 as (e' & x' & G2). eexists. eexists. eapply mgrow_trans; eauto.
Qed.
Lemma junction_grow fs ins outs flow D t n w w' : junction_evolve fs ins outs flow D t n w = Ok w' -> exists e x, mgrow fs t w w' e x.
Proof.
  unfold junction_evolve. intros H. apply bind_ok in H as (m & _ & H). apply bind_ok in H as (w1 & H1 & H). apply record_grow in H1 as (e & x & G1).
  assert (G2 : exists e x, mgrow fs t w1 w' e x).
  { revert H. unfold move_vehicles. apply foldM_grow. intros a bc b _ E. unfold move_column in E. revert E. apply foldM_grow. intros p q r _ E. eapply move_pair_grow; eauto. }
  destruct G2 as (e' & x' & G2). eexists. eexists. eapply mgrow_trans; eauto.
Qed.

(** origin and destination nodes leave the trees alone *)
Lemma foldM_inv' {A} (f : world -> A -> res world) (R : world -> world -> Prop) : (forall w, R w w) -> (forall a b c, R a b -> R b c -> R a c) ->
  forall l w w', (forall w a w', In a l -> f w a = Ok w' -> R w w') -> foldM f w l = Ok w' -> R w w'.
Proof.
  intros Rr Rt. induction l as [|a l IH]; intros w w' Hf H; simpl in H.
  - apply Ok_inj in H as <-. apply Rr.
  - apply bind_ok in H as (w1 & H1 & H2). eapply Rt; [eapply Hf; [now left|exact H1]|]. eapply IH; [|exact H2]. intros; eapply Hf; [right; eassumption|eassumption].
Qed.
Definition okeep (outs : list Z) (w w' : world) : Prop :=
  tkeep w w' /\ (forall l, l_fin (w_link w' l) = l_fin (w_link w l)) /\ (forall l, ~ In l outs -> l_in (w_link w' l) = l_in (w_link w l)).
Lemma origin_okeep fs outs r t n w w' : origin_evolve fs outs r t n w = Ok w' -> okeep outs w w'.
Proof.
  unfold origin_evolve. intros H. apply bind_ok in H as (? & _ & H). apply bind_ok in H as (ks & Hk & H).
  assert (Ek : forall bk, In bk ks -> In (fst bk) outs).
  { apply mapM_keyed in Hk as (Ek & _). intros bk Hb. rewrite <- Ek. now apply in_map. }
  refine (foldM_inv' _ (okeep outs) _ _ ks w w' _ H).
  - intros y. split; [apply tkeep_refl|split; reflexivity].
  - intros a b c (A1 & A2 & A3) (B1 & B2 & B3). split; [eapply tkeep_trans; eauto|]. split; [intros l; now rewrite B2, A2|intros l Hl; rewrite B3, A3; auto].
  - clear H Hk. intros a [b k] c Hb E. apply Ek in Hb. cbn [fst] in Hb. unfold origin_move in E. apply bind_ok in E as (w1 & E1 & E).
    assert (X : cc_keep a w1 /\ tkeep a w1).
    { destruct (cc_Nin (w_cc a) b); [|apply Ok_inj in E1 as <-; split; [apply cc_keep_refl|apply tkeep_refl]]. destruct (0 <? k); [now apply inc_in_t in E1|apply Ok_inj in E1 as <-; split; [apply cc_keep_refl|apply tkeep_refl]]. }
    destruct X as [(_ & L & _) T]. destruct (pull _ _ _) as [[vs rest] lft]. apply Ok_inj in E as <-. split; [exact T|].
    cbn [set_vehs set_link set_oq w_link]. unfold upd. split; intros l; [|intros Hl]; destruct (Z.eqb_spec l b) as [->|]; cbn [set_in l_fin l_in]; rewrite ?L; try reflexivity. contradiction.
Qed.
Definition dkeep (ins : list Z) (w w' : world) : Prop :=
  tkeep w w' /\ (forall l, l_in (w_link w' l) = l_in (w_link w l)) /\ (forall l, ~ In l ins -> l_fin (w_link w' l) = l_fin (w_link w l)).
Lemma dest_dkeep fs ins t n w w' : dest_evolve fs ins t n w = Ok w' -> dkeep ins w w'.
Proof.
  unfold dest_evolve. intros H. refine (foldM_inv' _ (dkeep ins) _ _ ins w w' _ H).
  - intros y. split; [apply tkeep_refl|split; reflexivity].
  - intros a b c (A1 & A2 & A3) (B1 & B2 & B3). split; [eapply tkeep_trans; eauto|]. split; [intros l; now rewrite B2, A2|intros l Hl; rewrite B3, A3; auto].
  - clear H. intros a b c Hb E. unfold dest_step in E. apply bind_ok in E as (w1 & E1 & E).
    assert (X : cc_keep a w1 /\ tkeep a w1).
    { destruct (cc_Nout (w_cc a) b); [|apply Ok_inj in E1 as <-; split; [apply cc_keep_refl|apply tkeep_refl]]. destruct (0 <? _); [now apply inc_out_t in E1|apply Ok_inj in E1 as <-; split; [apply cc_keep_refl|apply tkeep_refl]]. }
    destruct X as [(_ & L & _) T]. apply bind_ok in E as (? & _ & E). apply Ok_inj in E as <-. split; [exact T|].
    cbn [set_vehs set_link set_dq w_link]. unfold upd. split; intros l; [|intros Hl]; destruct (Z.eqb_spec l b) as [->|]; cbn [set_fin l_fin l_in]; rewrite ?L; try reflexivity. contradiction.
Qed.
