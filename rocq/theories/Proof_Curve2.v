(** One loading interval: who is new on each link, and what curves and trees record. *)
From Verif Require Import Base Base_lemmas Model_Num Proof_Num Spec_Path Proof_Path Model_CC Spec_CC Proof_CC Proof_CC2 Proof_CC3 Model_Path Model_Link Spec_Link Spec_Node
  Proof_Link Proof_Link3 Proof_Link4 Proof_Link5 Model_World Model_Node Proof_Node Proof_Node2 Proof_Node3 Proof_Node4 Proof_Node5 Model_Sim Spec_Sim Proof_Sim1 Proof_Sim2 Proof_Sim3 Proof_Sim7 Proof_Safe3 Proof_Curve1 Spec_Curve.
Local Open Scope Z_scope.

Definition cgrow (incs : list (Q * Q)) (x y : option curve) : Prop :=
  match x, y with None, None => True | Some a, Some b => foldM add_increment a incs = Ok b | _, _ => False end.
Lemma cgrow_nil x : cgrow [] x x. Proof. destruct x; simpl; auto. Qed.
Lemma cgrow_app o1 o2 x y z : cgrow o1 x y -> cgrow o2 y z -> cgrow (o1 ++ o2) x z.
Proof. destruct x, y, z; simpl; try tauto. intros A B. rewrite foldM_app, A. exact B. Qed.

(** increments at one time, whole vehicles, [n] of them in total *)
Record batch (fs : Q) (t n : Z) (incs : list (Q * Q)) : Prop := {
  b_time : forall r, In r incs -> fst r = inject_Z (t + 1);
  b_amt : forall r, In r incs -> exists z, 0 <= z /\ snd r = (inject_Z z / fs)%Q;
  b_total : (total_amount incs == inject_Z n / fs)%Q }.
Lemma batch_nil fs t : batch fs t 0 [].
Proof. split; [intros r []|intros r []|]. unfold total_amount. simpl. symmetry. apply zero_div. Qed.
Lemma total_app a b : (total_amount (a ++ b) == total_amount a + total_amount b)%Q.
Proof. unfold total_amount. rewrite map_app. induction (map snd a) as [|x l IH]; simpl; [unfold sumQ; simpl; lra|]. unfold sumQ in *. simpl. rewrite IH. ring. Qed.
Lemma batch_app fs t n m a b : batch fs t n a -> batch fs t m b -> batch fs t (n + m) (a ++ b).
Proof.
  intros [A1 A2 A3] [B1 B2 B3]. split.
  - intros r Hr. apply in_app_or in Hr as [|]; auto.
  - intros r Hr. apply in_app_or in Hr as [|]; auto.
  - rewrite total_app, A3, B3, inject_Z_plus. unfold Qdiv. ring.
Qed.
Lemma bump_grow fs t n c c' : 0 <= n -> bump t c c' (inject_Z n / fs) -> exists incs, cgrow incs c c' /\ batch fs t n incs.
Proof.
  intros Hn. assert (B1 : batch fs t n [(inject_Z (t + 1), (inject_Z n / fs)%Q)]).
  { split; [intros r [<-|[]]; reflexivity|intros r [<-|[]]; eauto|]. unfold total_amount, sumQ. simpl. ring. }
  destruct c as [a|], c' as [b|]; simpl; try contradiction.
  - intros [[-> Z0]|E].
    + exists []. split; [reflexivity|]. split; [intros r []|intros r []|]. unfold total_amount, sumQ. simpl. now rewrite Z0.
    + exists [(inject_Z (t + 1), (inject_Z n / fs)%Q)]. split; [simpl; rewrite E; reflexivity|exact B1].
  - intros _. exists [(inject_Z (t + 1), (inject_Z n / fs)%Q)]. split; [exact I|exact B1].
Qed.

Record ngrow (N : net) (t : Z) (w w' : world) (E L : Z -> list Z) : Prop := {
  ng_keep : wkeep w w'; ng_like : forall l, link_like (w_link w l) (w_link w' l);
  ng_in : forall l, l_in (w_link w' l) = l_in (w_link w l) ++ E l;
  ng_fin : forall l, Permutation (l_fin (w_link w l)) (L l ++ l_fin (w_link w' l));
  ng_oq : forall n v, In v (w_oq w' n) -> In v (w_oq w n);
  ng_from : forall l v, In v (E l) -> In l (n_links N) /\
    ((exists n, In n (map o_node (n_origins N)) /\ In v (w_oq w n)) \/ (exists a, In a (n_links N) /\ a <> l /\ In v (l_fin (w_link w a))));
  ng_Nin : forall l, exists incs, cgrow incs (cc_Nin (w_cc w) l) (cc_Nin (w_cc w') l) /\ batch (n_fs N) t (Zlen (E l)) incs;
  ng_Nout : forall l, exists incs, cgrow incs (cc_Nout (w_cc w) l) (cc_Nout (w_cc w') l) /\ batch (n_fs N) t (Zlen (L l)) incs;
  ng_Tin : forall l, ~ origin_fed N l -> tgrow (map (op (n_fs N) t w) (E l)) (cc_Tin (w_cc w) l) (cc_Tin (w_cc w') l);
  ng_Tout : forall l, ~ dest_bound N l -> exists us, Permutation us (L l) /\ tgrow (map (op (n_fs N) t w) us) (cc_Tout (w_cc w) l) (cc_Tout (w_cc w') l) }.
Lemma ngrow_refl N t w : ngrow N t w w (fun _ => []) (fun _ => []).
Proof.
  split; auto using wkeep_refl.
  - intros l. split; reflexivity.
  - intros l. now rewrite app_nil_r.
  - intros l v [].
  - intros l. exists []. split; [apply cgrow_nil|apply batch_nil].
  - intros l. exists []. split; [apply cgrow_nil|apply batch_nil].
  - intros l _. apply tgrow_nil.
  - intros l _. exists []. split; [constructor|apply tgrow_nil].
Qed.
Lemma ngrow_trans N t a b c e x e' x' : ngrow N t a b e x -> ngrow N t b c e' x' -> ngrow N t a c (fun l => e l ++ e' l) (fun l => x l ++ x' l).
Proof.
  intros [K1 L1 I1 F1 Q1 R1 A1 B1 T1 O1] [K2 L2 I2 F2 Q2 R2 A2 B2 T2 O2]. split.
  - eapply wkeep_trans; eauto.
  - intros l. destruct (L1 l), (L2 l). split; congruence.
  - intros l. now rewrite I2, I1, app_assoc.
  - intros l. rewrite (F1 l), (F2 l), app_assoc. reflexivity.
  - intros n v Hv. auto.
  - intros l v Hv. apply in_app_or in Hv as [Hv|Hv]; [exact (R1 l v Hv)|]. destruct (R2 l v Hv) as (Hl & [(n & Hn & Ho)|(y & Ha & Ne & Hf)]); split; auto.
    + left. eauto.
    + right. exists y. split; [exact Ha|]. split; [exact Ne|]. eapply Permutation_in; [symmetry; apply F1|]. apply in_or_app. now right.
  - intros l. destruct (A1 l) as (i & G & H), (A2 l) as (i' & G' & H'). exists (i ++ i'). split; [eapply cgrow_app; eauto|]. rewrite Zlen_app. now apply batch_app.
  - intros l. destruct (B1 l) as (i & G & H), (B2 l) as (i' & G' & H'). exists (i ++ i'). split; [eapply cgrow_app; eauto|]. rewrite Zlen_app. now apply batch_app.
  - intros l Hl. rewrite map_app. eapply tgrow_app; [apply T1, Hl|]. rewrite <- (map_op_keep _ _ a b _ K1). apply T2, Hl.
  - intros l Hl. destruct (O1 l Hl) as (u & P & G), (O2 l Hl) as (u' & P' & G'). exists (u ++ u'). split; [now apply Permutation_app|]. rewrite map_app. eapply tgrow_app; [exact G|].
    rewrite <- (map_op_keep _ _ a b _ K1). exact G'.
Qed.

Lemma perm_nil_l {A} (l m : list A) : Permutation m (l ++ m) -> l = [].
Proof. intros P. apply Permutation_length in P. rewrite app_length in P. destruct l; [reflexivity|simpl in P; lia]. Qed.

Lemma node_ngrow N D t w w' nk : net_ok N -> draws_valid D -> paired (w_cc w) -> In nk (n_nodes N) -> node_evolve N D t w nk = Ok w' ->
  exists E L, ngrow N t w w' E L.
Proof.
  intros K DV Pr I H. destruct (node_neff N D t w w' nk K DV Pr I H) as (e & x & ol & di & J). exists e, x.
  assert (TT : (forall l, ~ origin_fed N l -> tgrow (map (op (n_fs N) t w) (e l)) (cc_Tin (w_cc w) l) (cc_Tin (w_cc w') l)) /\
    (forall l, ~ dest_bound N l -> exists us, Permutation us (x l) /\ tgrow (map (op (n_fs N) t w) us) (cc_Tout (w_cc w) l) (cc_Tout (w_cc w') l))).
  { destruct nk as [n k]. assert (Junc : (exists e x, mgrow (n_fs N) t w w' e x) -> (forall l, tgrow (map (op (n_fs N) t w) (e l)) (cc_Tin (w_cc w) l) (cc_Tin (w_cc w') l)) /\
      (forall l, exists us, Permutation us (x l) /\ tgrow (map (op (n_fs N) t w) us) (cc_Tout (w_cc w) l) (cc_Tout (w_cc w') l))).
    { intros (e' & x' & [G1 G2 G3 G4 G5]). split; intros l.
      - pose proof (ne_in _ _ _ _ _ _ _ _ J l) as A. rewrite G2 in A. apply app_inv_head in A. rewrite <- A. apply G4.
      - exists (x' l). split; [|apply G5]. pose proof (ne_fin _ _ _ _ _ _ _ _ J l) as A. rewrite (G3 l) in A. now apply Permutation_app_inv_r in A. }
    destruct k; cbn [node_evolve] in H.
    - apply junction_grow in H. destruct (Junc H) as [TA TB]. split; auto.
    - apply junction_grow in H. destruct (Junc H) as [TA TB]. split; auto.
    - apply origin_okeep in H as ((T1 & T2) & F & I'). split; intros l Hl; rewrite ?T1, ?T2.
      + assert (e l = []) as ->; [|apply tgrow_nil]. pose proof (ne_in _ _ _ _ _ _ _ _ J l) as A. rewrite I' in A; [|intros C; apply Hl; exists n; auto].
        rewrite <- app_nil_r in A at 1. apply app_inv_head in A. congruence.
      + exists []. split; [|apply tgrow_nil]. pose proof (ne_fin _ _ _ _ _ _ _ _ J l) as A. rewrite F in A. apply perm_nil_l in A. rewrite A. constructor.
    - apply dest_dkeep in H as ((T1 & T2) & F & I'). split; intros l Hl; rewrite ?T1, ?T2.
      + assert (e l = []) as ->; [|apply tgrow_nil]. pose proof (ne_in _ _ _ _ _ _ _ _ J l) as A. rewrite F in A. rewrite <- app_nil_r in A at 1. apply app_inv_head in A. congruence.
      + exists []. split; [|apply tgrow_nil]. pose proof (ne_fin _ _ _ _ _ _ _ _ J l) as A. rewrite I' in A; [|intros C; apply Hl; exists n; auto]. apply perm_nil_l in A. rewrite A. constructor. }
  destruct TT as [T1 T2]. destruct J as [j1 j2 j3 j4 j5 j6 j7 j8 j9 j10 j11 j12 j13 j14 j15 j16 j17 j18 j19 j20 j21 j22]. split; auto.
  - intros m v Hv. eapply Permutation_in; [symmetry; apply j6|]. apply in_or_app. now right.
  - intros l v Hv. destruct (j10 l v Hv) as (Hl & [(m & Ho & Hn)|(a & Ha & Hn)]); (split; [exact Hl|]).
    + left. exists m. split; [eapply j21; eauto|]. eapply Permutation_in; [symmetry; apply j6|]. apply in_or_app. now left.
    + right. exists a. pose proof (j20 _ _ Ha) as C. split; [apply (no_in N K _ _ C)|]. split.
      * intros ->. exact (proj2 (proj2 (no_around N K (n_to N l))) l C Hn).
      * eapply Permutation_in; [symmetry; apply j4|]. apply in_or_app. now left.
  - intros l. apply bump_grow; [unfold Zlen; lia|apply j15].
  - intros l. apply bump_grow; [unfold Zlen; lia|apply j16].
Qed.
Lemma nodes_ngrow N D t : net_ok N -> draws_valid D -> forall l w w', sinv N w -> (forall nk, In nk l -> In nk (n_nodes N)) -> foldM (node_evolve N D t) w l = Ok w' ->
  exists E L, ngrow N t w w' E L.
Proof.
  intros K DV. induction l as [|nk l IH]; intros w w' I Hl H; simpl in H.
  - apply Ok_inj in H as <-. eexists. eexists. apply ngrow_refl.
  - apply bind_ok in H as (w1 & H1 & H2). pose proof (Hl nk (or_introl eq_refl)) as Hk.
    destruct (node_neff N D t w w1 nk K DV (i_paired N w I) Hk H1) as (a & b & c & d & J).
    destruct (node_ngrow N D t w w1 nk K DV (i_paired N w I) Hk H1) as (e & x & G1).
    destruct (IH w1 w' (neff_sinv _ _ _ _ _ _ _ _ K J I) (fun y Hy => Hl y (or_intror Hy)) H2) as (e' & x' & G2).
    eexists. eexists. eapply ngrow_trans; eauto.
Qed.
