(** Facts about the movement loops of the two-class nodes. *)
From Verif Require Import Base Base_lemmas Model_Num Proof_Num Spec_Path Proof_Path Model_CC Spec_CC Proof_CC Proof_CC3 Model_Path Model_Link Spec_Link Spec_Node
  Proof_Link Proof_Link3 Proof_Link4 Model_World Model_Node Proof_Node Proof_Node2 Proof_Node3 Proof_Node4 Model_McLink Spec_McLink Model_McNode Spec_McNode.
Local Open Scope Z_scope.

Lemma sQc x l : sumQ (x :: l) = (x + sumQ l)%Q. Proof. reflexivity. Qed.
Lemma sQn : sumQ [] = 0%Q. Proof. reflexivity. Qed.
Ltac sqs := cbn [map] in *; rewrite ?sQc, ?sQn in *.

(** ** the extraction loop takes a prefix of the line *)
Fixpoint need (e : Z -> Q) (x : Q) (l : list Z) : nat :=
  match l with
  | [] => O
  | v :: l' => if Qltb 0 x then S (need e (x - e v)%Q l') else O
  end.
Lemma need_le e : forall l x, (need e x l <= length l)%nat.
Proof. induction l as [|v l IH]; intros x; simpl; [lia|]. destruct (Qltb 0 x); [specialize (IH (x - e v)%Q); lia|lia]. Qed.
Lemma need_nil e x l : Qltb 0 x = false -> need e x l = O.
Proof. intros H. destruct l; simpl; [reflexivity|]. now rewrite H. Qed.

Lemma mpull_spec f e : forall q x t r y, mpull f e x q = (t, r, y) ->
  let k := need e x (filter f q) in
  t = firstn k (filter f q) /\ y == x - sumQ (map e t) /\
  filter f r = skipn k (filter f q) /\
  (forall g, (forall v, f v = true -> g v = false) -> filter g r = filter g q) /\
  subseq r q /\ (forall v, cnt v q = (cnt v t + cnt v r)%nat).
Proof.
  induction q as [|v q IH]; intros x t r y E; simpl in E; cbv zeta.
  - injection E as <- <- <-. simpl. repeat split; auto; try lra. constructor.
  - destruct (Qltb 0 x) eqn:L.
    + destruct (f v) eqn:F.
      * destruct (mpull f e (x - e v)%Q q) as [[t1 r1] y1] eqn:E1. injection E as <- <- <-.
        destruct (IH _ _ _ _ E1) as (A & B & C & D & Sb & K). cbn [filter]. rewrite F. cbn [need]. rewrite L. cbn [firstn skipn].
        repeat split.
        -- now rewrite <- A.
        -- sqs. lra.
        -- exact C.
        -- intros g Hg. cbn [filter]. rewrite (Hg v F). auto.
        -- constructor; exact Sb.
        -- intros z. cbn [cnt]. simpl. rewrite K. lia.
      * destruct (mpull f e x q) as [[t1 r1] y1] eqn:E1. injection E as <- <- <-.
        destruct (IH _ _ _ _ E1) as (A & B & C & D & Sb & K).
        cbn [filter]. rewrite F. repeat split; auto.
        -- intros g Hg. cbn [filter]. destruct (g v); rewrite (D g Hg); reflexivity.
        -- constructor; exact Sb.
        -- intros z. simpl. rewrite K. lia.
    + injection E as <- <- <-. rewrite (need_nil e x _ L). simpl.
      repeat split; auto; try lra. apply subseq_refl.
Qed.

Lemma need_enough e : (forall v, 0 <= e v)%Q -> forall l x, (x <= sumQ (map e l))%Q -> (x <= sumQ (map e (firstn (need e x l) l)))%Q.
Proof.
  intros He. induction l as [|v l IH]; intros x H; sqs; [exact H|]. cbn [need].
  destruct (Qltb_spec 0 x) as [L|L].
  - cbn [firstn]. specialize (IH (x - e v)%Q). sqs. lra.
  - cbn [firstn]. sqs. lra.
Qed.
Lemma need_tight e : forall l x p v, firstn (need e x l) l = p ++ [v] -> (sumQ (map e p) < x)%Q.
Proof.
  induction l as [|u l IH]; intros x p v; cbn [need].
  - simpl. intros H. destruct p; discriminate.
  - destruct (Qltb_spec 0 x) as [L|L].
    + cbn [firstn]. destruct p as [|y p]; simpl; intros H.
      * sqs. lra.
      * injection H as <- H. apply IH in H. sqs. lra.
    + simpl. intros H. destruct p; discriminate.
Qed.
Lemma need_all e : (forall v, 0 < e v)%Q -> forall l x, (sumQ (map e l) <= x)%Q -> firstn (need e x l) l = l.
Proof.
  intros He. induction l as [|v l IH]; intros x H; [reflexivity|]. cbn [need] in *. sqs.
  assert (0 <= sumQ (map e l))%Q. { clear - He. induction l as [|u l IH]; sqs; [lra|]. specialize (He u). lra. }
  specialize (He v) as Hv. destruct (Qltb_spec 0 x) as [L|L]; [|lra]. cbn [firstn]. f_equal. apply IH. lra.
Qed.

(** ** what the steps leave alone *)
Lemma plans_refl w : same_plans w w.
Proof. repeat split. Qed.
Lemma plans_trans a b c : same_plans a b -> same_plans b c -> same_plans a c.
Proof.
  intros (A1 & A2 & A3 & A4 & A5 & A6 & A) (B1 & B2 & B3 & B4 & B5 & B6 & B). unfold same_plans. repeat split; try congruence;
  destruct (A v) as (?&?&?&?&?&?&?&?); destruct (B v) as (?&?&?&?&?&?&?&?); congruence.
Qed.
Lemma mgoes_keep w w' b v : same_plans w w' -> mgoes w' b v = mgoes w b v.
Proof. intros (_ & _ & _ & _ & _ & _ & H). unfold mgoes. destruct (H v) as (_&_&_&_&_&_&->&_). reflexivity. Qed.
Lemma filter_mgoes_keep w w' b l : same_plans w w' -> filter (mgoes w' b) l = filter (mgoes w b) l.
Proof. intros H. apply filter_ext. intros v. now apply mgoes_keep. Qed.
Lemma equiv_keep pcu w w' v : same_plans w w' -> equiv pcu w' v = equiv pcu w v.
Proof. intros (E & _). unfold equiv. now rewrite E. Qed.
Lemma mgoes_next w b v : mgoes w b v = true <-> v_next (mw_veh w v) = Some b.
Proof.
  unfold mgoes. destruct (v_next (mw_veh w v)) as [k|]; split; intros H; try discriminate.
  - apply Z.eqb_eq in H. congruence.
  - injection H as ->. apply Z.eqb_refl.
Qed.
Lemma mgoes_one w b b' v : b <> b' -> mgoes w b v = true -> mgoes w b' v = false.
Proof.
  intros N H. apply mgoes_next in H. unfold mgoes. rewrite H. now apply Z.eqb_neq.
Qed.
Lemma need_ext e e' : (forall v, e v = e' v) -> forall l x, need e x l = need e' x l.
Proof. intros H. induction l as [|v l IH]; intros x; simpl; [reflexivity|]. rewrite H. destruct (Qltb 0 x); auto. Qed.

Definition mcc_keep (w w' : mworld) : Prop :=
  mw_veh w' = mw_veh w /\ mw_cls w' = mw_cls w /\ mw_lab w' = mw_lab w /\ mw_link w' = mw_link w /\ mw_oq w' = mw_oq w /\ mw_dq w' = mw_dq w /\
  mw_fac w' = mw_fac w /\ mw_cf w' = mw_cf w /\ mw_trk w' = mw_trk w /\ mw_pt w' = mw_pt w.
Lemma mcc_refl w : mcc_keep w w. Proof. repeat split. Qed.
Lemma mcc_trans a b c : mcc_keep a b -> mcc_keep b c -> mcc_keep a c.
Proof. unfold mcc_keep. intuition congruence. Qed.
Lemma mcc_plans w w' : mcc_keep w w' -> same_plans w w'.
Proof. intros (A&B&C&D&E&F&G&H&I&J). repeat split; congruence. Qed.

(** ** totals of curves *)
Lemma near_refl x : (Qabs (x - x) <= (1 # 10000) * Qmax (Qabs x) (Qabs x))%Q.
Proof.
  setoid_replace (x - x)%Q with 0%Q by ring. change (Qabs 0) with 0%Q. pose proof (Qabs_nonneg x). pose proof (Q.le_max_l (Qabs x) (Qabs x)). lra.
Qed.
Lemma add_increment_counts c T x c' : add_increment c (T, x) = Ok c' ->
  (cum_total c' == cum_total c + x)%Q /\ (exists tl, c' = removelast c ++ tl) /\ (forall t, T = inject_Z t -> ends_at t c').
Proof.
  unfold add_increment, cum_total. destruct c as [|y c0] using rev_ind.
  - intros H. apply Ok_inj in H as <-. cbn. split; [lra|]. split; [eexists; reflexivity|]. intros t ->. exists (inject_Z t, x). split; [reflexivity|apply near_refl].
  - clear IHc0. rewrite last_opt_snoc. rewrite removelast_last. cbn [fst snd].
    destruct (approx_lt T (fst y) tol); [discriminate|]. destruct (approx_eq T (fst y) tol) eqn:AE; intros H; apply Ok_inj in H as <-.
    + rewrite last_opt_snoc. cbn [snd]. split; [lra|]. split; [eexists; reflexivity|]. intros t ->. eexists. split; [apply last_opt_snoc|].
      cbn [fst]. unfold approx_eq in AE. apply Qle_bool_iff in AE. exact AE.
    + rewrite last_opt_snoc. cbn [snd]. split; [lra|]. split; [exists [y; (T, (x + snd y)%Q)]; now rewrite <- app_assoc|].
      intros t ->. eexists. split; [apply last_opt_snoc|apply near_refl].
Qed.

Lemma add_flow_total_at tr T x p d tr' : add_flow tr T x p d = Ok tr' -> forall p' d',
  (tree_total tr' p' d' == tree_total tr p' d' + if (p =? p') && (d =? d') then x else 0)%Q.
Proof.
  unfold add_flow. cbv zeta. intros H p' d'. apply bind_ok in H as (c' & E & H). apply Ok_inj in H as <-.
  unfold tree_total. rewrite tree_find_set. unfold key_eqb. cbn [fst snd]. rewrite (Z.eqb_sym p' p), (Z.eqb_sym d' d).
  destruct ((p =? p') && (d =? d')) eqn:K.
  - apply andb_true_iff in K as [A B]. apply Z.eqb_eq in A, B. subst p' d'. apply add_increment_counts in E as [E _]. rewrite E.
    destruct (tree_find tr (p, d)); [reflexivity|]. unfold cum_total, fresh_curve, last_opt, add_record. cbn. lra.
  - lra.
Qed.

Lemma add_flow_ends tr T x p d tr' : add_flow tr T x p d = Ok tr' -> forall p' d',
  tree_find tr' (p', d') = if (p =? p') && (d =? d') then tree_find tr' (p, d) else tree_find tr (p', d').
Proof.
  unfold add_flow. cbv zeta. intros H p' d'. apply bind_ok in H as (c' & E & H). apply Ok_inj in H as <-.
  rewrite !tree_find_set. unfold key_eqb. cbn [fst snd]. rewrite (Z.eqb_sym p' p), (Z.eqb_sym d' d), !Z.eqb_refl. cbn [andb].
  destruct ((p =? p') && (d =? d')); reflexivity.
Qed.
Lemma add_flow_at tr t x p d tr' : add_flow tr (inject_Z t) x p d = Ok tr' -> exists c, tree_find tr' (p, d) = Some c /\ ends_at t c.
Proof.
  unfold add_flow. cbv zeta. intros H. apply bind_ok in H as (c' & E & H). apply Ok_inj in H as <-.
  rewrite tree_find_set. unfold key_eqb. cbn [fst snd]. rewrite !Z.eqb_refl. cbn [andb]. apply add_increment_counts in E as (_ & _ & A). eauto.
Qed.
(** the total in the tree of class [k] and link [l], nothing when not installed *)
Definition ttot (w : mworld) (k : bool) (l p d : Z) : Q :=
  match mk_Tin (mw_cc w) k l with Some tr => tree_total tr p d | None => 0%Q end.
Definition has_tree (w : mworld) (k : bool) (l : Z) : bool := match mk_Tin (mw_cc w) k l with Some _ => true | None => false end.
(** the curve of a path in the tree ends at time [T] *)
Definition tends (T : Z) (w : mworld) (k : bool) (l p d : Z) : Prop :=
  forall tr, mk_Tin (mw_cc w) k l = Some tr -> exists c, tree_find tr (p, d) = Some c /\ ends_at T c.
Definition tstep (w : mworld) (k : bool) (l p d b : Z) (fs : Q) (vs : list Z) : Q :=
  if has_tree w k l && (l =? b) then (inject_Z (Zlen (on_path w p d (of_class (mw_cls w) k vs))) / fs)%Q else 0%Q.
Definition mN_keep (w w' : mworld) : Prop := mk_Nin (mw_cc w') = mk_Nin (mw_cc w) /\ mk_Nout (mw_cc w') = mk_Nout (mw_cc w).

Lemma upd2_same {A} (f : bool -> Z -> A) k l x : upd2 f k l x k l = x.
Proof. unfold upd2. rewrite Bool.eqb_reflx. apply upd_same. Qed.
Lemma upd2_other {A} (f : bool -> Z -> A) k l x k' l' : k' <> k \/ l' <> l -> upd2 f k l x k' l' = f k' l'.
Proof.
  unfold upd2. intros H. destruct (Bool.eqb k' k) eqn:E; [|reflexivity]. apply Bool.eqb_prop in E. subst.
  apply upd_other. destruct H; congruence.
Qed.

Lemma mtree_inc_ok fs t b w v w' : (0 < fs)%Q -> mtree_inc fs t b w v = Ok w' ->
  mcc_keep w w' /\ mN_keep w w' /\ (forall k l, has_tree w' k l = has_tree w k l) /\
  (forall k l p d, (ttot w' k l p d == ttot w k l p d + tstep w k l p d b fs [v])%Q) /\
  (forall k l p d, tends (t + 1) w k l p d -> tends (t + 1) w' k l p d) /\
  (forall k p d, on_path w p d (of_class (mw_cls w) k [v]) <> [] -> tends (t + 1) w' k b p d).
Proof.
  intros Hf. unfold mtree_inc. cbv zeta. destruct (mk_Tin (mw_cc w) (mw_cls w v) b) as [tr|] eqn:E; intros H.
  - apply bind_ok in H as (tr' & E' & H). apply Ok_inj in H as <-. split; [repeat split|]. split; [repeat split|].
    pose proof (add_flow_total_at _ _ _ _ _ _ E') as AF. pose proof (add_flow_ends _ _ _ _ _ _ E') as AE. split; [|split; [|split]].
    3:{ intros k l p d HT tr1. cbn [mset_cc mw_cc mk_Tin]. destruct (Bool.bool_dec k (mw_cls w v)) as [->|Nk]; [destruct (Z.eq_dec l b) as [->|Nl]|].
        - rewrite upd2_same. intros [= <-]. rewrite AE. destruct (_ && _) eqn:K; [eapply add_flow_at; exact E'|]. now apply HT.
        - rewrite upd2_other by auto. apply HT.
        - rewrite upd2_other by auto. apply HT. }
    3:{ intros k p d. unfold of_class. cbn [filter]. destruct (Bool.eqb (mw_cls w v) k) eqn:Ek; [|intros C; now elim C]. apply Bool.eqb_prop in Ek. subst k.
        unfold on_path. cbn [filter]. intros C tr1. cbn [mset_cc mw_cc mk_Tin]. rewrite upd2_same. intros [= <-]. rewrite AE.
        unfold path_key. destruct (_ && _); [eapply add_flow_at; exact E'|now elim C]. }
    + intros k l. unfold has_tree. cbn. destruct (Bool.bool_dec k (mw_cls w v)) as [->|Nk]; [destruct (Z.eq_dec l b) as [->|Nl]|].
      * rewrite upd2_same, E. reflexivity.
      * rewrite upd2_other by auto. reflexivity.
      * rewrite upd2_other by auto. reflexivity.
    + intros k l p d. unfold ttot, tstep, has_tree. cbn [mset_cc mw_cc mk_Tin]. unfold of_class. cbn [filter].
      destruct (Bool.bool_dec k (mw_cls w v)) as [->|Nk]; [destruct (Z.eq_dec l b) as [->|Nl]|].
      * rewrite upd2_same, E, Bool.eqb_reflx, Z.eqb_refl. cbn [andb]. rewrite AF. unfold on_path. cbn [filter].
        unfold path_key. destruct (_ && _); [|unfold Zlen; cbn; field; lra]. change (Zlen [v]) with 1. change (inject_Z 1) with 1%Q. lra.
      * rewrite upd2_other by auto. destruct (mk_Tin (mw_cc w) (mw_cls w v) l); cbn [andb]; [|lra]. destruct (Z.eqb_spec l b); [contradiction|lra].
      * rewrite upd2_other by auto. destruct (mk_Tin (mw_cc w) k l); cbn [andb]; [|lra]. destruct (l =? b); [|lra].
        assert (X : Bool.eqb (mw_cls w v) k = false) by (apply Bool.eqb_false_iff; congruence). rewrite X. unfold Zlen; cbn. field. lra.
  - apply Ok_inj in H as <-. split; [apply mcc_refl|]. split; [repeat split|]. split; [reflexivity|]. split; [|split; [auto|]].
    + intros k l p d. unfold tstep, has_tree, of_class. cbn [filter].
      destruct (Bool.eqb (mw_cls w v) k) eqn:Ek.
      * apply Bool.eqb_prop in Ek. subst k. destruct (Z.eqb_spec l b) as [->|]; [rewrite E; cbn; lra|]. rewrite andb_false_r. lra.
      * destruct (_ && _); [|lra]. unfold Zlen; cbn. field. lra.
    + intros k p d. unfold of_class. cbn [filter]. destruct (Bool.eqb (mw_cls w v) k) eqn:Ek; [|intros C; now elim C]. apply Bool.eqb_prop in Ek. subst k.
      intros _ tr1 E1. congruence.
Qed.
Lemma on_path_app w p d l1 l2 : on_path w p d (l1 ++ l2) = on_path w p d l1 ++ on_path w p d l2.
Proof. apply filter_app. Qed.
Lemma of_class_app cls k l1 l2 : of_class cls k (l1 ++ l2) = of_class cls k l1 ++ of_class cls k l2.
Proof. apply filter_app. Qed.
Lemma tstep_app w k l p d b fs v1 v2 : (0 < fs)%Q -> (tstep w k l p d b fs (v1 ++ v2) == tstep w k l p d b fs v1 + tstep w k l p d b fs v2)%Q.
Proof.
  intros Hf. unfold tstep. destruct (_ && _); [|lra]. rewrite of_class_app, on_path_app, Zlen_app, inject_Z_plus. field. lra.
Qed.
Lemma on_path_keep w w' p d l : same_plans w w' -> on_path w' p d l = on_path w p d l.
Proof.
  intros (_&_&_&_&_&_&K). apply filter_ext. intros v. destruct (K v) as (_&_&_&_&_&->&_&->). reflexivity.
Qed.
Lemma tstep_keep w w' k l p d b fs vs : same_plans w w' -> has_tree w' k l = has_tree w k l -> tstep w' k l p d b fs vs = tstep w k l p d b fs vs.
Proof. intros K H. unfold tstep. rewrite H, (on_path_keep w w') by exact K. destruct K as (-> & _). reflexivity. Qed.

Lemma mtrees_ok fs t b : (0 < fs)%Q -> forall vs w w', foldM (mtree_inc fs t b) w vs = Ok w' ->
  mcc_keep w w' /\ mN_keep w w' /\ (forall k l, has_tree w' k l = has_tree w k l) /\
  (forall k l p d, (ttot w' k l p d == ttot w k l p d + tstep w k l p d b fs vs)%Q) /\
  (forall k l p d, tends (t + 1) w k l p d -> tends (t + 1) w' k l p d) /\
  (forall k p d, on_path w p d (of_class (mw_cls w) k vs) <> [] -> tends (t + 1) w' k b p d).
Proof.
  intros Hf. induction vs as [|v vs IH]; intros w w' H; simpl in H.
  - apply Ok_inj in H as <-. split; [apply mcc_refl|]. split; [repeat split|]. split; [reflexivity|]. split; [|split; [auto|intros k p d C; now elim C]].
    intros. unfold tstep. destruct (_ && _); [|lra]. unfold of_class, on_path, Zlen. cbn. field. lra.
  - apply bind_ok in H as (w1 & H1 & H2). apply mtree_inc_ok in H1 as (A1 & [B1 B1'] & C1 & D1 & E1 & F1); [|exact Hf]. apply IH in H2 as (A2 & [B2 B2'] & C2 & D2 & E2 & F2).
    split; [eapply mcc_trans; eauto|]. split; [split; congruence|]. split; [intros; congruence|]. change (v :: vs) with ([v] ++ vs).
    split; [|split; [intros; apply E2, E1; assumption|]].
    + intros k l p d. rewrite D2, D1. rewrite tstep_app by exact Hf. rewrite (tstep_keep w w1) by (auto using mcc_plans). lra.
    + intros k p d. rewrite of_class_app, on_path_app. intros C.
      destruct (on_path w p d (of_class (mw_cls w) k [v])) as [|z zs] eqn:Z1; [|apply E2, F1; rewrite Z1; discriminate].
      cbn [app] in C. apply F2. rewrite (on_path_keep w w1) by (auto using mcc_plans). destruct A1 as (_ & -> & _). exact C.
Qed.

(** ** one pair of links *)
Definition msrc (x : Z * Z * Q) : Z := fst (fst x).
Definition mtgt (x : Z * Z * Q) : Z := snd (fst x).
(** vehicles that pair [x] takes when the state is [w] *)
Definition mtaken (pcu : Q) (w : mworld) (x : Z * Z * Q) : list Z :=
  let q := filter (mgoes w (mtgt x)) (ml_fin (mw_link w (msrc x))) in
  firstn (need (equiv pcu w) (snd x) q) q.
Definition mlike (l l' : mlink) : Prop := exists i f, l' = with_body l i f (ml_body l).
Lemma mlike_refl l : mlike l l. Proof. exists (ml_in l), (ml_fin l). now destruct l. Qed.
Lemma mlike_trans a b c : mlike a b -> mlike b c -> mlike a c.
Proof. intros (i & f & ->) (i' & f' & ->). exists i', f'. reflexivity. Qed.

Definition miles_step (w : mworld) (x : Z * Z * Q) (vs : list Z) (v : Z) : Q :=
  (inject_Z (Z.of_nat (cnt v vs)) * (mp_len (ml_par (mw_link w (msrc x))) / 1600))%Q.

Lemma on_vehs_miles m b vs : forall mm v,
  (v_miles (on_vehs (fun x => add_miles m (set_cur b x)) vs mm v) == v_miles (mm v) + inject_Z (Z.of_nat (cnt v vs)) * m)%Q.
Proof.
  induction vs as [|u vs IH]; intros mm v.
  - rewrite on_vehs_nil. change (inject_Z (Z.of_nat (cnt v []))) with 0%Q. lra.
  - rewrite on_vehs_cons, IH. cbn [cnt]. unfold upd. destruct (Z.eqb_spec v u) as [->|N].
    + cbn [add_miles set_cur v_miles]. rewrite ?Z.eqb_refl. change (1 + cnt u vs)%nat with (S (cnt u vs)). rewrite Nat2Z.inj_succ. unfold Z.succ. rewrite inject_Z_plus. change (inject_Z 1) with 1%Q. ring.
    + destruct (Z.eqb_spec v u); [contradiction|]. reflexivity.
Qed.
