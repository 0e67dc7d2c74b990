(** The movement loop of a two-class junction over all pairs of links. *)
From Verif Require Import Base Base_lemmas Model_Num Proof_Num Spec_Path Proof_Path Model_CC Spec_CC Proof_CC Proof_CC3 Model_Path Model_Link Spec_Link Spec_Node
  Proof_Link Proof_Link3 Proof_Link4 Model_World Model_Node Proof_Node Proof_Node2 Proof_Node3 Proof_Node4 Model_McLink Spec_McLink Model_McNode Spec_McNode
  Proof_McNode.
Local Open Scope Z_scope.

Lemma mmove_pair_ok fs pcu t x w w' : (0 < fs)%Q -> msrc x <> mtgt x -> mmove_pair fs pcu t w x = Ok w' ->
  let a := msrc x in let b := mtgt x in let vs := mtaken pcu w x in
  fst (fst (mpull (mgoes w b) (equiv pcu w) (snd x) (ml_fin (mw_link w a)))) = vs /\
  same_plans w w' /\ mw_oq w' = mw_oq w /\ mw_dq w' = mw_dq w /\ mN_keep w w' /\
  (exists rest, ml_fin (mw_link w' a) = rest /\ mw_link w' a = ml_set_fin (mw_link w a) rest /\
     filter (mgoes w b) rest = skipn (length vs) (filter (mgoes w b) (ml_fin (mw_link w a))) /\
     (forall b', b' <> b -> filter (mgoes w b') rest = filter (mgoes w b') (ml_fin (mw_link w a))) /\
     subseq rest (ml_fin (mw_link w a)) /\
     (forall v, cnt v (ml_fin (mw_link w a)) = (cnt v vs + cnt v rest)%nat)) /\
  mw_link w' b = ml_set_in (mw_link w b) (ml_in (mw_link w b) ++ vs) /\
  (forall l, l <> a -> l <> b -> mw_link w' l = mw_link w l) /\
  (forall v, v_cur (mw_veh w' v) = if memb v vs then Some b else v_cur (mw_veh w v)) /\
  (forall v, (v_miles (mw_veh w' v) == v_miles (mw_veh w v) + miles_step w x vs v)%Q) /\
  (forall k l, has_tree w' k l = has_tree w k l) /\
  (forall k l p d, (ttot w' k l p d == ttot w k l p d + tstep w k l p d b fs vs)%Q) /\
  (forall k l p d, tends (t + 1) w k l p d -> tends (t + 1) w' k l p d) /\
  (forall k p d, on_path w p d (of_class (mw_cls w) k vs) <> [] -> tends (t + 1) w' k b p d).
Proof.
  intros Hf Hab. destruct x as [[a b] x]. cbn [msrc mtgt fst snd] in *. change (msrc (a, b, x)) with a in *. change (mtgt (a, b, x)) with b in *.
  unfold mmove_pair. destruct (mpull (mgoes w b) (equiv pcu w) x (ml_fin (mw_link w a))) as [[vs rest] lft] eqn:E.
  intros H. apply bind_ok in H as (w4 & H4 & H). apply bind_ok in H as (u & Hg & H). apply Ok_inj in H as <-.
  destruct (mpull_spec _ _ _ _ _ _ _ E) as (Hv & Hm & Hr & Hg' & Hs & Hc). cbv zeta in *.
  assert (EV : mtaken pcu w (a, b, x) = vs) by (unfold mtaken; cbv zeta; unfold mtgt, msrc; cbn [fst snd]; now rewrite Hv).
  rewrite EV. apply mtrees_ok in H4 as ((K1 & K2 & K3 & K4 & K5 & K6 & K7 & K8 & K9 & K10) & KN & KT & KS & KE & KF); [|exact Hf].
  cbn [mset_link mset_vehs mw_veh mw_cls mw_lab mw_link mw_oq mw_dq mw_fac mw_cf mw_trk mw_pt] in *.
  split; [reflexivity|]. split.
  { unfold same_plans. repeat split; try congruence; rewrite K1;
    apply (on_vehs_keep _ vs); intros y; repeat split. }
  split; [congruence|]. split; [congruence|]. split; [exact KN|].
  split.
  { exists rest. rewrite K4. rewrite upd_other by exact Hab. rewrite upd_same. cbn. split; [reflexivity|]. split; [reflexivity|].
    split; [|split; [|split; [exact Hs|exact Hc]]].
    - rewrite Hr, Hv. f_equal. rewrite firstn_length. pose proof (need_le (equiv pcu w) (filter (mgoes w b) (ml_fin (mw_link w a))) x). lia.
    - intros b' Hb'. apply Hg'. intros v Gv. eapply mgoes_one; [|exact Gv]. congruence. }
  split.
  { rewrite K4, upd_same. rewrite (upd_other _ a) by congruence. reflexivity. }
  split.
  { intros l Ha Hb. rewrite K4. rewrite !upd_other by assumption. reflexivity. }
  split.
  { intros v. rewrite K1. destruct (memb v vs) eqn:M.
    - apply memb_In in M. apply (on_vehs_const v_cur (Some b)); [reflexivity|exact M].
    - apply memb_false in M. rewrite on_vehs_out by exact M. reflexivity. }
  split.
  { intros v. rewrite K1, on_vehs_miles. unfold miles_step, mmiles_of. cbn [msrc fst]. reflexivity. }
  split.
  { intros k l. rewrite KT. reflexivity. }
  assert (EP : forall p d q, on_path (mset_vehs (mset_link (mset_link w a (ml_set_fin (mw_link w a) rest)) b
     (ml_set_in (upd (mw_link w) a (ml_set_fin (mw_link w a) rest) b) (ml_in (upd (mw_link w) a (ml_set_fin (mw_link w a) rest) b) ++ vs)))
     (on_vehs (fun v => add_miles (mmiles_of (mw_link w a)) (set_cur (Some b) v)) vs (mw_veh w))) p d q = on_path w p d q).
  { intros p d q. unfold on_path. apply filter_ext. intros v. cbn [mset_vehs mw_veh].
    rewrite (on_vehs_proj v_path) by reflexivity. rewrite (on_vehs_proj v_assign) by reflexivity. reflexivity. }
  split; [|split].
  - intros k l p d. rewrite KS. unfold ttot at 1, tstep, has_tree. cbn [mset_link mset_vehs mw_cc mw_cls mw_veh].
    fold (has_tree w k l). apply Qplus_inj_l. destruct (has_tree w k l && (l =? b)); [|reflexivity].
    rewrite EP. reflexivity.
  - intros k l p d HT. apply KE. exact HT.
  - intros k p d HT. apply KF. rewrite EP. exact HT.
Qed.

Lemma mmove_pair_total fs pcu t x w : 0 <= t -> (0 <= pcu)%Q -> mtimely (t + 1) (mw_cc w) ->
  (snd x <= pce pcu (mw_cls w) (mline w (mtgt x) (ml_fin (mw_link w (msrc x)))))%Q ->
  exists w', mmove_pair fs pcu t w x = Ok w' /\ mtimely (t + 1) (mw_cc w').
Proof.
  intros Ht Hp TM Hx. destruct x as [[a b] x]. unfold mtgt, msrc in Hx. cbn [fst snd] in Hx. unfold mmove_pair.
  destruct (mpull (mgoes w b) (equiv pcu w) x (ml_fin (mw_link w a))) as [[vs rest] lft] eqn:E.
  destruct (mpull_spec _ _ _ _ _ _ _ E) as (Hv & Hm & _). cbv zeta in *.
  match goal with |- context [foldM _ ?s vs] => set (w3 := s) end.
  destruct (foldM_total (mtree_inc fs t b) (fun w => mtimely (t + 1) (mw_cc w)) vs) with (s := w3) as (w4 & E4 & T4).
  - intros s v (A & B & C) _. unfold mtree_inc. cbv zeta. destruct (mk_Tin (mw_cc s) (mw_cls s v) b) as [tr|] eqn:Et; [|exists s; repeat split; auto].
    destruct (add_flow_total (t + 1) tr (1 / fs) (path_key (mw_veh s v)) (v_assign (mw_veh s v)) ltac:(lia) (C _ _ tr Et)) as (tr' & E' & Hc). rewrite E'. cbn [bind].
    eexists. split; [reflexivity|]. cbn [mset_cc mw_cc]. split; [exact A|]. split; [exact B|].
    intros k l y Ey. cbn [mk_Tin] in Ey. unfold upd2, upd in Ey. destruct (Bool.eqb k (mw_cls s v)); [|eapply C; eauto].
    destruct (l =? b); [injection Ey as <-; exact Hc|eapply C; eauto].
  - exact TM.
  - rewrite E4. cbn [bind]. assert (L0 : (lft <= 0)%Q).
    { rewrite Hm, Hv. assert (He : forall v, (0 <= equiv pcu w v)%Q) by (intros v; unfold equiv; destruct (mw_cls w v); lra).
      assert (Hx' : (x <= sumQ (map (equiv pcu w) (filter (mgoes w b) (ml_fin (mw_link w a)))))%Q) by exact Hx.
      pose proof (need_enough (equiv pcu w) He (filter (mgoes w b) (ml_fin (mw_link w a))) x Hx'). lra. }
    replace (Qle_bool lft (1 # 1000)) with true; [exists w4; split; [reflexivity|exact T4]|].
    symmetry. apply Qle_bool_iff. lra.
Qed.

Definition tk3 (pcu : Q) (w : mworld) (x : Z * Z * Q) : Z * Z * list Z := (msrc x, mtgt x, mtaken pcu w x).

(** accumulated changes over the pairs of [L] *)
Record mmoved (fs pcu : Q) (t : Z) (L : list (Z * Z * Q)) (w w' : mworld) : Prop := {
  mm_plans : same_plans w w'; mm_q : mw_oq w' = mw_oq w /\ mw_dq w' = mw_dq w; mm_N : mN_keep w w';
  mm_like : forall l, mlike (mw_link w l) (mw_link w' l);
  mm_in : forall l, ml_in (mw_link w' l) = ml_in (mw_link w l) ++ concat (map (mtaken pcu w) (filter (fun x => mtgt x =? l) L));
  mm_sub : forall l, subseq (ml_fin (mw_link w' l)) (ml_fin (mw_link w l));
  mm_cnt : forall l v, cnt v (ml_fin (mw_link w l)) =
     (cnt v (concat (map (mtaken pcu w) (filter (fun x => Z.eqb (msrc x) l) L))) + cnt v (ml_fin (mw_link w' l)))%nat;
  mm_line : forall l b, filter (mgoes w b) (ml_fin (mw_link w' l)) =
     skipn (match find (fun x => (msrc x =? l) && (mtgt x =? b)) L with Some x => length (mtaken pcu w x) | None => O end)
           (filter (mgoes w b) (ml_fin (mw_link w l)));
  mm_same : forall l, (forall x, In x L -> msrc x <> l) -> ml_fin (mw_link w' l) = ml_fin (mw_link w l);
  mm_cur : forall v, v_cur (mw_veh w' v) = if memb v (concat (map (mtaken pcu w) L)) then v_next (mw_veh w v) else v_cur (mw_veh w v);
  mm_miles : forall v, (v_miles (mw_veh w' v) == v_miles (mw_veh w v) + sumQ (map (fun x => miles_step w x (mtaken pcu w x) v) L))%Q;
  mm_tree : forall k l, has_tree w' k l = has_tree w k l;
  mm_ttot : forall k l p d, (ttot w' k l p d == ttot w k l p d + tstep w k l p d l fs (concat (map (mtaken pcu w) (filter (fun x => mtgt x =? l) L))))%Q;
  mm_tkeep : forall k l p d, tends (t + 1) w k l p d -> tends (t + 1) w' k l p d;
  mm_tend : forall k l p d, on_path w p d (of_class (mw_cls w) k (concat (map (mtaken pcu w) (filter (fun x => mtgt x =? l) L)))) <> [] -> tends (t + 1) w' k l p d }.

Lemma mmoves_ok fs pcu t : (0 < fs)%Q -> forall L w m w' m',
  NoDup (map fst L) -> (forall x y, In x L -> In y L -> msrc x <> mtgt y) ->
  foldM (mmove_log fs pcu t) (w, m) L = Ok (w', m') ->
  m' = m ++ map (tk3 pcu w) L /\ mmoved fs pcu t L w w'.
Proof.
  intros Hf. induction L as [|x L IH]; intros w m w' m' ND DJ H.
  - simpl in H. apply Ok_pair in H as [<- <-]. split; [simpl; now rewrite app_nil_r|].
    constructor; cbn; auto; try (repeat split; fail); intros.
    + apply mlike_refl.
    + now rewrite app_nil_r.
    + apply subseq_refl.
    + sqs. lra.
    + unfold tstep. destruct (_ && _); [|lra]. unfold of_class, on_path, Zlen. cbn. field. lra.
    + match goal with C : _ <> _ |- _ => now elim C end.
  - cbn [foldM] in H. apply bind_ok in H as ([w1 m1] & H1 & H2).
    assert (Hab : msrc x <> mtgt x) by (apply (DJ x x); now left).
    assert (P1 : mmove_pair fs pcu t w x = Ok w1 /\ m1 = m ++ [(msrc x, mtgt x, fst (fst (mpull (mgoes w (mtgt x)) (equiv pcu w) (snd x) (ml_fin (mw_link w (msrc x))))))]).
    { destruct x as [[a b] q]. unfold mmove_log in H1. cbn [fst snd] in H1. apply bind_ok in H1 as (w2 & E2 & H1). apply Ok_pair in H1 as [E3 E4]. subst w2. split; [exact E2|]. exact E4. }
    destruct P1 as [P1 M1].
    destruct (mmove_pair_ok _ _ _ _ _ _ Hf Hab P1) as (T1 & W1 & O1 & D1 & N1 & (rest & Fr & Fa & Fb & Fo & Fs & Fc) & Ib & Ot & Cu & Mi & Ht & Tt & Te & Tf).
    rewrite T1 in M1. set (a := msrc x) in *. set (b := mtgt x) in *.
    simpl in ND. apply NoDup_cons_iff in ND as [NI ND'].
    destruct (IH _ _ _ _ ND' (fun x y Hx Hy => DJ x y (or_intror Hx) (or_intror Hy)) H2) as (ML & [W2 [O2 D2] N2 LL2 I2 S2 C2 G2 Sm2 Cu2 Mi2 Ht2 Tt2 Te2 Tf2]). clear IH.
    assert (Hsrc : forall y, In y L -> msrc y <> b) by (intros y Hy; apply (DJ y x); [now right|now left]).
    assert (Htgt : forall y, In y L -> mtgt y <> a) by (intros y Hy E; apply (DJ x y); [now left|now right|now rewrite E]).
    assert (Hq : forall y, In y L -> filter (mgoes w1 (mtgt y)) (ml_fin (mw_link w1 (msrc y))) = filter (mgoes w (mtgt y)) (ml_fin (mw_link w (msrc y)))).
    { intros y Hy. rewrite (filter_mgoes_keep w w1) by exact W1. destruct (Z.eq_dec (msrc y) a) as [E|E].
      - rewrite E. rewrite Fr in *. apply Fo. intros E'. apply NI. apply in_map_iff. exists y. split; [|exact Hy].
        destruct y as [[a' b'] k'], x as [[a0 b0] k0]. unfold a, b, msrc, mtgt in *. cbn in *. congruence.
      - rewrite Ot; [reflexivity|exact E|apply Hsrc, Hy]. }
    assert (Htk : forall y, In y L -> mtaken pcu w1 y = mtaken pcu w y).
    { intros y Hy. unfold mtaken. cbv zeta. rewrite Hq by exact Hy. erewrite need_ext; [reflexivity|]. intros v. now apply equiv_keep. }
    assert (Htks : forall f, map (mtaken pcu w1) (filter f L) = map (mtaken pcu w) (filter f L)).
    { intros f. apply map_ext_in. intros y Hy. apply filter_In in Hy as [Hy _]. auto. }
    assert (Htka : map (mtaken pcu w1) L = map (mtaken pcu w) L) by (apply map_ext_in; auto).
    assert (LL1 : forall l, mlike (mw_link w l) (mw_link w1 l)).
    { intros l. destruct (Z.eq_dec l a) as [->|]; [|destruct (Z.eq_dec l b) as [->|]].
      - rewrite Fa. eexists. eexists. reflexivity.
      - rewrite Ib. eexists. eexists. reflexivity.
      - rewrite Ot by assumption. apply mlike_refl. }
    split.
    { rewrite ML, M1, <- app_assoc. cbn [map app]. do 2 f_equal. unfold tk3. apply map_ext_in. intros y Hy. now rewrite Htk. }
    constructor.
    + eapply plans_trans; eauto.
    + split; congruence.
    + destruct N1, N2. split; congruence.
    + intros l. eapply mlike_trans; eauto.
    + intros l. rewrite I2, Htks. cbn [filter]. fold b.
      destruct (Z.eqb_spec b l) as [<-|Nb].
      * rewrite Ib. simpl. rewrite <- app_assoc. reflexivity.
      * destruct (Z.eq_dec l a) as [->|]; [rewrite Fa; reflexivity|]. rewrite Ot by congruence. reflexivity.
    + intros l. destruct (Z.eq_dec l a) as [->|Na]; [|destruct (Z.eq_dec l b) as [->|]].
      * eapply subseq_trans; [apply S2|]. now rewrite Fr.
      * specialize (S2 b). rewrite Ib in S2. exact S2.
      * specialize (S2 l). rewrite Ot in S2 by assumption. exact S2.
    + intros l v. cbn [filter]. fold a. specialize (C2 l v). rewrite Htks in C2. destruct (Z.eqb_spec a l) as [<-|Na].
      * rewrite Fc. cbn [map concat]. rewrite cnt_app. rewrite Fr in C2. lia.
      * assert (El : ml_fin (mw_link w1 l) = ml_fin (mw_link w l)).
        { destruct (Z.eq_dec l b) as [->|]; [rewrite Ib; reflexivity|]. rewrite Ot by congruence. reflexivity. }
        rewrite El in C2. exact C2.
    + intros l c. cbn [find]. fold a b. specialize (G2 l c). rewrite !(filter_mgoes_keep w w1) in G2 by exact W1.
      assert (FL : match find (fun y => (msrc y =? l) && (mtgt y =? c)) L with Some y => length (mtaken pcu w1 y) | None => O end =
                   match find (fun y => (msrc y =? l) && (mtgt y =? c)) L with Some y => length (mtaken pcu w y) | None => O end).
      { destruct (find _ L) eqn:E; [|reflexivity]. apply find_some in E as [E _]. now rewrite Htk. }
      rewrite FL in G2. clear FL. rewrite G2. destruct (Z.eqb_spec a l) as [<-|Na].
      * rewrite Fr. cbn [andb]. destruct (Z.eqb_spec b c) as [<-|Nc].
        -- replace (find (fun y => (msrc y =? a) && (mtgt y =? b)) L) with (@None (Z * Z * Q)).
           { cbn [skipn]. exact Fb. }
           symmetry. destruct (find _ L) as [y|] eqn:E; [|reflexivity]. exfalso. apply find_some in E as [E1 E2].
           apply andb_true_iff in E2 as [X Y]. apply Z.eqb_eq in X, Y. apply NI. apply in_map_iff. exists y. split; [|exact E1].
           destruct y as [[a' b'] k'], x as [[a0 b0] k0]. unfold a, b, msrc, mtgt in *. cbn in *. congruence.
        -- rewrite Fo by congruence. reflexivity.
      * cbn [andb]. assert (El : ml_fin (mw_link w1 l) = ml_fin (mw_link w l)).
        { destruct (Z.eq_dec l b) as [->|]; [rewrite Ib; reflexivity|]. rewrite Ot by congruence. reflexivity. }
        now rewrite El.
    + intros l Hl. rewrite Sm2 by (intros y Hy; apply Hl; now right). assert (a <> l) by (apply Hl; now left).
      destruct (Z.eq_dec l b) as [->|]; [rewrite Ib; reflexivity|]. rewrite Ot by congruence. reflexivity.
    + intros v. rewrite Cu2, Htka, Cu. cbn [map concat].
      destruct W1 as (_ & _ & _ & _ & _ & _ & Kv). destruct (Kv v) as (_&_&_&_&_&_&En&_). rewrite En.
      unfold memb at 3. rewrite existsb_app. fold (memb v (mtaken pcu w x)). fold (memb v (concat (map (mtaken pcu w) L))).
      destruct (memb v (concat (map (mtaken pcu w) L))) eqn:M.
      * rewrite orb_true_r. reflexivity.
      * rewrite orb_false_r. destruct (memb v (mtaken pcu w x)) eqn:M1'; [|reflexivity].
        apply memb_In in M1'. assert (I : In v (filter (mgoes w b) (ml_fin (mw_link w a)))).
        { unfold mtaken in M1'. cbv zeta in M1'. fold a b in M1'. rewrite <- (firstn_skipn (need (equiv pcu w) (snd x) (filter (mgoes w b) (ml_fin (mw_link w a))))).
          apply in_or_app. now left. }
        apply filter_In in I as [_ I]. apply mgoes_next in I. now symmetry.
    + intros v. rewrite Mi2, Mi. sqs. assert (E : (sumQ (map (fun y => miles_step w1 y (mtaken pcu w1 y) v) L) == sumQ (map (fun y => miles_step w y (mtaken pcu w y) v) L))%Q).
      { assert (E' : map (fun y => miles_step w1 y (mtaken pcu w1 y) v) L = map (fun y => miles_step w y (mtaken pcu w y) v) L); [|now rewrite E'].
        apply map_ext_in. intros y Hy. unfold miles_step. rewrite Htk by exact Hy. destruct (LL1 (msrc y)) as (i & f & ->). reflexivity. }
      rewrite E. lra.
    + intros k l. rewrite Ht2. apply Ht.
    + intros k l p d. rewrite Tt2, Tt, Htks. rewrite (tstep_keep w w1) by auto. cbn [filter]. fold b.
      destruct (Z.eqb_spec b l) as [<-|Nb].
      * cbn [map concat]. rewrite (tstep_app w) by exact Hf. lra.
      * assert (Z0 : tstep w k l p d b fs (mtaken pcu w x) = 0%Q).
        { unfold tstep. destruct (Z.eqb_spec l b); [congruence|]. now rewrite andb_false_r. }
        rewrite Z0. lra.
    + intros k l p d HT. apply Te2, Te, HT.
    + intros k l p d. cbn [filter]. fold b. specialize (Tf2 k l p d). rewrite Htks in Tf2. rewrite (on_path_keep w w1) in Tf2 by exact W1.
      assert (Ec : mw_cls w1 = mw_cls w) by apply W1. rewrite Ec in Tf2.
      destruct (Z.eqb_spec b l) as [<-|Nb]; [|exact Tf2]. cbn [map concat]. rewrite of_class_app, on_path_app. intros C.
      destruct (on_path w p d (of_class (mw_cls w) k (mtaken pcu w x))) as [|z zs] eqn:Z1; [now apply Tf2|].
      apply Te2, Tf. rewrite Z1. discriminate.
Qed.

Lemma mmoves_total fs pcu t : (0 < fs)%Q -> 0 <= t -> (0 <= pcu)%Q -> forall L w m, NoDup (map fst L) -> (forall x y, In x L -> In y L -> msrc x <> mtgt y) ->
  mtimely (t + 1) (mw_cc w) ->
  (forall x, In x L -> (snd x <= pce pcu (mw_cls w) (mline w (mtgt x) (ml_fin (mw_link w (msrc x)))))%Q) ->
  exists w' m', foldM (mmove_log fs pcu t) (w, m) L = Ok (w', m') /\ mtimely (t + 1) (mw_cc w').
Proof.
  intros Hf Ht Hp. induction L as [|x L IH]; intros w m ND DJ TM HC; [exists w, m; auto|]. cbn [foldM].
  assert (Hab : msrc x <> mtgt x) by (apply (DJ x x); now left).
  destruct (mmove_pair_total fs pcu t x w Ht Hp TM (HC x (or_introl eq_refl))) as (w1 & E1 & T1).
  assert (S1 : exists m1, mmove_log fs pcu t (w, m) x = Ok (w1, m1)).
  { destruct x as [[a b] q]. unfold mmove_log. cbn [fst snd]. rewrite E1. cbn [bind]. eauto. }
  destruct S1 as (m1 & S1). rewrite S1. cbn [bind].
  destruct (mmove_pair_ok _ _ _ _ _ _ Hf Hab E1) as (_ & W1 & _ & _ & _ & (rest & Fr & Fa & Fb & Fo & _) & Ib & Ot & _).
  simpl in ND. apply NoDup_cons_iff in ND as [NI ND]. apply IH; auto.
  - intros y z Hy Hz. apply DJ; now right.
  - intros y Hy. specialize (HC y (or_intror Hy)). destruct W1 as (Ec & W1'). rewrite Ec.
    assert (W1 : same_plans w w1) by (split; auto). clear W1'.
    change (mline w1 (mtgt y)) with (filter (mgoes w1 (mtgt y))). rewrite (filter_mgoes_keep w w1) by exact W1.
    change (mline w (mtgt y)) with (filter (mgoes w (mtgt y))) in HC.
    assert (E : filter (mgoes w (mtgt y)) (ml_fin (mw_link w1 (msrc y))) = filter (mgoes w (mtgt y)) (ml_fin (mw_link w (msrc y)))); [|now rewrite E].
    destruct (Z.eq_dec (msrc y) (msrc x)) as [Ea|Na].
    + rewrite Ea, Fr. apply Fo. intros Eb. apply NI. apply in_map_iff. exists y. split; [|exact Hy].
      destruct y as [[ya yb] yk], x as [[xa xb] xk]. unfold msrc, mtgt in *. cbn in *. congruence.
    + rewrite Ot; [reflexivity|exact Na|]. apply (DJ y x); [now right|now left].
Qed.
