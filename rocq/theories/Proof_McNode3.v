(** A two-class junction in one interval. *)
From Verif Require Import Base Base_lemmas Model_Num Proof_Num Spec_Path Proof_Path Model_CC Spec_CC Proof_CC Proof_CC3 Model_Path Model_Link Spec_Link Spec_Node
  Proof_Link Proof_Link3 Proof_Link4 Model_World Model_Node Proof_Node Proof_Node2 Proof_Node3 Proof_Node4 Model_McLink Spec_McLink Model_McNode Spec_McNode
  Proof_McNode Proof_McNode2 Proof_Sim1.
Local Open Scope Z_scope.

(** ** recording *)
Lemma rec_inc_ok c t n fs c' : (0 < fs)%Q -> 0 <= n -> rec_inc c t n fs = Ok c' -> counts (t + 1) (inject_Z n / fs) c c'.
Proof.
  intros Hf Hn. unfold rec_inc, counts. destruct c as [c|]; [|intros H; apply Ok_inj in H as <-; exact I].
  destruct (Z.ltb_spec 0 n) as [L|L]; intros H.
  - apply bind_ok in H as (c1 & E & H). apply Ok_inj in H as <-. apply add_increment_counts in E as (E & T & A). split; [exact E|]. split; [exact T|]. split; [|intros _; now apply A].
    intros Z0. exfalso. assert (0 < inject_Z n / fs)%Q; [|lra]. apply Qlt_shift_div_l; [exact Hf|]. rewrite Qmult_0_l. change 0%Q with (inject_Z 0). rewrite <- Zlt_Qlt. exact L.
  - apply Ok_inj in H as <-. assert (n = 0) by lia. subst n. change (inject_Z 0) with 0%Q. split; [field; lra|]. split; [|split; [reflexivity|intros C; elim C; field; lra]].
    destruct c as [|y c0] using rev_ind; [exists []; reflexivity|]. rewrite removelast_last. exists [y]. reflexivity.
Qed.
Lemma rec_inc_total T c t n fs : T = t + 1 -> otime T c -> exists c', rec_inc c t n fs = Ok c' /\ otime T c'.
Proof.
  intros -> H. unfold rec_inc. destruct c as [c|]; [|eexists; split; [reflexivity|discriminate]].
  destruct (0 <? n); [|eexists; split; [reflexivity|exact H]].
  destruct (add_increment_total (t + 1) c (inject_Z n / fs) (H c eq_refl)) as (c' & E & Hc). rewrite E. cbn [bind].
  eexists. split; [reflexivity|]. intros x Ex. injection Ex as <-. exact Hc.
Qed.

Definition side_keep (w w' : mworld) : Prop := mcc_keep w w' /\ mk_Tin (mw_cc w') = mk_Tin (mw_cc w).
Lemma side_trans a b c : side_keep a b -> side_keep b c -> side_keep a c.
Proof. intros [A B] [C D]. split; [eapply mcc_trans; eauto|congruence]. Qed.

Lemma rec_in_ok fs t k b n w w' : (0 < fs)%Q -> 0 <= n -> rec_in fs t k b n w = Ok w' ->
  side_keep w w' /\ mk_Nout (mw_cc w') = mk_Nout (mw_cc w) /\
  counts (t + 1) (inject_Z n / fs) (mk_Nin (mw_cc w) k b) (mk_Nin (mw_cc w') k b) /\
  (forall k' l, k' <> k \/ l <> b -> mk_Nin (mw_cc w') k' l = mk_Nin (mw_cc w) k' l).
Proof.
  intros Hf Hn H. unfold rec_in in H. apply bind_ok in H as (c & E & H). apply Ok_inj in H as <-. split; [repeat split|]. split; [reflexivity|].
  cbn [mset_cc mw_cc mk_Nin]. rewrite upd2_same. split; [now apply rec_inc_ok in E|]. intros. now apply upd2_other.
Qed.
Lemma rec_out_ok fs t k a n w w' : (0 < fs)%Q -> 0 <= n -> rec_out fs t k a n w = Ok w' ->
  side_keep w w' /\ mk_Nin (mw_cc w') = mk_Nin (mw_cc w) /\
  counts (t + 1) (inject_Z n / fs) (mk_Nout (mw_cc w) k a) (mk_Nout (mw_cc w') k a) /\
  (forall k' l, k' <> k \/ l <> a -> mk_Nout (mw_cc w') k' l = mk_Nout (mw_cc w) k' l).
Proof.
  intros Hf Hn H. unfold rec_out in H. apply bind_ok in H as (c & E & H). apply Ok_inj in H as <-. split; [repeat split|]. split; [reflexivity|].
  cbn [mset_cc mw_cc mk_Nout]. rewrite upd2_same. split; [now apply rec_inc_ok in E|]. intros. now apply upd2_other.
Qed.
Lemma rec_in_total fs t k b n w : mtimely (t + 1) (mw_cc w) -> exists w', rec_in fs t k b n w = Ok w' /\ mtimely (t + 1) (mw_cc w') /\ mcc_keep w w'.
Proof.
  intros (A & B & C). unfold rec_in. destruct (rec_inc_total (t + 1) (mk_Nin (mw_cc w) k b) t n fs eq_refl (A k b)) as (c & E & Hc). rewrite E. cbn [bind].
  eexists. split; [reflexivity|]. split; [|repeat split]. cbn [mset_cc mw_cc]. split; [|split; [exact B|exact C]]. intros k' l. cbn [mk_Nin]. unfold upd2, upd.
  destruct (Bool.eqb k' k); [|apply A]. destruct (l =? b); [exact Hc|apply A].
Qed.
Lemma rec_out_total fs t k b n w : mtimely (t + 1) (mw_cc w) -> exists w', rec_out fs t k b n w = Ok w' /\ mtimely (t + 1) (mw_cc w') /\ mcc_keep w w'.
Proof.
  intros (A & B & C). unfold rec_out. destruct (rec_inc_total (t + 1) (mk_Nout (mw_cc w) k b) t n fs eq_refl (B k b)) as (c & E & Hc). rewrite E. cbn [bind].
  eexists. split; [reflexivity|]. split; [|repeat split]. cbn [mset_cc mw_cc]. split; [exact A|]. split; [|exact C]. intros k' l. cbn [mk_Nout]. unfold upd2, upd.
  destruct (Bool.eqb k' k); [|apply B]. destruct (l =? b); [exact Hc|apply B].
Qed.

Lemma kcount_nonneg w k l : 0 <= kcount w k l. Proof. apply Zlen_nonneg. Qed.

(** both classes of one link, then a list of links *)
Lemma rec_in_both fs t (n : bool -> Z) b w w' : (0 < fs)%Q -> (forall k, 0 <= n k) ->
  (do w1 <- rec_in fs t false b (n false) w; rec_in fs t true b (n true) w1) = Ok w' ->
  side_keep w w' /\ mk_Nout (mw_cc w') = mk_Nout (mw_cc w) /\
  (forall k, counts (t + 1) (inject_Z (n k) / fs) (mk_Nin (mw_cc w) k b) (mk_Nin (mw_cc w') k b)) /\
  (forall k l, l <> b -> mk_Nin (mw_cc w') k l = mk_Nin (mw_cc w) k l).
Proof.
  intros Hf Hn H. apply bind_ok in H as (w1 & H1 & H2). apply rec_in_ok in H1 as (A1 & B1 & C1 & D1); auto. apply rec_in_ok in H2 as (A2 & B2 & C2 & D2); auto.
  split; [eapply side_trans; eauto|]. split; [congruence|]. split.
  - intros [|].
    + rewrite D1 in C2 by (left; discriminate). exact C2.
    + rewrite D2 by (left; discriminate). exact C1.
  - intros k l Hl. rewrite D2, D1 by auto. reflexivity.
Qed.
Lemma rec_out_both fs t (n : bool -> Z) b w w' : (0 < fs)%Q -> (forall k, 0 <= n k) ->
  (do w1 <- rec_out fs t false b (n false) w; rec_out fs t true b (n true) w1) = Ok w' ->
  side_keep w w' /\ mk_Nin (mw_cc w') = mk_Nin (mw_cc w) /\
  (forall k, counts (t + 1) (inject_Z (n k) / fs) (mk_Nout (mw_cc w) k b) (mk_Nout (mw_cc w') k b)) /\
  (forall k l, l <> b -> mk_Nout (mw_cc w') k l = mk_Nout (mw_cc w) k l).
Proof.
  intros Hf Hn H. apply bind_ok in H as (w1 & H1 & H2). apply rec_out_ok in H1 as (A1 & B1 & C1 & D1); auto. apply rec_out_ok in H2 as (A2 & B2 & C2 & D2); auto.
  split; [eapply side_trans; eauto|]. split; [congruence|]. split.
  - intros [|].
    + rewrite D1 in C2 by (left; discriminate). exact C2.
    + rewrite D2 by (left; discriminate). exact C1.
  - intros k l Hl. rewrite D2, D1 by auto. reflexivity.
Qed.

Lemma mrecord_ok fs t ins outs m w w' : (0 < fs)%Q -> NoDup ins -> NoDup outs -> mrecord fs t ins outs m w = Ok w' ->
  side_keep w w' /\
  (forall k b, In b outs -> counts (t + 1) (class_count (mw_cls w) k (log_to m b) / fs) (mk_Nin (mw_cc w) k b) (mk_Nin (mw_cc w') k b)) /\
  (forall k l, ~ In l outs -> mk_Nin (mw_cc w') k l = mk_Nin (mw_cc w) k l) /\
  (forall k a, In a ins -> counts (t + 1) (class_count (mw_cls w) k (log_from m a) / fs) (mk_Nout (mw_cc w) k a) (mk_Nout (mw_cc w') k a)) /\
  (forall k l, ~ In l ins -> mk_Nout (mw_cc w') k l = mk_Nout (mw_cc w) k l).
Proof.
  intros Hf NI NO H. unfold mrecord in H. apply bind_ok in H as (w1 & H1 & H2).
  assert (S1 : side_keep w w1 /\ mk_Nout (mw_cc w1) = mk_Nout (mw_cc w) /\
    (forall k b, In b outs -> counts (t + 1) (class_count (mw_cls w) k (log_to m b) / fs) (mk_Nin (mw_cc w) k b) (mk_Nin (mw_cc w1) k b)) /\
    (forall k l, ~ In l outs -> mk_Nin (mw_cc w1) k l = mk_Nin (mw_cc w) k l)).
  { clear H2. revert w H1. induction outs as [|b outs IH]; intros w H1; simpl in H1.
    - apply Ok_inj in H1 as <-. split; [split; [apply mcc_refl|reflexivity]|]. split; [reflexivity|]. split; [intros k b []|reflexivity].
    - apply bind_ok in H1 as (w2 & E & H1). simpl in E. apply (rec_in_both fs t (fun k => kcount w k (log_to m b))) in E as (A & B & C & D); [|exact Hf|intros; apply kcount_nonneg].
      apply NoDup_cons_iff in NO as [Nb NO]. destruct (IH NO _ H1) as (A' & B' & C' & D'). split; [eapply side_trans; eauto|]. split; [congruence|].
      destruct A as [(_ & Ec & _) _]. rewrite Ec in C'. split.
      + intros k b' [<-|Hb].
        * rewrite D' by exact Nb. apply C.
        * rewrite <- D; [apply C', Hb|]. intros ->. contradiction.
      + intros k l Hl. rewrite D', D; auto. intros ->. apply Hl. now left. intros X. apply Hl. now right. }
  destruct S1 as (A1 & B1 & C1 & D1).
  assert (S2 : side_keep w1 w' /\ mk_Nin (mw_cc w') = mk_Nin (mw_cc w1) /\
    (forall k a, In a ins -> counts (t + 1) (class_count (mw_cls w1) k (log_from m a) / fs) (mk_Nout (mw_cc w1) k a) (mk_Nout (mw_cc w') k a)) /\
    (forall k l, ~ In l ins -> mk_Nout (mw_cc w') k l = mk_Nout (mw_cc w1) k l)).
  { clear H1 A1 B1 C1 D1. revert w1 H2. induction ins as [|b ins' IH]; intros w1 H1; simpl in H1.
    - apply Ok_inj in H1 as <-. split; [split; [apply mcc_refl|reflexivity]|]. split; [reflexivity|]. split; [intros k b []|reflexivity].
    - apply bind_ok in H1 as (w2 & E & H1). simpl in E. apply (rec_out_both fs t (fun k => kcount w1 k (log_from m b))) in E as (A & B & C & D); [|exact Hf|intros; apply kcount_nonneg].
      apply NoDup_cons_iff in NI as [Nb NI']. destruct (IH NI' _ H1) as (A' & B' & C' & D'). split; [eapply side_trans; eauto|]. split; [congruence|].
      destruct A as [(_ & Ec & _) _]. rewrite Ec in C'. split.
      + intros k b' [<-|Hb].
        * rewrite D' by exact Nb. apply C.
        * rewrite <- D; [apply C', Hb|]. intros ->. contradiction.
      + intros k l Hl. rewrite D', D; auto. intros ->. apply Hl. now left. intros X. apply Hl. now right. }
  destruct S2 as (A2 & B2 & C2 & D2). pose proof A1 as [(_ & Ec & _) _]. rewrite Ec in C2.
  split; [eapply side_trans; eauto|]. split; [intros; rewrite B2; auto|]. split; [intros; rewrite B2; auto|].
  rewrite <- B1. split; auto.
Qed.
Lemma mrecord_total fs t ins outs m w : mtimely (t + 1) (mw_cc w) -> exists w', mrecord fs t ins outs m w = Ok w' /\ mtimely (t + 1) (mw_cc w').
Proof.
  intros H. unfold mrecord.
  destruct (foldM_total (fun w b => do w' <- rec_in fs t false b (kcount w false (log_to m b)) w; rec_in fs t true b (kcount w true (log_to m b)) w')
    (fun w => mtimely (t + 1) (mw_cc w)) outs) with (s := w) as (w1 & E1 & T1); [|exact H|].
  - intros s b Hs _. destruct (rec_in_total fs t false b (kcount s false (log_to m b)) s Hs) as (s1 & Es & Ts & _). rewrite Es. cbn [bind].
    destruct (rec_in_total fs t true b (kcount s true (log_to m b)) s1 Ts) as (s2 & Es2 & Ts2 & _). eauto.
  - rewrite E1. cbn [bind].
    destruct (foldM_total (fun w b => do w' <- rec_out fs t false b (kcount w false (log_from m b)) w; rec_out fs t true b (kcount w true (log_from m b)) w')
      (fun w => mtimely (t + 1) (mw_cc w)) ins) with (s := w1) as (w2 & E2 & T2); [|exact T1|eauto].
    intros s b Hs _. destruct (rec_out_total fs t false b (kcount s false (log_from m b)) s Hs) as (s1 & Es & Ts & _). rewrite Es. cbn [bind].
    destruct (rec_out_total fs t true b (kcount s true (log_from m b)) s1 Ts) as (s2 & Es2 & Ts2 & _). eauto.
Qed.

(** ** the list of pairs *)
Section Pairs.
Variables (ins outs : list Z) (shuf : Z -> list Z -> list Z) (f : Z -> Z -> Q) (fs : Q).
Hypothesis (NI : NoDup ins) (NO : NoDup outs) (P : forall b, Permutation (shuf b ins) ins).
Let L := mpairs fs ins outs shuf f.
Let pr (a b : Z) : Z * Z * Q := (a, b, (f a b * fs)%Q).

Lemma in_mpairs x : In x L <-> In (msrc x) ins /\ In (mtgt x) outs /\ x = pr (msrc x) (mtgt x).
Proof.
  unfold L, mpairs. rewrite in_concat. split.
  - intros (c & Hc & Hx). apply in_map_iff in Hc as (b & <- & Hb). apply in_map_iff in Hx as (a & <- & Ha). cbn. split; [|auto].
    eapply Permutation_in; eauto.
  - intros (A & B & E). exists (map (fun a => (a, mtgt x, (f a (mtgt x) * fs)%Q)) (shuf (mtgt x) ins)). split; [apply in_map_iff; eauto|].
    apply in_map_iff. exists (msrc x). split; [symmetry; exact E|]. eapply Permutation_in; [symmetry; apply P|exact A].
Qed.
Lemma mpairs_tgt b : In b outs -> filter (fun x => mtgt x =? b) L = map (fun a => pr a b) (shuf b ins).
Proof.
  unfold L, mpairs. clear L. revert NO. induction outs as [|c os IH]; intros ND Hb; [destruct Hb|]. cbn [map concat]. rewrite filter_app.
  apply NoDup_cons_iff in ND as [Nc ND].
  assert (E0 : forall d, d <> b -> filter (fun x => mtgt x =? b) (map (fun a => (a, d, (f a d * fs)%Q)) (shuf d ins)) = []).
  { intros d Hd. apply filter_all_false. intros x Hx. apply in_map_iff in Hx as (a & <- & _). cbn. now apply Z.eqb_neq. }
  assert (E1 : forall l, filter (fun x => mtgt x =? b) (map (fun a => (a, b, (f a b * fs)%Q)) l) = map (fun a => pr a b) l).
  { induction l as [|a l IHl]; [reflexivity|]. cbn. rewrite Z.eqb_refl. f_equal. exact IHl. }
  destruct Hb as [->|Hb].
  - rewrite E1. replace (filter _ (concat _)) with (@nil (Z * Z * Q)); [now rewrite app_nil_r|]. symmetry.
    clear IH ND. induction os as [|d os IHo]; [reflexivity|]. cbn [map concat]. rewrite filter_app, E0; [|intros ->; apply Nc; now left].
    apply IHo. intros X. apply Nc. now right.
  - rewrite E0 by (intros ->; contradiction). apply IH; auto.
Qed.
Lemma mpairs_tgt_out b : ~ In b outs -> filter (fun x => mtgt x =? b) L = [].
Proof.
  intros N. apply filter_all_false. intros x Hx. apply in_mpairs in Hx as (_ & Hb & _). apply Z.eqb_neq. intros <-. contradiction.
Qed.
Lemma mpairs_src a : In a ins -> filter (fun x => msrc x =? a) L = map (fun b => pr a b) outs.
Proof.
  intros Ha. unfold L, mpairs. clear L. clear NO. induction outs as [|c os IH]; [reflexivity|]. cbn [map concat]. rewrite filter_app, IH. change (pr a c :: map (fun b => pr a b) os) with ([pr a c] ++ map (fun b => pr a b) os). f_equal.
  assert (N1 : NoDup (shuf c ins)) by (eapply Permutation_NoDup; [symmetry; apply P|exact NI]).
  assert (I1 : In a (shuf c ins)) by (eapply Permutation_in; [symmetry; apply P|exact Ha]).
  clear IH. revert N1 I1. generalize (shuf c ins). intros l. induction l as [|x l IHl]; intros N1 I1; [destruct I1|]. apply NoDup_cons_iff in N1 as [Nx N1]. cbn [map filter]. cbn [msrc fst].
  change (msrc (x, c, (f x c * fs)%Q)) with x. destruct (Z.eqb_spec x a) as [->|Nxa].
  - unfold pr. f_equal. apply filter_all_false. intros y Hy. apply in_map_iff in Hy as (z & <- & Hz). apply Z.eqb_neq. cbn. intros ->. contradiction.
  - apply IHl; auto. destruct I1; [congruence|auto].
Qed.
Lemma mpairs_src_out a : ~ In a ins -> filter (fun x => msrc x =? a) L = [].
Proof.
  intros N. apply filter_all_false. intros x Hx. apply in_mpairs in Hx as (Ha & _). apply Z.eqb_neq. intros <-. contradiction.
Qed.
Lemma mpairs_find a b : In a ins -> In b outs -> find (fun x => (msrc x =? a) && (mtgt x =? b)) L = Some (pr a b).
Proof.
  intros Ha Hb. destruct (find (fun x => (msrc x =? a) && (mtgt x =? b)) L) as [x|] eqn:E.
  - apply find_some in E as [I E]. apply andb_true_iff in E as [E1 E2]. apply Z.eqb_eq in E1, E2. subst a b. apply in_mpairs in I as (_ & _ & ->). reflexivity.
  - exfalso. assert (I : In (pr a b) L) by (apply in_mpairs; cbn; auto). apply (find_none _ _ E) in I. cbn in I. rewrite !Z.eqb_refl in I. discriminate.
Qed.
Lemma mpairs_NoDup : NoDup (map fst L).
Proof.
  unfold L, mpairs. clear L. revert NO. induction outs as [|c os IH]; intros ND; [constructor|]. cbn [map concat]. rewrite map_app.
  apply NoDup_cons_iff in ND as [Nc ND]. apply NoDup_app_intro; [|apply IH, ND|].
  - rewrite map_map. cbn [fst]. apply FinFun.Injective_map_NoDup; [intros x y E; congruence|]. eapply Permutation_NoDup; [symmetry; apply P|exact NI].
  - intros x Hx Hy. rewrite map_map in Hx. apply in_map_iff in Hx as (a & <- & _). apply in_map_iff in Hy as (y & Ey & Hy). apply in_concat in Hy as (col & Hc & Hy).
    apply in_map_iff in Hc as (d & <- & Hd). apply in_map_iff in Hy as (z & <- & _). cbn in Ey. injection Ey as -> ->. contradiction.
Qed.
End Pairs.
