(** What a two-class junction does in one interval. *)
From Verif Require Import Base Base_lemmas Model_Num Proof_Num Spec_Path Proof_Path Model_CC Spec_CC Proof_CC Proof_CC3 Model_Path Model_Link Spec_Link Spec_Node
  Proof_Link Proof_Link3 Proof_Link4 Model_World Model_Node Proof_Node Proof_Node2 Proof_Node3 Proof_Node4 Model_McLink Spec_McLink Model_McNode Spec_McNode
  Proof_McNode Proof_McNode2 Proof_McNode3 Proof_Sim1.
Local Open Scope Z_scope.

Definition mflow (fs pcu : Q) (w : mworld) (ins : list Z) (supply : Z -> Q) (a b : Z) : Q :=
  fwj_flow (mdemand fs pcu w) ins (supply b) a b.

Lemma mjunction_ok fs pcu ins outs shuf t w w' : (0 < fs)%Q -> around_ok ins outs -> (forall b, Permutation (shuf b ins) ins) ->
  mjunction_evolve fs pcu ins outs shuf t w = Ok w' ->
  exists supply w1, (forall b, In b outs -> mlink_supply (mw_link w b) = Ok (supply b)) /\ mright_node w ins outs = true /\
    mmoved fs pcu t (mpairs fs ins outs shuf (mflow fs pcu w ins supply)) w w1 /\
    mrecord fs t ins outs (map (tk3 pcu w) (mpairs fs ins outs shuf (mflow fs pcu w ins supply))) w1 = Ok w'.
Proof.
  intros Hf (NI & NO & DJ) P H. unfold mjunction_evolve in H. apply bind_ok in H as (u & Hg & H). apply guard_ok in Hg.
  apply bind_ok in H as (sup & Hs & H). cbv zeta in H. apply bind_ok in H as ([w1 m] & Hm & H). cbn [fst snd] in H.
  apply mapM_keyed in Hs as [E1 E2].
  set (supply := fun b => match find (fun x => fst x =? b) sup with Some x => snd x | None => 0%Q end) in *.
  exists supply, w1. split.
  { intros b Hb. pose proof Hb as Hb'. rewrite <- E1 in Hb'. apply in_map_iff in Hb' as ([b' s] & Eb & I). cbn in Eb. subst b'.
    unfold supply. rewrite (find_keyed sup b s) by congruence || auto. apply E2. exact I. }
  split; [exact Hg|].
  change (fun a b => fwj_flow (mdemand fs pcu w) ins (supply b) a b) with (mflow fs pcu w ins supply) in Hm.
  apply mmoves_ok in Hm as [Em Mv]; [| exact Hf | now apply mpairs_NoDup |].
  2:{ intros x y Hx Hy E. apply in_mpairs in Hx as (Ax & _); [|exact P]. apply in_mpairs in Hy as (_ & By & _); [|exact P].
      apply (DJ (msrc x)); [exact Ax|now rewrite E]. }
  cbn in Em. subst m. split; [exact Mv|exact H].
Qed.

Lemma log_to_taken pcu w L b : log_to (map (tk3 pcu w) L) b = concat (map (mtaken pcu w) (filter (fun x => mtgt x =? b) L)).
Proof.
  unfold log_to. f_equal. induction L as [|x L IH]; [reflexivity|]. cbn [map filter]. unfold tk3 at 1. cbn [fst snd].
  destruct (mtgt x =? b); cbn [map]; [f_equal|]; exact IH.
Qed.
Lemma log_from_taken pcu w L a : log_from (map (tk3 pcu w) L) a = concat (map (mtaken pcu w) (filter (fun x => msrc x =? a) L)).
Proof.
  unfold log_from. f_equal. induction L as [|x L IH]; [reflexivity|]. cbn [map filter]. unfold tk3 at 1. cbn [fst snd].
  destruct (msrc x =? a); cbn [map]; [f_equal|]; exact IH.
Qed.

Section J.
Variables (fs pcu : Q) (ins outs : list Z) (shuf : Z -> list Z -> list Z) (t : Z) (w w' w1 : mworld) (supply : Z -> Q).
Hypothesis (Hf : (0 < fs)%Q) (A : around_ok ins outs) (P : forall b, Permutation (shuf b ins) ins).
Let L := mpairs fs ins outs shuf (mflow fs pcu w ins supply).
Hypothesis (M : mmoved fs pcu t L w w1) (R : mrecord fs t ins outs (map (tk3 pcu w) L) w1 = Ok w').
Let pass (a b : Z) := mtaken pcu w (a, b, (mflow fs pcu w ins supply a b * fs)%Q).

Lemma J_side : side_keep w1 w'.
Proof. destruct A as (NI & NO & _). now apply mrecord_ok in R. Qed.
Lemma J_veh : mw_veh w' = mw_veh w1. Proof. apply J_side. Qed.
Lemma J_link : mw_link w' = mw_link w1. Proof. apply J_side. Qed.

Lemma taken_split x : filter (mgoes w (mtgt x)) (ml_fin (mw_link w (msrc x))) =
  mtaken pcu w x ++ skipn (length (mtaken pcu w x)) (filter (mgoes w (mtgt x)) (ml_fin (mw_link w (msrc x)))).
Proof.
  unfold mtaken. cbv zeta. set (q := filter _ _). set (k := need _ _ q). pose proof (need_le (equiv pcu w) q (snd x)). fold k in H.
  rewrite firstn_length. rewrite Nat.min_l by exact H. symmetry. apply firstn_skipn.
Qed.

Lemma junction_passage : mpassage ins outs w w' pass.
Proof.
  pose proof A as (NI & NO & DJ). pose proof M as [mm_plans0 mm_q0 mm_N0 mm_like0 mm_in0 mm_sub0 mm_cnt0 mm_line0 mm_same0 mm_cur0 mm_miles0 mm_tree0 mm_ttot0 mm_tk0 mm_te0].
  assert (Eo : mw_oq w' = mw_oq w1) by apply J_side. assert (Ed : mw_dq w' = mw_dq w1) by apply J_side.
  constructor; rewrite ?J_link.
  - intros a b Ha Hb. change (mline w b) with (filter (mgoes w b)). rewrite mm_line0. unfold L. rewrite (mpairs_find ins outs shuf _ fs P a b Ha Hb).
    apply (taken_split (a, b, (mflow fs pcu w ins supply a b * fs)%Q)).
  - intros a Ha. apply mm_sub0.
  - intros a Ha. apply perm_cnt. intros v. rewrite cnt_app, mm_cnt0. unfold L. rewrite (mpairs_src ins outs shuf _ fs NI P a Ha), map_map. reflexivity.
  - intros b Hb. exists (shuf b ins). split; [apply P|]. rewrite mm_in0. unfold L. rewrite (mpairs_tgt ins outs shuf _ fs NO b Hb), map_map. reflexivity.
  - intros a Ha. destruct (mm_like0 a) as (i & f & E). rewrite E. cbn [with_body ml_fin]. unfold ml_set_fin. f_equal.
    specialize (mm_in0 a). unfold L in mm_in0. rewrite (mpairs_tgt_out ins outs shuf _ fs P a (DJ a Ha)) in mm_in0. cbn in mm_in0. rewrite app_nil_r in mm_in0.
    rewrite E in mm_in0. exact mm_in0.
  - intros b Hb. destruct (mm_like0 b) as (i & f & E). rewrite E. cbn [with_body ml_in]. unfold ml_set_in. f_equal.
    assert (X : ml_fin (mw_link w1 b) = ml_fin (mw_link w b)).
    { apply mm_same0. intros x Hx. unfold L in Hx. apply in_mpairs in Hx as (Hx & _); [|exact P]. intros E'. apply (DJ (msrc x) Hx). now rewrite E'. }
    rewrite E in X. exact X.
  - intros l Ha Hb. destruct (mm_like0 l) as (i & f & E). specialize (mm_in0 l). unfold L in mm_in0. rewrite (mpairs_tgt_out ins outs shuf _ fs P l Hb) in mm_in0. cbn in mm_in0. rewrite app_nil_r in mm_in0.
    assert (X : ml_fin (mw_link w1 l) = ml_fin (mw_link w l)).
    { apply mm_same0. intros x Hx. unfold L in Hx. apply in_mpairs in Hx as (Hx & _); [|exact P]. intros E'. subst l. contradiction. }
    rewrite E in *. cbn in mm_in0, X. rewrite mm_in0, X. destruct (mw_link w l); reflexivity.
  - destruct mm_q0. split; congruence.
Qed.

Lemma junction_plans : same_plans w w'.
Proof. eapply plans_trans; [apply (mm_plans _ _ _ _ _ _ M)|apply mcc_plans, J_side]. Qed.

Lemma in_taken_all v : In v (concat (map (mtaken pcu w) L)) <-> exists a b, In a ins /\ In b outs /\ In v (pass a b).
Proof.
  rewrite in_concat. split.
  - intros (c & Hc & Hv). apply in_map_iff in Hc as (x & <- & Hx). unfold L in Hx. apply in_mpairs in Hx as (Ha & Hb & E); [|exact P].
    exists (msrc x), (mtgt x). split; [exact Ha|]. split; [exact Hb|]. rewrite E in Hv. exact Hv.
  - intros (a & b & Ha & Hb & Hv). exists (pass a b). split; [|exact Hv]. apply in_map_iff. exists (a, b, (mflow fs pcu w ins supply a b * fs)%Q).
    split; [reflexivity|]. unfold L. apply in_mpairs; [exact P|]. cbn. auto.
Qed.
Lemma pass_next a b v : In v (pass a b) -> v_next (mw_veh w v) = Some b /\ In v (ml_fin (mw_link w a)).
Proof.
  intros H. assert (I : In v (filter (mgoes w b) (ml_fin (mw_link w a)))).
  { pose proof (taken_split (a, b, (mflow fs pcu w ins supply a b * fs)%Q)) as E. unfold mtgt, msrc in E. cbn [fst snd] in E. rewrite E. apply in_or_app. left. exact H. }
  apply filter_In in I as [I1 I2]. split; [now apply mgoes_next|exact I1].
Qed.

Lemma junction_cur v :
  (forall a b, In a ins -> In b outs -> In v (pass a b) -> v_cur (mw_veh w' v) = Some b) /\
  ((forall a b, In a ins -> In b outs -> ~ In v (pass a b)) -> v_cur (mw_veh w' v) = v_cur (mw_veh w v)).
Proof.
  rewrite J_veh, (mm_cur _ _ _ _ _ _ M). split.
  - intros a b Ha Hb Hv. assert (X : memb v (concat (map (mtaken pcu w) L)) = true) by (apply memb_In, in_taken_all; eauto). rewrite X. eapply pass_next; eauto.
  - intros N. assert (X : memb v (concat (map (mtaken pcu w) L)) = false); [|now rewrite X]. apply memb_false. intros H. apply in_taken_all in H as (a & b & Ha & Hb & Hv). exact (N a b Ha Hb Hv).
Qed.

Lemma sumQ_map_concat {X} (g : X -> Q) (ls : list (list X)) : (sumQ (map g (concat ls)) == sumQ (map (fun l => sumQ (map g l)) ls))%Q.
Proof. induction ls as [|l ls IH]; cbn [concat map]; [reflexivity|]. rewrite map_app, sumQ_app, sQc, IH. reflexivity. Qed.
Lemma sumQ_ext0 {X} (g : X -> Q) ls : (forall x, In x ls -> (g x == 0)%Q) -> (sumQ (map g ls) == 0)%Q.
Proof. induction ls as [|x ls IH]; intros H; sqs; [reflexivity|]. rewrite (H x) by now left. rewrite IH by (intros; apply H; now right). lra. Qed.
Lemma sumQ_one {X} (g : X -> Q) ls x0 : NoDup ls -> In x0 ls -> (forall x, In x ls -> x <> x0 -> (g x == 0)%Q) -> (sumQ (map g ls) == g x0)%Q.
Proof.
  induction ls as [|x ls IH]; intros ND I H; [destruct I|]. apply NoDup_cons_iff in ND as [N ND]. sqs. destruct I as [->|I].
  - rewrite sumQ_ext0; [lra|]. intros y Hy. apply H; [now right|]. intros ->. contradiction.
  - rewrite (H x); [|now left|intros ->; contradiction]. rewrite IH; auto; [lra|]. intros y Hy. apply H. now right.
Qed.

Lemma junction_miles : NoDup (concat (map (fun a => ml_fin (mw_link w a)) ins)) ->
  forall a b v, In a ins -> In b outs -> In v (pass a b) ->
  (v_miles (mw_veh w' v) == v_miles (mw_veh w v) + mp_len (ml_par (mw_link w a)) / 1600)%Q.
Proof.
  intros ND a b v Ha Hb Hv. rewrite J_veh, (mm_miles _ _ _ _ _ _ M). apply Qplus_inj_l.
  pose proof A as (NI & NO & DJ).
  set (x0 := (a, b, (mflow fs pcu w ins supply a b * fs)%Q)).
  assert (I0 : In x0 L) by (unfold L; apply in_mpairs; [exact P|cbn; auto]).
  assert (NL : NoDup L) by (eapply NoDup_map_inv; apply mpairs_NoDup; auto).
  assert (Only : forall x, In x L -> In v (mtaken pcu w x) -> x = x0).
  { intros x Hx Hvx. unfold L in Hx. apply in_mpairs in Hx as (Hsx & Htx & E); [|exact P]. rewrite E in Hvx. apply pass_next in Hvx as [N1 F1].
    apply pass_next in Hv as [N2 F2]. assert (msrc x = a).
    { clear - ND Hsx Ha F1 F2. revert F1 Hsx. generalize (msrc x). intros sx F1 Hsx. revert ND Hsx Ha. induction ins as [|c cs IH]; intros ND Hsx Ha; [destruct Ha|]. cbn [map concat] in ND. apply NoDup_app_inv in ND as (_ & ND & DJ).
      assert (IN : forall z, In z cs -> In v (ml_fin (mw_link w z)) -> In v (concat (map (fun a => ml_fin (mw_link w a)) cs))).
      { intros z Hz Hv. apply in_concat. eexists. split; [apply in_map_iff; exists z; split; [reflexivity|exact Hz]|exact Hv]. }
      destruct Hsx as [<-|Hsx], Ha as [<-|Ha]; [reflexivity| | |now apply IH].
      - exfalso. exact (DJ v F1 (IN _ Ha F2)).
      - exfalso. exact (DJ v F2 (IN _ Hsx F1)). }
    assert (mtgt x = b) by congruence. rewrite E. unfold x0. now rewrite H, H0. }
  rewrite (sumQ_one _ L x0 NL I0).
  - unfold miles_step, x0. cbn [msrc fst]. assert (C1 : cnt v (mtaken pcu w (a, b, (mflow fs pcu w ins supply a b * fs)%Q)) = 1%nat).
    { apply cnt_In in Hv. unfold pass in Hv. assert (LE : (cnt v (mtaken pcu w (a, b, (mflow fs pcu w ins supply a b * fs)%Q)) <= 1)%nat); [|lia].
      assert (C : (cnt v (ml_fin (mw_link w a)) <= 1)%nat).
      { clear - ND Ha. rewrite NoDup_cnt in ND. specialize (ND v). induction ins as [|c cs IH]; [destruct Ha|]. cbn [map concat] in ND. rewrite cnt_app in ND. destruct Ha as [->|Ha]; [lia|apply IH; [lia|exact Ha]]. }
      pose proof (mm_cnt _ _ _ _ _ _ M a v) as Cv. assert (Q0 : (cnt v (mtaken pcu w x0) <= cnt v (concat (map (mtaken pcu w) (filter (fun x => (msrc x =? a)%Z) L))))%nat); [|unfold x0 in Q0; lia].
      assert (I1 : In x0 (filter (fun x => (msrc x =? a)%Z) L)) by (apply filter_In; split; [exact I0|apply Z.eqb_refl]).
      clear - I1. induction (filter _ L) as [|y l IH]; [destruct I1|]. cbn [map concat]. rewrite cnt_app. destruct I1 as [->|I1]; [lia|specialize (IH I1); lia]. }
    rewrite C1. change (inject_Z (Z.of_nat 1)) with 1%Q. change (msrc (a, b, (mflow fs pcu w ins supply a b * fs)%Q)) with a. ring.
  - intros x Hx Nx. unfold miles_step. assert (C0 : cnt v (mtaken pcu w x) = 0%nat) by (apply cnt_not_In; intros H; apply Nx; now apply Only).
    rewrite C0. change (inject_Z (Z.of_nat 0)) with 0%Q. ring.
Qed.
Lemma junction_miles_stay v : (forall a b, In a ins -> In b outs -> ~ In v (pass a b)) -> (v_miles (mw_veh w' v) == v_miles (mw_veh w v))%Q.
Proof.
  intros N. rewrite J_veh, (mm_miles _ _ _ _ _ _ M). rewrite sumQ_ext0; [lra|]. intros x Hx. unfold miles_step.
  assert (C0 : cnt v (mtaken pcu w x) = 0%nat).
  { apply cnt_not_In. intros H. unfold L in Hx. apply in_mpairs in Hx as (Hsx & Htx & E); [|exact P]. rewrite E in H. exact (N _ _ Hsx Htx H). }
  rewrite C0. change (inject_Z (Z.of_nat 0)) with 0%Q. ring.
Qed.

(** curves *)
Lemma junction_curves :
  (forall k b new, In b outs -> ml_in (mw_link w' b) = ml_in (mw_link w b) ++ new ->
     counts (t + 1) (class_count (mw_cls w) k new / fs) (mk_Nin (mw_cc w) k b) (mk_Nin (mw_cc w') k b)) /\
  (forall k l, ~ In l outs -> mk_Nin (mw_cc w') k l = mk_Nin (mw_cc w) k l) /\
  (forall k a gone, In a ins -> Permutation (ml_fin (mw_link w a)) (gone ++ ml_fin (mw_link w' a)) ->
     counts (t + 1) (class_count (mw_cls w) k gone / fs) (mk_Nout (mw_cc w) k a) (mk_Nout (mw_cc w') k a)) /\
  (forall k l, ~ In l ins -> mk_Nout (mw_cc w') k l = mk_Nout (mw_cc w) k l).
Proof.
  pose proof A as (NI & NO & DJ). destruct (mrecord_ok _ _ _ _ _ _ _ Hf NI NO R) as (_ & I1 & I2 & O1 & O2).
  destruct (mm_N _ _ _ _ _ _ M) as [EN EO]. rewrite EN, EO in *. destruct (mm_plans _ _ _ _ _ _ M) as (Ec & _). rewrite Ec in *. repeat split; auto.
  - intros k b new Hb E. specialize (I1 k b Hb). rewrite log_to_taken in I1. rewrite J_link, (mm_in _ _ _ _ _ _ M) in E. apply app_inv_head in E. rewrite <- E. exact I1.
  - intros k a gone Ha E. specialize (O1 k a Ha). rewrite log_from_taken in O1.
    assert (PP : Permutation (concat (map (mtaken pcu w) (filter (fun x => (msrc x =? a)%Z) L))) gone).
    { apply perm_cnt. intros v. pose proof (cnt_perm _ _ E v) as C. rewrite cnt_app, J_link in C. pose proof (mm_cnt _ _ _ _ _ _ M a v). lia. }
    assert (EC : class_count (mw_cls w) k gone = class_count (mw_cls w) k (concat (map (mtaken pcu w) (filter (fun x => (msrc x =? a)%Z) L)))); [|now rewrite EC].
    unfold class_count, of_class, Zlen. do 2 f_equal. apply Permutation_length. clear - PP. symmetry in PP.
    induction PP as [| x l l' PP IH | x y l | l l1 l2 P1 IH1 P2 IH2]; cbn [filter].
    + constructor.
    + destruct (Bool.eqb _ _); auto.
    + destruct (Bool.eqb (mw_cls w x) k), (Bool.eqb (mw_cls w y) k); auto. constructor.
    + etransitivity; eauto.
Qed.
Lemma junction_trees k l p d : (exists tr, mk_Tin (mw_cc w) k l = Some tr) ->
  exists tr tr', mk_Tin (mw_cc w) k l = Some tr /\ mk_Tin (mw_cc w') k l = Some tr' /\
  forall new, ml_in (mw_link w' l) = ml_in (mw_link w l) ++ new ->
  (tree_total tr' p d == tree_total tr p d + inject_Z (Zlen (on_path w p d (of_class (mw_cls w) k new))) / fs)%Q /\
  (on_path w p d (of_class (mw_cls w) k new) <> [] -> exists c, tree_find tr' (p, d) = Some c /\ ends_at (t + 1) c).
Proof.
  intros (tr & E). destruct J_side as [_ ET]. pose proof (mm_tree _ _ _ _ _ _ M k l) as HT. pose proof (mm_ttot _ _ _ _ _ _ M k l p d) as TT.
  unfold has_tree in HT. rewrite E in HT. destruct (mk_Tin (mw_cc w1) k l) as [tr'|] eqn:E'; [|discriminate].
  exists tr, tr'. split; [exact E|]. split; [rewrite ET; exact E'|]. intros new En. rewrite J_link, (mm_in _ _ _ _ _ _ M) in En. apply app_inv_head in En.
  unfold ttot, tstep, has_tree in TT. rewrite E, E', Z.eqb_refl in TT. cbn [andb] in TT. split; [rewrite TT, En; reflexivity|]. rewrite <- En. intros C.
  exact (mm_tend _ _ _ _ _ _ M k l p d C tr' E').
Qed.

(** shares *)
Let D (a b : Z) : Q := pce pcu (mw_cls w) (mline w b (ml_fin (mw_link w a))).
Let T (b : Z) : Q := sumQ (map (fun a => D a b) ins).
Hypothesis Hp : (0 < pcu)%Q.
Lemma pce_nonneg cls l : (0 <= pce pcu cls l)%Q.
Proof. unfold pce. induction l as [|v l IH]; sqs; [lra|]. destruct (cls v); lra. Qed.
Lemma mdemand_eq a b : mdemand fs pcu w a b = (D a b / fs)%Q.
Proof. reflexivity. Qed.
Lemma mdemand_fs a b : (mdemand fs pcu w a b * fs == D a b)%Q.
Proof. rewrite mdemand_eq. field. lra. Qed.
Lemma sum_demand b : (sumQ (map (fun i => mdemand fs pcu w i b) ins) == T b / fs)%Q.
Proof.
  assert (X : forall l, (sumQ (map (fun i => mdemand fs pcu w i b) l) == sumQ (map (fun a => D a b) l) / fs)%Q); [|apply X].
  clear - Hf. induction l as [|a l IH]; [unfold sumQ; cbn; field; lra|]. sqs. rewrite IH. change (mdemand fs pcu w a b) with (D a b / fs)%Q. field. lra.
Qed.
Lemma D_le_T a b : In a ins -> (D a b <= T b)%Q.
Proof. intros H. unfold T. apply (sumQ_ge (fun a => D a b)); [|exact H]. intros. apply pce_nonneg. Qed.
Lemma share_eq a b : In a ins -> (0 < D a b)%Q -> (mflow fs pcu w ins supply a b * fs == Qmin (D a b) (D a b / T b * (supply b * fs)))%Q.
Proof.
  intros Ha HD. pose proof (D_le_T a b Ha) as LT. unfold mflow, fwj_flow.
  assert (E1 : (divide (mdemand fs pcu w a b) (sumQ (map (fun i => mdemand fs pcu w i b) ins)) == D a b / T b)%Q).
  { unfold divide. assert (D0 : (0 < mdemand fs pcu w a b)%Q) by (rewrite mdemand_eq; apply Qlt_shift_div_l; lra).
    assert (S0 : (0 < sumQ (map (fun i => mdemand fs pcu w i b) ins))%Q) by (rewrite sum_demand; apply Qlt_shift_div_l; lra).
    destruct (Qeq_bool (mdemand fs pcu w a b) 0) eqn:Z1; [apply Qeq_bool_eq in Z1; lra|].
    destruct (Qeq_bool (sumQ (map (fun i => mdemand fs pcu w i b) ins)) 0) eqn:Z2; [apply Qeq_bool_eq in Z2; lra|].
    rewrite sum_demand, mdemand_eq. field. split; lra. }
  set (x := mdemand fs pcu w a b). set (y := (divide x _ * supply b)%Q).
  assert (Ex : (x * fs == D a b)%Q) by apply mdemand_fs. assert (Ey : (y * fs == D a b / T b * (supply b * fs))%Q) by (unfold y, x; rewrite E1; ring).
  clearbody x y. clear - Hf Ex Ey. destruct (Qlt_le_dec x y) as [C|C].
  - assert (x * fs <= y * fs)%Q by (apply Qmult_le_compat_r; lra). rewrite Q.min_l by lra. rewrite Q.min_l by lra. exact Ex.
  - assert (y * fs <= x * fs)%Q by (apply Qmult_le_compat_r; lra). rewrite Q.min_r by lra. rewrite Q.min_r by lra. exact Ey.
Qed.
Lemma flow_le a b : (mflow fs pcu w ins supply a b * fs <= D a b)%Q.
Proof.
  rewrite <- mdemand_fs. apply Qmult_le_compat_r; [|lra]. unfold mflow, fwj_flow. apply Q.le_min_l.
Qed.
Lemma D_zero_line a b : (D a b == 0)%Q -> mline w b (ml_fin (mw_link w a)) = [].
Proof.
  unfold D, pce. destruct (mline w b (ml_fin (mw_link w a))) as [|v q]; [reflexivity|]. sqs. intros E. exfalso.
  pose proof (pce_nonneg (mw_cls w) q) as N. unfold pce in N. destruct (mw_cls w v); lra.
Qed.
Lemma pass_prefix a b : pass a b = firstn (need (equiv pcu w) (mflow fs pcu w ins supply a b * fs) (mline w b (ml_fin (mw_link w a)))) (mline w b (ml_fin (mw_link w a))).
Proof. reflexivity. Qed.
Lemma equiv_pos v : (0 < equiv pcu w v)%Q.
Proof. unfold equiv. destruct (mw_cls w v); lra. Qed.
Lemma pass_share a b : In a ins -> (0 < D a b)%Q ->
  let share := Qmin (D a b) (D a b / T b * (supply b * fs)) in
  (share <= pce pcu (mw_cls w) (pass a b))%Q /\ (forall p v, pass a b = p ++ [v] -> (pce pcu (mw_cls w) p < share)%Q).
Proof.
  intros Ha HD share. pose proof (share_eq a b Ha HD) as E. fold share in E. rewrite pass_prefix. split.
  - rewrite <- E. apply (need_enough (equiv pcu w)); [intros v; pose proof (equiv_pos v); lra|]. apply flow_le.
  - intros p v Ep. rewrite <- E. eapply (need_tight (equiv pcu w)). exact Ep.
Qed.
Lemma pass_all a b : In a ins -> (T b <= supply b * fs)%Q -> pass a b = mline w b (ml_fin (mw_link w a)).
Proof.
  intros Ha HT. destruct (Qlt_le_dec 0 (D a b)) as [C|C].
  - rewrite pass_prefix. apply need_all; [apply equiv_pos|]. rewrite (share_eq a b Ha C).
    assert (TP : (0 < T b)%Q) by (pose proof (D_le_T a b Ha); lra).
    apply Q.min_glb; [apply Qle_refl|]. change (sumQ (map (equiv pcu w) (mline w b (ml_fin (mw_link w a))))) with (D a b).
    setoid_replace (D a b) with (D a b / T b * T b)%Q at 1 by (field; lra).
    apply (Qmult_le_compat_nonneg (D a b / T b) (D a b / T b)); split; try lra; apply Qle_shift_div_l; lra.
  - assert (Z0 : (D a b == 0)%Q) by (pose proof (pce_nonneg (mw_cls w) (mline w b (ml_fin (mw_link w a)))); unfold D in *; lra).
    rewrite pass_prefix, (D_zero_line a b Z0). reflexivity.
Qed.

Lemma pce_app cls l1 l2 : (pce pcu cls (l1 ++ l2) == pce pcu cls l1 + pce pcu cls l2)%Q.
Proof. unfold pce. now rewrite map_app, sumQ_app. Qed.
Lemma pass_empty a b : (D a b == 0)%Q -> pass a b = [].
Proof. intros H. now rewrite pass_prefix, (D_zero_line a b H). Qed.
Lemma pass_none a b : In a ins -> (supply b <= 0)%Q -> pass a b = [].
Proof.
  intros Ha Hs. destruct (Qlt_le_dec 0 (D a b)) as [C|C].
  - destruct (pass_share a b Ha C) as [_ H]. destruct (pass a b) as [|v0 l] eqn:E using rev_ind; [reflexivity|]. exfalso. clear IHl.
    specialize (H _ _ eq_refl). pose proof (pce_nonneg (mw_cls w) l) as N.
    assert (TP : (0 < T b)%Q) by (pose proof (D_le_T a b Ha); lra).
    assert (X : (D a b / T b * (supply b * fs) <= 0)%Q).
    { assert (0 <= D a b / T b)%Q by (apply Qle_shift_div_l; lra). assert (supply b * fs <= 0)%Q by (clear - Hs Hf; nra). nra. }
    pose proof (Q.le_min_r (D a b) (D a b / T b * (supply b * fs))). lra.
  - apply pass_empty. pose proof (pce_nonneg (mw_cls w) (mline w b (ml_fin (mw_link w a)))). unfold D in *. lra.
Qed.
Lemma pass_total b : (0 <= supply b)%Q ->
  (sumQ (map (fun a => pce pcu (mw_cls w) (pass a b)) ins) <= supply b * fs + inject_Z (Zlen ins) * Qmax 1 pcu)%Q.
Proof.
  intros Hs. pose proof (Q.le_max_l 1 pcu) as M1. pose proof (Q.le_max_r 1 pcu) as M2.
  assert (One : forall a, In a ins -> (0 < T b)%Q -> (pce pcu (mw_cls w) (pass a b) <= D a b / T b * (supply b * fs) + Qmax 1 pcu)%Q).
  { intros a Ha TP. assert (0 <= D a b / T b * (supply b * fs))%Q.
    { assert (N : (0 <= D a b)%Q) by apply pce_nonneg. assert (0 <= D a b / T b)%Q by (apply Qle_shift_div_l; lra). assert (0 <= supply b * fs)%Q by (clear - Hs Hf; nra). nra. }
    destruct (Qlt_le_dec 0 (D a b)) as [C|C].
    - destruct (pass_share a b Ha C) as [_ H1]. pose proof (Q.le_min_r (D a b) (D a b / T b * (supply b * fs))) as Mr.
      destruct (pass a b) as [|v0 l] eqn:E using rev_ind; [unfold pce; sqs; lra|]. clear IHl. specialize (H1 _ _ eq_refl). rewrite pce_app.
      assert (Ev : (pce pcu (mw_cls w) [v0] <= Qmax 1 pcu)%Q) by (unfold pce; sqs; destruct (mw_cls w v0); lra). lra.
    - rewrite pass_empty; [unfold pce; sqs; lra|]. pose proof (pce_nonneg (mw_cls w) (mline w b (ml_fin (mw_link w a)))). unfold D in *. lra. }
  assert (Zl : forall l : list Z, (0 <= inject_Z (Zlen l))%Q) by (intros l; change 0%Q with (inject_Z 0); apply injZ_le; unfold Zlen; lia).
  assert (N : (0 <= T b)%Q) by (unfold T; apply sumQ_nonneg; intros x Hx; apply in_map_iff in Hx as (y & <- & _); apply pce_nonneg).
  destruct (Qlt_le_dec 0 (T b)) as [TP|TP].
  - assert (X : forall l, (forall a, In a l -> In a ins) -> (sumQ (map (fun a => pce pcu (mw_cls w) (pass a b)) l) <=
      sumQ (map (fun a => D a b) l) / T b * (supply b * fs) + inject_Z (Zlen l) * Qmax 1 pcu)%Q).
    { induction l as [|a l IH]; intros Hl; [sqs; unfold Zlen; cbn [length]; change (inject_Z (Z.of_nat 0)) with 0%Q; assert (E : (0 / T b == 0)%Q) by (field; lra); rewrite E; lra|].
      sqs. specialize (One a (Hl a (or_introl eq_refl)) TP). specialize (IH (fun x H => Hl x (or_intror H))).
      assert (Zc : (inject_Z (Zlen (a :: l)) == inject_Z (Zlen l) + 1)%Q).
      { change 1%Q with (inject_Z 1). rewrite <- inject_Z_plus. unfold Zlen. cbn [length]. rewrite Nat2Z.inj_succ. reflexivity. }
      rewrite Zc. setoid_replace ((D a b + sumQ (map (fun a => D a b) l)) / T b * (supply b * fs))%Q with
        (D a b / T b * (supply b * fs) + sumQ (map (fun a => D a b) l) / T b * (supply b * fs))%Q by (field; lra). lra. }
    specialize (X ins (fun a H => H)). fold (T b) in X. setoid_replace (T b / T b * (supply b * fs))%Q with (supply b * fs)%Q in X by (field; lra). exact X.
  - rewrite sumQ_ext0.
    + specialize (Zl ins). nra.
    + intros a Ha. rewrite pass_empty; [reflexivity|]. pose proof (D_le_T a b Ha). pose proof (pce_nonneg (mw_cls w) (mline w b (ml_fin (mw_link w a)))). unfold D in *. lra.
Qed.
End J.

(** The vehicles that pass are determined by the queues before and after. *)
Lemma passage_unique ins outs w w' p1 p2 : mpassage ins outs w w' p1 -> mpassage ins outs w w' p2 -> forall a b, In a ins -> In b outs -> p1 a b = p2 a b.
Proof.
  intros [F1 _ _ _ _ _ _ _] [F2 _ _ _ _ _ _ _] a b Ha Hb. specialize (F1 a b Ha Hb). specialize (F2 a b Ha Hb). rewrite F1 in F2. now apply app_inv_tail in F2.
Qed.

Lemma junction_total fs pcu ins outs shuf t w : mjunction_ready fs pcu ins outs shuf t w ->
  exists w', mjunction_evolve fs pcu ins outs shuf t w = Ok w' /\ mtimely (t + 1) (mw_cc w').
Proof.
  intros [Hf Hp Ht A Hsh TM SP HH]. assert (P : forall b, Permutation (shuf b ins) ins) by (intros b; apply Hsh).
  unfold mjunction_evolve.
  assert (G : mright_node w ins outs = true).
  { unfold mright_node. apply forallb_forall. intros a Ha. apply forallb_forall. intros v Hv. destruct (HH a Ha v Hv) as (b & Hb & E). apply existsb_exists. exists b. split; [exact Hb|now apply mgoes_next]. }
  rewrite G. cbn [guard bind].
  destruct (mapM_keyed_total (fun b => mlink_supply (mw_link w b)) outs) as (sup & Es).
  { intros b Hb. destruct (SP b Hb) as (s & E & _). eauto. }
  rewrite Es. cbn [bind]. cbv zeta.
  set (supply := fun b => match find (fun x => fst x =? b) sup with Some x => snd x | None => 0%Q end).
  change (fun a b => fwj_flow (mdemand fs pcu w) ins (supply b) a b) with (mflow fs pcu w ins supply).
  pose proof A as (NI & NO & DJ).
  destruct (mmoves_total fs pcu t Hf Ht ltac:(lra) (mpairs fs ins outs shuf (mflow fs pcu w ins supply)) w []) as (w1 & m & E1 & T1); auto.
  - now apply mpairs_NoDup.
  - intros x y Hx Hy E. apply in_mpairs in Hx as (Ax & _); [|exact P]. apply in_mpairs in Hy as (_ & By & _); [|exact P]. apply (DJ (msrc x)); [exact Ax|now rewrite E].
  - intros x Hx. apply in_mpairs in Hx as (_ & _ & E); [|exact P]. rewrite E. cbn [snd]. apply flow_le; assumption.
  - match goal with |- context [foldM ?f ?s0 ?l] => change l with (mpairs fs ins outs shuf (mflow fs pcu w ins supply)) end.
    match goal with |- context [foldM ?f ?s0 ?l] => replace (foldM f s0 l) with (Ok (w1, m)) by (symmetry; exact E1) end. cbn [bind fst snd]. apply mrecord_total. exact T1.
Qed.
