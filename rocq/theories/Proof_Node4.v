(** Node updates do not fail. *)
From Verif Require Import Base Base_lemmas Model_Num Proof_Num Spec_Path Proof_Path Model_CC Spec_CC Proof_CC Model_Path Model_Link Spec_Link Spec_Node
  Proof_Link Proof_Link3 Proof_Link4 Model_World Model_Node Proof_Node Proof_Node2 Proof_Node3.
Local Open Scope Z_scope.

(** ** curves whose last record is not after time [T] *)
Lemma ctime_mono T T' c : T <= T' -> ctime T c -> ctime T' c.
Proof. intros L H b E. specialize (H b E). rewrite Zle_Qle in L. lra. Qed.
Lemma timely_mono T T' c : T <= T' -> timely T c -> timely T' c.
Proof.
  intros L (A & B & C & D). repeat split.
  - intros l x E. eapply ctime_mono; [exact L|]. eapply A; eauto.
  - intros l x E. eapply ctime_mono; [exact L|]. eapply B; eauto.
  - intros l x E. eapply Forall_impl; [|eapply C; eauto]. intros. eapply ctime_mono; eauto.
  - intros l x E. eapply Forall_impl; [|eapply D; eauto]. intros. eapply ctime_mono; eauto.
Qed.

Lemma add_increment_total T c x : ctime T c -> exists c', add_increment c (inject_Z T, x) = Ok c' /\ ctime T c'.
Proof.
  intros H. destruct c as [|y c0] using rev_ind.
  - exists [(inject_Z T, x)]. split; [reflexivity|]. intros b E. unfold last_opt in E. simpl in E. injection E as <-. simpl. lra.
  - clear IHc0. unfold add_increment. rewrite last_opt_snoc. assert (L : (fst y <= inject_Z T)%Q) by (apply H; apply last_opt_snoc).
    cbn [fst snd]. destruct (approx_lt_spec (inject_Z T) (fst y)) as [A|A].
    { exfalso. assert (0 <= tol * Qmax (Qabs (inject_Z T)) (Qabs (fst y)))%Q; [|lra].
      apply Qmult_le_0_compat; [unfold tol; lra|]. eapply Qle_trans; [apply Qabs_nonneg|apply Q.le_max_l]. }
    destruct (approx_eq (inject_Z T) (fst y) tol).
    + eexists. split; [reflexivity|]. intros b E. rewrite last_opt_snoc in E. injection E as <-. simpl. exact L.
    + eexists. split; [reflexivity|]. intros b E. rewrite last_opt_snoc in E. injection E as <-. simpl. lra.
Qed.

Lemma tree_find_time T tr k c : Forall (fun kc => ctime T (snd kc)) tr -> tree_find tr k = Some c -> ctime T c.
Proof.
  induction 1 as [|[k' c'] tr Hc Ht IH]; simpl; [discriminate|]. destruct (key_eqb k k'); [|exact IH]. intros E. injection E as <-. exact Hc.
Qed.
Lemma tree_set_time T tr k c : Forall (fun kc => ctime T (snd kc)) tr -> ctime T c -> Forall (fun kc => ctime T (snd kc)) (tree_set tr k c).
Proof.
  intros Ht Hc. induction Ht as [|[k' c'] tr Hc' Ht IH]; simpl; [constructor; auto|].
  destruct (key_eqb k k'); constructor; auto.
Qed.
Lemma fresh_time T : 0 <= T -> ctime T fresh_curve.
Proof. intros L b E. unfold last_opt, fresh_curve in E. simpl in E. injection E as <-. simpl. rewrite Zle_Qle in L. exact L. Qed.
Lemma add_flow_total T tr x p d : 0 <= T -> Forall (fun kc => ctime T (snd kc)) tr ->
  exists tr', add_flow tr (inject_Z T) x p d = Ok tr' /\ Forall (fun kc => ctime T (snd kc)) tr'.
Proof.
  intros L H. unfold add_flow. cbv zeta. set (c := match tree_find tr (p, d) with Some c => c | None => fresh_curve end).
  assert (Hc : ctime T c).
  { unfold c. destruct (tree_find tr (p, d)) eqn:E; [eapply tree_find_time; eauto|now apply fresh_time]. }
  destruct (add_increment_total T c x Hc) as (c' & E & Hc'). rewrite E. simpl. eexists. split; [reflexivity|]. now apply tree_set_time.
Qed.

Lemma inc_in_total w l t x : timely (t + 1) (w_cc w) -> cc_Nin (w_cc w) l <> None ->
  exists w', inc_in w l t x = Ok w' /\ timely (t + 1) (w_cc w').
Proof.
  intros (A & B & C & D) N. unfold inc_in. destruct (cc_Nin (w_cc w) l) as [c|] eqn:E; [|congruence].
  destruct (add_increment_total (t + 1) c x (A l c E)) as (c' & E' & Hc). rewrite E'. simpl. eexists. split; [reflexivity|].
  repeat split; auto. intros l' y Ey. simpl in Ey. unfold upd in Ey. destruct (l' =? l); [injection Ey as <-; exact Hc|eapply A; eauto].
Qed.
Lemma inc_out_total w l t x : timely (t + 1) (w_cc w) -> cc_Nout (w_cc w) l <> None ->
  exists w', inc_out w l t x = Ok w' /\ timely (t + 1) (w_cc w').
Proof.
  intros (A & B & C & D) N. unfold inc_out. destruct (cc_Nout (w_cc w) l) as [c|] eqn:E; [|congruence].
  destruct (add_increment_total (t + 1) c x (B l c E)) as (c' & E' & Hc). rewrite E'. simpl. eexists. split; [reflexivity|].
  repeat split; auto. intros l' y Ey. simpl in Ey. unfold upd in Ey. destruct (l' =? l); [injection Ey as <-; exact Hc|eapply B; eauto].
Qed.
Lemma tree_inc_total fs t a b w v : 0 <= t -> timely (t + 1) (w_cc w) ->
  exists w', tree_inc fs t a b w v = Ok w' /\ timely (t + 1) (w_cc w').
Proof.
  intros Ht TM. unfold tree_inc. cbv zeta. set (x := w_veh w v). clearbody x.
  assert (S1 : exists w1, match cc_Tin (w_cc w) b with
           | Some tr => do tr' <- add_flow tr (inject_Z (t + 1)) (1 / fs) (path_key x) (v_assign x);
                        Ok (set_cc w (set_Tin (w_cc w) b (Some tr')))
           | None => Ok w end = Ok w1 /\ timely (t + 1) (w_cc w1)).
  { pose proof TM as (A & B & C & D). destruct (cc_Tin (w_cc w) b) as [tr|] eqn:E; [|eauto].
    destruct (add_flow_total (t + 1) tr (1 / fs) (path_key x) (v_assign x) ltac:(lia) (C b tr E)) as (tr' & E' & Hc). rewrite E'. simpl.
    eexists. split; [reflexivity|]. repeat split; auto.
    intros l' y Ey. simpl in Ey. unfold upd in Ey. destruct (l' =? b); [injection Ey as <-; exact Hc|eapply C; eauto]. }
  destruct S1 as (w1 & E1 & T1). rewrite E1. simpl. pose proof T1 as (A & B & C & D).
  destruct (cc_Tout (w_cc w1) a) as [tr|] eqn:E; [|eauto].
  destruct (add_flow_total (t + 1) tr (1 / fs) (path_key x) (v_assign x) ltac:(lia) (D a tr E)) as (tr' & E' & Hc). rewrite E'. simpl.
  eexists. split; [reflexivity|]. repeat split; auto.
  intros l' y Ey. simpl in Ey. unfold upd in Ey. destruct (l' =? a); [injection Ey as <-; exact Hc|eapply D; eauto].
Qed.

Lemma foldM_total {A S} (f : S -> A -> res S) (P : S -> Prop) l : (forall s a, P s -> In a l -> exists s', f s a = Ok s' /\ P s') ->
  forall s, P s -> exists s', foldM f s l = Ok s' /\ P s'.
Proof.
  induction l as [|a l IH]; intros H s Hs; simpl; [eauto|].
  destruct (H s a Hs (or_introl eq_refl)) as (s1 & E & H1). rewrite E. simpl. apply IH; [|exact H1]. intros; apply H; auto. now right.
Qed.

Lemma move_pair_total fs t a b k w : 0 <= t -> timely (t + 1) (w_cc w) -> 0 <= k <= count_if (goes w b) (l_fin (w_link w a)) ->
  exists w', move_pair fs t a b k w = Ok w' /\ timely (t + 1) (w_cc w').
Proof.
  intros Ht TM Hk. unfold move_pair. destruct (pull (goes w b) k (l_fin (w_link w a))) as [[vs rest] lft] eqn:E.
  destruct (pull_spec _ _ _ _ _ _ (proj1 Hk) E) as (Hv & Hm & _).
  match goal with |- context [foldM _ ?s vs] => set (w3 := s) end.
  destruct (foldM_total (tree_inc fs t a b) (fun w => timely (t + 1) (w_cc w)) vs) with (s := w3) as (w4 & E4 & T4).
  - intros s v Hs _. now apply tree_inc_total.
  - exact TM.
  - rewrite E4. simpl. assert (L0 : lft = 0); [|rewrite L0; exists w4; split; [reflexivity|exact T4]].
    rewrite Hv in Hm. unfold count_if, Zlen in *. rewrite firstn_length in Hm. lia.
Qed.

Lemma moves_total fs t : 0 <= t -> forall L w, NoDup (map fst L) -> (forall x y, In x L -> In y L -> src x <> tgt y) ->
  timely (t + 1) (w_cc w) ->
  (forall x, In x L -> 0 <= num x <= count_if (goes w (tgt x)) (l_fin (w_link w (src x)))) ->
  exists w', foldM (mpair fs t) w L = Ok w' /\ timely (t + 1) (w_cc w').
Proof.
  intros Ht. induction L as [|[[a b] k] L IH]; intros w ND DJ TM HC; simpl; [eauto|].
  assert (Hab : a <> b) by (apply (DJ (a, b, k) (a, b, k)); now left).
  pose proof (HC (a, b, k) (or_introl eq_refl)) as C0. unfold num, src, tgt in C0. cbn [fst snd] in C0.
  destruct (move_pair_total fs t a b k w Ht TM C0) as (w1 & E1 & T1). rewrite E1. cbn [bind].
  destruct (move_pair_ok _ _ _ _ _ _ _ Hab E1) as (_ & W1 & _ & _ & _ & (rest & Fr & Fa & Fb & Fo & _) & Ib & Ot & _).
  simpl in ND. apply NoDup_cons_iff in ND as [NI ND]. apply IH; auto.
  - intros x y Hx Hy. apply DJ; now right.
  - intros x Hx. specialize (HC x (or_intror Hx)). unfold count_if in *. rewrite (filter_goes_keep w w1) by exact W1.
    assert (E : filter (goes w (tgt x)) (l_fin (w_link w1 (src x))) = filter (goes w (tgt x)) (l_fin (w_link w (src x)))); [|now rewrite E].
    destruct (Z.eq_dec (src x) a) as [Ea|Na].
    + rewrite Ea, Fr. apply Fo. intros Eb. apply NI. apply in_map_iff. exists x. split; [|exact Hx].
      destruct x as [[xa xb] xk]. unfold src, tgt in Ea, Eb. simpl in *. congruence.
    + rewrite Ot; [reflexivity|exact Na|]. apply (DJ x (a, b, k)); [now right|now left].
Qed.

Lemma record_total fs t ins m w : 0 <= t -> timely (t + 1) (w_cc w) -> paired (w_cc w) ->
  exists w', record_curves fs t ins m w = Ok w' /\ timely (t + 1) (w_cc w').
Proof.
  intros Ht TM Pr. unfold record_curves.
  destruct (foldM_total (record_out fs t) (fun w => timely (t + 1) (w_cc w) /\ paired (w_cc w)) m) with (s := w) as (w1 & E1 & T1 & P1); [|now split|].
  - intros s [b col] [Hs Ps] _. unfold record_out. simpl. destruct (cc_Nout (w_cc s) b) as [c|] eqn:E; [|eauto].
    destruct (0 <? sumZ col); [|eauto].
    destruct (inc_in_total s b t (inject_Z (sumZ col) / fs) Hs) as (s' & Es & Ts); [intros C; apply Ps in C; congruence|].
    exists s'. split; [exact Es|]. split; [exact Ts|]. apply inc_in_ok in Es as (_ & O & _ & _ & I & c0 & c' & E0 & E' & _). intros l. rewrite O. split; intros Q0;
      destruct (Z.eq_dec l b) as [->|Nl]; try congruence; [rewrite I in Q0 by exact Nl; now apply Ps|rewrite I by exact Nl; now apply Ps].
  - rewrite E1. cbn [bind].
    destruct (foldM_total (record_in fs t ins m) (fun w => timely (t + 1) (w_cc w) /\ paired (w_cc w)) ins) with (s := w1) as (w2 & E2 & T2 & P2); [|now split|].
    + intros s a [Hs Ps] _. unfold record_in. cbv zeta. set (x := sumZ _). destruct (cc_Nin (w_cc s) a) as [c|] eqn:E; [|eauto].
      destruct (0 <? x); [|eauto].
      destruct (inc_out_total s a t (inject_Z x / fs) Hs) as (s' & Es & Ts); [intros C; apply Ps in C; congruence|].
      exists s'. split; [exact Es|]. split; [exact Ts|]. apply inc_out_ok in Es as (_ & O & _ & _ & I & c0 & c' & E0 & E' & _). intros l. rewrite O. split; intros Q0;
        destruct (Z.eq_dec l a) as [->|Nl]; try congruence; [rewrite I by exact Nl; now apply Ps|rewrite I in Q0 by exact Nl; now apply Ps].
    + eauto.
Qed.

Lemma record_keep fs t ins m w w1 : record_curves fs t ins m w = Ok w1 -> cc_keep w w1.
Proof.
  intros E1. unfold record_curves in E1. apply bind_ok in E1 as (w0 & H0 & H1). apply cc_keep_trans with w0.
  - clear H1. revert w H0. induction m as [|[b c] m IH]; intros w H0; simpl in H0; [apply Ok_inj in H0 as <-; apply cc_keep_refl|].
    apply bind_ok in H0 as (w2 & H2 & H0). eapply cc_keep_trans; [|eapply IH; eauto].
    unfold record_out in H2. simpl in H2. destruct (cc_Nout (w_cc w) b); [|apply Ok_inj in H2 as <-; apply cc_keep_refl].
    destruct (0 <? sumZ c); [|apply Ok_inj in H2 as <-; apply cc_keep_refl]. apply inc_in_ok in H2. apply H2.
  - clear H0. revert w0 H1. generalize ins at 2 as is. induction is as [|a is IH]; intros w0 H1; simpl in H1.
    { apply Ok_inj in H1 as <-. apply cc_keep_refl. }
    apply bind_ok in H1 as (w2 & H2 & H1). eapply cc_keep_trans; [|eapply IH; eauto].
    unfold record_in in H2. cbv zeta in H2. destruct (cc_Nin (w_cc w0) a); [|apply Ok_inj in H2 as <-; apply cc_keep_refl].
    destruct (0 <? _); [|apply Ok_inj in H2 as <-; apply cc_keep_refl]. apply inc_out_ok in H2. apply H2.
Qed.

(** ** proportional flows *)
Lemma sumQ_ge {A} (f : A -> Q) l a : (forall x, In x l -> (0 <= f x)%Q) -> In a l -> (f a <= sumQ (map f l))%Q.
Proof.
  intros H I. assert (NN : (forall x, In x l -> 0 <= f x)%Q -> (0 <= sumQ (map f l))%Q).
  { clear. induction l as [|y l IH]; intros H; simpl; [lra|]. pose proof (H y (or_introl eq_refl)). specialize (IH (fun x I => H x (or_intror I))). lra. }
  induction l as [|y l IH]; [contradiction|]. simpl. destruct I as [->|I].
  - assert (0 <= sumQ (map f l))%Q; [|lra]. clear IH. revert NN. intros _.
    assert (H' : forall x, In x l -> (0 <= f x)%Q) by (intros; apply H; now right). clear H. induction l as [|z l IH]; simpl; [lra|].
    pose proof (H' z (or_introl eq_refl)). specialize (IH (fun x I => H' x (or_intror I))). lra.
  - assert (IH' : (f a <= sumQ (map f l))%Q).
    { apply IH; [intros; apply H; now right|exact I|]. intros H'. clear - H'. induction l as [|z l IH]; simpl; [lra|].
      pose proof (H' z (or_introl eq_refl)). specialize (IH (fun x I => H' x (or_intror I))). lra. }
    pose proof (H y (or_introl eq_refl)). lra.
Qed.

Lemma demand_nonneg fs w a b : (0 < fs)%Q -> (0 <= demand fs w a b)%Q.
Proof.
  intros H. unfold demand. apply Qle_shift_div_l; [exact H|]. rewrite Qmult_0_l. change 0%Q with (inject_Z 0). rewrite <- Zle_Qle. unfold count_if, Zlen. lia.
Qed.
Lemma demand_fs fs w a b : (0 < fs)%Q -> (demand fs w a b * fs == inject_Z (count_if (goes w b) (l_fin (w_link w a))))%Q.
Proof. intros H. unfold demand. field. lra. Qed.

Lemma divide_nonneg a b : (0 <= a)%Q -> (0 <= b)%Q -> (0 <= divide a b)%Q.
Proof.
  intros A B. unfold divide. destruct (Qeq_bool a 0) eqn:Ea; [lra|]. destruct (Qeq_bool b 0) eqn:Eb; [lra|].
  apply Qeq_bool_neq in Eb. apply Qle_shift_div_l; lra.
Qed.
Lemma fwj_range fs ins w s a b : (0 < fs)%Q -> (0 <= s)%Q ->
  (0 <= fwj_flow (demand fs w) ins s a b <= demand fs w a b)%Q.
Proof.
  intros Hf Hs. unfold fwj_flow. assert (D : forall x, (0 <= demand fs w x b)%Q) by (intros; now apply demand_nonneg).
  assert (Sn : (0 <= sumQ (map (fun i => demand fs w i b) ins))%Q).
  { clear - D. induction ins as [|y l IH]; simpl; [lra|]. pose proof (D y). lra. }
  pose proof (Qmult_le_0_compat _ _ (divide_nonneg _ _ (D a) Sn) Hs) as P. split.
  - apply Q.min_glb; [apply D|exact P].
  - apply Q.le_min_l.
Qed.

Lemma rround_le r x z : (0 <= r)%Q -> (0 <= x)%Q -> (x <= inject_Z z)%Q -> rround r x <= z.
Proof.
  intros Hr Hx L. assert (inject_Z (rround r x) < inject_Z (z + 1))%Q; [|rewrite <- Zlt_Qlt in H; lia].
  rewrite inject_Z_plus. change (inject_Z 1) with 1%Q. pose proof (rround_lt r x Hx Hr). lra.
Qed.

(** entries of a rounded column, when the flows are between 0 and the demand *)
Lemma round_range fs r fuel picks flow s ins w b col : (0 < fs)%Q -> NoDup ins -> (forall a, (0 <= r a)%Q) ->
  (forall a, In a ins -> (0 <= flow a <= demand fs w a b)%Q) ->
  round_column fs r fuel picks flow s ins = Ok col ->
  length col = length ins /\ (inject_Z (sumZ col) <= s * fs)%Q /\
  forall a, In a ins -> 0 <= mv ins col a <= count_if (goes w b) (l_fin (w_link w a)).
Proof.
  intros Hf ND Hr Hd H. unfold round_column in H. apply trim_ok in H as (L & Lim & N). rewrite map_length in L.
  split; [exact L|]. split; [lra|]. intros a Ha. apply In_nth_error in Ha as (i & Ei).
  rewrite (mv_nth ins col i a ND L Ei). specialize (N i).
  assert (E : nth i (map (fun a => rround (r a) (flow a * fs)) ins) 0 = rround (r a) (flow a * fs)).
  { apply nth_error_nth. rewrite nth_error_map, Ei. reflexivity. }
  rewrite E in N. destruct (Hd a (nth_error_In _ _ Ei)) as [D1 D2].
  assert (X : (0 <= flow a * fs <= inject_Z (count_if (goes w b) (l_fin (w_link w a))))%Q).
  { split; [apply Qmult_le_0_compat; lra|]. rewrite <- (demand_fs fs) by exact Hf. apply Qmult_le_compat_r; lra. }
  pose proof (rround_nonneg (r a) (flow a * fs) (proj1 X)). pose proof (rround_le (r a) _ _ (Hr a) (proj1 X) (proj2 X)). lia.
Qed.

(** flows that stay within the demand *)
Definition within (fs : Q) (w : world) (ins outs : list Z) (flow : (Z -> Q) -> Z -> Z -> Q) : Prop :=
  forall supply a b, (forall b, In b outs -> (0 <= supply b)%Q) -> In a ins -> In b outs -> (0 <= flow supply a b <= demand fs w a b)%Q.

Lemma fwj_within fs w ins outs : (0 < fs)%Q -> within fs w ins outs (fun supply a b => fwj_flow (demand fs w) ins (supply b) a b).
Proof. intros H supply a b Hs _ Hb. apply fwj_range; auto. Qed.

Lemma junction_total fs ins outs flow D t n w e : (0 < fs)%Q -> 0 <= t -> NoDup ins -> NoDup outs -> (forall l, In l ins -> ~ In l outs) ->
  (forall b, Permutation (d_inshuf D n b ins) ins) -> (forall a b, (0 <= d_node D n a b)%Q) ->
  paired (w_cc w) -> timely (t + 1) (w_cc w) -> right_node w ins outs = true ->
  (forall b, In b outs -> exists s, link_supply (w_link w b) = Ok s /\ (0 <= s)%Q) ->
  within fs w ins outs flow ->
  junction_evolve fs ins outs flow D t n w = Err e -> e = EFuel.
Proof.
  intros Hf Ht NI NO DJ P Hd Pr TM RN HS WI H. unfold junction_evolve in H.
  destruct (junction_columns fs ins outs flow D n w) as [m|e'] eqn:Em.
  - cbn [bind] in H. destruct (record_total fs t ins m w Ht TM Pr) as (w1 & E1 & T1). rewrite E1 in H. cbn [bind] in H.
    destruct (columns_ok _ _ _ _ _ _ _ _ NO Em) as (_ & Eo & supply & Hsup & Hc).
    pose proof (record_keep _ _ _ _ _ _ E1) as K1.
    rewrite move_vehicles_flat in H.
    destruct (moves_total fs t Ht (flat ins (d_inshuf D n) m) w1) as (w2 & E2 & _); [| | exact T1 | | congruence].
    + apply flat_NoDup; congruence || auto.
    + intros x y Hx Hy E. apply in_flat in Hx as (c & _ & Hs & _). apply in_flat in Hy as (c' & Hm' & _).
      apply (DJ (src x)); [eapply Permutation_in; [apply P|exact Hs]|]. rewrite E, <- Eo. apply in_map_iff. exists (tgt y, c'). auto.
    + intros x Hx. apply in_flat in Hx as (col & Hm & Hs & Hn). rewrite Hn.
      assert (Ib : In (tgt x) outs) by (rewrite <- Eo; apply in_map_iff; exists (tgt x, col); auto).
      assert (Ia : In (src x) ins) by (eapply Permutation_in; [apply P|exact Hs]).
      destruct (Hc _ _ Hm) as [_ Hr].
      eapply round_range with (w := w) (b := tgt x) in Hr as (_ & _ & R); auto.
      2:{ intros a Ha. apply WI; auto. intros b Hb. destruct (HS b Hb) as (s & Es & Ps). rewrite (Hsup b Hb) in Es. apply Ok_inj in Es. now rewrite Es. }
      unfold count_if. rewrite (filter_goes_keep w w1) by (apply cc_keep_wkeep, K1). destruct K1 as (_ & -> & _). apply R, Ia.
  - cbn [bind] in H. assert (e = e') by congruence. subst e'. clear H. unfold junction_columns in Em. rewrite RN in Em. cbn [guard bind] in Em.
    destruct (mapM_keyed_total (fun b => link_supply (w_link w b)) outs) as (sup & Es).
    { intros b Hb. destruct (HS b Hb) as (s & E & _). eauto. }
    rewrite Es in Em. cbn [bind] in Em. cbv zeta in Em.
    apply mapM_keyed_err in Em as (b & Hb & Em). unfold round_column in Em. apply trim_err in Em as [->|(_ & _ & L)]; [reflexivity|exfalso].
    apply mapM_keyed in Es as [E1 E2].
    assert (Hb' := Hb). rewrite <- E1 in Hb'. apply in_map_iff in Hb' as ([b' s] & Eb & I). simpl in Eb. subst b'.
    rewrite (find_keyed sup b s) in L by congruence || auto. simpl in L. specialize (E2 _ _ I).
    destruct (HS b Hb) as (s' & Es' & Ps). rewrite E2 in Es'. apply Ok_inj in Es'. subst s'.
    pose proof (Qmult_le_0_compat s fs Ps ltac:(lra)). lra.
Qed.
