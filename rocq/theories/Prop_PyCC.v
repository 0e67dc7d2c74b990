(** C47: the Python table of cumulative counts. *)
From Verif Require Import Base Base_lemmas Model_Num Proof_Num Spec_Path Proof_Path Model_CC Spec_CC Proof_CC Proof_CC2 Proof_CC3 Model_Path Model_Link Spec_Link Spec_Node
  Proof_Link Proof_Link3 Proof_Link4 Proof_Link5 Model_World Model_Node Proof_Node Proof_Node2 Model_Sim Spec_Sim Spec_Route Proof_Sim1 Proof_Sim2 Proof_Sim3 Proof_Sim4 Proof_Sim7 Spec_Curve Proof_Curve1 Proof_Curve2 Proof_Curve3 Proof_Curve4
  Spec_Grad Model_Grad Proof_Grad5 Proof_Grad6 Prop_Grad Ex_Net Prop_Node Prop_Sim Prop_Curve Model_PyCC Proof_PreRouting.
Local Open Scope Z_scope.

(** [latest c t v]: [v] is the value of the last record of [c] with a time up to [t] *)
Definition latest (c : list (Q * Q)) (t : Q) (v : Q) : Prop :=
  exists pre r post, c = pre ++ r :: post /\ (fst r <= t)%Q /\ (forall y, In y post -> (t < fst y)%Q) /\ v = snd r.

Lemma set_cell_length col : forall i v, length (set_cell col i v) = length col.
Proof. induction col as [|x c IH]; intros [|i] v; cbn; auto. Qed.
Lemma set_cell_nth col : forall i v j, (i < length col)%nat -> nth j (set_cell col i v) None = if (j =? i)%nat then Some v else nth j col None.
Proof.
  induction col as [|x c IH]; intros [|i] v [|j] H; cbn in *; try lia; try reflexivity. rewrite IH by lia. reflexivity.
Qed.
Lemma np_index_in rows t : 0 <= t < rows -> np_index rows t = Ok (Z.to_nat t).
Proof. intros H. unfold np_index. destruct (Z.ltb_spec t 0); [lia|]. destruct (Z.leb_spec 0 t), (Z.ltb_spec t rows); try lia. reflexivity. Qed.

(** the filled column: cell j holds the last record whose truncated time is j *)
Lemma fill_spec rows c : (forall r, In r c -> 0 <= trunc (fst r) < Z.of_nat rows) ->
  exists col, fill_column rows c = Ok col /\ length col = rows /\
    (forall j v, nth j col None = Some v -> exists pre r post, c = pre ++ r :: post /\ trunc (fst r) = Z.of_nat j /\ v = snd r /\ forall y, In y post -> trunc (fst y) <> Z.of_nat j) /\
    (forall j, nth j col None = None -> forall r, In r c -> trunc (fst r) <> Z.of_nat j).
Proof.
  unfold fill_column. induction c as [|r c IH] using rev_ind; intros H.
  - exists (repeat None rows). split; [reflexivity|]. split; [apply repeat_length|]. split; [|intros j _ r []].
    intros j v E. exfalso. assert (X : nth j (repeat (@None Q) rows) None = None); [|congruence]. clear. revert j. induction rows; intros [|j]; cbn; auto.
  - destruct IH as (col & E & L & S1 & S2). { intros x Hx. apply H. apply in_or_app. now left. }
    assert (Hr : 0 <= trunc (fst r) < Z.of_nat rows) by (apply H; apply in_or_app; right; now left).
    rewrite foldM_app, E. cbn [bind foldM]. rewrite (np_index_in _ _ Hr). cbn [bind]. eexists. split; [reflexivity|]. split; [now rewrite set_cell_length|]. split.
    + intros j v. rewrite set_cell_nth by lia. destruct (Nat.eqb_spec j (Z.to_nat (trunc (fst r)))) as [->|N].
      * intros [= <-]. exists c, r, []. split; [reflexivity|]. split; [lia|]. split; [reflexivity|intros y []].
      * intros X. destruct (S1 j v X) as (pre & r' & post & -> & E1 & E2 & E3). exists pre, r', (post ++ [r]). split; [now rewrite <- app_assoc|]. split; [exact E1|]. split; [exact E2|].
        intros y Hy. apply in_app_or in Hy as [Hy|[<-|[]]]; [auto|lia].
    + intros j. rewrite set_cell_nth by lia. destruct (Nat.eqb_spec j (Z.to_nat (trunc (fst r)))) as [->|N]; [discriminate|].
      intros X y Hy. apply in_app_or in Hy as [Hy|[<-|[]]]; [now apply S2|lia].
Qed.
(** the fill index: the last filled cell up to here *)
Lemma fill_index_spec : forall col i best full, (forall j, nth j col None = nth (i + j) full None) -> (best <= i)%nat ->
  (forall j, (best < j < i)%nat -> nth j full None = None) -> (nth best full None <> None \/ best = 0%nat) -> (best = i -> i = 0%nat) ->
  length (fill_index i best col) = length col /\
  forall j b, nth_error (fill_index i best col) j = Some b -> (b <= i + j)%nat /\ (forall m, (b < m <= i + j)%nat -> nth m full None = None) /\ (nth b full None <> None \/ b = 0%nat).
Proof.
  induction col as [|x col IH]; intros i best full E Hb Hn Hk Hz; [split; [reflexivity|intros [|j] b X; discriminate]|]. cbn [fill_index].
  set (b0 := Nat.max best match x with Some _ => i | None => 0%nat end).
  assert (Ex : nth i full None = x) by (specialize (E 0%nat); cbn in E; rewrite Nat.add_0_r in E; now symmetry).
  assert (B : (b0 <= i)%nat /\ (forall m, (b0 < m <= i)%nat -> nth m full None = None) /\ (nth b0 full None <> None \/ b0 = 0%nat)).
  { unfold b0. destruct x as [v|].
    - rewrite Nat.max_r by lia. split; [lia|]. split; [intros; lia|]. left. rewrite Ex. discriminate.
    - rewrite Nat.max_0_r. split; [lia|]. split; [|exact Hk]. intros m Hm. destruct (Nat.eq_dec m i) as [->|]; [exact Ex|]. apply Hn. lia. }
  destruct B as (B1 & B2 & B3). destruct (IH (S i) b0 full) as (L & P).
  - intros j. specialize (E (S j)). cbn in E. rewrite E. f_equal. lia.
  - lia.
  - intros j Hj. apply B2. lia.
  - exact B3.
  - lia.
  - split; [cbn; congruence|]. intros [|j] b X.
    + cbn in X. injection X as <-. rewrite Nat.add_0_r. auto.
    + cbn in X. replace (i + S j)%nat with (S i + j)%nat by lia. exact (P j b X).
Qed.
Lemma combine_nth_error {A B} (l : list A) : forall (l' : list B) i a b, nth_error l i = Some a -> nth_error l' i = Some b -> nth_error (combine l l') i = Some (a, b).
Proof. induction l as [|x l IH]; intros [|y l'] [|i] a b H1 H2; cbn in *; try discriminate; [congruence|]. now apply IH. Qed.
Lemma forward_spec col t : (t < length col)%nat -> exists x b, nth_error (forward_fill col) t = Some x /\ x = nth b col None /\ (b <= t)%nat /\
  (forall m, (b < m <= t)%nat -> nth m col None = None) /\ (nth b col None <> None \/ b = 0%nat).
Proof.
  intros H. destruct (fill_index_spec col 0 0 col) as (L & P); try (intros; reflexivity); try (intros; lia).
  destruct (nth_error col t) as [y|] eqn:Ey; [|apply nth_error_None in Ey; lia].
  destruct (nth_error (fill_index 0 0 col) t) as [b|] eqn:Eb; [|apply nth_error_None in Eb; lia]. destruct (P t b Eb) as (B1 & B2 & B3). cbn in B1, B2.
  unfold forward_fill. rewrite nth_error_map, (combine_nth_error _ _ _ _ _ Ey Eb). cbn [option_map fst snd]. destruct y as [v|].
  - exists (Some v), b. split; [reflexivity|]. split; [|auto]. destruct (Nat.eq_dec b t) as [->|N]; [symmetry; exact (nth_error_nth _ _ _ Ey)|].
    pose proof (B2 t ltac:(lia)) as X. rewrite (nth_error_nth _ _ None Ey) in X. discriminate.
  - exists (nth b col None), b. auto.
Qed.
Lemma trunc_le_iff q t : (0 <= q)%Q -> (trunc q <= t <-> (q < inject_Z (t + 1))%Q).
Proof.
  intros H. split; intros X.
  - pose proof (trunc_hi q H). assert (inject_Z (trunc q) <= inject_Z t)%Q by (rewrite <- Zle_Qle; lia). rewrite inject_Z_plus. change (inject_Z 1) with 1%Q. lra.
  - pose proof (trunc_lt q (t + 1) H X). lia.
Qed.

(** One column.  For increasing non-negative record times before the end of the table, row t holds
    the value of the latest record before the end of interval t, NaN if there is none. *)
Theorem C47_column_is_latest_record : forall c rows, times_increase c -> (forall r, In r c -> (0 <= fst r)%Q /\ (fst r < inject_Z (Z.of_nat rows))%Q) ->
  exists col, fill_column rows c = Ok col /\ length (forward_fill col) = rows /\
  forall t, (t < rows)%nat -> exists x, nth_error (forward_fill col) t = Some x /\
    match x with
    | Some v => exists pre r post, c = pre ++ r :: post /\ v = snd r /\ (fst r < inject_Z (Z.of_nat t + 1))%Q /\ forall y, In y post -> (inject_Z (Z.of_nat t + 1) <= fst y)%Q
    | None => forall r, In r c -> (inject_Z (Z.of_nat t + 1) <= fst r)%Q
    end.
Proof.
  intros c rows S B. assert (Bt : forall r, In r c -> 0 <= trunc (fst r) < Z.of_nat rows).
  { intros r Hr. destruct (B r Hr) as [B1 B2]. split; [now apply trunc_nonneg|now apply trunc_lt]. }
  destruct (fill_spec rows c Bt) as (col & E & L & S1 & S2). exists col. split; [exact E|]. split.
  { unfold forward_fill. rewrite map_length, combine_length. destruct (fill_index_spec col 0 0 col) as (Li & _); try (intros; reflexivity); try (intros; lia). }
  intros t Ht. destruct (forward_spec col t ltac:(lia)) as (x & b & Ex & -> & Hb & Hn & Hz). exists (nth b col None). split; [exact Ex|].
  destruct (nth b col None) as [v|] eqn:Ev.
  - destruct (S1 b v Ev) as (pre & r & post & -> & E1 & E2 & E3). exists pre, r, post. split; [reflexivity|]. split; [exact E2|]. split.
    + apply trunc_le_iff; [apply B; apply in_or_app; right; now left|lia].
    + intros y Hy. destruct (Qlt_le_dec (fst y) (inject_Z (Z.of_nat t + 1))) as [X|X]; [exfalso|exact X].
      assert (Yin : In y (pre ++ r :: post)) by (apply in_or_app; right; now right). apply trunc_le_iff in X; [|now apply B].
      assert (trunc (fst r) <= trunc (fst y)).
      { apply trunc_mono; [apply B; apply in_or_app; right; now left|]. apply In_nth_error in Hy as (i & Hi). apply Qlt_le_weak. apply (S (length pre) (length pre + Datatypes.S i)%nat); [lia| |].
        - rewrite nth_error_app2 by lia. now rewrite Nat.sub_diag.
        - rewrite nth_error_app2 by lia. replace (length pre + Datatypes.S i - length pre)%nat with (Datatypes.S i) by lia. exact Hi. }
      specialize (E3 y Hy). assert (0 <= trunc (fst y)) by (apply trunc_nonneg; now apply B).
      apply (S2 (Z.to_nat (trunc (fst y)))) with (r := y); [|exact Yin|lia]. apply Hn. lia.
  - destruct Hz as [Hz| ->]; [congruence|]. intros r Hr. destruct (Qlt_le_dec (fst r) (inject_Z (Z.of_nat t + 1))) as [X|X]; [exfalso|exact X].
    apply trunc_le_iff in X; [|now apply B]. pose proof (Bt r Hr). apply (S2 (Z.to_nat (trunc (fst r)))) with (r := r); [|exact Hr|lia].
    destruct (Nat.eq_dec (Z.to_nat (trunc (fst r))) 0) as [->|]; [exact Ev|]. apply Hn. lia.
Qed.
Print Assumptions C47_column_is_latest_record.

(** ... so for whole record times starting at 0, row t is the value at the latest record time up to t. *)
Theorem C47_whole_times : forall c rows, times_increase c -> (exists v l, c = (0%Q, v) :: l) ->
  (forall r, In r c -> exists z, 0 <= z < Z.of_nat rows /\ (fst r == inject_Z z)%Q) ->
  exists col, fill_column rows c = Ok col /\ length (forward_fill col) = rows /\
  forall t, (t < rows)%nat -> exists v, nth_error (forward_fill col) t = Some (Some v) /\ latest c (inject_Z (Z.of_nat t)) v.
Proof.
  intros c rows S (v0 & l & Ec) W. destruct (C47_column_is_latest_record c rows S) as (col & E & L & P).
  { intros r Hr. destruct (W r Hr) as (z & Hz & Ez). rewrite Ez. split; [apply injZ_nonneg; lia|]. rewrite <- Zlt_Qlt. lia. }
  assert (G : forall r t, In r c -> ((fst r < inject_Z (Z.of_nat t + 1))%Q <-> (fst r <= inject_Z (Z.of_nat t))%Q)).
  { intros r t Hr. destruct (W r Hr) as (z & _ & Ez). rewrite Ez, <- Zlt_Qlt, <- Zle_Qle. lia. }
  exists col. split; [exact E|]. split; [exact L|]. intros t Ht. destruct (P t Ht) as (x & Ex & Px). destruct x as [v|].
  - exists v. split; [exact Ex|]. destruct Px as (pre & r & post & Ep & Ev & Hr & Hp). exists pre, r, post. split; [exact Ep|].
    split; [apply G; [rewrite Ep; apply in_or_app; right; now left|exact Hr]|]. split; [|exact Ev]. intros y Hy.
    destruct (Qlt_le_dec (inject_Z (Z.of_nat t)) (fst y)) as [X|X]; [exact X|]. exfalso. apply G in X; [|rewrite Ep; apply in_or_app; right; now right]. specialize (Hp y Hy). lra.
  - exfalso. specialize (Px (0%Q, v0) ltac:(rewrite Ec; now left)). cbn [fst] in Px. assert (inject_Z (Z.of_nat t + 1) <= inject_Z 0)%Q as X by exact Px. rewrite <- Zle_Qle in X. lia.
Qed.
Print Assumptions C47_whole_times.

(** a record after the end of the table makes the call fail *)
Theorem C47_late_record_throws : forall c rows r, In r c -> (inject_Z (Z.of_nat rows) <= fst r)%Q -> exists e, fill_column rows c = Err e.
Proof.
  intros c rows r Hr Hb. unfold fill_column. apply in_split in Hr as (pre & post & ->). rewrite foldM_app.
  set (F := fun col r => do i <- np_index (Z.of_nat rows) (trunc (fst r)); Ok (set_cell col i (snd r))).
  destruct (foldM F (repeat None rows) pre) as [col|e]; [|exists e; reflexivity]. cbn [bind foldM].
  assert (X : F col r = Err EThrow); [|rewrite X; exists EThrow; reflexivity]. unfold F, np_index. pose proof (trunc_ge (fst r) (Z.of_nat rows) ltac:(lia) Hb).
  destruct (Z.ltb_spec (trunc (fst r)) 0); [lia|]. destruct (Z.leb_spec 0 (trunc (fst r))), (Z.ltb_spec (trunc (fst r)) (Z.of_nat rows)); try lia; reflexivity.
Qed.
Print Assumptions C47_late_record_throws.

(** the value of the latest record is the one counted by the curve *)
Lemma latest_value c t v d : times_increase c -> latest c t v -> value_at d c t = v.
Proof. intros _ (pre & r & post & -> & H1 & H2 & ->). now apply value_at_split. Qed.

(** columns of a table *)
Lemma get_ccs_cols cc cur links : (forall l, In l links -> exists c col, cc l = Some c /\ fill_column (Z.to_nat (cur + 1)) c = Ok col) ->
  exists T, get_ccs cc cur links = Ok T /\ Forall2 (fun l column => exists c col, cc l = Some c /\ fill_column (Z.to_nat (cur + 1)) c = Ok col /\ column = forward_fill col) links T.
Proof.
  intros H. unfold get_ccs. induction links as [|l links IH]; [exists []; split; [reflexivity|constructor]|].
  destruct IH as (T & E & F). { intros; apply H; now right. } destruct (H l (or_introl eq_refl)) as (c & col & Ec & Ef). cbn [mapM]. rewrite Ec, Ef. cbn [bind].
  apply bind_ok in E as (cols & Em & E). apply Ok_inj in E as <-. rewrite Em. cbn [bind map]. exists (forward_fill col :: map forward_fill cols). split; [reflexivity|].
  constructor; [exists c, col; auto|exact F].
Qed.

Lemma line_column fs k c incs n : Z.of_nat k < 10000 -> foldM add_increment fresh_curve incs = Ok c -> timeline fs k incs n ->
  exists col, fill_column (S k) c = Ok col /\ length (forward_fill col) = S k /\
    forall t, (t <= k)%nat -> exists v, nth_error (forward_fill col) t = Some (Some v) /\ (v == inject_Z (n t) / fs)%Q.
Proof.
  intros Hk E T. pose proof (line_whole _ _ _ _ Hk T) as W.
  destruct (build_inv incs (tl_mono _ _ _ _ T)) as (c' & Ec & Hs & Hd & Hfrom & Hval & _).
  { intros r Hr. split; [apply whole_nonneg; auto|]. apply whole_sep; [auto|apply whole_zero]. }
  { intros r r' Hr Hr'. apply whole_sep; auto. }
  rewrite E in Ec. apply Ok_inj in Ec as <-.
  destruct (C47_whole_times c (S k) Hs Hd) as (col & Ecol & L & P).
  { intros r Hr. destruct (Hfrom r Hr) as [Z|(r' & Hr' & Er)].
    - exists 0. split; [lia|]. rewrite Z. reflexivity.
    - destruct (tl_time _ _ _ _ T r' Hr') as (j & Hj & Ej). exists (Z.of_nat j + 1). split; [lia|]. now rewrite Er, Ej. }
  exists col. split; [exact Ecol|]. split; [exact L|]. intros t Ht. destruct (P t ltac:(lia)) as (v & Ev & Lv). exists v. split; [exact Ev|].
  rewrite <- (latest_value c _ v 0%Q Hs Lv). rewrite (Hval _ (injZ_nonneg _ (Nat2Z.is_nonneg t))). rewrite (tl_until _ _ _ _ T _ (Nat2Z.is_nonneg t)).
  rewrite Nat2Z.id, Nat.min_l by lia. reflexivity.
Qed.

(** Whole runs: the table returned after [k] intervals has one column per requested link and rows
    0..k; row t is the number of vehicles that entered (left) the link in the first t intervals,
    divided by the flow scalar. *)
Theorem C47_inflow_table_of_a_run : forall N D w0 k s links, net_ok N -> fresh_world N w0 -> (forall t, draws_valid (D t)) ->
  run N D k (init_state N w0) = Ok s -> Z.of_nat k < 10000 -> (forall l, In l links -> In l (n_links N) /\ cc_Nin (w_cc (s_w s)) l <> None) ->
  exists T, get_ccs (cc_Nin (w_cc (s_w s))) (s_cur s) links = Ok T /\
    Forall2 (fun l column => length column = S k /\ forall t, (t <= k)%nat ->
      exists v, nth_error column t = Some (Some v) /\ (v == inject_Z (Zlen (entered N D w0 l t)) / n_fs N)%Q) links T.
Proof.
  intros N D w0 k s links K F DV H Hk Hl. assert (Ecur : Z.to_nat (s_cur s + 1) = S k). { rewrite (reached_cur N D k s (ex_intro _ w0 (conj F (conj DV H)))). lia. }
  assert (G : forall l, In l links -> exists c col, cc_Nin (w_cc (s_w s)) l = Some c /\ fill_column (S k) c = Ok col /\ length (forward_fill col) = S k /\
     forall t, (t <= k)%nat -> exists v, nth_error (forward_fill col) t = Some (Some v) /\ (v == inject_Z (Zlen (entered N D w0 l t)) / n_fs N)%Q).
  { intros l Hin. destruct (Hl l Hin) as [Hll Hc]. destruct (cc_Nin (w_cc (s_w s)) l) as [c|] eqn:Ec; [|congruence]. exists c.
    destruct (installed_in N D w0 K F DV k s l c Hll H Ec) as (incs & E & T). destruct (line_column _ k c incs _ Hk E T) as (col & X). exists col. split; [reflexivity|exact X]. }
  destruct (get_ccs_cols (cc_Nin (w_cc (s_w s))) (s_cur s) links) as (T & ET & FT).
  { intros l Hin. destruct (G l Hin) as (c & col & X1 & X2 & _). exists c, col. rewrite Ecur. auto. }
  exists T. split; [exact ET|]. clear ET. rewrite Ecur in FT. induction FT as [|l column ls T (c & col & X1 & X2 & ->) _ IH]; constructor.
  - destruct (G l (or_introl eq_refl)) as (c' & col' & Y1 & Y2 & Y3 & Y4). rewrite X1 in Y1. injection Y1 as <-. rewrite X2 in Y2. apply Ok_inj in Y2 as <-. auto.
  - apply IH; intros; [apply Hl|apply G]; now right.
Qed.
Print Assumptions C47_inflow_table_of_a_run.
Theorem C47_outflow_table_of_a_run : forall N D w0 k s links, net_ok N -> fresh_world N w0 -> (forall t, draws_valid (D t)) ->
  run N D k (init_state N w0) = Ok s -> Z.of_nat k < 10000 -> (forall l, In l links -> In l (n_links N) /\ cc_Nout (w_cc (s_w s)) l <> None) ->
  exists T, get_ccs (cc_Nout (w_cc (s_w s))) (s_cur s) links = Ok T /\
    Forall2 (fun l column => length column = S k /\ forall t, (t <= k)%nat ->
      exists v, nth_error column t = Some (Some v) /\ (v == inject_Z (Zlen (exited N D w0 l t)) / n_fs N)%Q) links T.
Proof.
  intros N D w0 k s links K F DV H Hk Hl. assert (Ecur : Z.to_nat (s_cur s + 1) = S k). { rewrite (reached_cur N D k s (ex_intro _ w0 (conj F (conj DV H)))). lia. }
  assert (G : forall l, In l links -> exists c col, cc_Nout (w_cc (s_w s)) l = Some c /\ fill_column (S k) c = Ok col /\ length (forward_fill col) = S k /\
     forall t, (t <= k)%nat -> exists v, nth_error (forward_fill col) t = Some (Some v) /\ (v == inject_Z (Zlen (exited N D w0 l t)) / n_fs N)%Q).
  { intros l Hin. destruct (Hl l Hin) as [Hll Hc]. destruct (cc_Nout (w_cc (s_w s)) l) as [c|] eqn:Ec; [|congruence]. exists c.
    destruct (installed_out N D w0 K F DV k s l c Hll H Ec) as (incs & E & T). destruct (line_column _ k c incs _ Hk E T) as (col & X). exists col. split; [reflexivity|exact X]. }
  destruct (get_ccs_cols (cc_Nout (w_cc (s_w s))) (s_cur s) links) as (T & ET & FT).
  { intros l Hin. destruct (G l Hin) as (c & col & X1 & X2 & _). exists c, col. rewrite Ecur. auto. }
  exists T. split; [exact ET|]. clear ET. rewrite Ecur in FT. induction FT as [|l column ls T (c & col & X1 & X2 & ->) _ IH]; constructor.
  - destruct (G l (or_introl eq_refl)) as (c' & col' & Y1 & Y2 & Y3 & Y4). rewrite X1 in Y1. injection Y1 as <-. rewrite X2 in Y2. apply Ok_inj in Y2 as <-. auto.
  - apply IH; intros; [apply Hl|apply G]; now right.
Qed.
Print Assumptions C47_outflow_table_of_a_run.

Example C47_case : xn_run 10 = Ok (xn_at 10) /\ In 20 (n_links xn) /\ cc_Nin (w_cc (s_w (xn_at 10))) 20 <> None /\
  get_ccs (cc_Nin (w_cc (s_w (xn_at 10)))) 10 [20] = Ok [[Some 0; Some 0; Some 4; Some 4; Some 4; Some 6; Some 6; Some 6; Some 6; Some 6; Some 6]]%Q.
Proof.
  split; [exact xn_ten|]. split; [right; right; now left|]. assert (E : cc_Nin (w_cc (s_w (xn_at 10))) 20 = Some [(0, 0); (2, 4); (5, 6)]%Q) by apply C16_C54_case.
  split; [rewrite E; discriminate|]. unfold get_ccs. cbn [mapM]. rewrite E. vm_compute. reflexivity.
Qed.
