(** Proofs about the numeric helpers. *)
From Verif Require Import Base Base_lemmas Model_Num.
Local Open Scope Q_scope.

Lemma Qltb_lt a b : Qltb a b = true <-> a < b.
Proof.
  unfold Qltb. rewrite negb_true_iff. split; intros H.
  - apply Qnot_le_lt. intros C. apply Qle_bool_iff in C. congruence.
  - destruct (Qle_bool b a) eqn:E; [|reflexivity]. apply Qle_bool_iff in E. lra.
Qed.
Lemma Qltb_ge a b : Qltb a b = false <-> b <= a.
Proof.
  unfold Qltb. rewrite negb_false_iff. apply Qle_bool_iff.
Qed.
Lemma Qleb_gt a b : Qle_bool a b = false <-> b < a.
Proof.
  split; intros H.
  - apply Qnot_le_lt. intros C. apply Qle_bool_iff in C. congruence.
  - destruct (Qle_bool a b) eqn:E; [|reflexivity]. apply Qle_bool_iff in E. lra.
Qed.
Lemma Qltb_spec a b : reflect (a < b) (Qltb a b).
Proof. destruct (Qltb a b) eqn:E; constructor. now apply Qltb_lt. apply Qltb_ge in E. lra. Qed.
Lemma Qleb_spec a b : reflect (a <= b) (Qle_bool a b).
Proof. destruct (Qle_bool a b) eqn:E; constructor. now apply Qle_bool_iff. apply Qleb_gt in E. lra. Qed.
Lemma Qeqb_spec a b : reflect (a == b) (Qeq_bool a b).
Proof. destruct (Qeq_bool a b) eqn:E; constructor. now apply Qeq_bool_iff. now apply Qeq_bool_neq. Qed.

Lemma injZ_le a b : inject_Z a <= inject_Z b <-> (a <= b)%Z.
Proof. rewrite <- Zle_Qle. reflexivity. Qed.
Lemma injZ_lt a b : inject_Z a < inject_Z b <-> (a < b)%Z.
Proof. rewrite <- Zlt_Qlt. reflexivity. Qed.
Lemma injZ_succ a : inject_Z (a + 1) == inject_Z a + 1.
Proof. rewrite inject_Z_plus. reflexivity. Qed.
Lemma injZ_nonneg a : (0 <= a)%Z -> 0 <= inject_Z a.
Proof. intros H. change 0 with (inject_Z 0). now apply injZ_le. Qed.
Lemma injZ_pos a : (1 <= a)%Z -> 1 <= inject_Z a.
Proof. intros H. change 1 with (inject_Z 1). now apply injZ_le. Qed.

Lemma trunc_floor x : 0 <= x -> trunc x = Qfloor x.
Proof.
  destruct x as [n d]. unfold trunc, Qfloor, Qle; simpl. intros H.
  apply Z.quot_div_nonneg; lia.
Qed.
Lemma trunc_neg x : trunc (- x) = (- trunc x)%Z.
Proof. destruct x as [n d]. unfold trunc; simpl. apply Z.quot_opp_l. lia. Qed.
Lemma trunc_comp x y : x == y -> trunc x = trunc y.
Proof.
  intros H. destruct (Qlt_le_dec x 0) as [Hx|Hx].
  - assert (E : trunc (- x) = trunc (- y)).
    { rewrite !trunc_floor by lra. apply Qfloor_comp. now rewrite H. }
    rewrite !trunc_neg in E. lia.
  - rewrite !trunc_floor by lra. now apply Qfloor_comp.
Qed.
#[export] Instance trunc_proper : Proper (Qeq ==> eq) trunc.
Proof. intros x y H. now apply trunc_comp. Qed.

Lemma trunc_lo x : 0 <= x -> inject_Z (trunc x) <= x.
Proof. intros H. rewrite trunc_floor by exact H. apply Qfloor_le. Qed.
Lemma trunc_hi x : 0 <= x -> x < inject_Z (trunc x) + 1.
Proof. intros H. rewrite trunc_floor by exact H. rewrite <- injZ_succ. apply Qlt_floor. Qed.
Lemma trunc_nonneg x : 0 <= x -> (0 <= trunc x)%Z.
Proof. intros H. rewrite trunc_floor by exact H. change 0%Z with (Qfloor 0). now apply Qfloor_resp_le. Qed.
Lemma trunc_unique x z : (0 <= z)%Z -> inject_Z z <= x -> x < inject_Z z + 1 -> trunc x = z.
Proof.
  intros Hz H1 H2. assert (Hx : 0 <= x) by (pose proof (injZ_nonneg z Hz); lra).
  pose proof (trunc_lo x Hx). pose proof (trunc_hi x Hx).
  assert (A : (z < trunc x + 1)%Z). { apply injZ_lt. rewrite injZ_succ. lra. }
  assert (B : (trunc x < z + 1)%Z). { apply injZ_lt. rewrite injZ_succ. lra. }
  lia.
Qed.
Lemma trunc_Z z : trunc (inject_Z z) = z.
Proof. unfold trunc, inject_Z; simpl. apply Z.quot_1_r. Qed.
Lemma trunc_mono x y : 0 <= x -> x <= y -> (trunc x <= trunc y)%Z.
Proof. intros H1 H2. rewrite !trunc_floor by lra. now apply Qfloor_resp_le. Qed.
Lemma trunc_ge x z : (0 <= z)%Z -> inject_Z z <= x -> (z <= trunc x)%Z.
Proof. intros Hz H. rewrite <- (trunc_Z z). apply trunc_mono; [now apply injZ_nonneg|exact H]. Qed.
Lemma trunc_lt x z : 0 <= x -> x < inject_Z z -> (trunc x < z)%Z.
Proof. intros Hx H. apply injZ_lt. pose proof (trunc_lo x Hx). lra. Qed.

(** rounding *)
Lemma rround_cases r x : rround r x = trunc x \/ rround r x = (trunc x + 1)%Z.
Proof. unfold rround. destruct (Qltb _ _); auto. Qed.
Lemma rround_up r x : rround r x = (trunc x + 1)%Z <-> r < x - inject_Z (trunc x).
Proof. unfold rround. destruct (Qltb_spec r (x - inject_Z (trunc x))); split; intros; try lia; try lra. Qed.
Lemma rround_nonneg r x : 0 <= x -> (0 <= rround r x)%Z.
Proof. intros H. pose proof (trunc_nonneg x H). destruct (rround_cases r x); lia. Qed.
Lemma rround_lt r x : 0 <= x -> 0 <= r -> inject_Z (rround r x) < x + 1.
Proof.
  intros Hx Hr. pose proof (trunc_lo x Hx). unfold rround.
  destruct (Qltb_spec r (x - inject_Z (trunc x))); [rewrite injZ_succ|]; lra.
Qed.
Lemma rround_gt r x : 0 <= x -> x - 1 < inject_Z (rround r x).
Proof.
  intros Hx. pose proof (trunc_hi x Hx). pose proof (trunc_lo x Hx). unfold rround.
  destruct (Qltb_spec r (x - inject_Z (trunc x))); [rewrite injZ_succ|]; lra.
Qed.
Lemma rround_int r z : 0 <= r -> rround r (inject_Z z) = z.
Proof.
  intros Hr. unfold rround. rewrite trunc_Z.
  destruct (Qltb_spec r (inject_Z z - inject_Z z)); [lra|reflexivity].
Qed.
Lemma rround_comp r x y : x == y -> rround r x = rround r y.
Proof.
  intros H. unfold rround. rewrite (trunc_comp x y H).
  destruct (Qltb_spec r (x - inject_Z (trunc y))); destruct (Qltb_spec r (y - inject_Z (trunc y))); try reflexivity; lra.
Qed.
Lemma rround_zero r : 0 <= r -> rround r 0 = 0%Z.
Proof. apply (rround_int r 0). Qed.

(** round up/down of times *)
Lemma trunc_ge1 t : 1 <= t -> (1 <= trunc t)%Z.
Proof. intros H. apply (trunc_ge t 1); [lia|exact H]. Qed.

Lemma round_up_time_total t p : exists n, round_up_time t p = Ok n /\ (1 <= n)%Z.
Proof.
  unfold round_up_time. destruct (Qltb_spec t 1) as [H|H]; [exists 1%Z; split; [reflexivity|lia]|].
  assert (H1 : 1 <= t) by lra. pose proof (trunc_ge1 t H1) as H2.
  assert (E : (1 <=? trunc t)%Z = true) by lia. rewrite E. simpl.
  destruct (approx_eq _ _ _); [eexists; split; [reflexivity|lia]|].
  pose proof (trunc_hi t ltac:(lra)) as H3.
  destruct (Qltb_spec t (inject_Z (trunc t + 1))) as [H4|H4].
  - simpl. eexists; split; [reflexivity|lia].
  - rewrite injZ_succ in H4. lra.
Qed.

Lemma round_up_time_bounds t p n :
  0 <= p -> round_up_time t p = Ok n ->
  inject_Z n < t + 1 \/ (t < 1 /\ n = 1%Z).
Proof.
  intros Hp. unfold round_up_time. destruct (Qltb_spec t 1) as [H|H].
  - injection 1 as <-. right; split; [exact H|reflexivity].
  - assert (H1 : 1 <= t) by lra.
    pose proof (trunc_ge1 t H1) as H2.
    assert (E : (1 <=? trunc t)%Z = true) by lia. rewrite E. simpl.
    pose proof (trunc_lo t ltac:(lra)) as HL.
    pose proof (trunc_hi t ltac:(lra)) as HH.
    unfold approx_eq. destruct (Qleb_spec (Qabs (t - inject_Z (trunc t))) (p * Qmax (Qabs t) (Qabs (inject_Z (trunc t))))) as [H3|H3].
    + injection 1 as <-. left. lra.
    + destruct (Qltb _ _); simpl; [|discriminate]. injection 1 as <-. left.
      rewrite injZ_succ.
      assert (inject_Z (trunc t) < t); [|lra].
      apply Qnot_le_lt. intros C. apply H3.
      assert (E2 : t - inject_Z (trunc t) == 0) by lra. rewrite E2. simpl Qabs.
      apply Qmult_le_0_compat; [exact Hp|].
      apply Qle_trans with (Qabs t); [apply Qabs_nonneg|apply Q.le_max_l].
Qed.

Lemma round_up_time_lower t p n :
  0 <= p -> 0 <= t -> round_up_time t p = Ok n -> t - p * t <= inject_Z n.
Proof.
  intros Hp Ht. unfold round_up_time. destruct (Qltb_spec t 1) as [H|H].
  - injection 1 as <-. change (inject_Z 1) with 1. nra.
  - assert (H1 : 1 <= t) by lra.
    pose proof (trunc_ge1 t H1) as H2.
    assert (E : (1 <=? trunc t)%Z = true) by lia. rewrite E. simpl.
    pose proof (trunc_lo t ltac:(lra)) as HL.
    pose proof (trunc_hi t ltac:(lra)) as HH.
    pose proof (injZ_pos _ H2) as HP.
    unfold approx_eq. destruct (Qleb_spec (Qabs (t - inject_Z (trunc t))) (p * Qmax (Qabs t) (Qabs (inject_Z (trunc t))))) as [H3|H3].
    + injection 1 as <-.
      rewrite !Qabs_pos in H3 by lra.
      rewrite Q.max_l in H3 by exact HL. lra.
    + destruct (Qltb _ _); simpl; [|discriminate]. injection 1 as <-.
      rewrite injZ_succ. nra.
Qed.

Lemma round_up_time_int n p : (1 <= n)%Z -> 0 <= p -> round_up_time (inject_Z n) p = Ok n.
Proof.
  intros Hn Hp. unfold round_up_time. pose proof (injZ_pos n Hn).
  destruct (Qltb_spec (inject_Z n) 1); [lra|]. rewrite trunc_Z.
  assert (E : (1 <=? n)%Z = true) by lia. rewrite E. simpl.
  unfold approx_eq. destruct (Qleb_spec (Qabs (inject_Z n - inject_Z n)) (p * Qmax (Qabs (inject_Z n)) (Qabs (inject_Z n)))) as [|H3]; [reflexivity|].
  exfalso. apply H3. setoid_replace (inject_Z n - inject_Z n) with 0 by ring. simpl Qabs.
  apply Qmult_le_0_compat; [exact Hp|]. apply Qle_trans with (Qabs (inject_Z n)); [apply Qabs_nonneg|apply Q.le_max_l].
Qed.

Lemma round_up_time_mono t1 t2 p n1 n2 :
  0 <= p -> t1 <= t2 ->
  round_up_time t1 p = Ok n1 -> round_up_time t2 p = Ok n2 -> (n1 <= n2)%Z.
Proof.
  intros Hp H12 E1 E2.
  destruct (round_up_time_total t2 p) as (m2 & E2' & Hm2).
  rewrite E2 in E2'. injection E2' as <-.
  unfold round_up_time in E1, E2.
  destruct (Qltb_spec t1 1) as [H1|H1]; [injection E1 as <-; lia|].
  destruct (Qltb_spec t2 1) as [H2|H2]; [lra|].
  assert (G1 : 1 <= t1) by lra. assert (G2 : 1 <= t2) by lra.
  pose proof (trunc_ge1 t1 G1) as P1. pose proof (trunc_ge1 t2 G2) as P2.
  assert (X1 : (1 <=? trunc t1)%Z = true) by lia. assert (X2 : (1 <=? trunc t2)%Z = true) by lia.
  rewrite X1 in E1. rewrite X2 in E2. simpl in E1, E2.
  pose proof (trunc_mono t1 t2 ltac:(lra) H12) as M.
  pose proof (trunc_lo t1 ltac:(lra)) as L1. pose proof (trunc_lo t2 ltac:(lra)) as L2.
  pose proof (trunc_hi t1 ltac:(lra)) as U1. pose proof (trunc_hi t2 ltac:(lra)) as U2.
  pose proof (injZ_pos _ P1) as Q1. pose proof (injZ_pos _ P2) as Q2.
  unfold approx_eq in E1, E2.
  destruct (Qleb_spec (Qabs (t1 - inject_Z (trunc t1))) (p * Qmax (Qabs t1) (Qabs (inject_Z (trunc t1))))) as [A1|A1];
  destruct (Qleb_spec (Qabs (t2 - inject_Z (trunc t2))) (p * Qmax (Qabs t2) (Qabs (inject_Z (trunc t2))))) as [A2|A2].
  - injection E1 as <-. injection E2 as <-. exact M.
  - injection E1 as <-. destruct (Qltb _ _); simpl in E2; [|discriminate]. injection E2 as <-. lia.
  - destruct (Qltb _ _); simpl in E1; [|discriminate]. injection E1 as <-. injection E2 as <-.
    destruct (Z.eq_dec (trunc t1) (trunc t2)) as [Eq|Ne]; [|lia].
    exfalso. apply A1. rewrite Eq in *.
    rewrite !Qabs_pos in * by lra. rewrite Q.max_l in * by lra.
    assert (t1 - p * t1 <= inject_Z (trunc t2)); [|lra].
    destruct (Qlt_le_dec p 1); nra.
  - destruct (Qltb _ _); simpl in E1; [|discriminate]. destruct (Qltb _ _); simpl in E2; [|discriminate].
    injection E1 as <-. injection E2 as <-. lia.
Qed.

Lemma round_down_time_total t : exists n, round_down_time t = Ok n /\ (1 <= n)%Z /\
  (1 <= t -> n = Qfloor t) /\ (t < 1 -> n = 1%Z).
Proof.
  unfold round_down_time. destruct (Qltb_spec t 1) as [H|H].
  - exists 1%Z. repeat split; try lia; try lra.
  - assert (H1 : 1 <= t) by lra. pose proof (trunc_ge1 t H1) as H2.
    assert (E : (1 <=? trunc t)%Z = true) by lia. rewrite E. simpl.
    eexists; split; [reflexivity|]. split; [exact H2|]. split; [|lra].
    intros _. apply trunc_floor. lra.
Qed.
Lemma round_down_time_mono t1 t2 n1 n2 : t1 <= t2 ->
  round_down_time t1 = Ok n1 -> round_down_time t2 = Ok n2 -> (n1 <= n2)%Z.
Proof.
  intros H E1 E2.
  destruct (round_down_time_total t1) as (m1 & F1 & P1 & A1 & B1). rewrite E1 in F1. injection F1 as <-.
  destruct (round_down_time_total t2) as (m2 & F2 & P2 & A2 & B2). rewrite E2 in F2. injection F2 as <-.
  destruct (Qlt_le_dec t1 1) as [C1|C1]; [rewrite B1 by exact C1; exact P2|].
  rewrite A1 by exact C1. rewrite A2 by lra. now apply Qfloor_resp_le.
Qed.
