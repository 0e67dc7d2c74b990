(** Proofs about Model_Split: logit shares, minutes, demand of the origins. *)
From Verif Require Import Base Base_lemmas Model_Num Model_SP Model_Node Model_Split Spec_Split Proof_Num Proof_GRJ.
Local Open Scope Q_scope.

Lemma qltb_true a b : Qltb a b = true -> a < b.
Proof. unfold Qltb. intros H. apply negb_true_iff in H. apply Qnot_le_lt. intros C. apply Qle_bool_iff in C. congruence. Qed.
Lemma qltb_intro a b : a < b -> Qltb a b = true.
Proof. unfold Qltb. intros H. apply negb_true_iff. destruct (Qle_bool b a) eqn:E; [|reflexivity]. apply Qle_bool_iff in E. apply Qle_not_lt in E. contradiction. Qed.
Lemma qltb_false a b : Qltb a b = false -> b <= a.
Proof. unfold Qltb. intros H. apply negb_false_iff in H. now apply Qle_bool_iff. Qed.
Lemma qltb_no a b : b <= a -> Qltb a b = false.
Proof. intros H. destruct (Qltb a b) eqn:E; [|reflexivity]. apply qltb_true in E. exfalso. eapply Qlt_not_le; eauto. Qed.
Lemma mode_eqb_eq a b : mode_eqb a b = true <-> a = b.
Proof. destruct a, b; cbn; split; congruence. Qed.
Lemma mode_eqb_refl a : mode_eqb a a = true.
Proof. now destruct a. Qed.

(* sums *)
Lemma sum_repeat0 n : sumQ (repeat 0 n) == 0.
Proof. induction n as [|n IH]; [reflexivity|]. cbn [repeat sumQ fold_right]. change (fold_right Qplus 0 (repeat 0 n)) with (sumQ (repeat 0 n)). rewrite IH. reflexivity. Qed.
Lemma sum_repeat e n : sumQ (repeat e n) == inject_Z (Z.of_nat n) * e.
Proof.
  induction n as [|n IH]; [cbn; ring|]. rewrite Nat2Z.inj_succ. unfold Z.succ. rewrite inject_Z_plus. cbn [repeat sumQ fold_right].
  change (fold_right Qplus 0 (repeat e n)) with (sumQ (repeat e n)). rewrite IH. change (inject_Z 1) with 1. ring.
Qed.
Lemma sum_nonneg l : (forall x, In x l -> 0 <= x) -> 0 <= sumQ l.
Proof.
  induction l as [|a l IH]; intros H; [cbn; lra|]. change (sumQ (a :: l)) with (a + sumQ l).
  assert (0 <= a) by (apply H; now left). assert (0 <= sumQ l) by (apply IH; intros; apply H; now right). lra.
Qed.
Lemma sum_member x l : (forall y, In y l -> 0 <= y) -> In x l -> x <= sumQ l.
Proof.
  induction l as [|a l IH]; intros H I; [destruct I|]. destruct I as [E|I]; change (sumQ (a :: l)) with (a + sumQ l).
  - subst. assert (0 <= sumQ l) by (apply sum_nonneg; intros; apply H; now right). lra.
  - assert (0 <= a) by (apply H; now left). assert (x <= sumQ l) by (apply IH; [intros; apply H; now right|easy]). lra.
Qed.
Lemma sum_div l t : sumQ (map (fun x => x / t) l) == sumQ l / t.
Proof.
  induction l as [|a l IH]; [cbn; unfold Qdiv; ring|]. change (a / t + sumQ (map (fun x => x / t) l) == (a + sumQ l) / t). rewrite IH. unfold Qdiv. ring.
Qed.
Lemma sum_ext {A} (f g : A -> Q) l : (forall x, In x l -> f x == g x) -> sumQ (map f l) == sumQ (map g l).
Proof.
  induction l as [|a l IH]; intros H; [reflexivity|]. change (f a + sumQ (map f l) == g a + sumQ (map g l)).
  rewrite (H a) by now left. rewrite IH; [reflexivity|]. intros x Hx. apply H. now right.
Qed.
Lemma sum_mult {A} (f : A -> Q) q l : sumQ (map (fun x => f x * q) l) == sumQ (map f l) * q.
Proof.
  induction l as [|a l IH]; [cbn; ring|]. change (f a * q + sumQ (map (fun x => f x * q) l) == (f a + sumQ (map f l)) * q). rewrite IH. ring.
Qed.

(* logit *)
Lemma weight_fst ex alpha beta c : fst (weight ex alpha beta c) = fst c.
Proof. unfold weight. now destruct (snd c). Qed.
Lemma weight_nonneg ex alpha beta c : exp_like ex -> 0 <= snd (weight ex alpha beta c).
Proof. intros (P & _). unfold weight. destruct (snd c); cbn; [apply P|lra]. Qed.
Lemma logit_inv ex cost alpha beta l : logit_fn ex cost alpha beta = Ok l ->
  exists t, t = sumQ (map snd (map (weight ex alpha beta) cost)) /\ 0 < t /\ l = map (fun c => (fst c, snd (weight ex alpha beta c) / t)) cost.
Proof.
  unfold logit_fn. set (t := sumQ _). intros H. exists t. split; [reflexivity|].
  destruct (Qltb 0 t) eqn:E; cbn in H; [|discriminate]. split; [now apply qltb_true|]. injection H as <-. rewrite map_map. apply map_ext. intros c. now rewrite weight_fst.
Qed.
Lemma logit_facts ex cost alpha beta l : exp_like ex -> logit_fn ex cost alpha beta = Ok l ->
  map fst l = map fst cost /\ (forall m s, gets l m s -> 0 <= s) /\ sumQ (map snd l) == 1.
Proof.
  intros P H. apply logit_inv in H. destruct H as (t & Et & T & ->). split; [|split].
  - rewrite map_map. apply map_ext. reflexivity.
  - intros m s I. apply in_map_iff in I. destruct I as (c & E & _). injection E as _ <-. apply Qle_shift_div_l; [assumption|]. setoid_replace (0 * t) with 0 by ring. now apply weight_nonneg.
  - rewrite map_map. cbn [snd]. rewrite <- (map_map (fun c => snd (weight ex alpha beta c)) (fun x => x / t)). rewrite sum_div. rewrite map_map in Et. rewrite <- Et. field. lra.
Qed.
Lemma logit_infinite ex cost alpha beta l m s : NoDup (map fst cost) -> logit_fn ex cost alpha beta = Ok l -> In (m, None) cost -> gets l m s -> s == 0.
Proof.
  intros N H I G. apply logit_inv in H. destruct H as (t & _ & T & ->). apply in_map_iff in G. destruct G as (c & E & J). injection E as <- <-.
  assert (c = (fst c, None)) as ->.
  { clear - N I J. induction cost as [|a cost IH]; [destruct I|]. cbn in N. inversion N as [|? ? N1 N2]; subst. destruct I as [E|I], J as [F|J].
    - congruence.
    - exfalso. apply N1. subst a. cbn. apply in_map with (f := fst) in J. exact J.
    - exfalso. apply N1. subst a. apply in_map with (f := fst) in I. exact I.
    - now apply IH. }
  cbn. field. lra.
Qed.
Lemma in_keyed {A} (l : list (mode * A)) m a b : NoDup (map fst l) -> In (m, a) l -> In (m, b) l -> a = b.
Proof.
  induction l as [|x l IH]; intros N I J; [destruct I|]. cbn in N. inversion N as [|? ? N1 N2]; subst. destruct I as [E|I], J as [F|J].
  - congruence.
  - exfalso. apply N1. subst x. apply in_map with (f := fst) in J. exact J.
  - exfalso. apply N1. subst x. apply in_map with (f := fst) in I. exact I.
  - now apply IH.
Qed.
Lemma logit_order ex cost alpha beta l m1 m2 c1 c2 s1 s2 : exp_like ex -> NoDup (map fst cost) -> logit_fn ex cost alpha beta = Ok l ->
  In (m1, Some c1) cost -> In (m2, Some c2) cost -> gets l m1 s1 -> gets l m2 s2 -> alpha m1 + beta * c1 <= alpha m2 + beta * c2 -> s2 <= s1.
Proof.
  intros (_ & M & _) N H I1 I2 G1 G2 L. apply logit_inv in H. destruct H as (t & _ & T & ->).
  apply in_map_iff in G1. destruct G1 as ((n1 & k1) & E1 & J1). injection E1 as -> <-. apply in_map_iff in G2. destruct G2 as ((n2 & k2) & E2 & J2). injection E2 as -> <-.
  rewrite (in_keyed _ _ _ _ N J1 I1), (in_keyed _ _ _ _ N J2 I2). cbn.
  assert (ex (- (alpha m2 + beta * c2)) <= ex (- (alpha m1 + beta * c1))) by (apply M; lra).
  apply Qle_shift_div_l; [assumption|]. setoid_replace (ex (- (alpha m2 + beta * c2)) / t * t) with (ex (- (alpha m2 + beta * c2))) by (field; lra). assumption.
Qed.
Lemma logit_answers ex cost alpha beta m c : (forall x, 0 < ex x) -> In (m, Some c) cost -> exists l, logit_fn ex cost alpha beta = Ok l.
Proof.
  intros P I. unfold logit_fn. rewrite qltb_intro; [cbn; eauto|]. rewrite map_map.
  apply Qlt_le_trans with (snd (weight ex alpha beta (m, Some c))); [cbn; apply P|].
  apply sum_member.
  - intros y J. apply in_map_iff in J. destruct J as (d & <- & _). unfold weight. destruct (snd d); cbn; [apply Qlt_le_weak, P|lra].
  - now apply (in_map (fun d => snd (weight ex alpha beta d))) in I.
Qed.
Lemma logit_zero ex cost alpha beta : (forall m c, In (m, Some c) cost -> ex (- (alpha m + beta * c)) == 0) -> logit_fn ex cost alpha beta = Err EAssert.
Proof.
  intros H. unfold logit_fn. rewrite qltb_no; [reflexivity|]. rewrite map_map.
  assert (E : sumQ (map (fun d => snd (weight ex alpha beta d)) cost) == sumQ (map (fun _ => 0) cost)).
  { apply sum_ext. intros (m & c) I. unfold weight. cbn. destruct c as [c|]; cbn; [now apply H|reflexivity]. }
  rewrite E. clear. induction cost as [|a cost IH]; [cbn; lra|]. change (0 + sumQ (map (fun _ => 0) cost) <= 0). lra.
Qed.

(* minutes *)
Lemma most_range scalar d n k : (0 < n)%nat -> (k <= n)%nat -> (1 <= most_minutes scalar d n k <= n)%nat.
Proof. intros N. induction k as [|k IH]; intros K; cbn [most_minutes]; [lia|]. destruct (1 <=? _)%Z; [lia|apply IH; lia]. Qed.
Definition fits (scalar d : Q) (k : nat) : Prop := 1 <= d / inject_Z (Z.of_nat k) * scalar.
Lemma floor_ge q : (1 <=? Qfloor q)%Z = true <-> 1 <= q.
Proof.
  rewrite Z.leb_le. split; intros H.
  - apply Qle_trans with (inject_Z (Qfloor q)); [|apply Qfloor_le]. change 1 with (inject_Z 1). now rewrite <- Zle_Qle.
  - change 1%Z with (Qfloor (inject_Z 1)). now apply Qfloor_resp_le.
Qed.
Lemma most_best scalar d n : forall k, (exists j, (1 <= j <= k)%nat /\ fits scalar d j) ->
  fits scalar d (most_minutes scalar d n k) /\ (most_minutes scalar d n k <= k)%nat /\ forall j, (most_minutes scalar d n k < j <= k)%nat -> ~ fits scalar d j.
Proof.
  induction k as [|k IH]; intros (j & J & F); [lia|]. cbn [most_minutes]. destruct (1 <=? Qfloor (d / inject_Z (Z.of_nat (S k)) * scalar))%Z eqn:E.
  - split; [now apply floor_ge|]. split; [lia|]. intros i Hi. lia.
  - assert (NF : ~ fits scalar d (S k)) by (intros C; apply floor_ge in C; congruence).
    destruct IH as (A & B & C). { exists j. split; [|assumption]. destruct (Nat.eq_dec j (S k)); [subst; contradiction|lia]. }
    split; [assumption|]. split; [lia|]. intros i Hi. destruct (Nat.eq_dec i (S k)); [now subst|apply C; lia].
Qed.
Lemma most_none scalar d n : forall k, (forall j, (1 <= j <= k)%nat -> ~ fits scalar d j) -> most_minutes scalar d n k = n.
Proof.
  induction k as [|k IH]; intros H; [reflexivity|]. cbn [most_minutes]. destruct (1 <=? _)%Z eqn:E; [|apply IH; intros; apply H; lia].
  apply floor_ge in E. exfalso. apply (H (S k)); [lia|exact E].
Qed.
Lemma posn k : (0 < k)%nat -> 0 < inject_Z (Z.of_nat k).
Proof. intros H. change 0 with (inject_Z 0). rewrite <- Zlt_Qlt. lia. Qed.

Lemma spread_ok cf d : (0 < sc_minutes cf)%nat -> (sc_split cf = 0 \/ sc_split cf = 1)%Z ->
  exists slots left, spread cf d = Ok (slots, left) /\ length slots = sc_minutes cf /\ sumQ slots == d /\
    (0 <= d -> (forall x, In x slots -> 0 <= x) /\ 0 <= left /\ d <= inject_Z (Z.of_nat (sc_minutes cf)) * left).
Proof.
  intros N [S0|S1]; unfold spread.
  - rewrite S0. cbn [Z.eqb]. do 2 eexists. split; [reflexivity|]. split; [cbn; rewrite repeat_length; lia|]. split.
    + change (d + sumQ (repeat 0 (sc_minutes cf - 1)) == d). rewrite sum_repeat0. ring.
    + intros D. split; [intros x [<-|I]; [assumption|apply repeat_spec in I; subst; lra]|]. split; [assumption|].
      assert (1 <= inject_Z (Z.of_nat (sc_minutes cf))) by (change 1 with (inject_Z 1); rewrite <- Zle_Qle; lia). nra.
  - rewrite S1. cbn [Z.eqb Pos.eqb]. set (m := most_minutes _ _ _ _). assert (M : (1 <= m <= sc_minutes cf)%nat) by (apply most_range; lia).
    replace ((1 <=? m)%nat && (m <=? sc_minutes cf)%nat) with true by (symmetry; apply andb_true_iff; split; apply Nat.leb_le; lia). cbn [guard bind].
    do 2 eexists. split; [reflexivity|]. assert (P := posn m ltac:(lia)). split; [rewrite app_length, !repeat_length; lia|]. split.
    + rewrite sumQ_app, sum_repeat0, sum_repeat. field. lra.
    + intros D. assert (0 <= d / inject_Z (Z.of_nat m)) by (apply Qle_shift_div_l; [assumption|lra]). split; [|split; [assumption|]].
      * intros x I. apply in_app_or in I. destruct I as [I|I]; apply repeat_spec in I; subst; [assumption|lra].
      * assert (inject_Z (Z.of_nat m) <= inject_Z (Z.of_nat (sc_minutes cf))) by (rewrite <- Zle_Qle; lia).
        setoid_replace d with (inject_Z (Z.of_nat m) * (d / inject_Z (Z.of_nat m))) at 1 by (field; lra). nra.
Qed.
Lemma spread_one cf d slots left : (0 < sc_minutes cf)%nat -> sc_split cf = 1%Z -> spread cf d = Ok (slots, left) ->
  exists m, (1 <= m <= sc_minutes cf)%nat /\ slots = repeat left m ++ repeat 0 (sc_minutes cf - m) /\ left == d / inject_Z (Z.of_nat m) /\
    m = most_minutes (sc_scalar cf) d (sc_minutes cf) (sc_minutes cf).
Proof.
  intros N S1. unfold spread. rewrite S1. cbn [Z.eqb Pos.eqb]. set (m := most_minutes _ _ _ _). assert (M : (1 <= m <= sc_minutes cf)%nat) by (apply most_range; lia).
  replace ((1 <=? m)%nat && (m <=? sc_minutes cf)%nat) with true by (symmetry; apply andb_true_iff; split; apply Nat.leb_le; lia). cbn [guard bind].
  intros E. injection E as <- <-. exists m. split; [assumption|]. split; [reflexivity|]. split; [reflexivity|reflexivity].
Qed.

(* writing the minutes of an interval *)
Lemma map_nth_seq {A} (l : list A) d : map (fun k => nth k l d) (seq 0 (length l)) = l.
Proof.
  induction l as [|a l IH]; [reflexivity|]. cbn [length seq map nth]. f_equal. rewrite <- seq_shift, map_map. exact IH.
Qed.
Lemma sum_put v inter n slots : length slots = n -> sumQ (map (fun k => put v inter n slots (inter * n + k)) (seq 0 n)) == sumQ slots.
Proof.
  intros L. transitivity (sumQ (map (fun k => nth k slots 0) (seq 0 n))); [|rewrite <- L, map_nth_seq; reflexivity]. apply sum_ext. intros k K. apply in_seq in K. unfold put.
  replace ((inter * n <=? inter * n + k)%nat && (inter * n + k <? inter * n + n)%nat) with true.
  - replace (inter * n + k - inter * n)%nat with k by lia. reflexivity.
  - symmetry. apply andb_true_iff. split; [apply Nat.leb_le; lia|apply Nat.ltb_lt; lia].
Qed.
Lemma put_other v inter n slots i : ~ minute_of n inter i -> put v inter n slots i = v i.
Proof. intros H. unfold put. destruct ((inter * n <=? i)%nat && (i <? inter * n + n)%nat) eqn:E; [|reflexivity]. apply andb_true_iff in E. destruct E as [E F]. apply Nat.leb_le in E. apply Nat.ltb_lt in F. exfalso. apply H. split; assumption. Qed.
Lemma put_nonneg v inter n slots i : length slots = n -> (forall x, In x slots -> 0 <= x) -> minute_of n inter i -> 0 <= put v inter n slots i.
Proof.
  intros L H M. unfold put. destruct ((inter * n <=? i)%nat && (i <? inter * n + n)%nat) eqn:E.
  - apply H, nth_In. unfold minute_of in M. lia.
  - exfalso. unfold minute_of in M. apply andb_false_iff in E. destruct E as [E|E]; [apply Nat.leb_gt in E|apply Nat.ltb_ge in E]; lia.
Qed.
