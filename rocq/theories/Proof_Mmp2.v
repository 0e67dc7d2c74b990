(** The updates of the flows. *)
From Coq Require Import Lia Lqa.
From Verif Require Import Base Base_lemmas Model_Num Model_SP Model_Node Model_Split Model_Mmp Spec_Mmp Proof_Num Proof_Link4 Proof_Mmp.
Local Open Scope Q_scope.

Lemma exists_false cg k o : exists_in cg k o = Ok false -> cg = true /\ exists ps, set_of o (key_mode k) = Some ps /\ is_in_set k ps = false.
Proof.
  unfold exists_in. destruct cg; [|discriminate]. destruct (set_of o (key_mode k)) as [ps|]; [|discriminate].
  intros H. apply Ok_inj in H. eauto.
Qed.

(** with departure time choice *)
Lemma choice_ok de cg iter demand k t o o' : (0 < de_total de)%nat -> update_choice de cg iter demand k t o = Ok o' ->
  exists o1, perhaps_with k o o1 /\ travellers (de_total de) o' == travellers (de_total de) o1 /\
    path_by_path (fun p p' => pp_key p' = pp_key p /\
      (0 <= de_step de / inject_Z (iter + 1) -> de_step de / inject_Z (iter + 1) <= 1 -> (forall c, 0 <= demand c) -> (forall q c, listed_path o1 q -> (c < de_total de)%nat -> 0 <= pp_flow q c) ->
        forall c, (c < de_total de)%nat -> 0 <= pp_flow p' c /\ (~ (same_trip (pp_key p) k /\ c = column de t) -> pp_flow p' c <= pp_flow p c) /\
          (same_trip (pp_key p) k /\ c = column de t -> pp_flow p c <= pp_flow p' c))) o1 o'.
Proof.
  intros N H. unfold update_choice in H. apply bind_ok in H as (ex & Hex & H).
  set (cols := seq 0 (de_total de)) in *. set (bc := column de t) in *. set (rate := de_step de / inject_Z (iter + 1)) in *.
  assert (Hbc : (bc < de_total de)%nat) by (now apply column_lt).
  assert (Cons : forall take o1, (forall c, leaving o' c == leaving o1 c - sumQ (map (fun p => take p c) (paths o1)) + (if (c =? bc)%nat then sumQ (map (fun p => sumQ (map (take p) cols)) (paths o1)) else 0)) ->
     travellers (de_total de) o' == travellers (de_total de) o1).
  { intros take o1 L. unfold travellers. rewrite (sum_ext _ _ _ (fun c _ => L c)). rewrite sum_plus, sum_minus, (sum_indicator bc _ _ Hbc).
    rewrite (sum_swap (fun p c => take p c) (paths o1) cols). fold cols. ring. }
  destruct ex.
  - set (cap := sumQ (map demand cols) * de_step de / inject_Z (iter + 1)) in *.
    exists o. split; [now left|]. apply move_ok in H as (_ & F & L). split; [exact (Cons _ _ L)|].
    revert F. apply by_path_imp. intros p p' Hp (E1 & _ & E). split; [exact E1|]. intros R1 _ D P c Hc.
    assert (Cap : 0 <= cap).
    { unfold cap. setoid_replace (sumQ (map demand cols) * de_step de / inject_Z (iter + 1)) with (sumQ (map demand cols) * rate) by (unfold rate, Qdiv; ring).
      assert (0 <= sumQ (map demand cols)) by (apply sum_pos; auto). nra. }
    specialize (E c). specialize (P p c Hp Hc) as Pc.
    set (tot := sumQ _) in E. assert (T : 0 <= tot).
    { unfold tot. apply sum_pos. intros q Hq. apply sum_pos. intros c' Hc'. apply in_seq in Hc'.
      destruct (is_best k q && (c' =? bc)%nat); [lra|]. assert (X : (c' <? de_total de)%nat = true) by (apply Nat.ltb_lt; lia). rewrite X.
      apply cmin_nonneg; [|assumption]. apply P; [now apply listed_iff|lia]. }
    assert (X : (c <? de_total de)%nat = true) by (now apply Nat.ltb_lt). rewrite X in E.
    pose proof (cmin_le (pp_flow p c) cap) as [M1 _]. pose proof (cmin_nonneg _ _ Pc Cap) as M2.
    destruct (is_best k p) eqn:B; cbn [andb] in E.
    + destruct (Nat.eqb_spec c bc) as [Y|Y]; (split; [lra|split; intros W; [|first [lra | now exfalso; destruct W]]]).
      * exfalso. apply W. split; [now apply same_path_iff|assumption].
      * lra.
    + split; [lra|]. split; intros W; [lra|]. destruct W as [W _]. apply same_path_iff in W. unfold is_best in B. congruence.
  - apply bind_ok in H as (o1 & H1 & H). exists o1. split; [now apply push_perhaps in H1|]. apply move_ok in H as (_ & F & L). split; [exact (Cons _ _ L)|].
    revert F. apply by_path_imp. intros p p' Hp (E1 & _ & E). split; [exact E1|]. intros R1 R2 D P c Hc.
    specialize (E c). specialize (P p c Hp Hc) as Pc.
    set (tot := sumQ _) in E. assert (T : 0 <= tot).
    { unfold tot. apply sum_pos. intros q Hq. apply sum_pos. intros c' Hc'. apply in_seq in Hc'.
      destruct (negb (is_best k q) && (c' =? bc)%nat); [|lra]. assert (0 <= pp_flow q c') by (apply P; [now apply listed_iff|lia]). nra. }
    destruct (is_best k p) eqn:B; cbn [andb negb] in E.
    + destruct (Nat.eqb_spec c bc) as [Y|Y]; (split; [lra|split; intros W; [|first [lra | now exfalso; destruct W]]]).
      * exfalso. apply W. split; [now apply same_path_iff|assumption].
      * lra.
    + destruct (Nat.eqb_spec c bc) as [Y|Y]; (split; [nra|split; intros W; [nra|]]);
      destruct W as [W _]; apply same_path_iff in W; unfold is_best in B; congruence.
Qed.
(** when it works *)
Lemma best_counts cg k o : filed o -> all_different o -> set_of o (key_mode k) <> None -> (cg = false -> exists p, listed_path o p /\ same_trip (pp_key p) k) ->
  exists ex, exists_in cg k o = Ok ex /\ (if ex then length (filter (is_best k) (paths o)) = 1%nat else filter (is_best k) (paths o) = []).
Proof.
  intros F D S I. pose proof (different_count k (paths o) D) as C. unfold exists_in. destruct cg.
  - destruct (set_of o (key_mode k)) as [ps|] eqn:E; [|congruence]. exists (is_in_set k ps). split; [reflexivity|]. destruct (is_in_set k ps) eqn:X.
    + apply existsb_exists in X as (p & X1 & X2). apply same_path_iff in X2.
      assert (1 <= length (filter (is_best k) (paths o)))%nat; [|lia]. apply (in_count k o p); [|assumption]. apply listed_iff. exists (key_mode k), ps. split; [now apply set_of_in|assumption].
    + apply filed_none; [assumption|]. intros ps' E'. congruence.
  - exists true. split; [reflexivity|]. destruct (I eq_refl) as (p & I1 & I2). apply listed_iff in I1. pose proof (in_count k o p I1 I2). lia.
Qed.
Lemma choice_total de cg iter demand k t o : filed o -> all_different o -> set_of o (key_mode k) <> None ->
  (cg = false -> exists p, listed_path o p /\ same_trip (pp_key p) k) -> exists o', update_choice de cg iter demand k t o = Ok o'.
Proof.
  intros F D S I. destruct (best_counts cg k o F D S I) as (ex & E & C). unfold update_choice. rewrite E. cbn [bind]. destruct ex.
  - now apply move_total.
  - destruct (push_total (PP k (fun _ => 0) []) o S) as (o1 & P). rewrite P. cbn [bind]. apply move_total. eapply push_count; eassumption.
Qed.

(** with fixed departure times *)
Definition shifted (c : nat) (p p' : ppath) : Prop := pp_key p' = pp_key p /\ forall c', c' <> c -> pp_flow p' c' == pp_flow p c'.
Lemma fixed_ok de cg root demand k o c o' : fixed_column de cg root demand k o c = Ok o' ->
  exists o1, perhaps_with k o o1 /\ (forall c', leaving o' c' == leaving o1 c') /\
    path_by_path (fun p p' => shifted c p p' /\
      (0 <= de_step de / root <= 1 -> (forall q, listed_path o1 q -> 0 <= pp_flow q c) ->
       0 <= pp_flow p' c /\ (~ same_trip (pp_key p) k -> pp_flow p' c == pp_flow p c * (1 - de_step de / root)) /\ (same_trip (pp_key p) k -> pp_flow p c <= pp_flow p' c))) o1 o'.
Proof.
  unfold fixed_column. intros H. apply bind_ok in H as (ex & Hex & H). apply bind_ok in H as (o1 & H1 & H). apply bind_ok in H as (o2 & H2 & H).
  apply bind_ok in H as (u & _ & H). apply Ok_inj in H. subst o2. exists o1. split.
  { destruct ex; [apply Ok_inj in H1; now left|now apply push_perhaps in H1]. }
  apply move_ok in H2 as (_ & F & L). set (tot := sumQ _) in F, L. split.
  - intros c'. rewrite L. destruct (Nat.eqb_spec c' c) as [->|NE].
    + match goal with |- _ - ?X + _ == _ => assert (T : tot == X) end.
      { unfold tot. apply sum_ext. intros p _. cbn [map]. unfold sumQ. cbn [fold_right]. rewrite ?Nat.eqb_refl. ring. }
      rewrite T. ring.
    + rewrite (sum_ext _ (fun _ => 0)).
      * rewrite sum_zero. ring.
      * intros p _. rewrite andb_false_r. reflexivity.
  - assert (SD : forall x, x * de_step de / root == x * (de_step de / root)) by (intros x; unfold Qdiv; ring).
    revert F. apply by_path_imp. intros p p' Hp (E1 & _ & E). split; [split; [exact E1|]|].
    + intros c' NE. specialize (E c'). apply Nat.eqb_neq in NE. rewrite NE, !andb_false_r in E. rewrite E. ring.
    + intros [R1 R2] P. specialize (E c). rewrite Nat.eqb_refl, !andb_true_r in E. pose proof (P p Hp) as Pc.
      assert (T : 0 <= tot).
      { unfold tot. apply sum_pos. intros q Hq. apply listed_iff in Hq. specialize (P q Hq). cbn [map]. unfold sumQ. cbn [fold_right]. rewrite Nat.eqb_refl, andb_true_r.
        destruct (negb (is_best k q)); [rewrite SD; nra|lra]. }
      destruct (is_best k p) eqn:B; cbn [negb] in E.
      * split; [lra|]. split; intros W; [|lra]. exfalso. apply W. now apply same_path_iff.
      * rewrite SD in E. split; [rewrite E; nra|]. split; intros W; [rewrite E; ring|]. apply same_path_iff in W. unfold is_best in B. congruence.
Qed.
Lemma check_close (a b p : Q) : 0 <= p -> a == b -> Qle_bool (Qabs (a - b)) (p * Qmax (Qabs a) (Qabs b)) = true.
Proof.
  intros P E. apply Qle_bool_iff. setoid_replace (a - b) with 0 by (rewrite E; ring). change (Qabs 0) with 0.
  assert (0 <= Qmax (Qabs a) (Qabs b)). { eapply Qle_trans; [apply (Qabs_nonneg a)|apply Q.le_max_l]. } nra.
Qed.
Lemma fixed_total de cg root demand k o c : filed o -> all_different o -> set_of o (key_mode k) <> None ->
  (cg = false -> exists p, listed_path o p /\ same_trip (pp_key p) k) -> leaving o c == demand c -> exists o', fixed_column de cg root demand k o c = Ok o'.
Proof.
  intros F D S I L. destruct (best_counts cg k o F D S I) as (ex & E & C). unfold fixed_column. rewrite E. cbn [bind].
  assert (X : exists o1, (if ex then Ok o else push_path (PP k (fun _ => 0) []) o) = Ok o1 /\ length (filter (is_best k) (paths o1)) = 1%nat /\ leaving o1 c == leaving o c).
  { destruct ex; [exists o; split; [reflexivity|split; [assumption|reflexivity]]|].
    destruct (push_total (PP k (fun _ => 0) []) o S) as (o1 & P). exists o1. split; [assumption|]. split; [eapply push_count; eassumption|].
    apply (perhaps_leaving k). now apply push_perhaps in P. }
  destruct X as (o1 & -> & N & L1). cbn [bind]. 
  match goal with |- exists o', (do o2 <- move_to_best ?a ?b ?x ?y ?z; _) = _ => destruct (move_total a b x y z N) as (o2 & M) end.
  rewrite M. cbn [bind]. apply move_ok in M as (_ & _ & M). specialize (M c). rewrite Nat.eqb_refl in M.
  assert (EQ : column_total o2 c == demand c).
  { change (leaving o2 c == demand c). rewrite M, L1, L. match goal with |- _ - ?X + ?Y == _ => assert (T : Y == X) end.
    { apply sum_ext. intros p _. cbn [map]. unfold sumQ. cbn [fold_right]. rewrite ?Nat.eqb_refl. ring. }
    rewrite T. ring. }
  rewrite (check_close _ _ (1 # 1000000)); [cbn [guard bind]; eauto|lra|exact EQ].
Qed.
Lemma perhaps_by_path_nonneg n o1 o' (R : ppath -> ppath -> Prop) : path_by_path R o1 o' -> (forall p p', listed_path o1 p -> R p p' -> forall c, (c < n)%nat -> 0 <= pp_flow p' c) -> no_negative n o'.
Proof. intros F H p' c Hp Hc. destruct (by_path_listed _ _ _ _ F Hp) as (p & I & HR). eapply H; eassumption. Qed.
Lemma update_fixed_ok de cg root demand pick o o' : update_fixed de cg root demand pick o = Ok o' ->
  (forall c, leaving o' c == leaving o c) /\ (0 <= de_step de / root <= 1 -> no_negative (de_total de) o -> no_negative (de_total de) o').
Proof.
  unfold update_fixed. set (n := de_total de). assert (G : forall cs o o', (forall c, In c cs -> (c < n)%nat) -> foldM (fun o c => do k <- pick o c; fixed_column de cg root demand k o c) o cs = Ok o' ->
    (forall c, leaving o' c == leaving o c) /\ (0 <= de_step de / root <= 1 -> no_negative n o -> no_negative n o')).
  { clear o o'. induction cs as [|c cs IH]; intros o o' B H; cbn [foldM] in H.
    - apply Ok_inj in H. subst. split; [reflexivity|auto].
    - apply bind_ok in H as (o1 & H1 & H). apply bind_ok in H1 as (k & _ & H1). apply fixed_ok in H1 as (o0 & P & L & F).
      destruct (IH o1 o') as [I1 I2]; [intros; apply B; now right|exact H|]. split.
      + intros c'. rewrite I1, L. now apply (perhaps_leaving k).
      + intros R N0. apply I2; [assumption|]. pose proof (perhaps_nonneg k n o o0 P N0) as N1.
        eapply perhaps_by_path_nonneg; [exact F|]. intros p p' Hp ((_ & S2) & S3) c' Hc'. destruct (Nat.eq_dec c' c) as [->|NE].
        * apply S3; [assumption|]. intros q Hq. apply N1; [assumption|]. apply B. now left.
        * rewrite S2 by assumption. now apply N1. }
  intros H. eapply G; [|exact H]. intros c Hc. apply in_seq in Hc. lia.
Qed.
