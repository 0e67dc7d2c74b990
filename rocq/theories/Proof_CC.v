(** Proofs about cumulative curves. *)
From Verif Require Import Base Base_lemmas Model_Num Proof_Num Model_CC Spec_CC.
Local Open Scope Q_scope.

Ltac qcases :=
  repeat match goal with
  | |- context [Qabs ?x] =>
      let H := fresh in let E := fresh in
      destruct (Qlt_le_dec x 0) as [H|H];
      [ assert (E : Qabs x == - x) by (apply Qabs_neg; lra) | assert (E : Qabs x == x) by (apply Qabs_pos; lra) ];
      generalize dependent (Qabs x); intros
  | H' : context [Qabs ?x] |- _ =>
      let H := fresh in let E := fresh in
      destruct (Qlt_le_dec x 0) as [H|H];
      [ assert (E : Qabs x == - x) by (apply Qabs_neg; lra) | assert (E : Qabs x == x) by (apply Qabs_pos; lra) ];
      generalize dependent (Qabs x); intros
  end;
  repeat match goal with
  | |- context [Qmax ?x ?y] =>
      let H := fresh in let E := fresh in
      destruct (Q.max_spec x y) as [[H E]|[H E]]; generalize dependent (Qmax x y); intros
  | H' : context [Qmax ?x ?y] |- _ =>
      let H := fresh in let E := fresh in
      destruct (Q.max_spec x y) as [[H E]|[H E]]; generalize dependent (Qmax x y); intros
  end.

Lemma approx_lt_iff a b : approx_lt a b tol = true <-> a + tol * Qmax (Qabs a) (Qabs b) < b.
Proof. unfold approx_lt. apply Qltb_lt. Qed.
Lemma approx_lt_spec a b : reflect (a + tol * Qmax (Qabs a) (Qabs b) < b) (approx_lt a b tol).
Proof. unfold approx_lt. apply Qltb_spec. Qed.
Lemma approx_eq_spec a b : reflect (Qabs (a - b) <= tol * Qmax (Qabs a) (Qabs b)) (approx_eq a b tol).
Proof. unfold approx_eq. apply Qleb_spec. Qed.

Lemma approx_lt_lt a b : approx_lt a b tol = true -> a < b.
Proof. rewrite approx_lt_iff. unfold tol. qcases; lra. Qed.
Lemma approx_lt_mono a a' b : a <= a' -> approx_lt a' b tol = true -> approx_lt a b tol = true.
Proof. rewrite !approx_lt_iff. unfold tol. intros. qcases; lra. Qed.
Lemma not_approx_lt_eq a b : approx_lt a b tol = false -> approx_eq a b tol = false -> b < a.
Proof.
  destruct (approx_lt_spec a b) as [|H1]; [discriminate|]. destruct (approx_eq_spec a b) as [|H2]; [discriminate|].
  intros _ _. unfold tol in *. qcases; lra.
Qed.
Lemma approx_eq_refl a b : a == b -> approx_eq a b tol = true.
Proof. intros E. destruct (approx_eq_spec a b) as [|H]; [reflexivity|]. exfalso; apply H. unfold tol. qcases; lra. Qed.
Lemma not_approx_lt_ge a b : b <= a -> approx_lt a b tol = false.
Proof. intros H. destruct (approx_lt a b tol) eqn:E; [|reflexivity]. apply approx_lt_lt in E. lra. Qed.
Lemma sep_sym a b : separated a b -> separated b a.
Proof. unfold separated. intros [H|H]; [left; lra|right]. rewrite Qabs_Qminus. rewrite Q.max_comm. exact H. Qed.
Lemma sep_lt a b : separated a b -> a < b -> approx_lt a b tol = true.
Proof. intros [H|H] L; [lra|]. apply approx_lt_iff. unfold tol. qcases; lra. Qed.
Lemma sep_eq a b : separated a b -> approx_eq a b tol = true -> a == b.
Proof. intros [H|H] L; [exact H|]. destruct (approx_eq_spec a b) as [C|]; [|discriminate]. unfold tol in *. lra. Qed.

Lemma whole_sep a b : whole_time a -> whole_time b -> separated a b.
Proof.
  intros (x & Hx & Ex) (y & Hy & Ey). unfold separated.
  destruct (Z.eq_dec x y) as [->|N]; [left; lra|right].
  assert (0 <= a <= 9999). { rewrite Ex. split; [apply injZ_nonneg; lia|]. change 9999 with (inject_Z 9999). apply injZ_le; lia. }
  assert (0 <= b <= 9999). { rewrite Ey. split; [apply injZ_nonneg; lia|]. change 9999 with (inject_Z 9999). apply injZ_le; lia. }
  assert (D : a + 1 <= b \/ b + 1 <= a).
  { destruct (Z_lt_le_dec x y).
    - left. rewrite Ex, Ey, <- injZ_succ. apply injZ_le. lia.
    - right. rewrite Ex, Ey, <- injZ_succ. apply injZ_le. lia. }
  qcases; lra.
Qed.

(** [lower_bound] *)
Lemma nth_error_Some_ex {A} (l : list A) n : (n < length l)%nat -> exists x, nth_error l n = Some x.
Proof. intros H. destruct (nth_error l n) eqn:E; [eauto|]. apply nth_error_None in E. lia. Qed.

Lemma lower_bound_loop_spec comp c fuel : forall first len,
  (len < fuel)%nat -> (first + len <= length c)%nat ->
  (forall i k ri rk, (i < k)%nat -> nth_error c i = Some ri -> nth_error c k = Some rk ->
     comp rk = true -> comp ri = true) ->
  let j := lower_bound_loop fuel comp c first len in
  (first <= j <= first + len)%nat /\
  (forall i r, (first <= i < j)%nat -> nth_error c i = Some r -> comp r = true) /\
  (forall i r, (j <= i < first + len)%nat -> nth_error c i = Some r -> comp r = false).
Proof.
  induction fuel as [|fuel IH]; intros first len Hf Hl Hm; [lia|].
  cbn [lower_bound_loop]. destruct (Nat.eqb_spec len 0) as [->|Hn].
  - split; [lia|]. split; intros; lia.
  - assert (Hh : (len / 2 < len)%nat) by (apply Nat.div_lt; lia).
    destruct (nth_error_Some_ex c (first + len / 2)) as (x & Ex); [lia|]. rewrite Ex.
    destruct (comp x) eqn:Cx.
    + destruct (IH (first + len / 2 + 1)%nat (len - len / 2 - 1)%nat) as (A & B & C); [lia|lia|exact Hm|].
      split; [lia|]. split.
      * intros i r Hi Er. destruct (Nat.lt_ge_cases i (first + len / 2 + 1)) as [L|G].
        -- destruct (Nat.eq_dec i (first + len / 2)) as [->|Ne].
           ++ rewrite Ex in Er. injection Er as <-. exact Cx.
           ++ eapply (Hm i (first + len / 2)%nat); eauto; lia.
        -- apply (B i r); [lia|exact Er].
      * intros i r Hi Er. apply (C i r); [lia|exact Er].
    + destruct (IH first (len / 2)%nat) as (A & B & C); [lia|lia|exact Hm|].
      split; [lia|]. split.
      * exact B.
      * intros i r Hi Er. destruct (Nat.lt_ge_cases i (first + len / 2)) as [L|G].
        -- apply (C i r); [lia|exact Er].
        -- destruct (Nat.eq_dec i (first + len / 2)) as [->|Ne].
           ++ rewrite Ex in Er. injection Er as <-. exact Cx.
           ++ destruct (comp r) eqn:Cr; [|reflexivity].
              rewrite (Hm (first + len / 2)%nat i x r) in Cx; [discriminate|lia|exact Ex|exact Er|exact Cr].
Qed.

Lemma lower_bound_spec comp c len :
  (len <= length c)%nat ->
  (forall i k ri rk, (i < k)%nat -> nth_error c i = Some ri -> nth_error c k = Some rk ->
     comp rk = true -> comp ri = true) ->
  let j := lower_bound comp c len in
  (j <= len)%nat /\
  (forall i r, (i < j)%nat -> nth_error c i = Some r -> comp r = true) /\
  (forall i r, (j <= i < len)%nat -> nth_error c i = Some r -> comp r = false).
Proof.
  intros Hl Hm j. destruct (lower_bound_loop_spec comp c (S len) 0 len) as (A & B & C); [lia|lia|exact Hm|].
  fold (lower_bound comp c len) in A, B, C. fold j in A, B, C.
  split; [lia|]. split; intros i r Hi; [apply B|apply C]; lia.
Qed.

(** last element *)
Lemma last_opt_nil {A} : @last_opt A [] = None.
Proof. reflexivity. Qed.
Lemma last_opt_snoc {A} (l : list A) x : last_opt (l ++ [x]) = Some x.
Proof.
  unfold last_opt. rewrite app_length. simpl. rewrite nth_error_app2 by lia.
  replace (length l + 1 - 1 - length l)%nat with 0%nat by lia. reflexivity.
Qed.
Lemma removelast_snoc {A} (l : list A) x : removelast (l ++ [x]) = l.
Proof. rewrite removelast_app by discriminate. simpl. apply app_nil_r. Qed.

Lemma nth_snoc {A} (l : list A) x i r : nth_error (l ++ [x]) i = Some r ->
  ((i < length l)%nat /\ nth_error l i = Some r) \/ (i = length l /\ r = x).
Proof.
  intros H. destruct (Nat.lt_ge_cases i (length l)) as [L|G].
  - left. split; [exact L|]. now rewrite nth_error_app1 in H by exact L.
  - right. rewrite nth_error_app2 in H by exact G.
    destruct (i - length l)%nat eqn:E; simpl in H.
    + split; [lia|congruence].
    + destruct n; discriminate.
Qed.

Lemma value_at_snoc d c x t :
  value_at d (c ++ [x]) t = if Qle_bool (fst x) t then snd x else value_at d c t.
Proof.
  revert d. induction c as [|y c IH]; intros d; simpl.
  - reflexivity.
  - destruct (Qle_bool (fst y) t); apply IH.
Qed.
Lemma value_at_split d l1 x l2 t :
  fst x <= t -> (forall y, In y l2 -> t < fst y) -> value_at d (l1 ++ x :: l2) t = snd x.
Proof.
  intros Hx Hl. revert d. induction l1 as [|y l1 IH]; intros d; simpl.
  - rewrite (proj2 (Qle_bool_iff _ _) Hx). clear Hx. 
    generalize (snd x). induction l2 as [|z l2 IH]; intros v; simpl; [reflexivity|].
    assert (Hz : t < fst z) by (apply Hl; left; reflexivity).
    rewrite (proj2 (Qleb_gt _ _) Hz). apply IH. intros y Hy. apply Hl. right. exact Hy.
  - destruct (Qle_bool (fst y) t); apply IH.
Qed.

Lemma amount_until_snoc incs r t :
  amount_until (incs ++ [r]) t == amount_until incs t + (if Qle_bool (fst r) t then snd r else 0).
Proof.
  unfold amount_until. rewrite filter_app, map_app, sumQ_app. simpl.
  destruct (Qle_bool (fst r) t); simpl; lra.
Qed.

(** structure after one increment *)
Lemma add_increment_inv c r c' :
  add_increment c r = Ok c' ->
  (c = [] /\ c' = [r]) \/
  (exists l b, c = l ++ [b] /\
    ((approx_eq (fst r) (fst b) tol = true /\ c' = l ++ [(fst b, snd b + snd r)]) \/
     (fst b < fst r /\ approx_eq (fst r) (fst b) tol = false /\ c' = l ++ [b] ++ [(fst r, snd r + snd b)]))).
Proof.
  unfold add_increment. destruct c as [|y c0] using rev_ind.
  - rewrite last_opt_nil. injection 1 as <-. left. auto.
  - clear IHc0. rewrite last_opt_snoc, removelast_snoc.
    destruct (approx_lt (fst r) (fst y) tol) eqn:L; [discriminate|].
    destruct (approx_eq (fst r) (fst y) tol) eqn:E; injection 1 as <-; right; exists c0, y; split; auto.
    right. split; [|split; [exact E|now rewrite <- app_assoc]].
    now apply not_approx_lt_eq.
Qed.

Lemma times_increase_prefix c x : times_increase (c ++ [x]) -> times_increase c.
Proof.
  intros H i k ri rk L Ei Ek. apply (H i k); [exact L| |].
  - rewrite nth_error_app1; [exact Ei|]. apply nth_error_Some. congruence.
  - rewrite nth_error_app1; [exact Ek|]. apply nth_error_Some. congruence.
Qed.
Lemma values_nondecrease_prefix c x : values_nondecrease (c ++ [x]) -> values_nondecrease c.
Proof.
  intros H i k ri rk L Ei Ek. apply (H i k); [exact L| |].
  - rewrite nth_error_app1; [exact Ei|]. apply nth_error_Some. congruence.
  - rewrite nth_error_app1; [exact Ek|]. apply nth_error_Some. congruence.
Qed.

Lemma times_increase_snoc c x :
  times_increase c -> (forall y, In y c -> fst y < fst x) -> times_increase (c ++ [x]).
Proof.
  intros H Hl i k ri rk L Ei Ek.
  apply nth_snoc in Ek. destruct Ek as [[Lk Ek]|[-> ->]].
  - rewrite nth_error_app1 in Ei by lia. exact (H i k ri rk L Ei Ek).
  - rewrite nth_error_app1 in Ei by lia. apply Hl. eapply nth_error_In; eauto.
Qed.
Lemma values_nondecrease_snoc c x :
  values_nondecrease c -> (forall y, In y c -> snd y <= snd x) -> values_nondecrease (c ++ [x]).
Proof.
  intros H Hl i k ri rk L Ei Ek.
  apply nth_snoc in Ek. destruct Ek as [[Lk Ek]|[-> ->]].
  - rewrite nth_error_app1 in Ei by lia. exact (H i k ri rk L Ei Ek).
  - rewrite nth_error_app1 in Ei by lia. apply Hl. eapply nth_error_In; eauto.
Qed.
Lemma times_increase_last c x y : times_increase (c ++ [x]) -> In y c -> fst y < fst x.
Proof.
  intros H Hy. apply In_nth_error in Hy. destruct Hy as (i & Ei).
  assert (L : (i < length c)%nat) by (apply nth_error_Some; congruence).
  apply (H i (length c)); [exact L|now rewrite nth_error_app1|].
  rewrite nth_error_app2 by lia. now rewrite Nat.sub_diag.
Qed.
Lemma values_nondecrease_last c x y : values_nondecrease (c ++ [x]) -> In y c -> snd y <= snd x.
Proof.
  intros H Hy. apply In_nth_error in Hy. destruct Hy as (i & Ei).
  assert (L : (i < length c)%nat) by (apply nth_error_Some; congruence).
  apply (H i (length c)); [exact L|now rewrite nth_error_app1|].
  rewrite nth_error_app2 by lia. now rewrite Nat.sub_diag.
Qed.

Lemma add_increment_sorted c r c' :
  times_increase c -> add_increment c r = Ok c' -> times_increase c'.
Proof.
  intros H E. apply add_increment_inv in E. destruct E as [[-> ->]|(l & b & -> & [[A ->]|[A [_ ->]]])].
  - intros i k ri rk L Ei Ek. destruct k as [|[|k]]; simpl in Ek; [lia|discriminate|discriminate].
  - apply times_increase_snoc; [eapply times_increase_prefix; eauto|].
    intros y Hy. simpl. eapply times_increase_last; eauto.
  - rewrite app_assoc. apply times_increase_snoc; [exact H|]. intros y Hy. simpl.
    apply in_app_or in Hy. destruct Hy as [Hy|[->|[]]]; [|exact A].
    pose proof (times_increase_last l b y H Hy). lra.
Qed.
Lemma add_increment_values c r c' :
  0 <= snd r -> values_nondecrease c -> add_increment c r = Ok c' -> values_nondecrease c'.
Proof.
  intros H0 H E. apply add_increment_inv in E. destruct E as [[-> ->]|(l & b & -> & [[A ->]|[A [_ ->]]])].
  - intros i k ri rk L Ei Ek. destruct k as [|[|k]]; simpl in Ek; [lia|discriminate|discriminate].
  - apply values_nondecrease_snoc; [eapply values_nondecrease_prefix; eauto|].
    intros y Hy. simpl. pose proof (values_nondecrease_last l b y H Hy). lra.
  - rewrite app_assoc. apply values_nondecrease_snoc; [exact H|]. intros y Hy. simpl.
    apply in_app_or in Hy. destruct Hy as [Hy|[->|[]]]; [|lra].
    pose proof (values_nondecrease_last l b y H Hy). lra.
Qed.

Definition last_value (c : curve) : Q := match last_opt c with Some r => snd r | None => 0 end.
Lemma add_increment_last c r c' :
  add_increment c r = Ok c' -> last_value c' == last_value c + snd r.
Proof.
  intros E. unfold last_value. apply add_increment_inv in E.
  destruct E as [[-> ->]|(l & b & -> & [[A ->]|[A [_ ->]]])].
  - change (last_opt [r]) with (Some r). rewrite last_opt_nil. lra.
  - rewrite !last_opt_snoc. simpl. lra.
  - rewrite app_assoc, !last_opt_snoc. simpl. lra.
Qed.

Lemma curve_run c incs c' :
  times_increase c -> values_nondecrease c ->
  (forall r, In r incs -> 0 <= snd r) ->
  foldM add_increment c incs = Ok c' ->
  times_increase c' /\ values_nondecrease c' /\ last_value c' == last_value c + total_amount incs.
Proof.
  revert c. induction incs as [|r incs IH]; intros c Ht Hv Hp E; simpl in E.
  - injection E as <-. unfold total_amount; simpl. repeat split; try assumption. lra.
  - apply bind_ok in E. destruct E as (c1 & E1 & E2).
    assert (Hr : 0 <= snd r) by (apply Hp; left; reflexivity).
    destruct (IH c1) as (A & B & C).
    + eapply add_increment_sorted; eauto.
    + eapply add_increment_values; eauto.
    + intros x Hx. apply Hp. right. exact Hx.
    + exact E2.
    + repeat split; try assumption. rewrite C. rewrite (add_increment_last _ _ _ E1).
      unfold total_amount. simpl. lra.
Qed.

Lemma fresh_sorted : times_increase fresh_curve.
Proof. intros i k ri rk L Ei Ek. destruct k as [|[|k]]; simpl in Ek; [lia|discriminate|discriminate]. Qed.
Lemma fresh_values : values_nondecrease fresh_curve.
Proof. intros i k ri rk L Ei Ek. destruct k as [|[|k]]; simpl in Ek; [lia|discriminate|discriminate]. Qed.

(** acceptance: times never going back are always accepted *)
Lemma add_increment_accepts c r :
  (forall b, last_opt c = Some b -> approx_lt (fst r) (fst b) tol = false) ->
  exists c', add_increment c r = Ok c'.
Proof.
  intros H. unfold add_increment. destruct (last_opt c) as [b|]; [|eauto].
  rewrite (H b eq_refl). destruct (approx_eq _ _ _); eauto.
Qed.

(** lookup *)
Lemma get_result_value_at c x l t :
  c = x :: l -> times_increase c -> fst x <= t ->
  (forall r, In r c -> separated (fst r) t) ->
  exists v, get_result c t = Ok v /\ v == value_at 0 c t.
Proof.
  intros Ec Hs Hx Hsep. subst c. unfold get_result.
  assert (First : fst x == t -> value_at 0 (x :: l) t == snd x).
  { intros Eq. change (x :: l) with ([] ++ x :: l) at 1. rewrite value_at_split; [reflexivity|lra|].
    intros y Hy. apply In_nth_error in Hy. destruct Hy as (i & Ei).
    pose proof (Hs 0%nat (S i) x y ltac:(lia) eq_refl Ei). lra. }
  destruct l as [|y l].
  - exists (snd x). split; [reflexivity|]. simpl. rewrite (proj2 (Qle_bool_iff _ _) Hx). reflexivity.
  - destruct (Qleb_spec t (fst x)) as [Le|Gt].
    + exists (snd x). split; [reflexivity|]. rewrite First by lra. reflexivity.
    + set (c := x :: y :: l) in *. assert (L2 : (2 <= length c)%nat) by (simpl; lia).
      destruct (lower_bound_spec (fun r => approx_lt (fst r) t tol) c (length c)) as (A & B & C); [lia| |].
      { intros i k ri rk L Ei Ek. apply approx_lt_mono. apply Qlt_le_weak. eapply Hs; eauto. }
      set (j := lower_bound _ c (length c)) in *.
      assert (Hj : (1 <= j)%nat).
      { destruct (Nat.eq_dec j 0) as [E0|]; [|lia]. exfalso.
        pose proof (C 0%nat x ltac:(simpl; lia) eq_refl) as F. simpl in F.
        rewrite sep_lt in F; [discriminate| |lra]. apply Hsep. left; reflexivity. }
      assert (E1 : (1 <=? j)%nat = true) by (apply Nat.leb_le; exact Hj).
      rewrite E1. simpl guard. cbn [bind].
      destruct (nth_error c j) as [rj|] eqn:Ej.
      * assert (Lj : (j < length c)%nat) by (apply nth_error_Some; congruence).
        pose proof (C j rj ltac:(lia) Ej) as NL. simpl in NL.
        assert (Sj : separated (fst rj) t) by (apply Hsep; eapply nth_error_In; eauto).
        destruct (approx_eq (fst rj) t tol) eqn:AE.
        -- apply (sep_eq _ _ Sj) in AE. exists (snd rj). split; [reflexivity|].
           destruct (nth_error_split _ _ Ej) as (l1 & l2 & Sp & Len).
           rewrite Sp. rewrite value_at_split; [reflexivity|lra|].
           intros z Hz. apply In_nth_error in Hz. destruct Hz as (i & Ei).
           assert (Ek : nth_error c (length l1 + S i) = Some z).
           { rewrite Sp. rewrite nth_error_app2 by lia. replace (length l1 + S i - length l1)%nat with (S i) by lia. exact Ei. }
           pose proof (Hs j (length l1 + S i)%nat rj z ltac:(lia) Ej Ek). lra.
        -- assert (G : t < fst rj).
           { destruct (Qlt_le_dec t (fst rj)) as [G|G]; [exact G|exfalso].
             destruct (Qlt_le_dec (fst rj) t) as [G'|G'].
             - rewrite (sep_lt _ _ Sj G') in NL. discriminate.
             - rewrite approx_eq_refl in AE; [discriminate|lra]. }
           rewrite (proj2 (Qltb_lt _ _) G).
           destruct (nth_error_Some_ex c (j - 1)) as (rp & Ep); [lia|]. rewrite Ep.
           exists (snd rp). split; [reflexivity|].
           destruct (nth_error_split _ _ Ep) as (l1 & l2 & Sp & Len).
           pose proof (B (j-1)%nat rp ltac:(lia) Ep) as Lt. simpl in Lt. apply approx_lt_lt in Lt.
           rewrite Sp. rewrite value_at_split; [reflexivity|lra|].
           intros z Hz. apply In_nth_error in Hz. destruct Hz as (i & Ei).
           assert (Ek : nth_error c (j + i) = Some z).
           { rewrite Sp. rewrite nth_error_app2 by lia. replace (j + i - length l1)%nat with (S i) by lia. exact Ei. }
           destruct (Nat.eq_dec i 0) as [->|Ni].
           ++ rewrite Nat.add_0_r in Ek. rewrite Ek in Ej. injection Ej as ->. exact G.
           ++ pose proof (Hs j (j + i)%nat rj z ltac:(lia) Ej Ek). lra.
      * assert (Lj : (j = length c)%nat) by (apply nth_error_None in Ej; lia).
        unfold last_opt. destruct (nth_error_Some_ex c (length c - 1)) as (rp & Ep); [simpl; lia|]. rewrite Ep.
        exists (snd rp). split; [reflexivity|].
        destruct (nth_error_split _ _ Ep) as (l1 & l2 & Sp & Len).
        assert (l2 = []) as ->.
        { destruct l2; [reflexivity|]. apply (f_equal (@length _)) in Sp. rewrite app_length in Sp. cbn [length] in Sp. unfold c in *. cbn [length] in *. lia. }
        pose proof (B (length c-1)%nat rp ltac:(lia) Ep) as Lt. simpl in Lt. apply approx_lt_lt in Lt.
        rewrite Sp. rewrite value_at_split; [reflexivity|lra|]. intros z [].
Qed.

(** late queries return the last value *)
Lemma get_result_late c b t :
  times_increase c -> last_opt c = Some b -> fst b <= t ->
  (forall r, In r c -> separated (fst r) (fst b)) -> 0 <= fst b ->
  get_result c t = Ok (snd b).
Proof.
  intros Hs Hb Ht Hsep Hb0. unfold get_result.
  destruct c as [|x [|y l]]; [discriminate| |].
  - unfold last_opt in Hb. simpl in Hb. injection Hb as ->. reflexivity.
  - set (c := x :: y :: l) in *. assert (L2 : (2 <= length c)%nat) by (simpl; lia).
    assert (NZ : forall i r, (i < length c - 1)%nat -> nth_error c i = Some r -> approx_lt (fst r) t tol = true).
    { intros i r Hi Er. assert (fst r < fst b) by (eapply (Hs i (length c - 1)%nat); eauto).
      assert (S1 : separated (fst r) (fst b)) by (apply Hsep; eapply nth_error_In; eauto).
      pose proof (sep_lt _ _ S1 H) as L. apply approx_lt_iff in L. apply approx_lt_iff.
      unfold tol in *. qcases; lra. }
    destruct (Qleb_spec t (fst x)) as [Le|Gt].
    + pose proof (NZ 0%nat x ltac:(simpl; lia) eq_refl) as L. apply approx_lt_lt in L. lra.
    + destruct (lower_bound_spec (fun r => approx_lt (fst r) t tol) c (length c)) as (A & B & C); [lia| |].
      { intros i k ri rk L Ei Ek. apply approx_lt_mono. apply Qlt_le_weak. eapply Hs; eauto. }
      set (j := lower_bound _ c (length c)) in *.
      assert (Hj : (length c - 1 <= j)%nat).
      { destruct (Nat.lt_ge_cases j (length c - 1)) as [L|]; [exfalso|assumption].
        destruct (nth_error_Some_ex c j) as (r & Er); [lia|].
        pose proof (C j r ltac:(lia) Er) as F. simpl in F. rewrite (NZ j r L Er) in F. discriminate. }
      assert (E1 : (1 <=? j)%nat = true) by (apply Nat.leb_le; lia).
      rewrite E1. simpl guard. cbn [bind].
      destruct (nth_error c j) as [rj|] eqn:Ej.
      * assert (Lj : (j < length c)%nat) by (apply nth_error_Some; congruence).
        assert (E2 : j = (length c - 1)%nat) by lia.
        unfold last_opt in Hb. rewrite E2 in Ej. rewrite Hb in Ej. injection Ej as <-.
        destruct (approx_eq (fst b) t tol); [reflexivity|].
        rewrite (proj2 (Qltb_ge _ _) Ht). unfold last_opt. rewrite Hb. reflexivity.
      * rewrite Hb. reflexivity.
Qed.
