(** Cumulative curves: building from increments, lookup, inverse lookup. *)
From Verif Require Import Base Base_lemmas Model_Num Proof_Num Model_CC Spec_CC Proof_CC.
Local Open Scope Q_scope.

Lemma sep_comp_l a a' b : a == a' -> separated a b -> separated a' b.
Proof. intros E H. unfold separated in *. rewrite <- E. exact H. Qed.

Lemma build_inv incs :
  times_nondecreasing incs ->
  (forall r, In r incs -> 0 <= fst r /\ separated (fst r) 0) ->
  (forall r r', In r incs -> In r' incs -> separated (fst r) (fst r')) ->
  exists c, foldM add_increment fresh_curve incs = Ok c /\
    times_increase c /\
    (exists v l, c = (0, v) :: l) /\
    (forall r, In r c -> fst r == 0 \/ exists r', In r' incs /\ fst r == fst r') /\
    (forall t, 0 <= t -> value_at 0 c t == amount_until incs t) /\
    (forall r, In r incs -> exists b, last_opt c = Some b /\ fst r <= fst b).
Proof.
  induction incs as [|r incs IH] using rev_ind; intros Hm H0 Hs.
  - exists fresh_curve. split; [reflexivity|]. split; [apply fresh_sorted|]. split; [exists 0, []; reflexivity|].
    split; [|split].
    + intros r [<-|[]]. left. reflexivity.
    + intros t Ht. simpl. rewrite (proj2 (Qle_bool_iff _ _) Ht). reflexivity.
    + intros r [].
  - destruct IH as (c & Ec & Hsorted & (v & l & Hd) & Hfrom & Hval & Hlast).
    { intros i k ri rk L Ei Ek. apply (Hm i k); [exact L| |]; (rewrite nth_error_app1; [assumption|apply nth_error_Some; congruence]). }
    { intros x Hx. apply H0. apply in_or_app. left. exact Hx. }
    { intros x y Hx Hy. apply Hs; apply in_or_app; left; assumption. }
    rewrite foldM_app, Ec. cbn [bind foldM].
    assert (Hr : In r (incs ++ [r])) by (apply in_or_app; right; left; reflexivity).
    assert (Hge : forall x, In x c -> fst x <= fst r).
    { intros x Hx. destruct (Hfrom x Hx) as [E|(x' & Hx' & E)].
      - rewrite E. apply (proj1 (H0 r Hr)).
      - rewrite E. apply In_nth_error in Hx'. destruct Hx' as (i & Ei).
        assert (L : (i < length incs)%nat) by (apply nth_error_Some; congruence).
        apply (Hm i (length incs)); [exact L|now rewrite nth_error_app1|].
        rewrite nth_error_app2 by lia. now rewrite Nat.sub_diag. }
    assert (Hsr : forall x, In x c -> separated (fst x) (fst r)).
    { intros x Hx. destruct (Hfrom x Hx) as [E|(x' & Hx' & E)].
      - apply (sep_comp_l 0); [symmetry; exact E|]. apply sep_sym. apply (proj2 (H0 r Hr)).
      - apply (sep_comp_l (fst x')); [symmetry; exact E|]. apply Hs; [apply in_or_app; left; exact Hx'|exact Hr]. }
    destruct (add_increment_accepts c r) as (c' & Ec').
    { intros b Hb. apply not_approx_lt_ge. apply Hge. eapply nth_error_In. exact Hb. }
    rewrite Ec'. cbn [bind].
    exists c'. split; [reflexivity|]. split; [eapply add_increment_sorted; eauto|].
    pose proof Ec' as E2. apply add_increment_inv in E2.
    destruct E2 as [[-> _]|(l0 & b & Ecc & E2)]; [discriminate|].
    assert (Hb : In b c) by (rewrite Ecc; apply in_or_app; right; left; reflexivity).
    assert (Hlb : last_opt c = Some b) by (rewrite Ecc; apply last_opt_snoc).
    destruct E2 as [[A Ec2]|[A [_ Ec2]]].
    + assert (Eb : fst b == fst r). { apply sep_eq; [apply Hsr; exact Hb|]. destruct (approx_eq (fst b) (fst r) tol) eqn:X; [reflexivity|].
        destruct (approx_eq_spec (fst r) (fst b)) as [Y|]; [|discriminate]. destruct (approx_eq_spec (fst b) (fst r)) as [|Y']; [discriminate|].
        exfalso. apply Y'. rewrite Qabs_Qminus, Q.max_comm. exact Y. }
      split; [|split; [|split]].
      * destruct l0 as [|h l0].
        -- rewrite Hd in Ecc. simpl in Ecc. injection Ecc as <- ->. subst c'. simpl. eauto.
        -- rewrite Hd in Ecc. simpl in Ecc. injection Ecc as <- ->. subst c'. simpl. eauto.
      * intros x Hx. subst c'. apply in_app_or in Hx. destruct Hx as [Hx|[<-|[]]].
        -- destruct (Hfrom x) as [E|(x' & Hx' & E)]; [rewrite Ecc; apply in_or_app; left; exact Hx|left; exact E|].
           right. exists x'. split; [apply in_or_app; left; exact Hx'|exact E].
        -- right. exists r. split; [exact Hr|]. simpl. exact Eb.
      * intros t Ht. rewrite amount_until_snoc, <- (Hval t Ht). subst c'. rewrite Ecc.
        rewrite !value_at_snoc. simpl.
        destruct (Qleb_spec (fst b) t); destruct (Qleb_spec (fst r) t); lra.
      * intros x Hx. exists (fst b, snd b + snd r). split; [subst c'; apply last_opt_snoc|]. simpl.
        apply in_app_or in Hx. destruct Hx as [Hx|[<-|[]]]; [|lra].
        destruct (Hlast x Hx) as (b' & Hb' & Hle). rewrite Hlb in Hb'. injection Hb' as <-. exact Hle.
    + split; [|split; [|split]].
      * rewrite Hd in Ecc. rewrite app_assoc, <- Ecc in Ec2. subst c'. simpl. eauto.
      * intros x Hx. rewrite app_assoc, <- Ecc in Ec2. subst c'. apply in_app_or in Hx. destruct Hx as [Hx|[<-|[]]].
        -- destruct (Hfrom x Hx) as [E|(x' & Hx' & E)]; [left; exact E|].
           right. exists x'. split; [apply in_or_app; left; exact Hx'|exact E].
        -- right. exists r. split; [exact Hr|]. reflexivity.
      * intros t Ht. rewrite amount_until_snoc, <- (Hval t Ht). rewrite app_assoc in Ec2. subst c'. rewrite Ecc.
        rewrite !value_at_snoc. simpl.
        destruct (Qleb_spec (fst r) t); destruct (Qleb_spec (fst b) t); lra.
      * intros x Hx. exists (fst r, snd r + snd b). split; [subst c'; rewrite app_assoc; apply last_opt_snoc|]. simpl.
        apply in_app_or in Hx. destruct Hx as [Hx|[<-|[]]]; [|lra].
        destruct (Hlast x Hx) as (b' & Hb' & Hle). rewrite Hlb in Hb'. injection Hb' as <-. lra.
Qed.

Lemma whole_zero : whole_time 0.
Proof. exists 0%Z. split; [lia|reflexivity]. Qed.
Lemma whole_nonneg t : whole_time t -> 0 <= t.
Proof. intros (z & Hz & ->). apply injZ_nonneg. lia. Qed.

Lemma curve_lookup incs :
  times_nondecreasing incs ->
  (forall r, In r incs -> whole_time (fst r)) ->
  exists c, foldM add_increment fresh_curve incs = Ok c /\
    (forall t, whole_time t -> exists v, get_result c t = Ok v /\ v == amount_until incs t) /\
    (forall t, t <= 0 -> exists v, get_result c t = Ok v /\ v == amount_until incs 0) /\
    (forall t, (forall r, In r incs -> fst r <= t) -> 0 <= t ->
       exists v, get_result c t = Ok v /\ v == total_amount incs).
Proof.
  intros Hm Hw.
  destruct (build_inv incs Hm) as (c & Ec & Hsorted & (v & l & Hd) & Hfrom & Hval & Hlast).
  { intros r Hr. split; [apply whole_nonneg; auto|]. apply whole_sep; [auto|apply whole_zero]. }
  { intros r r' Hr Hr'. apply whole_sep; auto. }
  assert (Hwc : forall r, In r c -> whole_time (fst r)).
  { intros r Hr. destruct (Hfrom r Hr) as [E|(r' & Hr' & E)].
    - exists 0%Z. split; [lia|exact E].
    - destruct (Hw r' Hr') as (z & Hz & Ez). exists z. split; [exact Hz|lra]. }
  exists c. split; [exact Ec|]. split; [|split].
  - intros t Ht. destruct (get_result_value_at c (0, v) l t Hd Hsorted) as (w & Ew & Ev).
    + simpl. now apply whole_nonneg.
    + intros r Hr. apply whole_sep; auto.
    + exists w. split; [exact Ew|]. rewrite Ev. apply Hval. now apply whole_nonneg.
  - intros t Ht. subst c. exists v. split.
    + unfold get_result. destruct l as [|y l]; [reflexivity|]. simpl fst.
      rewrite (proj2 (Qle_bool_iff _ _) Ht). reflexivity.
    + rewrite <- (Hval 0) by lra.
      change ((0, v) :: l) with ([] ++ (0, v) :: l).
      rewrite value_at_split; [reflexivity|simpl; lra|].
      intros y Hy. apply In_nth_error in Hy. destruct Hy as (i & Ei).
      pose proof (Hsorted 0%nat (S i) (0, v) y ltac:(lia) eq_refl Ei) as X. exact X.
  - intros t Ht H0t.
    assert (Hlo : exists b, last_opt c = Some b).
    { unfold last_opt. apply nth_error_Some_ex. rewrite Hd. simpl. lia. }
    destruct Hlo as (b & Hb).
    assert (Hbin : In b c) by (eapply nth_error_In; exact Hb).
    assert (Hbt : fst b <= t).
    { destruct (Hfrom b Hbin) as [E|(r' & Hr' & E)]; [lra|]. rewrite E. auto. }
    exists (snd b). split.
    + apply get_result_late; auto. intros r Hr. apply whole_sep; auto. apply whole_nonneg; auto.
    + destruct (Qlt_le_dec t (fst b)) as [|_]; [lra|].
      assert (Htot : amount_until incs t == total_amount incs).
      { unfold amount_until, total_amount. clear -Ht. induction incs as [|r incs IH]; simpl; [reflexivity|].
        rewrite (proj2 (Qle_bool_iff _ _)) by (apply Ht; left; reflexivity). simpl. rewrite IH; [reflexivity|].
        intros x Hx. apply Ht. right. exact Hx. }
      rewrite <- Htot, <- Hval by exact H0t.
      destruct c as [|c0 x0 _] using rev_ind; [discriminate|]. rewrite last_opt_snoc in Hb. injection Hb as ->.
      rewrite value_at_snoc, (proj2 (Qle_bool_iff _ _) Hbt). reflexivity.
Qed.

(** interpolated lookup *)
Lemma times_increase_tail x c : times_increase (x :: c) -> times_increase c.
Proof. intros H i k ri rk L Ei Ek. apply (H (S i) (S k) ri rk); [lia|exact Ei|exact Ek]. Qed.
Lemma values_nondecrease_tail x c : values_nondecrease (x :: c) -> values_nondecrease c.
Proof. intros H i k ri rk L Ei Ek. apply (H (S i) (S k) ri rk); [lia|exact Ei|exact Ek]. Qed.
Lemma times_increase_head x y c : times_increase (x :: c) -> In y c -> fst x < fst y.
Proof. intros H Hy. apply In_nth_error in Hy. destruct Hy as (i & Ei). apply (H 0%nat (S i) x y); [lia|reflexivity|exact Ei]. Qed.
Lemma values_nondecrease_head x y c : values_nondecrease (x :: c) -> In y c -> snd x <= snd y.
Proof. intros H Hy. apply In_nth_error in Hy. destruct Hy as (i & Ei). apply (H 0%nat (S i) x y); [lia|reflexivity|exact Ei]. Qed.

Lemma frac_bounds a b t : a < b -> a <= t <= b -> 0 <= (t - a) / (b - a) <= 1.
Proof.
  intros H Ht. split.
  - apply Qle_shift_div_l; lra.
  - apply Qle_shift_div_r; lra.
Qed.

Definition lin (x y : Q * Q) (t : Q) : Q :=
  snd x + (snd y - snd x) / (fst y - fst x) * (t - fst x).
Lemma lin_eq x y t : fst x < fst y -> lin x y t == snd x + (snd y - snd x) * ((t - fst x) / (fst y - fst x)).
Proof. intros H. unfold lin. field. lra. Qed.
Lemma lin_bounds x y t : fst x < fst y -> snd x <= snd y -> fst x <= t <= fst y ->
  snd x <= lin x y t <= snd y.
Proof.
  intros H Hv Ht. rewrite (lin_eq x y t H). destruct (frac_bounds _ _ t H Ht) as [A B].
  set (k := (t - fst x) / (fst y - fst x)) in *. split; nra.
Qed.
Lemma lin_mono x y t t' : fst x < fst y -> snd x <= snd y -> t <= t' -> lin x y t <= lin x y t'.
Proof.
  intros H Hv Ht. unfold lin. apply Qplus_le_r.
  assert (0 <= (snd y - snd x) / (fst y - fst x)) by (apply Qle_shift_div_l; lra). nra.
Qed.
Lemma lin_end x y : fst x < fst y -> lin x y (fst y) == snd y.
Proof. intros H. unfold lin. field. lra. Qed.
Lemma lin_start x y : lin x y (fst x) == snd x.
Proof. unfold lin. setoid_replace (fst x - fst x) with 0 by ring. lra. Qed.

Lemma interp_scan_found x l t :
  times_increase (x :: l) -> fst x < t ->
  (exists l1 p y l2, x :: l = l1 ++ p :: y :: l2 /\ fst p < t <= fst y /\ interp_scan x l t = Ok (lin p y t)) \/
  (exists b, last_opt (x :: l) = Some b /\ fst b < t /\ interp_scan x l t = Ok (snd b)).
Proof.
  revert x. induction l as [|y l IH]; intros x Hs Hx.
  - right. exists x. split; [reflexivity|]. split; [exact Hx|reflexivity].
  - cbn [interp_scan]. pose proof (times_increase_head x y (y :: l) Hs (or_introl eq_refl)) as Hxy.
    destruct (Qleb_spec t (fst y)) as [Le|Gt].
    + left. exists [], x, y, l. split; [reflexivity|]. split; [lra|].
      destruct (Qeqb_spec (fst y - fst x) 0); [lra|]. reflexivity.
    + destruct (IH y (times_increase_tail _ _ Hs)) as [(l1 & p & z & l2 & E & B & R)|(b & B & Lt & R)]; [lra| |].
      * left. exists (x :: l1), p, z, l2. rewrite E. split; [reflexivity|]. split; assumption.
      * right. exists b. split; [|split; assumption].
        unfold last_opt in *. cbn [length] in *. rewrite <- B. 
        replace (S (S (length l)) - 1)%nat with (S (S (length l) - 1)) by lia. reflexivity.
Qed.

(** every answer lies between neighbouring records; exact statement *)
Lemma approx_result_between c t x l :
  c = x :: l -> times_increase c -> values_nondecrease c ->
  exists v, get_approximated_result c t = Ok v /\
    ((t <= fst x /\ v == snd x) \/
     (exists l1 p y l2, c = l1 ++ p :: y :: l2 /\ fst p < t <= fst y /\
        snd p <= v <= snd y /\ (fst y == t -> v == snd y) /\
        v * (fst y - fst p) == snd p * (fst y - t) + snd y * (t - fst p)) \/
     (exists b, last_opt c = Some b /\ fst b < t /\ v == snd b)).
Proof.
  intros -> Hs Hv. unfold get_approximated_result.
  destruct l as [|y l].
  - exists (snd x). split; [reflexivity|]. destruct (Qlt_le_dec (fst x) t); [right; right|left; split; [assumption|reflexivity]].
    exists x. split; [reflexivity|]. split; [assumption|reflexivity].
  - destruct (Qleb_spec t (fst x)) as [Le|Gt].
    + exists (snd x). split; [reflexivity|]. left. split; [exact Le|reflexivity].
    + destruct (interp_scan_found x (y :: l) t Hs) as [(l1 & p & z & l2 & E & B & R)|(b & B & Lt & R)]; [lra| |].
      * exists (lin p z t). split; [exact R|]. right. left. exists l1, p, z, l2. split; [exact E|]. split; [exact B|].
        assert (Hp : nth_error (x :: y :: l) (length l1) = Some p).
        { rewrite E, nth_error_app2 by lia. now rewrite Nat.sub_diag. }
        assert (Hz : nth_error (x :: y :: l) (length l1 + 1) = Some z).
        { rewrite E, nth_error_app2 by lia. replace (length l1 + 1 - length l1)%nat with 1%nat by lia. reflexivity. }
        assert (LL : (length l1 < length l1 + 1)%nat) by lia. pose proof (Hs _ _ _ _ LL Hp Hz) as T. pose proof (Hv _ _ _ _ LL Hp Hz) as V.
        split; [apply lin_bounds; auto; lra|]. split.
        -- intros Et. rewrite <- (lin_end p z T). unfold lin. rewrite Et. reflexivity.
        -- unfold lin. field. lra.
      * exists (snd b). split; [exact R|]. right. right. exists b. split; [exact B|]. split; [exact Lt|reflexivity].
Qed.

Lemma interp_scan_lower x l t v :
  times_increase (x :: l) -> values_nondecrease (x :: l) -> fst x <= t ->
  interp_scan x l t = Ok v -> snd x <= v.
Proof.
  revert x. induction l as [|y l IH]; intros x Hs Hv Hx E; cbn [interp_scan] in E.
  - injection E as <-. lra.
  - pose proof (times_increase_head x y (y :: l) Hs (or_introl eq_refl)) as Hxy.
    pose proof (values_nondecrease_head x y (y :: l) Hv (or_introl eq_refl)) as Vxy.
    destruct (Qleb_spec t (fst y)) as [Le|Gt].
    + destruct (Qeqb_spec (fst y - fst x) 0); [lra|]. injection E as <-.
      apply (lin_bounds x y t); auto; lra.
    + apply (IH y) in E; [lra|eapply times_increase_tail; eauto|eapply values_nondecrease_tail; eauto|lra].
Qed.
Lemma interp_scan_mono x l t t' v v' :
  times_increase (x :: l) -> values_nondecrease (x :: l) -> fst x <= t -> t <= t' ->
  interp_scan x l t = Ok v -> interp_scan x l t' = Ok v' -> v <= v'.
Proof.
  revert x. induction l as [|y l IH]; intros x Hs Hv Hx Htt E E'; cbn [interp_scan] in E, E'.
  - injection E as <-. injection E' as <-. lra.
  - pose proof (times_increase_head x y (y :: l) Hs (or_introl eq_refl)) as Hxy.
    pose proof (values_nondecrease_head x y (y :: l) Hv (or_introl eq_refl)) as Vxy.
    pose proof (times_increase_tail _ _ Hs) as Hs'. pose proof (values_nondecrease_tail _ _ Hv) as Hv'.
    destruct (Qleb_spec t (fst y)) as [Le|Gt]; destruct (Qleb_spec t' (fst y)) as [Le'|Gt']; [| |lra|].
    + destruct (Qeqb_spec (fst y - fst x) 0); [lra|]. injection E as <-. injection E' as <-.
      apply (lin_mono x y t t'); auto.
    + destruct (Qeqb_spec (fst y - fst x) 0); [lra|]. injection E as <-.
      pose proof (proj2 (lin_bounds x y t Hxy Vxy ltac:(lra))) as B. unfold lin in B.
      apply interp_scan_lower in E'; [lra|assumption|assumption|lra].
    + eapply (IH y); eauto. lra.
Qed.
Lemma approx_result_mono c t t' v v' :
  times_increase c -> values_nondecrease c -> t <= t' ->
  get_approximated_result c t = Ok v -> get_approximated_result c t' = Ok v' -> v <= v'.
Proof.
  intros Hs Hv Htt. unfold get_approximated_result. destruct c as [|x [|y l]].
  - injection 1 as <-. injection 1 as <-. lra.
  - injection 1 as <-. injection 1 as <-. lra.
  - destruct (Qleb_spec t (fst x)) as [Le|Gt]; destruct (Qleb_spec t' (fst x)) as [Le'|Gt'].
    + injection 1 as <-. injection 1 as <-. lra.
    + injection 1 as <-. intros E. eapply interp_scan_lower; eauto. lra.
    + lra.
    + intros E E'. eapply (interp_scan_mono x (y :: l) t t'); eauto; lra.
Qed.

(** inverse lookup: with every recorded value separated from the asked one (and
    from each other), the answer is the first time at which the largest recorded
    value not above [n] was reached. *)
Lemma get_time_spec c n x l :
  c = x :: l -> values_nondecrease c ->
  (forall r, In r c -> separated (snd r) n) ->
  (forall r r', In r c -> In r' c -> separated (snd r) (snd r')) ->
  let q := get_time c n false in
  (n <= snd x -> q = Ok (-1 # 1)) /\
  ((forall r, In r c -> snd r < n) -> q = Ok (-1 # 1)) /\
  (snd x < n -> (exists r, In r c /\ n <= snd r) ->
     exists i ri, nth_error c i = Some ri /\ q = Ok (fst ri) /\ snd ri <= n /\
       (forall r, In r c -> snd r <= n -> snd r <= snd ri) /\
       (forall k rk, (k < i)%nat -> nth_error c k = Some rk -> snd rk < snd ri)).
Proof.
  intros Ec Hv Hsep Hss q. subst c.
  assert (H1 : n <= snd x -> q = Ok (-1 # 1)).
  { intros Hx. unfold q, get_time. destruct l; [reflexivity|]. now rewrite (proj2 (Qle_bool_iff _ _) Hx). }
  split; [exact H1|].
  destruct (Qlt_le_dec (snd x) n) as [Hx|Hx].
  2:{ split; [intros _; auto|]. intros C. lra. }
  destruct l as [|y l].
  { split; [intros _; reflexivity|]. intros _ (r & [<-|[]] & Hr). lra. }
  set (c := x :: y :: l) in *. assert (L2 : (2 <= length c)%nat) by (simpl; lia).
  assert (Hq : q = (let j := lower_bound (fun r => approx_lt (snd r) n tol) c (length c) in
        do _ <- guard (1 <=? j)%nat EAssert;
          match nth_error c j with
          | Some rj =>
              if approx_eq (snd rj) n tol then Ok (fst rj)
              else if Qltb n (snd rj) then
                match nth_error c (j - 1) with
                | None => Err EUB
                | Some rp =>
                    let i := lower_bound (fun r => approx_lt (snd r) (snd rp) tol) c j in
                    do _ <- guard (i <? j)%nat EAssert;
                    match nth_error c i with Some r => Ok (fst r) | None => Err EUB end
                end
              else Ok (-1 # 1)%Q
          | None => Ok (-1 # 1)%Q
          end)).
  { unfold q, get_time, c. rewrite (proj2 (Qleb_gt _ _) Hx). reflexivity. }
  rewrite Hq. clear Hq q H1.
  assert (PM : forall z i k ri rk, (i < k)%nat -> nth_error c i = Some ri -> nth_error c k = Some rk ->
                approx_lt (snd rk) z tol = true -> approx_lt (snd ri) z tol = true).
  { intros z i k ri rk L Ei Ek. apply approx_lt_mono. eapply Hv; eauto. }
  destruct (lower_bound_spec (fun r => approx_lt (snd r) n tol) c (length c) ltac:(lia) (PM n)) as (A & B & C).
  set (j := lower_bound _ c (length c)) in *.
  assert (Hj : (1 <= j)%nat).
  { destruct (Nat.eq_dec j 0) as [E0|]; [|lia]. exfalso.
    pose proof (C 0%nat x ltac:(lia) eq_refl) as F. simpl in F.
    rewrite sep_lt in F; [discriminate| |lra]. apply Hsep. left; reflexivity. }
  assert (E1 : (1 <=? j)%nat = true) by (apply Nat.leb_le; exact Hj).
  cbn zeta. rewrite E1. simpl guard. cbn [bind].
  destruct (nth_error c j) as [rj|] eqn:Ej.
  - assert (Lj : (j < length c)%nat) by (apply nth_error_Some; congruence).
    assert (Inj : In rj c) by (eapply nth_error_In; eauto).
    pose proof (C j rj ltac:(lia) Ej) as NL. simpl in NL.
    pose proof (Hsep rj Inj) as Sj.
    assert (Ge : n <= snd rj).
    { destruct (Qlt_le_dec (snd rj) n) as [G|G]; [|exact G]. rewrite (sep_lt _ _ Sj G) in NL. discriminate. }
    split; [intros Hall; specialize (Hall rj Inj); lra|]. intros _ _.
    assert (Hafter : forall k rk, (j <= k)%nat -> nth_error c k = Some rk -> snd rj <= snd rk).
    { intros k rk Hk Ek. destruct (Nat.eq_dec j k) as [<-|Ne].
      - rewrite Ej in Ek. injection Ek as <-. lra.
      - eapply (Hv j k); eauto. lia. }
    destruct (approx_eq (snd rj) n tol) eqn:AE.
    + apply (sep_eq _ _ Sj) in AE. exists j, rj. split; [exact Ej|]. split; [reflexivity|]. split; [lra|]. split.
      * intros r Hr Hle. lra.
      * intros k rk Lk Ek. pose proof (B k rk Lk Ek) as Lt. simpl in Lt. apply approx_lt_lt in Lt. lra.
    + assert (G : n < snd rj).
      { destruct (Qlt_le_dec n (snd rj)) as [G|G]; [exact G|]. rewrite approx_eq_refl in AE; [discriminate|lra]. }
      rewrite (proj2 (Qltb_lt _ _) G).
      destruct (nth_error_Some_ex c (j - 1)) as (rp & Ep); [lia|]. rewrite Ep.
      assert (Inp : In rp c) by (eapply nth_error_In; eauto).
      destruct (lower_bound_spec (fun r => approx_lt (snd r) (snd rp) tol) c j ltac:(lia) (PM (snd rp))) as (A' & B' & C').
      set (i := lower_bound _ c j) in *.
      assert (Hi : (i < j)%nat).
      { destruct (Nat.lt_ge_cases i j) as [|Ge']; [assumption|exfalso].
        pose proof (B' (j-1)%nat rp ltac:(lia) Ep) as F. simpl in F. apply approx_lt_lt in F. lra. }
      assert (E2 : (i <? j)%nat = true) by (apply Nat.ltb_lt; exact Hi). rewrite E2. simpl guard. cbn [bind].
      destruct (nth_error_Some_ex c i) as (ri & Ei); [lia|]. rewrite Ei.
      assert (Ini : In ri c) by (eapply nth_error_In; eauto).
      pose proof (C' i ri ltac:(lia) Ei) as NLi. simpl in NLi.
      assert (Eq : snd ri == snd rp).
      { assert (snd ri <= snd rp).
        { destruct (Nat.eq_dec i (j-1)) as [Ex|Ne]; [rewrite Ex, Ep in Ei; injection Ei as ->; lra|].
          eapply (Hv i (j-1)%nat); eauto. lia. }
        destruct (Qlt_le_dec (snd ri) (snd rp)) as [L|L]; [|lra].
        rewrite (sep_lt _ _ (Hss ri rp Ini Inp) L) in NLi. discriminate. }
      pose proof (B (j-1)%nat rp ltac:(lia) Ep) as Ltp. simpl in Ltp. apply approx_lt_lt in Ltp.
      exists i, ri. split; [exact Ei|]. split; [reflexivity|]. split; [lra|]. split.
      * intros r Hr Hle. apply In_nth_error in Hr. destruct Hr as (k & Ek).
        destruct (Nat.lt_ge_cases k j) as [Lk|Gk].
        -- destruct (Nat.eq_dec k (j-1)) as [Ex|Ne]; [rewrite Ex, Ep in Ek; injection Ek as <-; lra|].
           pose proof (Hv k (j-1)%nat r rp ltac:(lia) Ek Ep). lra.
        -- pose proof (Hafter k r Gk Ek). lra.
      * intros k rk Lk Ek. pose proof (B' k rk Lk Ek) as Lt. simpl in Lt. apply approx_lt_lt in Lt. lra.
  - assert (Lj : (j = length c)%nat) by (apply nth_error_None in Ej; lia).
    split; [reflexivity|]. intros _ (r & Hr & Hle). exfalso.
    apply In_nth_error in Hr. destruct Hr as (k & Ek).
    assert (Lk : (k < length c)%nat) by (apply nth_error_Some; congruence).
    pose proof (B k r ltac:(lia) Ek) as Lt. simpl in Lt. apply approx_lt_lt in Lt. lra.
Qed.

(** UB of the rounding-up variant *)
Lemma get_time_rounding_up_ub c n x y l :
  c = x :: y :: l -> snd x < n -> values_nondecrease c ->
  (forall r, In r c -> separated (snd r) n) -> (forall r, In r c -> snd r < n) ->
  get_time c n true = Err EUB.
Proof.
  intros Ec Hx Hv Hsep Hall. subst c. unfold get_time. rewrite (proj2 (Qleb_gt _ _) Hx).
  set (c := x :: y :: l) in *. assert (L2 : (2 <= length c)%nat) by (simpl; lia).
  destruct (lower_bound_spec (fun r => approx_lt (snd r) n tol) c (length c)) as (A & B & C); [lia| |].
  { intros i k ri rk L Ei Ek. apply approx_lt_mono. eapply Hv; eauto. }
  set (j := lower_bound _ c (length c)) in *.
  assert (Ej : j = length c).
  { destruct (Nat.lt_ge_cases j (length c)) as [L|]; [exfalso|lia].
    destruct (nth_error_Some_ex c j L) as (r & Er). pose proof (C j r ltac:(lia) Er) as F. simpl in F.
    assert (Hr : In r c) by (eapply nth_error_In; eauto).
    rewrite sep_lt in F; [discriminate|auto|auto]. }
  assert (E1 : (1 <=? j)%nat = true) by (apply Nat.leb_le; lia). cbn zeta. rewrite E1. simpl guard. cbn [bind].
  rewrite Ej. rewrite (proj2 (nth_error_None c (length c))) by lia. reflexivity.
Qed.
