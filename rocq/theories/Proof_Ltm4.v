(** Free-flow time on a link transmission link while its curves are complete. *)
From Verif Require Import Base Base_lemmas Model_Num Proof_Num Model_CC Spec_CC Proof_CC Proof_CC3 Model_Link Spec_Path Spec_Link Proof_Path Proof_Link Proof_Link4 Model_Ltm Spec_Ltm Proof_Ltm Proof_Ltm2 Proof_Ltm3.
Local Open Scope Q_scope.

(** which record a lookup reads *)
Lemma get_result_index ut c t v : 0 < ut -> times_increase c -> clocked ut c -> c <> [] -> get_result c t = Ok v ->
  exists j r, nth_error c j = Some r /\ v = snd r /\ (j = 0%nat \/ (1 - tol) * (inject_Z (Z.of_nat j) * ut) <= t).
Proof.
  intros Hu Hs K Hn E. unfold get_result in E. destruct c as [|x [|y l]]; [now elim Hn| |].
  - apply Ok_inj in E. exists 0%nat, x. auto.
  - set (c := x :: y :: l) in *. assert (L2 : (2 <= length c)%nat) by (simpl; lia).
    destruct (Qleb_spec t (fst x)) as [Le|Gt].
    { apply Ok_inj in E. exists 0%nat, x. auto. }
    destruct (lower_bound_spec (fun r => approx_lt (fst r) t tol) c (length c)) as (A & B & C); [lia| |].
    { intros i k ri rk L Ei Ek. apply approx_lt_mono. apply Qlt_le_weak. eapply Hs; eauto. }
    set (j := lower_bound _ c (length c)) in *.
    apply bind_ok in E as (u & G & E). apply guard_ok in G. apply Nat.leb_le in G.
    assert (T : forall i r, nth_error c i = Some r -> 0 <= fst r).
    { intros i r Er. rewrite (K _ _ Er). apply Qmult_le_0_compat; [apply injZ_nonneg; lia|lra]. }
    assert (Use : forall i r, nth_error c i = Some r -> fst r <= t \/ approx_eq (fst r) t tol = true ->
       exists j r0, nth_error c j = Some r0 /\ snd r = snd r0 /\ (j = 0%nat \/ (1 - tol) * (inject_Z (Z.of_nat j) * ut) <= t)).
    { intros i r Er D. exists i, r. split; [exact Er|]. split; [reflexivity|]. right.
      rewrite <- (K _ _ Er). pose proof (T _ _ Er). destruct D as [D|D].
      - unfold tol. lra.
      - destruct (approx_eq_spec (fst r) t) as [D'|]; [|discriminate]. unfold tol in *. revert D'.
        assert (0 <= t). { pose proof (T 0%nat x eq_refl). lra. }
        rewrite (Qabs_pos (fst r)), (Qabs_pos t) by assumption. intros. qcases; lra. }
    destruct (nth_error c j) as [rj|] eqn:Ej.
    + assert (Lj : (j < length c)%nat) by (apply nth_error_Some; congruence).
      pose proof (C j rj ltac:(lia) Ej) as NL. cbn beta in NL.
      destruct (approx_eq (fst rj) t tol) eqn:AE.
      { apply Ok_inj in E. subst v. eapply Use; eauto. }
      destruct (Qltb_spec t (fst rj)) as [H|H].
      * destruct (nth_error_Some_ex c (j - 1)) as (rp & Ep); [lia|]. rewrite Ep in E. apply Ok_inj in E. subst v.
        apply (Use _ _ Ep). left. pose proof (B (j-1)%nat rp ltac:(lia) Ep) as Lt. cbn beta in Lt. apply approx_lt_lt in Lt. lra.
      * exfalso. destruct (approx_eq_spec (fst rj) t) as [|N1]; [discriminate|]. destruct (approx_lt_spec (fst rj) t) as [|N2]; [discriminate|].
        unfold tol in *. pose proof (T _ _ Ej). apply N2. apply Qnot_le_lt in N1.
        assert (AN : Qabs (fst rj - t) == - (fst rj - t)) by (apply Qabs_neg; lra). rewrite AN in N1. lra.
    + assert (Lj : (j = length c)%nat) by (apply nth_error_None in Ej; lia).
      unfold last_opt in E. destruct (nth_error_Some_ex c (length c - 1)) as (rp & Ep); [lia|]. rewrite Ep in E. apply Ok_inj in E. subst v.
      apply (Use _ _ Ep). left. pose proof (B (length c-1)%nat rp ltac:(lia) Ep) as Lt. cbn beta in Lt. apply approx_lt_lt in Lt. lra.
Qed.

Lemma entering_app a b : entering (a ++ b) = (entering a ++ entering b)%list.
Proof. unfold entering. now rewrite map_app, concat_app. Qed.
Lemma ltm_run_app a b : forall x, ltm_run (a ++ b) x = (do y <- ltm_run a x; ltm_run b y).
Proof.
  induction a as [|[[r keep] inc] a IH]; intros x; cbn; [reflexivity|].
  destruct (lt_interval r (filter keep (lt_fin x)) inc x); cbn; [apply IH|reflexivity].
Qed.

Definition entered_by (k : nat) (es : list event) : Z := Zlen (entering (firstn k es)).
Lemma entered_by_mono k k' es : (k <= k')%nat -> (entered_by k es <= entered_by k' es)%Z.
Proof.
  intros H. unfold entered_by. rewrite <- (firstn_skipn k (firstn k' es)). rewrite firstn_firstn, Nat.min_l by exact H.
  rewrite entering_app, Zlen_app. unfold Zlen. lia.
Qed.
Lemma entered_by_snoc k es e : (k <= length es)%nat -> entered_by k (es ++ [e]) = entered_by k es.
Proof. intros H. unfold entered_by. rewrite firstn_app. replace (k - length es)%nat with 0%nat by lia. cbn. now rewrite app_nil_r. Qed.
Lemma entered_by_all es : entered_by (length es) es = Zlen (entering es).
Proof. unfold entered_by. now rewrite firstn_all. Qed.

(** [k] is so late that vehicles of interval [k] or later cannot have driven through *)
Definition too_recent (p : lparam) (now : Z) (k : nat) : Prop :=
  inject_Z now * p_ut p - p_len p / p_ffs p < (1 - tol) * (inject_Z (Z.of_nat k) * p_ut p).

Record flowing (es : list event) (x : ltm) : Prop := {
  fw_tr : tracking x;
  fw_now : lt_now x = Z.of_nat (length es);
  fw_val : forall i r, nth_error (lt_Nin x) i = Some r -> snd r == inject_Z (entered_by (S i) es) / p_fs (lt_par x);
  fw_q : forall k, (1 <= k <= length es)%nat -> too_recent (lt_par x) (lt_now x) k ->
    (Zlen (entering es) - Zlen (lt_q x) <= entered_by k es)%Z;
  fw_suffix : forall k, (1 <= k <= length es)%nat -> too_recent (lt_par x) (lt_now x) k ->
    exists pre, lt_q x = (pre ++ entering (skipn k es))%list }.

Lemma flowing_last es x : flowing es x -> last_value (lt_Nin x) == inject_Z (Zlen (entering es)) / p_fs (lt_par x).
Proof.
  intros W. pose proof (fl_len _ (fw_tr _ _ W)) as L. rewrite (fw_now _ _ W) in L.
  unfold last_value. destruct (last_opt (lt_Nin x)) as [r|] eqn:E.
  - unfold last_opt in E. pose proof (fw_val _ _ W _ _ E) as V. rewrite V.
    assert (Lt : (length (lt_Nin x) - 1 < length (lt_Nin x))%nat) by (apply nth_error_Some; congruence).
    replace (S (length (lt_Nin x) - 1)) with (length es) by lia. rewrite entered_by_all. reflexivity.
  - unfold last_opt in E. apply nth_error_None in E. destruct es; [cbn; unfold Qdiv; ring|cbn [length] in L; lia].
Qed.

Lemma skipn_suffix {A} (l pre suf : list A) m : l = (pre ++ suf)%list -> (length suf <= length (skipn m l))%nat ->
  exists pre', skipn m l = (pre' ++ suf)%list.
Proof.
  intros -> H. rewrite skipn_length, app_length in H.
  destruct (Nat.le_gt_cases m (length pre)) as [L|L].
  - exists (skipn m pre). rewrite skipn_app. replace (m - length pre)%nat with 0%nat by lia. reflexivity.
  - assert (length suf = 0)%nat by lia. destruct suf; [|discriminate]. exists (skipn m (pre ++ [])). symmetry; apply app_nil_r.
Qed.

Lemma flowing_step es r keep inc x y s d cin : physical (lt_par x) -> 0 <= r -> (lt_now x < lt_size x)%Z -> (lt_now x < 10000)%Z ->
  flowing es x -> interval_facts r (filter keep (lt_fin x)) inc x y s d cin -> flowing (es ++ [(r, keep, inc)]) y.
Proof.
  intros P Hr Lt Ls W F. set (stay := filter keep (lt_fin x)) in *. set (es' := (es ++ [(r, keep, inc)])%list).
  pose proof (fw_tr _ _ W) as T. pose proof P as (Hu & Hf & Hsp & _).
  destruct (tracking_step r stay inc x y s d cin P Lt Ls (filter_subseq _ _) T F) as (Ty & OccQ & Out & VO & VI & (vi & En)).
  pose proof (if_par _ _ _ _ _ _ _ _ F) as Py. pose proof (if_now _ _ _ _ _ _ _ _ F) as Ny.
  pose proof (fl_len _ T) as Ln. pose proof (fw_now _ _ W) as Nw. rewrite Nw in Ln. apply Nat2Z.inj in Ln.
  assert (Ent : entering es' = (entering es ++ inc)%list) by (unfold es'; rewrite entering_app; unfold entering at 2; cbn; now rewrite app_nil_r).
  assert (Len : length es' = S (length es)) by (unfold es'; rewrite app_length; cbn; lia).
  assert (Nw' : lt_now y = Z.of_nat (length es')) by (rewrite Ny, Nw, Len; lia).
  assert (Val : forall i q, nth_error (lt_Nin y) i = Some q -> snd q == inject_Z (entered_by (S i) es') / p_fs (lt_par x)).
  { intros i q Eq. rewrite En in Eq. apply nth_snoc in Eq. destruct Eq as [[L Eq]|[-> ->]].
    - unfold es'. rewrite entered_by_snoc by lia. apply (fw_val _ _ W _ _ Eq).
    - cbn [snd]. rewrite Ln, <- Len, entered_by_all, Ent, Zlen_app, inject_Z_plus.
      rewrite En, last_value_snoc in VI. rewrite VI, (flowing_last _ _ W). field. lra. }
  pose proof (li_in _ (fl_inv _ T)) as In0.
  pose proof (if_line _ _ _ _ _ _ _ _ F) as Line. rewrite In0 in Line. cbn [app] in Line.
  assert (LineZ : (Zlen (lt_fin y) + Zlen (lt_q y) = Zlen stay + Zlen (lt_q x) + Zlen inc)%Z).
  { apply (f_equal Zlen) in Line. rewrite !Zlen_app in Line. lia. }
  assert (Ls' : (Zlen stay <= Zlen (lt_fin x))%Z) by (unfold Zlen, stay; pose proof (subseq_length _ _ (filter_subseq keep (lt_fin x))); lia).
  (* vehicles gone, from the balance *)
  assert (Gone : last_value (lt_Nout y) == inject_Z (Zlen (entering es') - (Zlen stay + Zlen (lt_q x) + Zlen inc)) / p_fs (lt_par x)).
  { pose proof (fl_bal _ Ty) as B. rewrite Py in B. unfold occupancy in B. rewrite Zlen_app, LineZ in B.
    rewrite VI, (flowing_last _ _ W) in B. unfold Zminus. rewrite inject_Z_plus, inject_Z_opp. rewrite Ent, Zlen_app, inject_Z_plus.
    assert (X : last_value (lt_Nout y) == inject_Z (Zlen (entering es)) / p_fs (lt_par x) + inject_Z (Zlen inc) / p_fs (lt_par x) - inject_Z (Zlen stay + Zlen (lt_q x) + Zlen inc) / p_fs (lt_par x)) by lra.
    rewrite X. field. lra. }
  assert (Late : forall k, (1 <= k <= length es')%nat -> too_recent (lt_par y) (lt_now y) k -> too_recent (lt_par x) (lt_now x) k).
  { intros k _ Hk. unfold too_recent in *. rewrite Py, Ny, injZ_succ in Hk. lra. }
  assert (Qk : forall k, (1 <= k <= length es')%nat -> too_recent (lt_par y) (lt_now y) k ->
    (Zlen (entering es') - Zlen (lt_q y) <= entered_by k es')%Z).
  { intros k Hk Hl. pose proof (Late k Hk Hl) as Hl'.
    set (gone := (Zlen (entering es') - (Zlen stay + Zlen (lt_q x) + Zlen inc))%Z) in *.
    (* vehicles gone so far *)
    assert (G1 : (gone + Zlen stay <= entered_by k es')%Z).
    { destruct (Nat.le_gt_cases k (length es)) as [L|L].
      - pose proof (fw_q _ _ W k ltac:(lia) Hl') as Q1. unfold es' at 1. rewrite entered_by_snoc by exact L.
        unfold gone. rewrite Ent, Zlen_app. lia.
      - replace k with (length es') by lia. rewrite entered_by_all. unfold gone. pose proof (Zlen_app inc (lt_q x)). unfold Zlen in *. lia. }
    assert (G0 : (gone <= entered_by k es')%Z) by (unfold Zlen in *; lia).
    assert (Goal' : (gone + Zlen (lt_fin y) <= entered_by k es')%Z).
    { destruct (if_demand _ _ _ _ _ _ _ _ F) as (a & b & Ea & Eb & Ed).
      assert (Ny0 : lt_Nin y <> []) by (rewrite En; now destruct (lt_Nin x)).
      pose proof (fl_ci _ Ty) as Ky. rewrite Py in Ky.
      destruct (get_result_index (p_ut (lt_par x)) (lt_Nin y) _ a Hu (kp_inc _ _ (li_Nin _ (fl_inv _ Ty))) Ky Ny0 Ea) as (j & q & Ej & -> & Dj).
      assert (Jk : (j < k)%nat).
      { destruct Dj as [->|Dj]; [lia|]. unfold too_recent in Hl. rewrite Py, Ny, injZ_succ in Hl. unfold lt_time in Dj.
        assert (X : (1 - tol) * (inject_Z (Z.of_nat j) * p_ut (lt_par x)) < (1 - tol) * (inject_Z (Z.of_nat k) * p_ut (lt_par x))) by lra.
        assert (Y : inject_Z (Z.of_nat j) < inject_Z (Z.of_nat k)).
        { destruct (Qlt_le_dec (inject_Z (Z.of_nat j)) (inject_Z (Z.of_nat k))) as [|C]; [assumption|exfalso].
          assert (inject_Z (Z.of_nat k) * p_ut (lt_par x) <= inject_Z (Z.of_nat j) * p_ut (lt_par x)) by (apply Qmult_le_compat_r; lra).
          unfold tol in X. lra. }
        apply (proj1 (injZ_lt _ _)) in Y. lia. }
      rewrite (Val _ _ Ej) in Ed || idtac.
      assert (Va : snd q <= inject_Z (entered_by k es') / p_fs (lt_par x)).
      { rewrite (Val _ _ Ej). unfold Qdiv. apply Qmult_le_compat_r; [|apply Qinv_le_0_compat; lra].
        apply injZ_le. apply entered_by_mono. lia. }
      assert (Vb : b == inject_Z gone / p_fs (lt_par x)).
      { destruct (last_opt (lt_Nout y)) as [q'|] eqn:Eq.
        - rewrite (get_result_late (lt_Nout y) q') in Eb.
          + apply Ok_inj in Eb. subst b. rewrite <- Gone. unfold last_value. rewrite Eq. reflexivity.
          + apply Ty.
          + exact Eq.
          + pose proof (kp_le _ _ (li_Nout _ (fl_inv _ Ty)) q') as K. unfold last_opt in Eq. specialize (K (nth_error_In _ _ Eq)).
            unfold lt_time in K. rewrite Ny, Py, injZ_succ in K. unfold lt_time. lra.
          + intros q'' I''. eapply clocked_sep; [exact Hu|rewrite <- Py; apply (fl_co _ Ty)| |exact I''|exact Eq].
            rewrite (fl_lo _ Ty), Ny. lia.
          + pose proof Eq as Eq'. unfold last_opt in Eq'. apply (fl_co _ Ty) in Eq'. rewrite Eq', Py.
            apply Qmult_le_0_compat; [apply injZ_nonneg; lia|lra].
        - exfalso. unfold last_opt in Eq. apply nth_error_None in Eq. pose proof (fl_lo _ Ty). rewrite Ny in H. pose proof (li_now _ (fl_inv _ T)). lia. }
      destruct (cap_nonneg _ P) as [C0 _].
      assert (Da : d <= snd q - b) by (rewrite Ed; destruct (Qltb_spec (lt_cap (lt_par x)) (snd q - b)); lra).
      set (N := (entered_by k es' - gone)%Z) in *.
      assert (Df : d * p_fs (lt_par x) <= inject_Z N).
      { assert (X : d <= inject_Z N / p_fs (lt_par x)).
        { unfold N, Zminus. rewrite inject_Z_plus, inject_Z_opp.
          assert (Y : (inject_Z (entered_by k es') + - inject_Z gone) / p_fs (lt_par x) == inject_Z (entered_by k es') / p_fs (lt_par x) - inject_Z gone / p_fs (lt_par x)) by (field; lra).
          rewrite Y. lra. }
        apply (Qmult_le_compat_r _ _ (p_fs (lt_par x))) in X; [|lra].
        assert (Y : inject_Z N / p_fs (lt_par x) * p_fs (lt_par x) == inject_Z N) by (field; lra). lra. }
      assert (N0 : (0 <= N)%Z) by (unfold N; lia). assert (NS : (Zlen stay <= N)%Z) by (unfold N; lia).
      assert (TN : (trunc (d * p_fs (lt_par x)) <= N)%Z).
      { destruct (Qlt_le_dec (d * p_fs (lt_par x)) 0) as [Ng|Ps].
        - assert (E : trunc (d * p_fs (lt_par x)) = (- trunc (- (d * p_fs (lt_par x))))%Z) by (rewrite trunc_neg; lia).
          pose proof (trunc_nonneg (- (d * p_fs (lt_par x))) ltac:(lra)). lia.
        - pose proof (trunc_lo _ Ps). apply injZ_le. lra. }
      assert (RN : 0 <= d * p_fs (lt_par x) -> (rround r (d * p_fs (lt_par x)) <= N)%Z).
      { intros Ps. destruct (rround_cases r (d * p_fs (lt_par x))) as [->|E1]; [exact TN|]. pose proof E1 as E2. rewrite E1.
        apply rround_up in E2.
        assert (Lt' : inject_Z (trunc (d * p_fs (lt_par x))) < inject_Z N) by lra. apply (proj1 (injZ_lt _ _)) in Lt'. lia. }
      pose proof (if_fin _ _ _ _ _ _ _ _ F) as Fn. pose proof (Zlen_app inc (lt_q x)) as ZZ.
      assert (S0 : (0 <= Zlen stay)%Z) by (unfold Zlen; lia).
      destruct (Qltb_spec d (inject_Z (Zlen stay) / p_fs (lt_par x))) as [H|H].
      + unfold N in *. lia.
      + assert (D0 : 0 <= d).
        { assert (0 <= inject_Z (Zlen stay) / p_fs (lt_par x)) by (apply Qle_shift_div_l; [exact Hf|]; pose proof (injZ_nonneg _ S0); lra). lra. }
        pose proof (RN ltac:(apply Qmult_le_0_compat; lra)). unfold N in *. lia. }
    unfold gone in Goal'. lia. }
  split; auto.
  - intros i q Eq. rewrite Py. now apply Val.
  - intros k Hk Hl. pose proof (Late k Hk Hl) as Hl'. pose proof (Qk k Hk Hl) as Qy.
    assert (Suf : exists pre, (lt_q x ++ inc = pre ++ entering (skipn k es'))%list).
    { destruct (Nat.le_gt_cases k (length es)) as [L|L].
      - destruct (fw_suffix _ _ W k ltac:(lia) Hl') as (pre & E). exists pre.
        unfold es'. rewrite skipn_app. replace (k - length es)%nat with 0%nat by lia. cbn [skipn].
        rewrite entering_app, E. unfold entering at 3. cbn. rewrite app_nil_r. now rewrite <- app_assoc.
      - exists (lt_q x ++ inc)%list. rewrite skipn_all2 by lia. cbn. now rewrite app_nil_r. }
    destruct Suf as (pre & Suf).
    assert (Split : (Zlen (entering es') = entered_by k es' + Zlen (entering (skipn k es')))%Z).
    { unfold entered_by. rewrite <- Zlen_app, <- entering_app, firstn_skipn. reflexivity. }
    destruct (if_q _ _ _ _ _ _ _ _ F) as [(m & E)|(pre' & E)]; rewrite In0 in E; cbn [app] in E.
    + rewrite E. apply (skipn_suffix _ pre); [exact Suf|]. rewrite <- E. unfold Zlen in *. lia.
    + exists (pre' ++ pre)%list. rewrite E, Suf, app_assoc. reflexivity.
Qed.

Lemma flowing_run es2 : forall es1 x y, physical (lt_par x) -> draws_nonneg es2 ->
  (lt_now x + Z.of_nat (length es2) <= lt_size x)%Z -> (lt_now x + Z.of_nat (length es2) <= 10000)%Z ->
  flowing es1 x -> ltm_run es2 x = Ok y -> flowing (es1 ++ es2) y /\ lt_par y = lt_par x.
Proof.
  induction es2 as [|[[r keep] inc] es2 IH]; intros es1 x y P D L1 L2 W E; cbn in E.
  - apply Ok_inj in E. subst y. rewrite app_nil_r. auto.
  - apply bind_ok in E as (z & Ez & E). apply lt_interval_inv in Ez as (s & d & cin & F). cbn [length] in L1, L2.
    assert (Wz : flowing (es1 ++ [(r, keep, inc)]) z).
    { eapply flowing_step; [exact P|apply (D (r, keep, inc)); left; reflexivity|lia|lia|exact W|exact F]. }
    pose proof (if_par _ _ _ _ _ _ _ _ F) as Pz.
    destruct (IH (es1 ++ [(r, keep, inc)])%list z y) as (A & B); try rewrite Pz; auto.
    + intros e He. apply D. right. exact He.
    + rewrite (if_now _ _ _ _ _ _ _ _ F), (if_size _ _ _ _ _ _ _ _ F). lia.
    + rewrite (if_now _ _ _ _ _ _ _ _ F). lia.
    + rewrite <- app_assoc in A. cbn [app] in A. split; [exact A|congruence].
Qed.

Lemma fresh_flowing p x : physical p -> make_ltm p = Ok x -> flowing [] x.
Proof.
  intros P E. destruct (make_ltm_inv p x P E) as (I & Ep & Ef & Eq & En & Ei & Eo & Ev).
  split; auto.
  - apply (fl_track _ (fresh_filling p x P E)).
  - rewrite Ei. intros [|i] r H; discriminate.
  - intros k Hk. cbn in Hk. lia.
  - intros k Hk. cbn in Hk. lia.
Qed.
