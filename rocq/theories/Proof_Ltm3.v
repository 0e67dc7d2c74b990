(** The storage of a link transmission link while its curves are complete. *)
From Verif Require Import Base Base_lemmas Model_Num Proof_Num Model_CC Spec_CC Proof_CC Proof_CC3 Model_Link Spec_Path Spec_Link Proof_Path Proof_Link Proof_Link4 Model_Ltm Spec_Ltm Proof_Ltm Proof_Ltm2.
Local Open Scope Q_scope.

Definition occupancy (x : ltm) : Z := Zlen (lt_fin x ++ lt_q x)%list.

(** complete curves: entered, left and present vehicles balance *)
Record tracking (x : ltm) : Prop := {
  fl_inv : lt_inv x;
  fl_len : Z.of_nat (length (lt_Nin x)) = lt_now x;
  fl_lo : (Z.of_nat (length (lt_Nout x)) = lt_now x);
  fl_ci : clocked (p_ut (lt_par x)) (lt_Nin x);
  fl_co : clocked (p_ut (lt_par x)) (lt_Nout x);
  fl_nd : values_nondecrease (lt_Nout x);
  fl_n0 : 0 <= last_value (lt_Nout x);
  fl_prev : lt_prev x == inject_Z (Zlen (lt_fin x)) / p_fs (lt_par x);
  fl_bal : inject_Z (occupancy x) / p_fs (lt_par x) == last_value (lt_Nin x) - last_value (lt_Nout x) }.
Record filling (x : ltm) : Prop := {
  fl_track : tracking x;
  fl_cap : inject_Z (occupancy x) / p_fs (lt_par x) <= lt_hold (lt_par x) }.

Lemma clocked_sep ut c r b : 0 < ut -> clocked ut c -> (Z.of_nat (length c) <= 10000)%Z -> In r c -> last_opt c = Some b ->
  separated (fst r) (fst b).
Proof.
  intros Hu K Hl I Eb. apply In_nth_error in I as (i & Ei).
  assert (Li : (i < length c)%nat) by (apply nth_error_Some; congruence).
  unfold last_opt in Eb. pose proof (K _ _ Ei) as Ti. pose proof (K _ _ Eb) as Tb.
  destruct (Nat.eq_dec i (length c - 1)) as [->|N]; [left; rewrite Ti, Tb; reflexivity|right].
  pose proof (later_not_equal ut (Z.of_nat i) (Z.of_nat (length c - 1)) Hu ltac:(lia) ltac:(lia)) as F.
  destruct (approx_eq_spec (inject_Z (Z.of_nat (length c - 1)) * ut) (inject_Z (Z.of_nat i) * ut)) as [|A]; [discriminate|].
  apply Qnot_le_lt in A. unfold tol in A. rewrite Ti, Tb. rewrite Qabs_Qminus, Q.max_comm. exact A.
Qed.

Lemma last_value_snoc c t v : last_value (c ++ [(t, v)]) = v.
Proof. unfold last_value. now rewrite last_opt_snoc. Qed.

Lemma nondecrease_last c r : values_nondecrease c -> In r c -> snd r <= last_value c.
Proof.
  intros N I. destruct c as [|y c] using rev_ind; [destruct I|]. clear IHc. unfold last_value. rewrite last_opt_snoc.
  apply in_app_or in I. destruct I as [I|[<-|[]]]; [|lra]. exact (values_nondecrease_last c y r N I).
Qed.

Lemma tracking_step r stay inc x y s d cin : physical (lt_par x) -> (lt_now x < lt_size x)%Z -> (lt_now x < 10000)%Z ->
  subseq stay (lt_fin x) -> tracking x -> interval_facts r stay inc x y s d cin ->
  tracking y /\
  inject_Z (occupancy y) / p_fs (lt_par x) == inject_Z (occupancy x) / p_fs (lt_par x) - (inject_Z (Zlen (lt_fin x)) / p_fs (lt_par x) - inject_Z (Zlen stay) / p_fs (lt_par x)) + inject_Z (Zlen inc) / p_fs (lt_par x) /\
  0 <= lt_prev x - inject_Z (Zlen stay) / p_fs (lt_par x) /\
  last_value (lt_Nout y) == last_value (lt_Nout x) + (lt_prev x - inject_Z (Zlen stay) / p_fs (lt_par x)) /\
  last_value (lt_Nin y) == last_value (lt_Nin x) + inject_Z (Zlen inc) / p_fs (lt_par x) /\
  (exists v, lt_Nin y = (lt_Nin x ++ [(lt_time x, v)])%list).
Proof.
  intros P Lt Ls Sb W F. pose proof (fl_inv _ W) as I. pose proof P as (Hu & Hf & _).
  pose proof (lt_inv_step _ _ _ _ _ _ _ _ Hu I F) as Iy. pose proof (fl_len _ W) as Ln. pose proof (fl_lo _ W) as Lo.
  pose proof (li_now _ I) as N0.
  pose proof (if_par _ _ _ _ _ _ _ _ F) as Py.
  pose proof (if_cin _ _ _ _ _ _ _ _ F) as Ec. unfold lt_time in Ec.
  apply clocked_add in Ec as (vi & -> & Ei); [|exact Hu|apply W|lia|lia].
  pose proof (if_nin _ _ _ _ _ _ _ _ F) as En. unfold shrink in En. rewrite app_length in En. cbn [length] in En.
  destruct (Z.gtb_spec (Z.of_nat (length (lt_Nin x) + 1)) (lt_size x)) as [G|G]; [lia|]. apply Ok_inj in En.
  destruct (if_nout _ _ _ _ _ _ _ _ F) as (no & Eno & Eo). unfold shrink in Eno.
  destruct (Z.gtb_spec (Z.of_nat (length (lt_Nout x))) (lt_size x)) as [G'|G']; [lia|]. apply Ok_inj in Eno. subst no.
  unfold lt_time in Eo. pose proof Eo as Eo'. apply clocked_add in Eo as (vo & Eo & Ev); [|exact Hu|apply W|lia|lia].
  pose proof (if_line _ _ _ _ _ _ _ _ F) as Line. rewrite (li_in _ I) in Line, Ei. cbn [app] in Line, Ei.
  pose proof (subseq_length _ _ Sb) as Ls'.
  assert (Out : 0 <= lt_prev x - inject_Z (Zlen stay) / p_fs (lt_par x)).
  { rewrite (fl_prev _ W). assert (inject_Z (Zlen stay) <= inject_Z (Zlen (lt_fin x))) by (apply injZ_le; unfold Zlen; lia).
    assert (inject_Z (Zlen stay) / p_fs (lt_par x) <= inject_Z (Zlen (lt_fin x)) / p_fs (lt_par x)).
    { unfold Qdiv. apply Qmult_le_compat_r; [exact H|]. apply Qinv_le_0_compat. lra. }
    lra. }
  assert (Occ : occupancy y = (occupancy x - (Zlen (lt_fin x) - Zlen stay) + Zlen inc)%Z).
  { unfold occupancy. rewrite Line. rewrite !Zlen_app. lia. }
  assert (OccQ : inject_Z (occupancy y) / p_fs (lt_par x) == inject_Z (occupancy x) / p_fs (lt_par x) - (inject_Z (Zlen (lt_fin x)) / p_fs (lt_par x) - inject_Z (Zlen stay) / p_fs (lt_par x)) + inject_Z (Zlen inc) / p_fs (lt_par x)).
  { rewrite Occ, inject_Z_plus. unfold Zminus. rewrite !inject_Z_plus, !inject_Z_opp, inject_Z_plus, inject_Z_opp. field. lra. }
  assert (VO : last_value (lt_Nout y) == last_value (lt_Nout x) + (lt_prev x - inject_Z (Zlen stay) / p_fs (lt_par x))) by (rewrite Eo, last_value_snoc; exact Ev).
  assert (VI : last_value (lt_Nin y) == last_value (lt_Nin x) + inject_Z (Zlen inc) / p_fs (lt_par x)) by (rewrite <- En, last_value_snoc; exact Ei).
  assert (Bal : inject_Z (occupancy y) / p_fs (lt_par x) == last_value (lt_Nin y) - last_value (lt_Nout y)).
  { rewrite OccQ, VO, VI, (fl_bal _ W), (fl_prev _ W). ring. }
  split; [|split; [exact OccQ|split; [exact Out|split; [exact VO|split; [exact VI|exists vi; symmetry; exact En]]]]].
  split.
  - exact Iy.
  - rewrite <- En, app_length, (if_now _ _ _ _ _ _ _ _ F). cbn [length]. lia.
  - rewrite Eo, app_length, (if_now _ _ _ _ _ _ _ _ F). cbn [length]. lia.
  - rewrite Py, <- En, <- Ln. apply clocked_snoc. apply W.
  - rewrite Py, Eo, <- Lo. apply clocked_snoc. apply W.
  - eapply add_increment_values; [| apply (fl_nd _ W)|exact Eo']. exact Out.
  - pose proof (fl_n0 _ W). lra.
  - rewrite (if_prev _ _ _ _ _ _ _ _ F), Py. reflexivity.
  - rewrite Py. exact Bal.
Qed.

Lemma filling_step r stay inc x y s d cin : physical (lt_par x) -> p_ut (lt_par x) <= 1 -> (lt_now x < lt_size x)%Z -> (lt_now x < 10000)%Z ->
  subseq stay (lt_fin x) -> filling x -> interval_facts r stay inc x y s d cin -> filling y.
Proof.
  intros P U1 Lt Ls Sb [W Cap] F. pose proof (fl_inv _ W) as I. pose proof P as (Hu & Hf & _).
  pose proof (fl_len _ W) as Ln. pose proof (li_now _ I) as N0.
  destruct (tracking_step r stay inc x y s d cin P Lt Ls Sb W F) as (Wy & OccQ & Out & VO & VI & _).
  pose proof (if_par _ _ _ _ _ _ _ _ F) as Py. pose proof (fl_bal _ Wy) as Bal. rewrite Py in Bal.
  split; [exact Wy|].
    rewrite Py. destruct (cap_nonneg _ P) as [C0 H0].
    destruct inc as [|v inc]; [| set (i := v :: inc) in * ].
    + change (inject_Z (Zlen (@nil Z))) with 0 in OccQ. rewrite OccQ. rewrite (fl_prev _ W) in Out.
      assert (0 / p_fs (lt_par x) == 0) by (unfold Qdiv; ring). lra.
    + pose proof (if_supply _ _ _ _ _ _ _ _ F) as Es. pose proof (if_room _ _ _ _ _ _ _ _ F) as Rm.
      rewrite (li_in _ I) in Rm. cbn [app] in Rm.
      pose proof (lt_supply_bounds x s C0 Es) as [S0 _].
      assert (SF : 0 <= s * p_fs (lt_par x)) by (apply Qmult_le_0_compat; lra).
      assert (Rq : inject_Z (Zlen i) <= s * p_fs (lt_par x)).
      { pose proof (trunc_lo _ SF). pose proof (proj2 (injZ_le _ _) Rm). lra. }
      assert (Ip : 1 <= inject_Z (Zlen i)) by (apply injZ_pos; unfold Zlen, i; cbn [length]; lia).
      assert (Rs : inject_Z (Zlen i) / p_fs (lt_par x) <= s) by (apply Qle_shift_div_r; [exact Hf|exact Rq]).
      assert (Sp : 0 < s) by (destruct (Qlt_le_dec 0 s); [assumption|]; assert (s * p_fs (lt_par x) <= 0) by nra; lra).
      unfold lt_supply in Es. apply bind_ok in Es as (a & Ea & Es). apply bind_ok in Es as (b & Eb & Es). apply Ok_inj in Es.
      assert (A1 : a <= last_value (lt_Nout x)).
      { apply (get_result_range (fun v => v <= last_value (lt_Nout x)) _ _ _ (kp_inc _ _ (li_Nout _ I)) (kp_zero _ _ (li_Nout _ I)) (fl_n0 _ W) (fun q Iq => nondecrease_last _ q (fl_nd _ W) Iq) Ea). }
      assert (B1 : b == last_value (lt_Nin x)).
      { destruct (last_opt (lt_Nin x)) as [q|] eqn:Eq.
        - rewrite (get_result_late (lt_Nin x) q) in Eb.
          + apply Ok_inj in Eb. subst b. unfold last_value. rewrite Eq. reflexivity.
          + apply I.
          + exact Eq.
          + pose proof Eq as Eq'. unfold last_opt in Eq'. apply (fl_ci _ W) in Eq'. rewrite Eq'.
            assert (inject_Z (Z.of_nat (length (lt_Nin x) - 1)) <= inject_Z (lt_now x)) by (apply injZ_le; lia).
            assert (0 <= inject_Z (Z.of_nat (length (lt_Nin x) - 1))) by (apply injZ_nonneg; lia). nra.
          + intros q' Iq. eapply clocked_sep; [exact Hu|apply W|lia|exact Iq|exact Eq].
          + pose proof Eq as Eq'. unfold last_opt in Eq'. apply (fl_ci _ W) in Eq'. rewrite Eq'.
            assert (0 <= inject_Z (Z.of_nat (length (lt_Nin x) - 1))) by (apply injZ_nonneg; lia). nra.
        - unfold last_value. rewrite Eq. destruct (lt_Nin x); [|discriminate || (unfold last_opt in Eq; apply nth_error_None in Eq; cbn in Eq; lia)].
          cbn in Eb. apply Ok_inj in Eb. subst b. reflexivity. }
      assert (R1 : s <= a + lt_hold (lt_par x) - b).
      { revert Es Sp. destruct (Qltb_spec (lt_cap (lt_par x)) (a + lt_hold (lt_par x) - b));
        match goal with |- context [Qltb ?u ?v] => destruct (Qltb_spec u v) end; intros; subst s; lra. }
      rewrite Bal, VO, VI. lra.
Qed.

Lemma filling_run es : forall x y, physical (lt_par x) -> p_ut (lt_par x) <= 1 ->
  (lt_now x + Z.of_nat (length es) <= lt_size x)%Z -> (lt_now x + Z.of_nat (length es) <= 10000)%Z ->
  filling x -> ltm_run es x = Ok y -> filling y /\ lt_par y = lt_par x.
Proof.
  induction es as [|[[r keep] inc] es IH]; intros x y P U1 L1 L2 W E; cbn in E.
  - apply Ok_inj in E. subst y. auto.
  - apply bind_ok in E as (z & Ez & E). apply lt_interval_inv in Ez as (s & d & cin & F). cbn [length] in L1, L2.
    assert (Wz : filling z) by (eapply filling_step; [exact P|exact U1|lia|lia|apply filter_subseq|exact W|exact F]).
    pose proof (if_par _ _ _ _ _ _ _ _ F) as Pz.
    destruct (IH z y) as (A & B); try rewrite Pz; auto.
    + rewrite (if_now _ _ _ _ _ _ _ _ F), (if_size _ _ _ _ _ _ _ _ F). lia.
    + rewrite (if_now _ _ _ _ _ _ _ _ F). lia.
    + split; [exact A|congruence].
Qed.

Lemma fresh_filling p x : physical p -> make_ltm p = Ok x -> filling x.
Proof.
  intros P E. destruct (make_ltm_inv p x P E) as (I & Ep & Ef & Eq & En & Ei & Eo & Ev).
  pose proof (cap_nonneg _ P) as [_ H0].
  assert (Z0 : inject_Z (occupancy x) / p_fs (lt_par x) == 0) by (unfold occupancy; rewrite Ef, Eq; cbn; unfold Qdiv; ring).
  split; [|rewrite Z0, Ep; exact H0]. split; auto.
  - rewrite Ei, En. reflexivity.
  - rewrite Eo, En. reflexivity.
  - rewrite Ei. intros [|i] r H; discriminate.
  - rewrite Eo. intros [|i] r H; discriminate.
  - rewrite Eo. intros [|i] k ri rk _ H; discriminate.
  - rewrite Eo. cbn. lra.
  - rewrite Ev, Ef. cbn. unfold Qdiv. ring.
  - rewrite Z0, Ei, Eo. cbn. reflexivity.
Qed.
