(** The two-class diagram: space fractions, perceived densities, speeds. *)
From Verif Require Import Base Base_lemmas Model_Num Proof_Num Spec_Path Model_Link Spec_Link Proof_Link Proof_Link4 Model_McLink Spec_McLink.
Local Open Scope Q_scope.

Lemma mpos a b : 0 < a -> 0 < b -> 0 < a * b.
Proof. intros Ha Hb. nra. Qed.
Ltac pp := repeat first [assumption | apply mpos | apply Qmult_le_0_compat | lra].
Lemma mul_div a b : ~ b == 0 -> a / b * b == a.
Proof. intros H. field. exact H. Qed.
Lemma div_le a b c : 0 < b -> (a / b <= c <-> a <= c * b).
Proof.
  intros Hb. split; intros H; [|apply Qle_shift_div_r; auto].
  assert (E : a == a / b * b) by (field; lra). rewrite E. apply Qmult_le_compat_r; lra.
Qed.
Lemma div_ge a b c : 0 < b -> (c <= a / b <-> c * b <= a).
Proof.
  intros Hb. split; intros H; [|apply Qle_shift_div_l; auto].
  assert (E : a == a / b * b) by (field; lra). rewrite E. apply Qmult_le_compat_r; lra.
Qed.
Lemma div_lt a b c : 0 < b -> (a / b < c <-> a < c * b).
Proof.
  intros Hb. split; intros H; [|apply Qlt_shift_div_r; auto].
  assert (E : a == a / b * b) by (field; lra). rewrite E. apply Qmult_lt_compat_r; lra.
Qed.
Lemma div_nn a b : 0 <= a -> 0 < b -> 0 <= a / b.
Proof. intros. apply div_ge; lra. Qed.
Lemma div_pp a b : 0 < a -> 0 < b -> 0 < a / b.
Proof. intros. apply Qlt_shift_div_l; lra. Qed.

(** the fully congested split with both classes present *)
Section Congested.
  Variables wc wt Kc Kt kc kt : Q.
  Hypothesis Hwc : 0 < wc. Hypothesis Hwt : 0 < wt. Hypothesis HKc : 0 < Kc. Hypothesis HKt : 0 < Kt.
  Hypothesis Hkc : 0 < kc. Hypothesis Hkt : 0 < kt. Hypothesis HJ : kc * Kt + kt * Kc <= Kc * Kt.
  Let t1 := Kc * wc * kt. Let t2 := Kt * wt * kc. Let D := t2 + t1.
  Let A := kt * (wc - wt) + Kt * wt. Let B := kc * (wt - wc) + Kc * wc.
  Let fc := (kc * kt * (wc - wt) + t2) / D. Let ft := (kc * kt * (wt - wc) + t1) / D.
  Lemma cg_kc : kc <= Kc.
  Proof. assert (kc * Kt <= Kc * Kt) by (assert (0 <= kt * Kc) by nra; lra). apply Qmult_le_r with Kt; auto. Qed.
  Lemma cg_kt : kt <= Kt.
  Proof. assert (kt * Kc <= Kt * Kc) by (assert (0 <= kc * Kt) by nra; lra). apply Qmult_le_r with Kc; auto. Qed.
  Lemma cg_D : 0 < D. Proof. unfold D, t1, t2. assert (0 < Kt * wt * kc) by pp. assert (0 < Kc * wc * kt) by pp. lra. Qed.
  Lemma cg_A : 0 < A.
  Proof. unfold A. pose proof cg_kt. assert (0 < kt * wc) by nra. assert (0 <= (Kt - kt) * wt) by nra. lra. Qed.
  Lemma cg_B : 0 < B.
  Proof. unfold B. pose proof cg_kc. assert (0 < kc * wt) by nra. assert (0 <= (Kc - kc) * wc) by nra. lra. Qed.
  Lemma cg_fc : fc == kc * A / D. Proof. unfold fc, A, t2. field. pose proof cg_D. lra. Qed.
  Lemma cg_ft : ft == kt * B / D. Proof. unfold ft, B, t1. field. pose proof cg_D. lra. Qed.
  Lemma cg_fc_pos : 0 < fc. Proof. rewrite cg_fc. apply div_pp; [pose proof cg_A; nra|apply cg_D]. Qed.
  Lemma cg_ft_pos : 0 < ft. Proof. rewrite cg_ft. apply div_pp; [pose proof cg_B; nra|apply cg_D]. Qed.
  Lemma cg_pc : kc / fc == D / A.
  Proof. rewrite cg_fc. pose proof cg_A. pose proof cg_D. field. repeat split; lra. Qed.
  Lemma cg_pt : kt / ft == D / B.
  Proof. rewrite cg_ft. pose proof cg_B. pose proof cg_D. field. repeat split; lra. Qed.
  Lemma cg_pc_K : D / A <= Kc.
  Proof.
    apply div_le; [apply cg_A|]. unfold D, A, t1, t2.
    assert (0 <= wt * (Kc * Kt - kc * Kt - kt * Kc)) by (apply Qmult_le_0_compat; lra). lra.
  Qed.
  Lemma cg_pt_K : D / B <= Kt.
  Proof.
    apply div_le; [apply cg_B|]. unfold D, B, t1, t2.
    assert (0 <= wc * (Kc * Kt - kc * Kt - kt * Kc)) by (apply Qmult_le_0_compat; lra). lra.
  Qed.
  Let u := wc * wt * (Kc * Kt - kc * Kt - kt * Kc) / D.
  Lemma cg_uc : wc * (Kc - D / A) / (D / A) == u.
  Proof.
    pose proof cg_A as PA. pose proof cg_D as PD.
    assert (E : wc * (Kc - D / A) / (D / A) == wc * (Kc * A - D) / D) by (field; split; lra).
    rewrite E. unfold u. assert (E2 : wc * (Kc * A - D) == wc * wt * (Kc * Kt - kc * Kt - kt * Kc)) by (unfold A, D, t1, t2; ring).
    rewrite E2. reflexivity.
  Qed.
  Lemma cg_ut : wt * (Kt - D / B) / (D / B) == u.
  Proof.
    pose proof cg_B as PB. pose proof cg_D as PD.
    assert (E : wt * (Kt - D / B) / (D / B) == wt * (Kt * B - D) / D) by (field; split; lra).
    rewrite E. unfold u. assert (E2 : wt * (Kt * B - D) == wc * wt * (Kc * Kt - kc * Kt - kt * Kc)) by (unfold B, D, t1, t2; ring).
    rewrite E2. reflexivity.
  Qed.
  (** the common speed does not exceed that of free trucks when
      [kc/rho1 + kt/crt >= 1] *)
  Lemma cg_u v : 0 <= v -> Kc * wc * (Kt * wt) <= kc * (v + wc) * (Kt * wt) + kt * (v + wt) * (Kc * wc) -> u <= v.
  Proof. intros Hv H. unfold u. apply div_le; [apply cg_D|]. unfold D, t1, t2. lra. Qed.
End Congested.

Lemma fd_w f : fd_ok f -> 0 < w_c f /\ 0 < w_t f /\ 0 < cap_c f /\ 0 < cap_t f /\ 0 < rho1 f.
Proof.
  intros (A1 & A2 & A3 & A4 & A5 & A6 & A7 & A8 & A9 & A10 & A11).
  assert (C1 : 0 < cap_c f) by (rewrite A7; nra). assert (C2 : 0 < cap_t f) by (rewrite A8; nra).
  assert (W1 : 0 < w_c f). { destruct (Qlt_le_dec 0 (w_c f)); auto. exfalso. assert (w_c f * (K_c f - cr_c f) <= 0) by nra. lra. }
  assert (W2 : 0 < w_t f). { destruct (Qlt_le_dec 0 (w_t f)); auto. exfalso. assert (w_t f * (K_t f - cr_t f) <= 0) by nra. lra. }
  repeat split; auto. destruct (Qlt_le_dec 0 (rho1 f)); auto. exfalso.
  assert (rho1 f * (vf_t f + w_c f) <= 0) by nra. assert (0 < K_c f * w_c f) by nra. lra.
Qed.

Lemma speed_free vf w K cr k : 0 < cr -> cr < K -> w * (K - cr) == vf * cr -> 0 < w -> k <= cr -> speed_at vf w K k == vf.
Proof.
  intros H1 H2 H3 H4 H5. unfold speed_at. destruct (Qleb_spec k 0) as [L|L]; [reflexivity|].
  apply Q.min_l. apply div_ge; [lra|]. assert (w * (K - cr) <= w * (K - k)) by nra.
  assert (0 < vf). { destruct (Qlt_le_dec 0 vf); auto. exfalso. assert (0 < w * (K - cr)) by nra. assert (vf * cr <= 0) by nra. lra. }
  assert (vf * k <= vf * cr) by nra. lra.
Qed.
Lemma speed_cong vf w K k u : 0 < k -> w * (K - k) / k == u -> u <= vf -> speed_at vf w K k == u.
Proof.
  intros H1 H2 H3. unfold speed_at. destruct (Qleb_spec k 0); [lra|]. rewrite H2. apply Q.min_r. exact H3.
Qed.

(** the summary: [kc], [kt] real densities, not more than the jam storage in use *)
Definition split_ok (f : fd) (kc kt : Q) (s : split) : Prop :=
  exists pc pt, s_pc s = Den pc /\ s_pt s = Den pt /\
    s_fc s + s_ft s == 1 /\ 0 <= s_fc s /\ 0 <= s_ft s /\
    s_fc s * pc == kc /\ s_ft s * pt == kt /\ 0 <= pc <= K_c f /\ 0 <= pt <= K_t f /\
    (vf_t f <= vf_c f -> speed_at (vf_t f) (w_t f) (K_t f) pt == Qmin (vf_t f) (speed_at (vf_c f) (w_c f) (K_c f) pc)).

Lemma perceive_free f fs len vc vt : fd_ok f -> 0 <= kden fs len vc -> 0 <= kden fs len vt ->
  at_free_flow f (kden fs len vc) (kden fs len vt) ->
  split_ok f (kden fs len vc) (kden fs len vt) (perceive f fs len vc vt) /\
  exists pc pt, s_pc (perceive f fs len vc vt) = Den pc /\ s_pt (perceive f fs len vc vt) = Den pt /\
    pc <= cr_c f /\ pt <= cr_t f /\
    s_fc (perceive f fs len vc vt) * pc == kden fs len vc /\ s_ft (perceive f fs len vc vt) * pt == kden fs len vt.
Proof.
  intros HF. unfold at_free_flow, perceive, kden. set (kc := inject_Z vc / fs / len). set (kt := inject_Z vt / fs / len).
  intros Hc Ht HFF. pose proof (fd_w f HF) as (W1 & W2 & C1 & C2 & R1).
  destruct HF as (A1 & A2 & A3 & A4 & A5 & A6 & A7 & A8 & A9 & A10 & A11).
  destruct (Qleb_spec (kc / cr_c f + kt / cr_t f) 1) as [_|L]; [|contradiction]. cbv zeta. cbn [s_fc s_ft s_pc s_pt].
  set (a := kc / cr_c f) in *. set (b := kt / cr_t f) in *.
  assert (Pa : 0 <= a) by (apply div_nn; auto). assert (Pb : 0 <= b) by (apply div_nn; auto).
  assert (Ea : kc == cr_c f * a) by (unfold a; field; lra). assert (Eb : kt == cr_t f * b) by (unfold b; field; lra).
  assert (Lc : kc + cr_c f * b <= cr_c f) by (rewrite Ea; nra).
  assert (Lt : kt + cr_t f * a <= cr_t f) by (rewrite Eb; nra).
  assert (G1 : (if Qeq_bool (a + b) 0 then 1 else a / (a + b)) * (kc + cr_c f * b) == kc).
  { destruct (Qeqb_spec (a + b) 0) as [Z|Z]; [assert (a == 0) by lra; assert (b == 0) by lra; nra|]. rewrite Ea. field. exact Z. }
  assert (G2 : (if Qeq_bool (a + b) 0 then 0 else b / (a + b)) * (kt + cr_t f * a) == kt).
  { destruct (Qeqb_spec (a + b) 0) as [Z|Z]; [assert (a == 0) by lra; assert (b == 0) by lra; nra|]. rewrite Eb. field. exact Z. }
  split; [|eexists; eexists; split; [reflexivity|split; [reflexivity|split; [exact Lc|split; [exact Lt|split; [exact G1|exact G2]]]]]].
  unfold split_ok. cbn [s_fc s_ft s_pc s_pt]. eexists. eexists. split; [reflexivity|]. split; [reflexivity|].
  split; [destruct (Qeqb_spec (a + b) 0); [lra|field; auto]|].
  split; [destruct (Qeqb_spec (a + b) 0); [lra|apply div_nn; lra]|].
  split; [destruct (Qeqb_spec (a + b) 0); [lra|apply div_nn; lra]|].
  split; [exact G1|]. split; [exact G2|].
  split; [assert (0 <= cr_c f * b) by nra; lra|]. split; [assert (0 <= cr_t f * a) by nra; lra|].
  intros Hv. rewrite (speed_free _ _ _ (cr_t f)), (speed_free _ _ _ (cr_c f)); auto; try lra. rewrite Q.min_l; lra.
Qed.

Lemma perceive_ok f fs len vc vt : fd_ok f -> 0 < fs -> 0 < len -> (0 <= vc)%Z -> (0 <= vt)%Z ->
  fill f (kden fs len vc) (kden fs len vt) <= 1 ->
  split_ok f (kden fs len vc) (kden fs len vt) (perceive f fs len vc vt).
Proof.
  intros HF Hfs Hlen Zc Zt HJ.
  assert (Pc : 0 <= kden fs len vc) by (apply div_nn; [apply div_nn; [apply injZ_nonneg; lia|auto]|auto]).
  assert (Pt : 0 <= kden fs len vt) by (apply div_nn; [apply div_nn; [apply injZ_nonneg; lia|auto]|auto]).
  destruct (Qlt_le_dec 1 (kden fs len vc / cr_c f + kden fs len vt / cr_t f)) as [NF|FF]; [|apply perceive_free; auto].
  assert (Pvt : (vt <> 0)%Z -> 0 < kden fs len vt).
  { intros Nz. apply div_pp; [apply div_pp; [|auto]|auto]. change 0 with (inject_Z 0). apply injZ_lt. lia. }
  assert (Pvc : (vc <> 0)%Z -> 0 < kden fs len vc).
  { intros Nz. apply div_pp; [apply div_pp; [|auto]|auto]. change 0 with (inject_Z 0). apply injZ_lt. lia. }
  assert (Zvt : (vt = 0)%Z -> kden fs len vt == 0) by (intros ->; unfold kden; change (inject_Z 0) with 0; field; lra).
  assert (Zvc : (vc = 0)%Z -> kden fs len vc == 0) by (intros ->; unfold kden; change (inject_Z 0) with 0; field; lra).
  unfold perceive, fill, kden in *. set (kc := inject_Z vc / fs / len) in *. set (kt := inject_Z vt / fs / len) in *. clearbody kc kt.
  pose proof (fd_w f HF) as (W1 & W2 & C1 & C2 & R1).
  destruct HF as (A1 & A2 & A3 & A4 & A5 & A6 & A7 & A8 & A9 & A10 & A11).
  assert (PKc : 0 < K_c f) by lra. assert (PKt : 0 < K_t f) by lra.
  assert (J : kc * K_t f + kt * K_c f <= K_c f * K_t f).
  { assert (E : kc / K_c f + kt / K_t f == (kc * K_t f + kt * K_c f) / (K_c f * K_t f)) by (field; lra).
    rewrite E in HJ. apply div_le in HJ; [lra|nra]. }
  destruct (Qleb_spec (kc / cr_c f + kt / cr_t f) 1) as [L|_]; [lra|].
  destruct (Qltb_spec (kt / cr_t f) 1) as [L1|L1]; cbn [andb].
  2:{ assert (CT : cr_t f <= kt). { apply Qnot_lt_le in L1. apply div_ge in L1; lra. }
      assert (U : K_c f * w_c f * (K_t f * w_t f) <= kc * (vf_t f + w_c f) * (K_t f * w_t f) + kt * (vf_t f + w_t f) * (K_c f * w_c f)).
      { assert (E : cr_t f * (vf_t f + w_t f) == K_t f * w_t f) by (assert (w_t f * (K_t f - cr_t f) == vf_t f * cr_t f) by lra; lra).
        assert (0 <= kc * (vf_t f + w_c f) * (K_t f * w_t f)) by (repeat apply Qmult_le_0_compat; lra).
        assert (E2 : cr_t f * (vf_t f + w_t f) * (K_c f * w_c f) <= kt * (vf_t f + w_t f) * (K_c f * w_c f)).
        { apply Qmult_le_compat_r; [|nra]. apply Qmult_le_compat_r; lra. }
        rewrite E in E2. lra. }
      destruct (Z.eqb_spec vt 0) as [Z|Nt]; [specialize (Zvt Z); lra|].
      destruct (Z.eqb_spec vc 0) as [Z|Nc].
      - specialize (Zvc Z). specialize (Pvt Nt).
        set (u := (K_t f - kt) * w_t f / kt). assert (Lk : kt <= K_t f) by nra.
        assert (Pu : 0 <= u) by (apply div_nn; [nra|auto]).
        assert (Uv : u <= vf_t f). { apply div_le; auto. assert (w_t f * (K_t f - cr_t f) == vf_t f * cr_t f) by lra. nra. }
        unfold split_ok. cbn [s_fc s_ft s_pc s_pt]. unfold ddiv. destruct (Qeqb_spec (u + w_c f) 0); [lra|].
        eexists. eexists. split; [reflexivity|]. split; [reflexivity|]. split; [lra|]. split; [lra|]. split; [lra|].
        split; [rewrite Zvc; ring|]. split; [ring|].
        assert (B1 : 0 < K_c f * w_c f / (u + w_c f)) by (apply div_pp; [nra|lra]).
        split; [split; [lra|apply div_le; [lra|nra]]|]. split; [lra|].
        intros Hv.
        assert (S1 : w_c f * (K_c f - K_c f * w_c f / (u + w_c f)) / (K_c f * w_c f / (u + w_c f)) == u) by (field; repeat split; lra).
        assert (S2 : w_t f * (K_t f - kt) / kt == u) by (unfold u; field; lra).
        rewrite (speed_cong _ _ _ _ u), (speed_cong (vf_c f) _ _ _ u); auto; try lra. rewrite Q.min_r; lra.
      - specialize (Pvt Nt). specialize (Pvc Nc). cbv zeta.
        pose proof (cg_fc_pos _ _ _ _ _ _ W1 W2 PKc PKt Pvc Pvt J) as F1.
        pose proof (cg_ft_pos _ _ _ _ _ _ W1 W2 PKc PKt Pvc Pvt J) as F2.
        pose proof (cg_D _ _ _ _ _ _ W1 W2 PKc PKt Pvc Pvt) as PD.
        pose proof (cg_pc _ _ _ _ _ _ W1 W2 PKc PKt Pvc Pvt J) as E1.
        pose proof (cg_pt _ _ _ _ _ _ W1 W2 PKc PKt Pvc Pvt J) as E2.
        pose proof (cg_pc_K _ _ _ _ _ _ W1 W2 PKc PKt Pvc Pvt J) as G1.
        pose proof (cg_pt_K _ _ _ _ _ _ W1 W2 PKc PKt Pvc Pvt J) as G2.
        pose proof (cg_uc _ _ _ _ _ _ W1 W2 PKc PKt Pvc Pvt J) as U1.
        pose proof (cg_ut _ _ _ _ _ _ W1 W2 PKc PKt Pvc Pvt J) as U2.
        pose proof (cg_u _ _ _ _ _ _ W1 W2 PKc PKt Pvc Pvt (vf_t f) ltac:(lra) U) as U3.
        rewrite <- E1 in G1, U1. rewrite <- E2 in G2, U2.
        unfold split_ok. cbn [s_fc s_ft s_pc s_pt].
        set (fc := (kc * kt * (w_c f - w_t f) + K_t f * w_t f * kc) / (K_t f * w_t f * kc + K_c f * w_c f * kt)) in *.
        set (ft := (kc * kt * (w_t f - w_c f) + K_c f * w_c f * kt) / (K_t f * w_t f * kc + K_c f * w_c f * kt)) in *.
        unfold ddiv. destruct (Qeqb_spec fc 0); [lra|]. destruct (Qeqb_spec ft 0); [lra|].
        eexists. eexists. split; [reflexivity|]. split; [reflexivity|].
        split; [unfold fc, ft; field; lra|]. split; [lra|]. split; [lra|].
        split; [field; auto|]. split; [field; auto|].
        assert (0 < kc / fc) by (apply div_pp; auto). assert (0 < kt / ft) by (apply div_pp; auto).
        split; [lra|]. split; [lra|]. intros Hv.
        rewrite (speed_cong _ _ _ _ _ H0 U2 U3), (speed_cong (vf_c f) _ _ _ _ H U1 ltac:(lra)). rewrite Q.min_r; lra. }
  set (b := kt / cr_t f) in *. assert (Pb : 0 <= b) by (apply div_nn; auto).
  assert (Eb : kt == cr_t f * b) by (unfold b; field; lra).
  assert (N1 : 0 < kc / cr_c f) by lra. assert (Pkc : 0 < kc). { destruct (Qlt_le_dec 0 kc); auto. assert (kc / cr_c f <= 0) by (apply div_le; lra). lra. }
  destruct (Qleb_spec (kc / (1 - b)) (rho1 f)) as [L2|L2].
  - (* semi-congested *)
    unfold split_ok. cbv zeta. cbn [s_fc s_ft s_pc s_pt]. unfold ddiv. destruct (Qeqb_spec (1 - b) 0); [lra|].
    eexists. eexists. split; [reflexivity|]. split; [reflexivity|]. split; [ring|]. split; [lra|]. split; [lra|].
    split; [field; lra|]. split; [rewrite Eb; ring|].
    assert (PP : 0 < kc / (1 - b)) by (apply div_pp; lra).
    assert (RK : rho1 f <= K_c f). { apply Qmult_le_r with (vf_t f + w_c f); [lra|]. rewrite A11. nra. }
    split; [lra|]. split; [lra|]. intros Hv.
    rewrite (speed_free _ _ _ (cr_t f)); auto; try lra.
    assert (vf_t f <= speed_at (vf_c f) (w_c f) (K_c f) (kc / (1 - b))); [|rewrite Q.min_l; lra].
    unfold speed_at. destruct (Qleb_spec (kc / (1 - b)) 0); [lra|]. apply Q.min_glb; [lra|].
    apply div_ge; [lra|]. assert ((kc / (1 - b)) * (vf_t f + w_c f) <= rho1 f * (vf_t f + w_c f)) by (apply Qmult_le_compat_r; lra). lra.
  - assert (CR : rho1 f * (1 - b) < kc). { destruct (Qlt_le_dec (rho1 f * (1 - b)) kc); auto. exfalso. apply L2. apply div_le; lra. }
    assert (U : K_c f * w_c f * (K_t f * w_t f) <= kc * (vf_t f + w_c f) * (K_t f * w_t f) + kt * (vf_t f + w_t f) * (K_c f * w_c f)).
    { assert (E : cr_t f * (vf_t f + w_t f) == K_t f * w_t f) by (assert (w_t f * (K_t f - cr_t f) == vf_t f * cr_t f) by lra; lra).
      assert (E2 : rho1 f * (1 - b) * (vf_t f + w_c f) <= kc * (vf_t f + w_c f)) by (apply Qmult_le_compat_r; lra).
      assert (E3 : (1 - b) * (K_c f * w_c f) <= kc * (vf_t f + w_c f)) by (rewrite <- A11; lra).
      assert (E4 : (1 - b) * (K_c f * w_c f) * (K_t f * w_t f) <= kc * (vf_t f + w_c f) * (K_t f * w_t f)) by (apply Qmult_le_compat_r; [exact E3|nra]).
      assert (E5 : kt * (vf_t f + w_t f) == b * (K_t f * w_t f)) by (rewrite Eb; rewrite <- E; ring).
      rewrite E5. lra. }
    assert (Lkc : kc <= K_c f) by nra.
    destruct (Z.eqb_spec vt 0) as [Z|Nt].
    + specialize (Zvt Z).
      set (u := (K_c f - kc) * w_c f / kc).
      assert (Pu : 0 <= u) by (apply div_nn; [nra|auto]).
      assert (Uv : u <= vf_t f).
      { apply div_le; auto. rewrite Zvt in U.
        assert (0 < K_t f * w_t f) by nra. assert (K_c f * w_c f * (K_t f * w_t f) <= kc * (vf_t f + w_c f) * (K_t f * w_t f)) by lra.
        apply Qmult_le_r in H0; lra. }
      unfold split_ok. cbn [s_fc s_ft s_pc s_pt]. unfold ddiv. destruct (Qeqb_spec (u + w_t f) 0); [lra|].
      eexists. eexists. split; [reflexivity|]. split; [reflexivity|]. split; [lra|]. split; [lra|]. split; [lra|].
      split; [ring|]. split; [rewrite Zvt; ring|].
      assert (B1 : 0 < K_t f * w_t f / (u + w_t f)) by (apply div_pp; [nra|lra]).
      split; [lra|]. split; [split; [lra|apply div_le; [lra|nra]]|]. 
      intros Hv.
      assert (S1 : w_t f * (K_t f - K_t f * w_t f / (u + w_t f)) / (K_t f * w_t f / (u + w_t f)) == u) by (field; repeat split; lra).
      assert (S2 : w_c f * (K_c f - kc) / kc == u) by (unfold u; field; lra).
      rewrite (speed_cong _ _ _ _ u), (speed_cong (vf_c f) _ _ _ u); auto; try lra. rewrite Q.min_r; lra.
    + destruct (Z.eqb_spec vc 0) as [Z|Nc]; [specialize (Zvc Z); lra|].
      specialize (Pvt Nt). cbv zeta.
      pose proof (cg_fc_pos _ _ _ _ _ _ W1 W2 PKc PKt Pkc Pvt J) as F1.
      pose proof (cg_ft_pos _ _ _ _ _ _ W1 W2 PKc PKt Pkc Pvt J) as F2.
      pose proof (cg_D _ _ _ _ _ _ W1 W2 PKc PKt Pkc Pvt) as PD.
      pose proof (cg_pc _ _ _ _ _ _ W1 W2 PKc PKt Pkc Pvt J) as E1.
      pose proof (cg_pt _ _ _ _ _ _ W1 W2 PKc PKt Pkc Pvt J) as E2.
      pose proof (cg_pc_K _ _ _ _ _ _ W1 W2 PKc PKt Pkc Pvt J) as G1.
      pose proof (cg_pt_K _ _ _ _ _ _ W1 W2 PKc PKt Pkc Pvt J) as G2.
      pose proof (cg_uc _ _ _ _ _ _ W1 W2 PKc PKt Pkc Pvt J) as U1.
      pose proof (cg_ut _ _ _ _ _ _ W1 W2 PKc PKt Pkc Pvt J) as U2.
      pose proof (cg_u _ _ _ _ _ _ W1 W2 PKc PKt Pkc Pvt (vf_t f) ltac:(lra) U) as U3.
      rewrite <- E1 in G1, U1. rewrite <- E2 in G2, U2.
      unfold split_ok. cbn [s_fc s_ft s_pc s_pt].
      set (fc := (kc * kt * (w_c f - w_t f) + K_t f * w_t f * kc) / (K_t f * w_t f * kc + K_c f * w_c f * kt)) in *.
      set (ft := (kc * kt * (w_t f - w_c f) + K_c f * w_c f * kt) / (K_t f * w_t f * kc + K_c f * w_c f * kt)) in *.
      unfold ddiv. destruct (Qeqb_spec fc 0); [lra|]. destruct (Qeqb_spec ft 0); [lra|].
      eexists. eexists. split; [reflexivity|]. split; [reflexivity|].
      split; [unfold fc, ft; field; lra|]. split; [lra|]. split; [lra|].
      split; [field; auto|]. split; [field; auto|].
      assert (0 < kc / fc) by (apply div_pp; auto). assert (0 < kt / ft) by (apply div_pp; auto).
      split; [lra|]. split; [lra|]. intros Hv.
      rewrite (speed_cong _ _ _ _ _ H0 U2 U3), (speed_cong (vf_c f) _ _ _ _ H U1 ltac:(lra)). rewrite Q.min_r; lra.
Qed.
