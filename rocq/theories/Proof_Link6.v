(** Density-based link travel time. *)
From Verif Require Import Base Base_lemmas Model_Num Proof_Num Model_Link Spec_Link Proof_Link Proof_Link3 Proof_Link5.
Local Open Scope Q_scope.

Definition eps_of (k : lkind) : Q := match k with KCtm => 1 # 1000 | _ => dbl_epsilon end.
Definition congested (p : lparam) (rho : Q) : Q :=
  p_flow p * (p_hold p - rho) / ((p_hold p - p_flow p / p_ffs p) * rho).
Definition speed (p : lparam) (rho : Q) : Q :=
  if Qle_bool rho (p_flow p / p_ffs p) then p_ffs p else Qmax (eps_of (p_kind p) * p_ffs p) (congested p rho).

Lemma eps_range k : 0 < eps_of k /\ eps_of k <= 1.
Proof. destruct k; simpl; unfold dbl_epsilon; split; unfold Qlt, Qle; simpl; lia. Qed.

Lemma tt_below p f : tt_ok p -> density p f < p_hold p -> tt_from_flow p f = Ok (p_len p / speed p (density p f)).
Proof.
  intros (Hn & HL & Hv & Hc & Hk) Hd. unfold tt_from_flow. fold (density p f).
  destruct (Qeqb_spec (inject_Z (p_lanes p) * p_len p * p_ffs p) 0) as [E|_].
  { exfalso. apply injZ_pos in Hn. assert (0 < inject_Z (p_lanes p) * p_len p) by nra.
    assert (0 < inject_Z (p_lanes p) * p_len p * p_ffs p) by nra. lra. }
  simpl guard. cbn [bind negb]. destruct (Qleb_spec (p_hold p) (density p f)) as [E|_]; [lra|]. reflexivity.
Qed.
Lemma tt_jam p f : tt_ok p -> p_hold p <= density p f -> tt_from_flow p f = Ok max_link_cost.
Proof.
  intros (Hn & HL & Hv & Hc & Hk) Hd. unfold tt_from_flow. fold (density p f).
  destruct (Qeqb_spec (inject_Z (p_lanes p) * p_len p * p_ffs p) 0) as [E|_].
  { exfalso. apply injZ_pos in Hn. assert (0 < inject_Z (p_lanes p) * p_len p) by nra.
    assert (0 < inject_Z (p_lanes p) * p_len p * p_ffs p) by nra. lra. }
  cbn [guard bind negb]. destruct (Qleb_spec (p_hold p) (density p f)) as [_|E]; [reflexivity|contradiction].
Qed.

Lemma kc_pos p : tt_ok p -> 0 < p_flow p / p_ffs p.
Proof. intros (_ & _ & Hv & Hc & _). apply Qlt_shift_div_l; lra. Qed.

Lemma congested_eq p rho : tt_ok p -> p_flow p / p_ffs p < rho ->
  congested p rho * ((p_hold p - p_flow p / p_ffs p) * rho) == p_flow p * (p_hold p - rho).
Proof.
  intros H Hr. pose proof (kc_pos p H). destruct H as (_ & _ & Hv & Hc & Hk). unfold congested.
  set (kc := p_flow p / p_ffs p) in *. clearbody kc. field. split; lra.
Qed.
Lemma congested_pos p rho : tt_ok p -> p_flow p / p_ffs p < rho -> rho < p_hold p -> 0 < congested p rho.
Proof.
  intros H Hr Hh. pose proof (kc_pos p H). destruct H as (_ & _ & Hv & Hc & Hk). unfold congested.
  set (kc := p_flow p / p_ffs p) in *. clearbody kc. apply Qlt_shift_div_l; nra.
Qed.
Lemma congested_le p rho : tt_ok p -> p_flow p / p_ffs p < rho -> rho < p_hold p -> congested p rho <= p_ffs p.
Proof.
  intros H Hr Hh. pose proof (kc_pos p H) as K. destruct H as (_ & _ & Hv & Hc & Hk). unfold congested.
  assert (E : p_flow p == p_flow p / p_ffs p * p_ffs p) by (field; lra).
  set (kc := p_flow p / p_ffs p) in *. clearbody kc. apply Qle_shift_div_r; [nra|].
  rewrite E. assert (kc * (p_hold p - rho) <= (p_hold p - kc) * rho) by nra.
  assert (p_ffs p * (kc * (p_hold p - rho)) <= p_ffs p * ((p_hold p - kc) * rho)) by (apply mull_le; lra). lra.
Qed.
Lemma congested_mono p r1 r2 : tt_ok p -> p_flow p / p_ffs p < r1 -> r1 <= r2 -> r2 < p_hold p -> congested p r2 <= congested p r1.
Proof.
  intros H H1 H12 H2. pose proof (kc_pos p H) as K. pose proof (congested_eq p r1 H H1) as E.
  pose proof (congested_pos p r1 H H1 ltac:(lra)) as G. destruct H as (_ & _ & Hv & Hc & Hk).
  unfold congested at 1. set (g := congested p r1) in *. clearbody g.
  set (kc := p_flow p / p_ffs p) in *. clearbody kc. apply Qle_shift_div_r; [nra|].
  assert (0 < g * (p_hold p - kc)) by nra.
  assert (g * (p_hold p - kc) * r1 <= g * (p_hold p - kc) * r2) by (apply mull_le; lra).
  assert (p_flow p * (p_hold p - r2) <= p_flow p * (p_hold p - r1)) by (apply mull_le; lra). lra.
Qed.

Lemma speed_pos p rho : tt_ok p -> 0 < speed p rho.
Proof.
  intros H. unfold speed. destruct H as (_ & _ & Hv & _). destruct (Qle_bool rho _); [exact Hv|].
  eapply Qlt_le_trans; [|apply Q.le_max_l]. destruct (eps_range (p_kind p)). nra.
Qed.
Lemma speed_le p rho : tt_ok p -> rho < p_hold p -> speed p rho <= p_ffs p.
Proof.
  intros H Hh. unfold speed. destruct (Qleb_spec rho (p_flow p / p_ffs p)) as [L|L]; [lra|]. apply Qnot_le_lt in L.
  apply Q.max_lub; [|apply congested_le; auto]. destruct (eps_range (p_kind p)). destruct H as (_ & _ & Hv & _). nra.
Qed.
Lemma speed_mono p r1 r2 : tt_ok p -> r1 <= r2 -> r2 < p_hold p -> speed p r2 <= speed p r1.
Proof.
  intros H H12 H2. unfold speed at 2. destruct (Qleb_spec r1 (p_flow p / p_ffs p)) as [L|L]; [apply speed_le; auto|].
  apply Qnot_le_lt in L. unfold speed. destruct (Qleb_spec r2 (p_flow p / p_ffs p)) as [L'|L']; [lra|].
  apply Q.max_le_compat_l. apply congested_mono; auto.
Qed.

Lemma div_anti a x y : 0 <= a -> 0 < x -> x <= y -> a / y <= a / x.
Proof.
  intros A X Y. apply Qle_shift_div_r; [lra|].
  assert (E : a / x * x == a) by (field; lra). assert (0 <= a / x) by (apply Qle_shift_div_l; lra).
  assert (a / x * x <= a / x * y) by (apply mull_le; auto). lra.
Qed.

Lemma density_mono p f1 f2 : tt_ok p -> f1 <= f2 -> density p f1 <= density p f2.
Proof.
  intros (Hn & HL & _) L. unfold density. apply injZ_pos in Hn. set (n := inject_Z (p_lanes p)) in *.
  assert (E : f1 / n / p_len p * p_len p == f1 / n) by (field; lra).
  assert (E' : f1 / n * n == f1) by (field; lra).
  apply Qle_shift_div_l; [exact HL|]. rewrite E. apply Qle_shift_div_l; lra.
Qed.
Lemma density_shift p f : tt_ok p -> density p f * (inject_Z (p_lanes p) * p_len p) == f.
Proof. intros (Hn & HL & _). unfold density. apply injZ_pos in Hn. field. split; lra. Qed.

Lemma tt_lower p f t : tt_ok p -> density p f < p_hold p -> tt_from_flow p f = Ok t -> p_len p / p_ffs p <= t.
Proof.
  intros H Hd E. rewrite tt_below in E by auto. apply Ok_inj in E as <-. pose proof H as (_ & HL & Hv & _).
  apply div_anti; [lra|apply speed_pos; auto|apply speed_le; auto].
Qed.
Lemma tt_mono p f1 f2 t1 t2 : tt_ok p -> f1 <= f2 -> density p f2 < p_hold p ->
  tt_from_flow p f1 = Ok t1 -> tt_from_flow p f2 = Ok t2 -> t1 <= t2.
Proof.
  intros H L Hd E1 E2. pose proof (density_mono p f1 f2 H L) as D.
  rewrite tt_below in E1 by (auto; lra). rewrite tt_below in E2 by auto. apply Ok_inj in E1 as <-. apply Ok_inj in E2 as <-.
  pose proof H as (_ & HL & _). apply div_anti; [lra|apply speed_pos; auto|apply speed_mono; auto].
Qed.
Lemma tt_upper p f t : tt_ok p -> density p f < p_hold p -> tt_from_flow p f = Ok t -> t <= p_len p / (eps_of (p_kind p) * p_ffs p).
Proof.
  intros H Hd E. rewrite tt_below in E by auto. apply Ok_inj in E as <-. pose proof H as (_ & HL & Hv & _).
  destruct (eps_range (p_kind p)).
  apply div_anti; [lra|nra|]. unfold speed. destruct (Qle_bool _ _); [nra|apply Q.le_max_l].
Qed.

Lemma tt_continuous p : tt_ok p -> forall e, 0 < e -> exists d, 0 < d /\
  forall f, Qabs (f - critical p) <= d -> exists t, tt_from_flow p f = Ok t /\ Qabs (t - p_len p / p_ffs p) <= e.
Proof.
  intros H e He. pose proof (kc_pos p H) as K. pose proof H as (Hn & HL & Hv & Hc & Hk). apply injZ_pos in Hn.
  set (n := inject_Z (p_lanes p)) in *. set (kc := p_flow p / p_ffs p) in *.
  assert (EC : p_flow p == kc * p_ffs p) by (unfold kc; field; lra).
  set (h := p_hold p) in *. set (L := p_len p) in *.
  assert (X : 0 < 2 * L * h) by nra.
  assert (Y : 0 < e * p_flow p * (h - kc)). { assert (0 < e * p_flow p) by nra. nra. }
  set (a := e * p_flow p * (h - kc) / (2 * L * h)).
  assert (A0 : 0 < a) by (apply Qlt_shift_div_l; lra).
  assert (A1 : a * (2 * L * h) == e * p_flow p * (h - kc)) by (unfold a; field; split; lra).
  set (delta := Qmin ((h - kc) / 2) a).
  assert (D0 : 0 < delta). { unfold delta. apply Q.min_glb_lt; [|exact A0]. apply Qlt_shift_div_l; lra. }
  assert (D1 : delta <= (h - kc) / 2) by apply Q.le_min_l.
  assert (D1' : delta * 2 <= h - kc). { assert ((h - kc) / 2 * 2 == h - kc) by field. lra. }
  assert (D2 : delta <= a) by apply Q.le_min_r. clearbody delta.
  assert (NL : 0 < n * L) by nra.
  exists (delta * (n * L)). split; [nra|]. intros f Hf. apply Qabs_Qle_condition in Hf as [_ Hf].
  pose proof (density_shift p f H) as Es. fold n L in Es. set (rho := density p f) in *.
  assert (Ecr : critical p == kc * (n * L)) by (unfold critical; fold kc n L; ring).
  assert (R : rho <= kc + delta).
  { apply Qnot_lt_le. intros C. assert ((kc + delta) * (n * L) < rho * (n * L)) by (apply Qmult_lt_compat_r; auto). lra. }
  assert (Rh : rho < h) by lra.
  rewrite tt_below by auto. eexists. split; [reflexivity|]. fold rho L.
  pose proof (speed_pos p rho H) as SP. pose proof (speed_le p rho H Rh) as SL.
  pose proof (div_anti L (speed p rho) (p_ffs p) ltac:(lra) SP SL) as Lo.
  apply Qabs_Qle_condition. split; [lra|].
  enough (L / speed p rho <= L / p_ffs p + e) by lra.
  unfold speed. fold kc. destruct (Qleb_spec rho kc) as [Q|Q]; [lra|]. apply Qnot_le_lt in Q.
  pose proof (congested_pos p rho H Q Rh) as G. pose proof (congested_eq p rho H Q) as GE. fold kc h in GE.
  eapply Qle_trans; [apply div_anti; [lra|exact G|apply Q.le_max_r]|].
  set (g := congested p rho) in *. clearbody g.
  assert (F : L / p_ffs p * p_ffs p == L) by (field; lra). set (ff := L / p_ffs p) in *. clearbody ff.
  apply Qle_shift_div_r; [exact G|].
  assert (HR : 0 < (h - kc) * rho) by nra.
  apply Qnot_lt_le. intros C.
  assert (C2 : (ff + e) * g * ((h - kc) * rho) < L * ((h - kc) * rho)) by (apply Qmult_lt_compat_r; auto).
  assert (C3 : (ff + e) * g * ((h - kc) * rho) == (ff + e) * (p_flow p * (h - rho))) by (rewrite <- GE; ring).
  assert (C4 : ff * (p_flow p * (h - rho)) == L * kc * (h - rho)) by (rewrite EC, <- F; ring).
  assert (C5 : e * p_flow p * ((h - kc) * (1#2)) <= e * p_flow p * (h - rho)). { apply mull_le; [nra|lra]. }
  assert (C6 : L * h * (rho - kc) <= L * h * a). { apply mull_le; [nra|lra]. }
  lra.
Qed.
