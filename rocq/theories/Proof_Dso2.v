(** Proofs about the tables of repeated runs and the capacity used for marginal costs. *)
From Verif Require Import Base Base_lemmas Model_Num Proof_Num Model_CC Spec_CC Model_Link Proof_Link4 Model_World Model_Node Proof_Node4 Spec_Grad Model_Grad Proof_Grad1 Prop_Grad Model_Dso Spec_Dso Proof_Dso.
Local Open Scope Z_scope.

Section Build.
Variables (nin nout : option curve) (ff vot toll L : Q) (T : Z).
Hypothesis Htt : forall s, (0 <= s)%Q -> exists t, travel_time nin nout ff (-1 # 1) s T = Ok (t, L) /\ travel_time nin nout ff L s T = Ok (t, L).
Definition sized (n : Z) (x : Q * rows) : Prop :=
  (fst x = (-1 # 1)%Q \/ fst x = L) /\ Zlen (r_tt (snd x)) = n /\ Zlen (r_cost (snd x)) = n /\ Zlen (r_cong (snd x)) = n.
Lemma entry_in n x i : sized n x -> 0 <= i < n -> exists y, build_entry nin nout ff vot toll T x i = Ok y /\ sized n y.
Proof.
  intros (C & L1 & L2 & L3) Hi. unfold build_entry. destruct (Htt (inject_Z (i + 1))) as (t & E1 & E2); [apply injZ_nonneg; lia|].
  assert (E : travel_time nin nout ff (fst x) (inject_Z (i + 1)) T = Ok (t, L)) by (destruct C as [-> | ->]; assumption).
  rewrite E. cbn [bind fst snd]. cbv zeta. rewrite !row_set_ok by lia. cbn [bind]. eexists. split; [reflexivity|]. unfold sized. cbn [fst snd r_tt r_cost r_cong]. rewrite !put_Zlen. auto.
Qed.
Lemma entry_out n x i : sized n x -> 0 <= i -> n <= i -> build_entry nin nout ff vot toll T x i = Err EUB.
Proof.
  intros (C & L1 & L2 & L3) H0 Hi. unfold build_entry. destruct (Htt (inject_Z (i + 1))) as (t & E1 & E2); [apply injZ_nonneg; lia|].
  assert (E : travel_time nin nout ff (fst x) (inject_Z (i + 1)) T = Ok (t, L)) by (destruct C as [-> | ->]; assumption).
  rewrite E. cbn [bind fst snd]. cbv zeta. unfold row_set. rewrite row_at_out by lia. reflexivity.
Qed.
Lemma fold_in n : forall k a x, sized n x -> 0 <= a -> a + Z.of_nat k <= n -> exists y, foldM (build_entry nin nout ff vot toll T) x (ints a k) = Ok y /\ sized n y.
Proof.
  intros k. induction k as [|k IH]; intros a x Hx Ha Hk; [exists x; auto|]. rewrite ints_S. cbn [foldM].
  destruct (entry_in n x a Hx ltac:(lia)) as (y & -> & Hy). cbn [bind]. apply IH; [exact Hy|lia|lia].
Qed.
Lemma fold_out n : forall k a x, sized n x -> 0 <= a <= n -> n < a + Z.of_nat k -> foldM (build_entry nin nout ff vot toll T) x (ints a k) = Err EUB.
Proof.
  intros k. induction k as [|k IH]; intros a x Hx Ha Hk; [lia|]. rewrite ints_S. cbn [foldM].
  destruct (Z.eq_dec a n) as [->|N]; [rewrite (entry_out n x n Hx) by lia; reflexivity|].
  destruct (entry_in n x a Hx ltac:(lia)) as (y & -> & Hy). cbn [bind]. apply IH; [exact Hy|lia|lia].
Qed.
End Build.

Lemma floor_up x k : 1 <= k -> (inject_Z k <= x)%Q -> (inject_Z k <= inject_Z (Qfloor x))%Q.
Proof. intros _ H. rewrite <- Zle_Qle. rewrite <- (Qfloor_Z k). now apply Qfloor_resp_le. Qed.
(** twice a capacity of at least one vehicle, rounded down, is well above it *)
Lemma far_above x y : (1 <= x -> 2 * x <= y -> (4 # 3) * x <= inject_Z (Qfloor y))%Q.
Proof.
  intros H1 H2. destruct (Qlt_le_dec x (3 # 2)) as [L|L].
  - pose proof (floor_up y 2 ltac:(lia)) as F. change (inject_Z 2) with 2%Q in F. specialize (F ltac:(lra)). lra.
  - pose proof (Qlt_floor y) as F. rewrite inject_Z_plus in F. change (inject_Z 1) with 1%Q in F. lra.
Qed.
Lemma Qabs_self x : (0 <= x)%Q -> (Qabs x == x)%Q.
Proof. apply Qabs_pos. Qed.
Lemma below_far x c z : (0 <= x -> x <= c -> 0 < c -> (4 # 3) * c <= z -> clearly_below x z)%Q.
Proof.
  intros H0 H1 H2 H3. unfold clearly_below. rewrite (Qabs_pos x), (Qabs_pos z) by lra. destruct (Q.max_spec x z) as [[A ->]|[A ->]]; lra.
Qed.
Lemma not_equal_far x c z : (0 <= x -> x <= c -> 0 < c -> (4 # 3) * c <= z -> ~ about_equal x z)%Q.
Proof.
  intros H0 H1 H2 H3 H. unfold about_equal in H. rewrite (Qabs_pos x), (Qabs_pos z), Qabs_Qminus, (Qabs_pos (z - x)) in H by lra. destruct (Q.max_spec x z) as [[A B]|[A B]]; rewrite B in H; lra.
Qed.
Lemma counted_ok c j : recorded_curve c -> exists x, counted_in c j x /\ (0 <= x)%Q.
Proof.
  intros Hc. destruct (slope_ok c j Hc) as (x & _ & X). exists x. split; [exact X|]. destruct X as (e & _ & [[_ E]|(_ & a & b & A & B & E)]); [lra|].
  pose proof (get_result_mono c Hc (inject_Z j) (inject_Z (j + 1)) a b) as M. rewrite inject_Z_plus in M at 1. change (inject_Z 1) with 1%Q in M. specialize (M ltac:(lra) A B). lra.
Qed.
Lemma counted_nonneg c j x : recorded_curve c -> counted_in c j x -> (0 <= x)%Q.
Proof. intros Hc H. destruct (counted_ok c j Hc) as (y & Y & P). pose proof (counted_same c j x y Hc H Y). lra. Qed.

Section Capacity.
Variables (ut fs : Q) (l : link) (cs : list cell).
Hypothesis Hb : l_body l = BCtm cs.
Hypothesis Hne : cs <> [].
Hypothesis Hut : (2 <= ut)%Q.
Hypothesis Hfs : (0 < fs)%Q.
Hypothesis Hcap : forall c, In c cs -> (1 <= c_flow c * fs)%Q.
Lemma far c : In c cs -> ((4 # 3) * (c_flow c * fs) <= whole_capacity (c_flow c) ut fs)%Q.
Proof. intros H. unfold whole_capacity. apply far_above; [apply Hcap, H|]. pose proof (Hcap c H). assert (E : (c_flow c * ut * fs == ut * (c_flow c * fs))%Q) by ring. rewrite E. nra. Qed.
Lemma always_room nin j : recorded_curve nin -> (forall c x, In c cs -> counted_in nin j x -> x <= c_flow c)%Q -> has_room ut fs nin l j.
Proof.
  intros Hc H. right. assert (X0 : exists c cs', cs = c :: cs') by (clear - Hne; destruct cs as [|c cs']; [congruence|eauto]). destruct X0 as (c & cs' & E).
  destruct (counted_ok nin j Hc) as (x & X & P). exists c, cs', x. split; [rewrite Hb, E; reflexivity|]. split; [exact X|].
  assert (I : In c cs) by (rewrite E; left; reflexivity). pose proof (Hcap c I). pose proof (far c I) as F. pose proof (H c x I X). apply (below_far _ (c_flow c * fs)%Q); [nra|nra|lra|exact F].
Qed.
Lemma never_critical nout fft j : recorded_curve nout -> (forall c x, In c cs -> counted_in nout (j + fft) x -> x <= c_flow c)%Q -> ~ critical ut fs nout l fft j.
Proof.
  intros Hc H (cs' & c & x & E & X & A). rewrite Hb in E. injection E as E. assert (I : In c cs) by (rewrite E; apply in_app_iff; right; left; reflexivity).
  pose proof (Hcap c I). pose proof (far c I) as F. pose proof (H c x I X). pose proof (counted_nonneg nout (j + fft) x Hc X). revert A. apply (not_equal_far _ (c_flow c * fs)%Q); [nra|nra|lra|exact F].
Qed.
End Capacity.

Lemma repeat_In {A} (x y : A) n : In y (repeat x n) -> y = x.
Proof. apply repeat_spec. Qed.
Lemma new_cell_flow h f fs w : (0 < fs)%Q -> (c_flow (new_cell h f fs w) == Qmax f (1 / fs))%Q.
Proof.
  intros H. unfold new_cell. cbn [c_flow]. assert (E : ((1 / fs) * fs == 1)%Q) by (field; lra). destruct (Qltb_spec (f * fs) 1) as [A|A].
  - rewrite Q.max_r; [reflexivity|]. apply Qnot_lt_le. intros X. assert ((1 / fs) * fs < f * fs)%Q by nra. lra.
  - rewrite Q.max_l; [reflexivity|]. apply Qnot_lt_le. intros X. assert (f * fs < (1 / fs) * fs)%Q by nra. lra.
Qed.
Lemma ctm_caps p l cs c : make_ctm p = Ok l -> (0 < p_fs p)%Q -> l_body l = BCtm cs -> In c cs ->
  (c_flow c == Qmax (inject_Z (p_lanes (l_par l)) * p_flow (l_par l) * p_ut (l_par l)) (1 / p_fs p))%Q.
Proof.
  intros H Hf B I. unfold make_ctm in H. cbv zeta in H. do 3 (apply bind_ok in H as (? & _ & H)). do 3 (apply bind_ok in H as (? & _ & H)). injection H as <-.
  cbn [l_par l_body p_lanes p_flow p_ut p_fs] in *. injection B as <-. apply in_app_or in I as [I|I].
  - apply repeat_spec in I. subst c. rewrite new_cell_flow by exact Hf. reflexivity.
  - destruct (Qltb 0 (p_len p)); [|contradiction]. destruct I as [<-|[]]. rewrite new_cell_flow by exact Hf. reflexivity.
Qed.
