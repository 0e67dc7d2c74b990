(** Travel times read from the curves: last valid time, floor, FIFO. *)
From Verif Require Import Base Base_lemmas Model_Num Proof_Num Model_CC Spec_CC Proof_CC Proof_CC2 Proof_CC3 Spec_Grad Model_Grad Proof_Grad1.
Local Open Scope Q_scope.

Lemma inject_Z_minus a b : inject_Z (a - b) == inject_Z a - inject_Z b.
Proof. unfold Z.sub. rewrite inject_Z_plus, inject_Z_opp. reflexivity. Qed.

Section TT.
Variable f : Q.

Lemma cnt_sep c c' r r' : counting_curve f c -> counting_curve f c' -> In r c -> In r' c' -> separated (snd r) (snd r').
Proof.
  intros C C' R R'. apply (vehicle_sep f); [apply C|apply (cc_counts _ _ C); exact R|apply (cc_counts _ _ C'); exact R'].
Qed.
Lemma cnt_nonneg c r : counting_curve f c -> In r c -> 0 <= snd r.
Proof.
  intros C R. destruct (cc_counts _ _ C r R) as (z & Hz & E). rewrite E. apply Qle_shift_div_l; [apply C|]. pose proof (injZ_nonneg z ltac:(lia)). lra.
Qed.
(** inverse lookup of a value taken from a counting curve *)
Lemma gt_spec c c' x l r' : counting_curve f c -> counting_curve f c' -> c = x :: l -> In r' c' ->
  let n := snd r' in let q := get_time c n false in
  (n <= snd x -> q = Ok (-1 # 1)) /\
  ((forall r, In r c -> snd r < n) -> q = Ok (-1 # 1)) /\
  (snd x < n -> (exists r, In r c /\ n <= snd r) ->
     exists i ri, nth_error c i = Some ri /\ q = Ok (fst ri) /\ snd ri <= n /\
       (forall r, In r c -> snd r <= n -> snd r <= snd ri) /\
       (forall k rk, (k < i)%nat -> nth_error c k = Some rk -> snd rk < snd ri)).
Proof.
  intros C C' E R'. apply (get_time_spec c (snd r') x l E (rc_values _ C)).
  - intros r R. exact (cnt_sep c c' r r' C C' R R').
  - intros r r2 R R2. exact (cnt_sep c c r r2 C C R R2).
Qed.
Lemma gt_total c c' r' : counting_curve f c -> counting_curve f c' -> In r' c' -> exists e, get_time c (snd r') false = Ok e.
Proof.
  intros C C' R'. destruct (rc_start _ C) as (v & l & E). destruct (gt_spec c c' (0, v) l r' C C' E R') as (A & B & D).
  destruct (Qlt_le_dec v (snd r')) as [L|L]; [|rewrite A by exact L; eauto].
  destruct (rc_last c C) as (b & Hb & Nb & Ib). destruct (Qlt_le_dec (snd b) (snd r')) as [G|G].
  - rewrite B; [eauto|]. intros r R. pose proof (rc_last_max c C b r Hb R). lra.
  - destruct D as (i & ri & _ & -> & _); [exact L|eauto|eauto].
Qed.
(** later counts are reached later *)
Lemma gt_mono c c' r1 r2 e1 e2 b : counting_curve f c -> counting_curve f c' -> In r1 c' -> In r2 c' -> snd r1 <= snd r2 ->
  last_opt c = Some b -> snd r2 <= snd b ->
  get_time c (snd r1) false = Ok e1 -> get_time c (snd r2) false = Ok e2 -> e1 <= e2.
Proof.
  intros C C' R1 R2 L Hb Lb E1 E2. destruct (rc_start _ C) as (v & l & E). assert (Ib : In b c) by (eapply nth_error_In; exact Hb).
  destruct (gt_spec c c' (0, v) l r1 C C' E R1) as (A1 & B1 & D1). destruct (gt_spec c c' (0, v) l r2 C C' E R2) as (A2 & B2 & D2).
  destruct (Qlt_le_dec v (snd r1)) as [G1|G1].
  - destruct D1 as (i & ri & N & Q & U & M & Fst); [exact G1|exists b; split; [exact Ib|lra]|].
    destruct D2 as (k & rk & N' & Q' & U' & M' & Fst'); [cbn [snd]; lra|exists b; split; [exact Ib|lra]|].
    rewrite Q in E1. rewrite Q' in E2. injection E1 as <-. injection E2 as <-.
    assert (V : snd ri <= snd rk) by (apply M'; [eapply nth_error_In; eauto|lra]).
    destruct (le_lt_dec i k) as [Lk|Lk].
    + destruct (Nat.eq_dec i k) as [->|Ne]; [rewrite N in N'; injection N' as ->; apply Qle_refl|].
      apply Qlt_le_weak. apply (rc_times _ C i k); auto. lia.
    + pose proof (Fst k rk Lk N'). lra.
  - rewrite A1 in E1 by exact G1. injection E1 as <-.
    destruct (Qlt_le_dec v (snd r2)) as [G2|G2].
    + destruct D2 as (k & rk & N' & Q' & _); [exact G2|exists b; split; [exact Ib|lra]|]. rewrite Q' in E2. injection E2 as <-.
      pose proof (rc_nonneg c C rk (nth_error_In _ _ N')). lra.
    + rewrite A2 in E2 by exact G2. injection E2 as <-. lra.
Qed.

Lemma whole_trunc t : whole_time t -> t == inject_Z (trunc t).
Proof. intros (z & Hz & E). rewrite (trunc_comp _ _ E), trunc_Z. exact E. Qed.

(** lookup at a record's own time *)
Lemma get_result_at c r : counting_curve f c -> In r c -> exists v, get_result c (fst r) = Ok v /\ v == snd r.
Proof.
  intros C R. destruct (rc_start _ C) as (v & l & E).
  destruct (get_result_value_at c (0, v) l (fst r) E (rc_times _ C)) as (w & G & W).
  - apply (rc_nonneg c C r R).
  - intros r2 R2. apply whole_sep; apply (cc_whole _ _ C); assumption.
  - exists w. split; [exact G|]. rewrite W. apply in_split in R as (l1 & l2 & S2). rewrite S2. rewrite value_at_split; [reflexivity|apply Qle_refl|].
    intros y Hy. pose proof (rc_times _ C) as TI. apply In_nth_error in Hy as (i & Ei). apply (TI (length l1) (length l1 + S i)%nat); [lia| |]; rewrite S2.
    + rewrite nth_error_app2 by lia. now rewrite Nat.sub_diag.
    + rewrite nth_error_app2 by lia. replace (length l1 + S i - length l1)%nat with (S i) by lia. exact Ei.
Qed.
Lemma get_result_end c b t : counting_curve f c -> last_opt c = Some b -> fst b <= t -> get_result c t = Ok (snd b).
Proof.
  intros C Hb L. assert (Ib : In b c) by (eapply nth_error_In; exact Hb).
  apply get_result_late; [apply C|exact Hb|exact L| |apply (rc_nonneg c C); exact Ib].
  intros r R. apply whole_sep; apply (cc_whole _ _ C); assumption.
Qed.

Variables nin nout : curve.
Hypothesis Hi : counting_curve f nin.
Hypothesis Ho : counting_curve f nout.
Variables bi bo : Q * Q.
Hypothesis Hbi : last_opt nin = Some bi.
Hypothesis Hbo : last_opt nout = Some bo.
Lemma bi_in : In bi nin. Proof. eapply nth_error_In; exact Hbi. Qed.
Lemma bo_in : In bo nout. Proof. eapply nth_error_In; exact Hbo. Qed.

Lemma valid_scan_spec T z lv k : forall i, lv == inject_Z z -> (0 <= z)%Z -> (1 <= i)%Z -> fst bi <= inject_Z T -> snd bo < snd bi ->
  (Z.of_nat k = T - z - i + 1)%Z ->
  (forall v, get_result nin (lv + inject_Z i - 1) = Ok v -> v <= snd bo) ->
  exists L, valid_scan nin (snd bo) lv i k = Ok L /\ lv <= L < inject_Z T /\ (exists y : Z, L == inject_Z y) /\
    (forall v, get_result nin L = Ok v -> v <= snd bo) /\ (forall v, get_result nin (L + 1) = Ok v -> snd bo < v).
Proof.
  induction k as [|k IH]; intros i Hlv Hz H1 HT Hs Hk Hp.
  - exfalso. assert (E : get_result nin (lv + inject_Z i - 1) = Ok (snd bi)).
    { apply (get_result_end nin); [exact Hi|exact Hbi|]. replace i with (T - z + 1)%Z by lia. rewrite injZ_succ, inject_Z_minus. lra. }
    specialize (Hp _ E). lra.
  - cbn [valid_scan]. destruct (get_result_total nin Hi (lv + inject_Z i)) as (r & R & G). rewrite G. cbn [bind].
    destruct (approx_lt (snd bo) (snd r) tol) eqn:A.
    + exists (lv + inject_Z i - 1). split; [reflexivity|]. pose proof (injZ_pos i H1) as I1. split; [|split; [|split]].
      * split; [lra|]. assert (inject_Z i <= inject_Z (T - z)) by (apply injZ_le; lia). rewrite inject_Z_minus in H. lra.
      * exists (z + i - 1)%Z. rewrite inject_Z_minus, inject_Z_plus, Hlv. reflexivity.
      * exact Hp.
      * intros v Hv. assert (E : exists v', get_result nin (lv + inject_Z i) = Ok v' /\ v' <= v).
        { exists (snd r). split; [exact G|]. eapply (get_result_mono nin Hi (lv + inject_Z i)); [|exact G|exact Hv]. lra. }
        apply approx_lt_lt in A. destruct E as (v' & E1 & E2). rewrite G in E1. injection E1 as <-. lra.
    + destruct (IH (i + 1)%Z) as (L & E & B & Y & C & D); [exact Hlv|exact Hz|lia|exact HT|exact Hs|lia| |].
      * intros v Hv. assert (V : v <= snd r).
        { eapply (get_result_mono nin Hi _ (lv + inject_Z i)); [|exact Hv|exact G]. rewrite injZ_succ. lra. }
        assert (snd r <= snd bo); [|lra]. destruct (Qlt_le_dec (snd bo) (snd r)) as [X|X]; [|exact X]. exfalso.
        rewrite (sep_lt _ _ (cnt_sep nout nin bo r Ho Hi bo_in R) X) in A. discriminate.
      * exists L. auto.
Qed.

Lemma last_valid_spec T : fst bi <= inject_Z T -> fst bo <= inject_Z T -> snd bo <= snd bi ->
  exists L, last_valid_time nin nout T = Ok L /\ 0 <= L <= inject_Z T /\ (exists y : Z, L == inject_Z y) /\
    ((L == 0 /\ forall v l, nin = (0, v) :: l -> snd bo <= v) \/
     (L == inject_Z T /\ snd bo == snd bi) \/
     ((forall v, get_result nin L = Ok v -> v <= snd bo) /\ forall v, get_result nin (L + 1) = Ok v -> snd bo < v)).
Proof.
  intros Ti To Hle. unfold last_valid_time. rewrite Hbi, Hbo.
  rewrite (not_approx_lt_ge _ _ Hle). cbn [andb negb guard bind].
  assert (TR : forall c b, counting_curve f c -> In b c -> fst b <= inject_Z T -> (trunc (fst b) <=? T)%Z = true).
  { intros c b C I L. apply Z.leb_le. pose proof (whole_trunc _ (cc_whole _ _ C b I)) as E. rewrite E in L. now rewrite <- Zle_Qle in L. }
  rewrite (TR nin bi Hi bi_in Ti), (TR nout bo Ho bo_in To). cbn [guard bind].
  assert (T0 : 0 <= inject_Z T) by (pose proof (rc_nonneg nin Hi bi bi_in); lra).
  destruct (approx_eq (snd bo) (snd bi) tol) eqn:Q.
  { exists (inject_Z T). split; [reflexivity|]. split; [lra|]. split; [exists T; reflexivity|]. right; left. split; [reflexivity|].
    apply sep_eq; [|exact Q]. exact (cnt_sep nout nin bo bi Ho Hi bo_in bi_in). }
  assert (Hs : snd bo < snd bi).
  { destruct (Qlt_le_dec (snd bo) (snd bi)) as [|G]; [assumption|]. rewrite approx_eq_refl in Q; [discriminate|lra]. }
  destruct (rc_start _ Hi) as (v0 & l & E). destruct (gt_spec nin nout (0, v0) l bo Hi Ho E bo_in) as (A & _ & D).
  destruct (Qlt_le_dec v0 (snd bo)) as [G|G].
  - destruct D as (i & ri & N & Eq & U & M & Fst); [exact G|exists bi; split; [exact bi_in|lra]|]. rewrite Eq. cbn [bind].
    assert (Ir : In ri nin) by (eapply nth_error_In; exact N). pose proof (whole_trunc _ (cc_whole _ _ Hi ri Ir)) as W. set (z := trunc (fst ri)) in *.
    pose proof (rc_nonneg nin Hi ri Ir) as P. assert (Z0 : (0 <= z)%Z) by (rewrite Zle_Qle; rewrite W in P; exact P).
    assert (Lt : fst ri < fst bi).
    { assert (i < length nin)%nat by (apply nth_error_Some; congruence). destruct (Nat.eq_dec i (length nin - 1)) as [X|X].
      - exfalso. rewrite X in N. unfold last_opt in Hbi. rewrite N in Hbi. injection Hbi as ->. lra.
      - apply (rc_times _ Hi i (length nin - 1)%nat); auto. lia. }
    assert (ZT : (z < T)%Z) by (rewrite Zlt_Qlt, <- W; lra). rewrite (proj2 (Z.ltb_lt _ _) ZT). cbn [guard bind].
    destruct (Qltb_spec (fst ri) 0) as [C|_]; [lra|]. replace (z + 1 <=? T)%Z with true by (symmetry; apply Z.leb_le; lia).
    destruct (valid_scan_spec T z (fst ri) (Z.to_nat (T - z)) 1 W Z0) as (L & EL & B & Y & C & D); [lia|exact Ti|exact Hs|lia| |].
    + intros v Hv. destruct (get_result_at nin ri Hi Ir) as (w & Gw & Ew). assert (v <= w); [|lra].
      eapply (get_result_mono nin Hi); [|exact Hv|exact Gw]. change (inject_Z 1) with 1. lra.
    + exists L. split; [exact EL|]. split; [lra|]. split; [exact Y|]. right; right. auto.
  - rewrite A by exact G. cbn [bind]. assert (T1 : (trunc (-1 # 1) <? T)%Z = true).
    { apply Z.ltb_lt. change (trunc (-1 # 1)) with (-1)%Z. assert (0 <= T)%Z by (rewrite Zle_Qle; exact T0). lia. }
    rewrite T1. cbn [guard bind]. change (Qltb (-1 # 1) 0) with true. cbv iota.
    exists 0. split; [reflexivity|]. split; [lra|]. split; [exists 0%Z; reflexivity|]. left. split; [reflexivity|]. intros v l' E'. rewrite E in E'. injection E' as <- _. exact G.
Qed.
End TT.
