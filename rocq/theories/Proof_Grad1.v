(** Lookup in a curve: total and monotone in time. *)
From Verif Require Import Base Base_lemmas Model_Num Proof_Num Model_CC Spec_CC Proof_CC Proof_CC2 Proof_CC3 Spec_Grad.
Local Open Scope Q_scope.

Definition idx (c : curve) (t : Q) : nat := lower_bound (fun r => approx_lt (fst r) t tol) c (length c).
Lemma idx_spec c t : times_increase c ->
  (idx c t <= length c)%nat /\ (forall i r, (i < idx c t)%nat -> nth_error c i = Some r -> approx_lt (fst r) t tol = true) /\
  (forall i r, (idx c t <= i)%nat -> nth_error c i = Some r -> approx_lt (fst r) t tol = false).
Proof.
  intros Hs. destruct (lower_bound_spec (fun r => approx_lt (fst r) t tol) c (length c)) as (A & B & C); [lia| |].
  { intros i k ri rk L Ei Ek. apply approx_lt_mono. apply Qlt_le_weak. eapply Hs; eauto. }
  unfold idx. split; [exact A|]. split; [exact B|]. intros i r Hi Er. apply (C i r); [|exact Er]. split; [exact Hi|]. apply nth_error_Some. congruence.
Qed.
Lemma max_le_iff a b x : Qmax a b <= x <-> a <= x /\ b <= x.
Proof. apply Q.max_lub_iff. Qed.
Lemma approx_lt_pos a t : 0 <= a -> 0 <= t -> (approx_lt a t tol = true <-> a < (9999 # 10000) * t).
Proof.
  intros Ha Ht. rewrite approx_lt_iff. rewrite (Qabs_pos a Ha), (Qabs_pos t Ht). unfold tol.
  destruct (Q.max_spec a t) as [[M1 M2]|[M1 M2]]; rewrite M2; split; intros; lra.
Qed.
Lemma approx_eq_pos a t : 0 <= a -> 0 <= t -> (approx_eq a t tol = true <-> (9999 # 10000) * a <= t /\ (9999 # 10000) * t <= a).
Proof.
  intros Ha Ht. destruct (approx_eq_spec a t) as [H|H]; rewrite (Qabs_pos a Ha), (Qabs_pos t Ht) in H; unfold tol in H.
  - split; [intros _|reflexivity]. destruct (Q.max_spec a t) as [[M1 M2]|[M1 M2]]; rewrite M2 in H; revert H; apply Qabs_case; intros; lra.
  - split; [discriminate|]. intros C. exfalso. apply H. destruct (Q.max_spec a t) as [[M1 M2]|[M1 M2]]; rewrite M2; apply Qabs_case; intros; lra.
Qed.

Section Curve.
Variable c : curve.
Hypothesis Hc : recorded_curve c.

Lemma rc_nonneg r : In r c -> 0 <= fst r.
Proof.
  intros Hr. destruct (rc_start _ Hc) as (v & l & E). rewrite E in Hr. destruct Hr as [<-|Hr]; [apply Qle_refl|].
  apply Qlt_le_weak. apply (times_increase_head (0, v) r l); [|exact Hr]. rewrite <- E. apply Hc.
Qed.
Lemma rc_val_le i k ri rk : (i <= k)%nat -> nth_error c i = Some ri -> nth_error c k = Some rk -> snd ri <= snd rk.
Proof.
  intros L Ei Ek. destruct (Nat.eq_dec i k) as [->|N]; [rewrite Ei in Ek; injection Ek as ->; apply Qle_refl|].
  apply (rc_values _ Hc i k); auto. lia.
Qed.
Lemma rc_pos_len : (1 <= length c)%nat.
Proof. destruct (rc_start _ Hc) as (v & l & ->). simpl. lia. Qed.
Lemma rc_first v l : c = (0, v) :: l -> nth_error c 0 = Some (0, v).
Proof. intros ->. reflexivity. Qed.
Lemma rc_last : exists b, last_opt c = Some b /\ nth_error c (length c - 1) = Some b /\ In b c.
Proof.
  destruct (nth_error_Some_ex c (length c - 1)) as (b & E); [pose proof rc_pos_len; lia|]. exists b. split; [exact E|]. split; [exact E|]. eapply nth_error_In; eauto.
Qed.
Lemma rc_last_max b r : last_opt c = Some b -> In r c -> snd r <= snd b /\ fst r <= fst b.
Proof.
  intros Hb Hr. apply In_nth_error in Hr as (i & Ei). assert (L : (i < length c)%nat) by (apply nth_error_Some; congruence).
  split; [apply (rc_val_le i (length c - 1)); auto; lia|].
  destruct (Nat.eq_dec i (length c - 1)) as [->|N]; [unfold last_opt in Hb; rewrite Hb in Ei; injection Ei as ->; apply Qle_refl|].
  apply Qlt_le_weak. apply (rc_times _ Hc i (length c - 1)%nat); auto. lia.
Qed.

(** the record that answers a query *)
Definition answer (t : Q) (i : nat) : Prop :=
  (t <= 0 /\ i = 0%nat) \/
  (0 < t /\ (idx c t < length c)%nat /\ (exists r, nth_error c (idx c t) = Some r /\ approx_eq (fst r) t tol = true) /\ i = idx c t) \/
  (0 < t /\ (exists r, nth_error c (idx c t) = Some r /\ approx_eq (fst r) t tol = false) /\ i = (idx c t - 1)%nat) \/
  (0 < t /\ idx c t = length c /\ i = (length c - 1)%nat).

Lemma idx_pos t : 0 < t -> (1 <= idx c t)%nat.
Proof.
  intros Ht. destruct (idx_spec c t (rc_times _ Hc)) as (_ & _ & C). destruct (rc_start _ Hc) as (v & l & E).
  destruct (Nat.eq_dec (idx c t) 0) as [E0|]; [|lia]. exfalso.
  pose proof (C 0%nat (0, v) ltac:(lia) (rc_first _ _ E)) as F. cbn [fst] in F.
  rewrite (proj2 (approx_lt_pos 0 t ltac:(lra) ltac:(lra))) in F; [discriminate|lra].
Qed.
Lemma answer_ex t : exists i r, answer t i /\ nth_error c i = Some r.
Proof.
  pose proof rc_pos_len as L1. destruct (Qlt_le_dec 0 t) as [Ht|Ht].
  - pose proof (idx_pos t Ht) as P. destruct (idx_spec c t (rc_times _ Hc)) as (A & _ & _).
    destruct (nth_error c (idx c t)) as [r|] eqn:E.
    + assert (idx c t < length c)%nat by (apply nth_error_Some; congruence). destruct (approx_eq (fst r) t tol) eqn:Q.
      * exists (idx c t), r. split; [|exact E]. right; left. eauto 6.
      * destruct (nth_error_Some_ex c (idx c t - 1)) as (r' & E'); [lia|]. exists (idx c t - 1)%nat, r'. split; [|exact E']. right; right; left. eauto 6.
    + apply nth_error_None in E. destruct (nth_error_Some_ex c (length c - 1)) as (r' & E'); [lia|]. exists (length c - 1)%nat, r'. split; [|exact E'].
      right; right; right. repeat split; [exact Ht|lia].
  - destruct (nth_error_Some_ex c 0) as (r & E); [lia|]. exists 0%nat, r. split; [left; auto|exact E].
Qed.
Lemma get_result_answer t i r : answer t i -> nth_error c i = Some r -> get_result c t = Ok (snd r).
Proof.
  intros A E. destruct (rc_start _ Hc) as (v & l & Ec). unfold get_result.
  destruct l as [|y l].
  { rewrite Ec. assert (i = 0%nat) as ->. { rewrite Ec in E. destruct i as [|[|i]]; [reflexivity|discriminate|discriminate]. } rewrite Ec in E. injection E as <-. reflexivity. }
  rewrite Ec. cbn [fst]. rewrite <- Ec.
  destruct A as [[Ht ->]|A].
  { rewrite (proj2 (Qle_bool_iff _ _) Ht). rewrite Ec in E. injection E as <-. reflexivity. }
  assert (Ht : 0 < t) by (destruct A as [A|[A|A]]; apply A). destruct (Qleb_spec t 0) as [C|_]; [lra|].
  pose proof (idx_pos t Ht) as P. fold (idx c t). rewrite (proj2 (Nat.leb_le _ _) P). cbn [guard bind].
  destruct (idx_spec c t (rc_times _ Hc)) as (_ & _ & C).
  destruct A as [(_ & _ & (r0 & E0 & Q) & ->)|[(_ & (r0 & E0 & Q) & ->)|(_ & Li & ->)]].
  - rewrite E0, Q. congruence.
  - rewrite E0, Q. pose proof (C _ _ (le_n _) E0) as NL. pose proof (not_approx_lt_eq _ _ NL Q) as G. rewrite (proj2 (Qltb_lt _ _) G), E. reflexivity.
  - destruct (nth_error c (idx c t)) eqn:N; [assert (idx c t < length c)%nat by (apply nth_error_Some; congruence); lia|]. unfold last_opt. rewrite E. reflexivity.
Qed.
Lemma get_result_ok t : exists i r, answer t i /\ nth_error c i = Some r /\ get_result c t = Ok (snd r).
Proof. destruct (answer_ex t) as (i & r & A & E). exists i, r. split; [exact A|]. split; [exact E|]. eapply get_result_answer; eauto. Qed.

Lemma idx_mono t t' : 0 < t -> t <= t' -> (idx c t <= idx c t')%nat.
Proof.
  intros Ht Htt. destruct (idx_spec c t (rc_times _ Hc)) as (A & B & _). destruct (idx_spec c t' (rc_times _ Hc)) as (_ & _ & C).
  destruct (le_lt_dec (idx c t) (idx c t')) as [|G]; [assumption|exfalso].
  destruct (nth_error_Some_ex c (idx c t')) as (r & E); [lia|]. pose proof (B _ _ G E) as T. pose proof (C _ _ (le_n _) E) as F.
  pose proof (rc_nonneg r (nth_error_In _ _ E)) as P. rewrite (approx_lt_pos (fst r) t P ltac:(lra)) in T.
  rewrite (proj2 (approx_lt_pos (fst r) t' P ltac:(lra))) in F; [discriminate|lra].
Qed.
Lemma answer_mono t t' i i' : t <= t' -> answer t i -> answer t' i' -> (i <= i')%nat.
Proof.
  intros L A A'. pose proof rc_pos_len as L1.
  destruct A as [[_ ->]|A]; [lia|]. assert (Ht : 0 < t) by (destruct A as [A|[A|A]]; apply A). assert (Ht' : 0 < t') by lra.
  pose proof (idx_mono t t' Ht L) as M. pose proof (idx_pos t Ht) as P.
  destruct A as [(_ & L2 & (r & E & Q) & ->)|[(_ & (r & E & Q) & ->)|(_ & Li & ->)]].
  - destruct A' as [[F _]|[(_ & L2' & _ & ->)|[(_ & (r' & E' & Q') & ->)|(_ & Li' & ->)]]]; [lra|lia| |lia].
    destruct (Nat.eq_dec (idx c t) (idx c t')) as [Eq|]; [|lia]. exfalso. rewrite Eq in E. rewrite E in E'. injection E' as <-.
    pose proof (rc_nonneg r (nth_error_In _ _ E)) as Pr. destruct (idx_spec c t' (rc_times _ Hc)) as (_ & _ & C). pose proof (C _ _ (le_n _) E) as NL.
    pose proof (not_approx_lt_eq _ _ NL Q') as G. rewrite (approx_eq_pos (fst r) t Pr ltac:(lra)) in Q.
    rewrite (proj2 (approx_eq_pos (fst r) t' Pr ltac:(lra))) in Q'; [discriminate|lra].
  - assert (idx c t < length c)%nat by (apply nth_error_Some; congruence).
    destruct A' as [[F _]|[(_ & L2' & _ & ->)|[(_ & (r' & E' & Q') & ->)|(_ & Li' & ->)]]]; [lra|lia|lia|lia].
  - destruct A' as [[F _]|[(_ & L2' & _ & ->)|[(_ & (r' & E' & Q') & ->)|(_ & Li' & ->)]]]; [lra|lia| |lia].
    assert (idx c t' < length c)%nat by (apply nth_error_Some; congruence). lia.
Qed.
Lemma get_result_total t : exists r, In r c /\ get_result c t = Ok (snd r).
Proof. destruct (get_result_ok t) as (i & r & _ & E & G). exists r. split; [eapply nth_error_In; eauto|exact G]. Qed.
Lemma get_result_mono t t' v v' : t <= t' -> get_result c t = Ok v -> get_result c t' = Ok v' -> v <= v'.
Proof.
  intros L E E'. destruct (get_result_ok t) as (i & r & A & N & G). destruct (get_result_ok t') as (i' & r' & A' & N' & G').
  rewrite G in E. rewrite G' in E'. injection E as <-. injection E' as <-. pose proof (answer_mono _ _ _ _ L A A'). eapply rc_val_le; eauto.
Qed.
End Curve.
