(** Travel times and costs of passenger paths. *)
From Coq Require Import Lia Lqa.
From Verif Require Import Base Base_lemmas Model_Num Model_SP Model_Node Model_Split Model_Mmp Spec_Mmp Proof_Num Proof_Link4.
Local Open Scope Q_scope.

Lemma entry_ok tab now l t x : entry_at tab now l t = Ok x -> exists row, tab l = Some row /\ nth_error row (Z.to_nat (Z.min t (now - 1))) = Some x.
Proof.
  unfold entry_at. destruct (tab l) as [row|]; [|discriminate]. destruct (nth_error row _) as [y|] eqn:E; [|discriminate].
  destruct (t <? 0)%Z; [discriminate|]. intros H. apply Ok_inj in H. subst y. exists row. split; [reflexivity|]. rewrite <- E. f_equal. f_equal.
  destruct (Z.ltb_spec t now); lia.
Qed.
Lemma whole_ok q d : round_up_time q tol = Ok d -> whole_intervals q d.
Proof.
  intros H. assert (T : 0 <= tol) by (unfold tol; lra). repeat split.
  - destruct (round_up_time_total q tol) as (n & E & L). rewrite H in E. apply Ok_inj in E. lia.
  - intros P. exact (round_up_time_lower _ _ _ T P H).
  - destruct (round_up_time_bounds _ _ _ T H) as [B|[_ B]]; auto.
Qed.
Lemma drive_rides ce : forall links t t', foldM (drive_link ce) t links = Ok t' -> rides any_time (ce_car ce) (ce_now ce) t links t'.
Proof.
  induction links as [|l r IH]; intros t t' H; cbn [foldM] in H.
  - apply Ok_inj in H. subst. constructor.
  - apply bind_ok in H as (t1 & H1 & H). unfold drive_link in H1. apply bind_ok in H1 as (x & E & H1). destruct x as [q|]; [|discriminate].
    apply bind_ok in H1 as (d & D & H1). apply Ok_inj in H1. subst t1. apply entry_ok in E as (row & E1 & E2).
    apply (Rides_link _ _ _ t l q d); [exists row; auto|exact I|now apply whole_ok|]. now apply IH.
Qed.
Lemma rides_length fine tab now t links t' : rides fine tab now t links t' -> (t + Z.of_nat (length links) <= t')%Z.
Proof. induction 1 as [t|t l q d r t' _ _ (D & _) _ IH]; cbn [length]; lia. Qed.
Lemma drive_time_ok ce before lot after links start t : drive_time ce before lot after links start = Ok t ->
  exists arr, rides any_time (ce_car ce) (ce_now ce) (start + Qceiling (before / ce_unit ce)) links arr /\
    match lot with None => (t = arr + Qceiling (after / ce_unit ce) - start)%Z
    | Some k => exists c, ce_cruise ce k arr = Ok c /\ (t = arr + Qceiling c + Qceiling (after / ce_unit ce) - start)%Z end.
Proof.
  unfold drive_time. intros H. apply bind_ok in H as (u & _ & H). apply bind_ok in H as (arr & H1 & H). apply bind_ok in H as (t2 & H2 & H). apply Ok_inj in H. subst t.
  exists arr. split; [now apply drive_rides|]. destruct lot as [k|].
  - apply bind_ok in H2 as (c & C & H2). apply Ok_inj in H2. subst t2. eauto.
  - apply Ok_inj in H2. congruence.
Qed.
Lemma bus_none ce links : foldM (bus_link ce) None links = Ok None.
Proof. induction links as [|l r IH]; cbn [foldM bus_link bind]; [reflexivity|exact IH]. Qed.
Lemma bus_rides ce : forall links t r, foldM (bus_link ce) (Some t) links = Ok r ->
  match r with Some t' => rides (within_run (ce_now ce)) (ce_bus ce) (ce_now ce) t links t' | None => stuck (ce_bus ce) (ce_now ce) t links end.
Proof.
  induction links as [|l links IH]; intros t r H; cbn [foldM] in H.
  - apply Ok_inj in H. subst. constructor.
  - apply bind_ok in H as (a & H1 & H). cbn [bus_link] in H1. apply bind_ok in H1 as (x & E & H1). apply entry_ok in E as (row & E1 & E2). destruct x as [q|].
    + destruct (Qltb_spec (inject_Z (ce_now ce)) q) as [B|B].
      * apply Ok_inj in H1. subst a. rewrite bus_none in H. apply Ok_inj in H. subst r. eapply Stuck_slow; [|exact B]. exists row. auto.
      * apply bind_ok in H1 as (d & D & H1). apply Ok_inj in H1. subst a. specialize (IH _ _ H).
        assert (LT : link_time (ce_bus ce) (ce_now ce) l t q) by (exists row; auto). apply whole_ok in D.
        assert (B' : q <= inject_Z (ce_now ce)) by lra. destruct r as [t'|].
        -- eapply Rides_link; eassumption.
        -- eapply Stuck_later; eassumption.
    + apply Ok_inj in H1. subst a. rewrite bus_none in H. apply Ok_inj in H. subst r. eapply Stuck_never; eassumption.
Qed.
Lemma bus_time_ok ce links start t : bus_time ce links start = Ok t ->
  (exists arr, rides (within_run (ce_now ce)) (ce_bus ce) (ce_now ce) start links arr /\ t = (arr - start)%Z) \/ (stuck (ce_bus ce) (ce_now ce) start links /\ t = (2 * ce_now ce)%Z).
Proof.
  unfold bus_time. intros H. apply bind_ok in H as (u & _ & H). apply bind_ok in H as (r & H1 & H). apply Ok_inj in H. apply bus_rides in H1. destruct r as [t'|].
  - left. exists t'. auto.
  - right. auto.
Qed.
(** when there is an answer *)
Lemma entry_total tab now l t links : covers tab now links -> In l links -> (0 < now)%Z -> (0 <= t)%Z -> exists q, entry_at tab now l t = Ok (Some q).
Proof.
  intros C I N T. destruct (C l I) as (row & E & L & F). unfold entry_at. rewrite E. set (j := Z.to_nat _).
  assert (J : (j < length row)%nat) by (unfold j; destruct (Z.ltb_spec t now); lia).
  destruct (nth_error row j) as [x|] eqn:X; [|apply nth_error_None in X; lia]. assert (TT : (t <? 0)%Z = false) by (apply Z.ltb_ge; lia). rewrite TT.
  destruct x as [q|]; [eauto|]. exfalso. apply (F None); [eapply nth_error_In; eassumption|reflexivity].
Qed.
Lemma covers_tail tab now l r : covers tab now (l :: r) -> covers tab now r.
Proof. intros C x Hx. apply C. now right. Qed.
Lemma drive_total ce : (0 < ce_now ce)%Z -> forall links t, covers (ce_car ce) (ce_now ce) links -> (0 <= t)%Z -> exists t', foldM (drive_link ce) t links = Ok t' /\ (t <= t')%Z.
Proof.
  intros N. induction links as [|l r IH]; intros t C T; cbn [foldM]; [exists t; split; [reflexivity|lia]|].
  unfold drive_link at 1. destruct (entry_total _ _ l t _ C (or_introl eq_refl) N T) as (q & ->). cbn [bind].
  destruct (round_up_time_total q tol) as (n & -> & L). cbn [bind]. destruct (IH (t + n)%Z) as (t' & E & X); [eapply covers_tail; eassumption|lia|]. exists t'. split; [exact E|lia].
Qed.
Lemma bus_total ce : (0 < ce_now ce)%Z -> forall links t, covers (ce_bus ce) (ce_now ce) links -> (0 <= t)%Z -> exists r, foldM (bus_link ce) (Some t) links = Ok r.
Proof.
  intros N. induction links as [|l r IH]; intros t C T; cbn [foldM]; [eauto|].
  cbn [bus_link]. destruct (entry_total _ _ l t _ C (or_introl eq_refl) N T) as (q & ->). cbn [bind].
  destruct (Qltb (inject_Z (ce_now ce)) q); cbn [bind]; [rewrite bus_none; eauto|].
  destruct (round_up_time_total q tol) as (n & -> & L). cbn [bind]. apply IH; [eapply covers_tail; eassumption|lia].
Qed.

(** costs *)
Lemma qmax_le a b c : a <= c -> b <= c -> Qmax a b <= c.
Proof. intros H1 H2. now apply Q.max_lub. Qed.
Lemma penalty_nonneg ce a : 0 <= ce_early ce -> 0 <= ce_late ce -> 0 <= penalty ce a.
Proof.
  intros E L. unfold penalty. destruct (Qlt_le_dec a (ce_target ce)) as [B|B].
  - eapply Qle_trans; [|apply Q.le_max_r]. nra.
  - eapply Qle_trans; [|apply Q.le_max_l]. nra.
Qed.
Lemma penalty_zero ce a : 0 < ce_early ce -> 0 < ce_late ce -> (penalty ce a == 0 <-> a == ce_target ce).
Proof.
  intros E L. split.
  - intros H. pose proof (Q.le_max_l (ce_late ce * (a - ce_target ce)) (ce_early ce * (ce_target ce - a))) as M1.
    pose proof (Q.le_max_r (ce_late ce * (a - ce_target ce)) (ce_early ce * (ce_target ce - a))) as M2. unfold penalty in H. rewrite H in M1, M2. nra.
  - intros H. pose proof (penalty_nonneg ce a (Qlt_le_weak _ _ E) (Qlt_le_weak _ _ L)) as P. assert (U : penalty ce a <= 0); [|lra].
    unfold penalty. apply qmax_le; rewrite H; nra.
Qed.
Lemma penalty_drop ce a b : 0 <= ce_early ce -> 0 <= ce_late ce -> a <= b -> penalty ce a <= penalty ce b + ce_early ce * (b - a).
Proof.
  intros E L H. pose proof (Q.le_max_l (ce_late ce * (b - ce_target ce)) (ce_early ce * (ce_target ce - b))) as M1.
  pose proof (Q.le_max_r (ce_late ce * (b - ce_target ce)) (ce_early ce * (ce_target ce - b))) as M2. fold (penalty ce b) in M1, M2.
  unfold penalty at 1. apply qmax_le; nra.
Qed.
Definition fair (ce : cenv) : Prop := 0 <= ce_early ce /\ ce_early ce <= ce_vot ce /\ 0 <= ce_late ce /\ 0 <= ce_fare ce /\ 0 <= ce_bus_inc ce /\ 0 <= ce_pnr_inc ce.
Lemma base_mono ce s t1 t2 : fair ce -> (t1 <= t2)%Z ->
  ce_vot ce * inject_Z t1 + penalty ce (inject_Z (s + t1)) <= ce_vot ce * inject_Z t2 + penalty ce (inject_Z (s + t2)).
Proof.
  intros (E & V & L & _) H. rewrite Zle_Qle in H. pose proof (penalty_drop ce (inject_Z (s + t1)) (inject_Z (s + t2)) E L) as P.
  rewrite !inject_Z_plus in P |- *. specialize (P ltac:(lra)). nra.
Qed.
Lemma base_nonneg ce s t : fair ce -> (0 <= t)%Z -> 0 <= ce_vot ce * inject_Z t + penalty ce (inject_Z (s + t)).
Proof.
  intros (E & V & L & _) H. rewrite Zle_Qle in H. change (inject_Z 0) with 0 in H. pose proof (penalty_nonneg ce (inject_Z (s + t)) E L). nra.
Qed.
Lemma hardly_mono ce t1 t2 c1 c2 : (t1 <= t2)%Z -> 0 <= c1 -> c1 <= c2 -> hardly ce t1 c1 <= hardly ce t2 c2.
Proof. intros H P C. unfold hardly. destruct (Z.ltb_spec (ce_now ce) t1), (Z.ltb_spec (ce_now ce) t2); first [lra|lia]. Qed.
Lemma cost_mono ce k s t1 t2 : fair ce -> (0 <= t1)%Z -> (t1 <= t2)%Z -> cost_with_time ce k s t1 <= cost_with_time ce k s t2.
Proof.
  intros F P H. pose proof (base_mono ce s t1 t2 F H) as M. pose proof (base_nonneg ce s t1 F P) as B. destruct F as (_ & _ & _ & F1 & F2 & F3).
  destruct k; cbn [cost_with_time].
  - lra.
  - apply hardly_mono; [assumption|lra|lra].
  - apply hardly_mono; [assumption|lra|lra].
Qed.
