(** The life of a link transmission link: order, capacity, standstill, storage. *)
From Verif Require Import Base Base_lemmas Model_Num Proof_Num Model_CC Spec_CC Proof_CC Proof_CC3 Model_Link Spec_Path Spec_Link Proof_Path Proof_Link Proof_Link4 Model_Ltm Spec_Ltm Proof_Ltm.
Local Open Scope Q_scope.

(** ** order *)
Lemma fifo_run_line x ent gone z : fifo_run x ent gone z -> lt_in x = [] ->
  (gone ++ lt_fin z ++ lt_q z = lt_fin x ++ lt_q x ++ ent /\ lt_in z = [])%list.
Proof.
  induction 1 as [x|x r taken stay inc y ent gone z Ef Ei R IH]; intros I0.
  - rewrite app_nil_r. auto.
  - apply lt_interval_inv in Ei as (s & d & cin & F).
    destruct (IH (if_in _ _ _ _ _ _ _ _ F)) as [A B]. split; [|exact B].
    rewrite <- app_assoc, A, (app_assoc (lt_fin y)), (if_line _ _ _ _ _ _ _ _ F), I0, Ef. cbn [app].
    rewrite <- !app_assoc. reflexivity.
Qed.

Lemma filter_subseq {A} (f : A -> bool) l : subseq (filter f l) l.
Proof. induction l as [|x l IH]; cbn; [constructor|]. destruct (f x); now constructor. Qed.

Lemma ltm_run_order es : forall x z, ltm_run es x = Ok z -> lt_in x = [] ->
  subseq (lt_fin z ++ lt_q z) (lt_fin x ++ lt_q x ++ entering es).
Proof.
  induction es as [|[[r keep] inc] es IH]; intros x z E I0; cbn in E.
  - apply Ok_inj in E. subst z. unfold entering. cbn. rewrite app_nil_r. apply subseq_refl.
  - apply bind_ok in E as (y & Ey & E). apply lt_interval_inv in Ey as (s & d & cin & F).
    specialize (IH y z E (if_in _ _ _ _ _ _ _ _ F)). eapply subseq_trans; [exact IH|].
    rewrite app_assoc, (if_line _ _ _ _ _ _ _ _ F), I0. cbn [app]. unfold entering. cbn [map concat snd].
    rewrite <- !app_assoc. apply subseq_app; [apply filter_subseq|apply subseq_refl].
Qed.

(** ** capacity *)
Lemma lt_supply_bounds x s : 0 <= lt_cap (lt_par x) -> lt_supply x = Ok s -> 0 <= s <= lt_cap (lt_par x).
Proof.
  intros Hc E. unfold lt_supply in E. apply bind_ok in E as (a & _ & E). apply bind_ok in E as (b & _ & E). apply Ok_inj in E.
  subst s.
  destruct (Qltb_spec (lt_cap (lt_par x)) (a + lt_hold (lt_par x) - b)) as [H|H];
  match goal with |- context [Qltb ?u ?v] => destruct (Qltb_spec u v) end; lra.
Qed.
Lemma cap_nonneg p : physical p -> 0 <= lt_cap p /\ 0 <= lt_hold p.
Proof.
  intros (Hu & Hf & Hs & Hl & Hh & Hc & Hn). pose proof (injZ_nonneg _ Hn) as HL. unfold lt_cap, lt_hold.
  split; apply Qmult_le_0_compat; try lra; apply Qmult_le_0_compat; lra.
Qed.

(** ** standstill *)
Definition zero_curve (c : curve) : Prop := forall r, In r c -> snd r == 0.
Lemma zero_add c r c' : zero_curve c -> snd r == 0 -> add_increment c r = Ok c' -> zero_curve c'.
Proof.
  intros Z Hr E. apply add_increment_inv in E. destruct E as [[-> ->]|(l & q & -> & [[A ->]|[A [_ ->]]])].
  - intros x [<-|[]]. exact Hr.
  - assert (Q0 : snd q == 0) by (apply Z; apply in_or_app; right; left; reflexivity).
    intros x I. apply in_app_or in I. destruct I as [I|[<-|[]]]; [apply Z; apply in_or_app; left; exact I|]. cbn. lra.
  - assert (Q0 : snd q == 0) by (apply Z; apply in_or_app; right; left; reflexivity).
    intros x I. rewrite app_assoc in I. apply in_app_or in I. destruct I as [I|[<-|[]]]; [apply Z; exact I|]. cbn. lra.
Qed.
Lemma zero_firstn c n : zero_curve c -> zero_curve (firstn n c).
Proof. intros Z r I. apply Z. rewrite <- (firstn_skipn n c). apply in_or_app. left. exact I. Qed.

(** record [i] of the curve carries the time of interval [i] *)
Definition clocked (ut : Q) (c : curve) : Prop :=
  forall i r, nth_error c i = Some r -> fst r == inject_Z (Z.of_nat i) * ut.

Lemma later_not_equal ut i n : 0 < ut -> (0 <= i < n)%Z -> (i < 9999)%Z ->
  approx_eq (inject_Z n * ut) (inject_Z i * ut) tol = false.
Proof.
  intros Hu H1 H2. destruct (approx_eq_spec (inject_Z n * ut) (inject_Z i * ut)) as [A|]; [exfalso|reflexivity].
  assert (I0 : 0 <= inject_Z i) by (apply injZ_nonneg; lia).
  assert (I1 : inject_Z i + 1 <= inject_Z n) by (rewrite <- injZ_succ; apply injZ_le; lia).
  assert (I2 : inject_Z i <= 9998) by (change 9998 with (inject_Z 9998); apply injZ_le; lia).
  set (a := inject_Z i) in *. set (b := inject_Z n) in *. clearbody a b.
  assert (P1 : 0 <= a * ut) by nra. assert (P2 : a * ut < b * ut) by nra.
  assert (P3 : 0 <= b * ut - a * ut) by lra.
  rewrite (Qabs_pos _ P3) in A. rewrite (Qabs_pos (a * ut)) in A by lra. rewrite (Qabs_pos (b * ut)) in A by lra.
  rewrite Q.max_l in A by lra. unfold tol in A. nra.
Qed.

Lemma clocked_add ut c n v c' : 0 < ut -> clocked ut c -> (Z.of_nat (length c) <= n)%Z -> (Z.of_nat (length c) < 10000)%Z ->
  add_increment c (inject_Z n * ut, v) = Ok c' ->
  exists v', c' = (c ++ [(inject_Z n * ut, v')])%list /\ v' == last_value c + v.
Proof.
  intros Hu K Hn Hl E. apply add_increment_inv in E. destruct E as [[-> ->]|(l & q & -> & [[A ->]|[A [_ ->]]])].
  - exists v. split; [reflexivity|]. unfold last_value. rewrite last_opt_nil. lra.
  - exfalso. rewrite app_length in *. cbn [length fst] in *.
    assert (Tq : fst q == inject_Z (Z.of_nat (length l)) * ut).
    { apply (K (length l)). rewrite nth_error_app2 by lia. now rewrite Nat.sub_diag. }
    pose proof (later_not_equal ut (Z.of_nat (length l)) n Hu ltac:(lia) ltac:(lia)) as F.
    destruct (approx_eq_spec (inject_Z n * ut) (fst q)) as [A'|]; [|discriminate].
    destruct (approx_eq_spec (inject_Z n * ut) (inject_Z (Z.of_nat (length l)) * ut)) as [|B]; [discriminate|].
    apply B. rewrite <- Tq. exact A'.
  - exists (v + snd q). rewrite app_assoc. split; [reflexivity|]. unfold last_value. rewrite last_opt_snoc. lra.
Qed.
Lemma clocked_snoc ut c v : clocked ut c -> clocked ut (c ++ [(inject_Z (Z.of_nat (length c)) * ut, v)]).
Proof.
  intros K i r E. apply nth_snoc in E. destruct E as [[_ E]|[-> ->]]; [now apply K|reflexivity].
Qed.

Record dead (x : ltm) : Prop := {
  dd_inv : lt_inv x; dd_fin : lt_fin x = []; dd_prev : lt_prev x == 0;
  dd_Nin : zero_curve (lt_Nin x); dd_Nout : zero_curve (lt_Nout x);
  dd_clock : clocked (p_ut (lt_par x)) (lt_Nin x);
  dd_small : (lt_size x < 10000)%Z }.

Lemma dead_fin r inc x y s d cin : 0 <= r -> physical (lt_par x) -> lt_inv y -> zero_curve (lt_Nin y) -> zero_curve (lt_Nout y) ->
  interval_facts r [] inc x y s d cin -> lt_fin y = [].
Proof.
  intros Hr P Iy Zi Zo F. destruct (if_demand _ _ _ _ _ _ _ _ F) as (a & b & Ea & Eb & Ed).
  assert (A0 : a == 0) by (apply (get_result_range (fun v => v == 0) _ _ _ (kp_inc _ _ (li_Nin _ Iy)) (kp_zero _ _ (li_Nin _ Iy)) (Qeq_refl 0) Zi Ea)).
  assert (B0 : b == 0) by (apply (get_result_range (fun v => v == 0) _ _ _ (kp_inc _ _ (li_Nout _ Iy)) (kp_zero _ _ (li_Nout _ Iy)) (Qeq_refl 0) Zo Eb)).
  destruct (cap_nonneg _ P) as [C0 _].
  assert (D0 : d == 0) by (rewrite Ed; destruct (Qltb_spec (lt_cap (lt_par x)) (a - b)); lra).
  pose proof (if_fin _ _ _ _ _ _ _ _ F) as L. change (Zlen (@nil Z)) with 0%Z in L. change (inject_Z 0) with 0 in L.
  assert (Z0 : 0 / p_fs (lt_par x) == 0) by (unfold Qdiv; ring).
  destruct (Qltb_spec d (0 / p_fs (lt_par x))) as [H|H]; [lra|].
  assert (R : rround r (d * p_fs (lt_par x)) = 0%Z).
  { rewrite (rround_comp r _ 0); [now apply rround_zero|]. rewrite D0. ring. }
  rewrite R in L. unfold Zlen in L. destruct (lt_fin y); [reflexivity|]. cbn [length] in L. lia.
Qed.

Lemma stay_nil (keep : Z -> bool) x : lt_fin x = [] -> filter keep (lt_fin x) = [].
Proof. now intros ->. Qed.

Lemma zero_lookup v f : v == 0 -> v - inject_Z (Zlen (@nil Z)) / f == 0.
Proof. intros E. change (inject_Z (Zlen (@nil Z))) with 0. rewrite E. unfold Qdiv. ring. Qed.

(** an interval without entering *)
Lemma quiet_step r x y s d cin : 0 <= r -> physical (lt_par x) -> dead x -> Z.of_nat (length (lt_Nin x)) = lt_now x ->
  (lt_now x < lt_size x)%Z -> lt_q x = [] ->
  interval_facts r [] [] x y s d cin ->
  dead y /\ Z.of_nat (length (lt_Nin y)) = lt_now y /\ lt_q y = [].
Proof.
  intros Hr P D Ln Lt Q0 F. pose proof (dd_inv _ D) as I. pose proof P as (Hu & _).
  pose proof (lt_inv_step _ _ _ _ _ _ _ _ Hu I F) as Iy. pose proof (dd_small _ D).
  pose proof (if_cin _ _ _ _ _ _ _ _ F) as Ec. unfold lt_time in Ec.
  pose proof Ec as Ec'.
  apply clocked_add in Ec as (v' & -> & Ev); [|exact Hu|apply D|lia|lia].
  pose proof (if_nin _ _ _ _ _ _ _ _ F) as En. unfold shrink in En. rewrite app_length in En. cbn [length] in En.
  destruct (Z.gtb_spec (Z.of_nat (length (lt_Nin x) + 1)) (lt_size x)) as [G|G]; [lia|]. apply Ok_inj in En.
  assert (Zi : zero_curve (lt_Nin y)).
  { rewrite <- En. eapply zero_add; [apply (dd_Nin _ D)| |exact Ec']. cbn. rewrite (li_in _ I). cbn. unfold Qdiv. ring. }
  destruct (if_nout _ _ _ _ _ _ _ _ F) as (no & Eno & Eo).
  rewrite (shrink_kept _ _ _ (li_Nout _ I)) in Eno by (pose proof (li_size _ I); lia). apply Ok_inj in Eno.
  assert (Zo : zero_curve (lt_Nout y)).
  { eapply zero_add; [|  |exact Eo]; [rewrite <- Eno; apply zero_firstn; apply D|]. cbn [snd]. apply zero_lookup, D. }
  pose proof (dead_fin _ _ _ _ _ _ _ Hr P Iy Zi Zo F) as Fy.
  assert (Cy : clocked (p_ut (lt_par y)) (lt_Nin y)).
  { rewrite (if_par _ _ _ _ _ _ _ _ F), <- En, <- Ln. apply clocked_snoc. apply D. }
  split; [split; auto|split].
  - rewrite (if_prev _ _ _ _ _ _ _ _ F), Fy. cbn. unfold Qdiv. ring.
  - rewrite (if_size _ _ _ _ _ _ _ _ F). exact H.
  - rewrite <- En, app_length, (if_now _ _ _ _ _ _ _ _ F). cbn [length]. lia.
  - pose proof (if_line _ _ _ _ _ _ _ _ F) as L. rewrite Fy, Q0, (li_in _ I) in L. exact L.
Qed.

(** once the curves are full, nothing is released any more *)
Lemma dead_step r inc x y s d cin : 0 <= r -> physical (lt_par x) -> dead x -> Z.of_nat (length (lt_Nin x)) = lt_size x ->
  (lt_size x <= lt_now x)%Z ->
  interval_facts r [] inc x y s d cin ->
  dead y /\ lt_Nin y = lt_Nin x /\ lt_q y = (lt_q x ++ inc)%list.
Proof.
  intros Hr P D Ln Lt F. pose proof (dd_inv _ D) as I. pose proof P as (Hu & _).
  pose proof (lt_inv_step _ _ _ _ _ _ _ _ Hu I F) as Iy. pose proof (dd_small _ D).
  pose proof (if_cin _ _ _ _ _ _ _ _ F) as Ec. unfold lt_time in Ec.
  pose proof (lt_inv_step _ _ _ _ _ _ _ _ Hu I F) as _.
  assert (T : times_increase cin) by (eapply add_increment_sorted; [apply (li_Nin _ I)|exact Ec]).
  apply clocked_add in Ec as (v' & -> & Ev); [|exact Hu|apply D|lia|lia].
  pose proof (if_nin _ _ _ _ _ _ _ _ F) as En. rewrite shrink_keeps_oldest in En by (try exact T; lia). apply Ok_inj in En.
  rewrite <- Ln, Nat2Z.id, firstn_app, Nat.sub_diag, firstn_all, firstn_O, app_nil_r in En.
  destruct (if_nout _ _ _ _ _ _ _ _ F) as (no & Eno & Eo).
  rewrite (shrink_kept _ _ _ (li_Nout _ I)) in Eno by (pose proof (li_size _ I); lia). apply Ok_inj in Eno.
  assert (Zo : zero_curve (lt_Nout y)).
  { eapply zero_add; [|  |exact Eo]; [rewrite <- Eno; apply zero_firstn; apply D|]. cbn [snd]. apply zero_lookup, D. }
  assert (Zi : zero_curve (lt_Nin y)) by (rewrite <- En; apply D).
  pose proof (dead_fin _ _ _ _ _ _ _ Hr P Iy Zi Zo F) as Fy.
  split; [split; auto|split].
  - rewrite (if_prev _ _ _ _ _ _ _ _ F), Fy. cbn. unfold Qdiv. ring.
  - rewrite (if_par _ _ _ _ _ _ _ _ F), <- En. apply D.
  - rewrite (if_size _ _ _ _ _ _ _ _ F). exact H.
  - symmetry. exact En.
  - pose proof (if_line _ _ _ _ _ _ _ _ F) as L. rewrite Fy, (li_in _ I) in L. exact L.
Qed.

Lemma quiet_run es : forall x y, physical (lt_par x) -> dead x -> Z.of_nat (length (lt_Nin x)) = lt_now x ->
  lt_q x = [] -> (lt_now x + Z.of_nat (length es) <= lt_size x)%Z -> entering es = [] -> draws_nonneg es ->
  ltm_run es x = Ok y ->
  dead y /\ lt_par y = lt_par x /\ lt_size y = lt_size x /\
  Z.of_nat (length (lt_Nin y)) = lt_now y /\ lt_now y = (lt_now x + Z.of_nat (length es))%Z /\ lt_q y = [].
Proof.
  induction es as [|[[r keep] inc] es IH]; intros x y P D Ln Q0 Ht Ha Hd E; cbn in E.
  - apply Ok_inj in E. subst y. cbn [length]. rewrite Z.add_0_r. auto 10.
  - apply bind_ok in E as (z & Ez & E). rewrite stay_nil in Ez by apply D.
    unfold entering in Ha. cbn in Ha. apply app_eq_nil in Ha as [-> Ha].
    apply lt_interval_inv in Ez as (s & d & cin & F). cbn [length] in Ht.
    destruct (quiet_step r x z s d cin) as (Dz & Lz & Qz); auto; [apply (Hd (r, keep, [])); left; reflexivity|lia|].
    pose proof (if_now _ _ _ _ _ _ _ _ F) as Nz. pose proof (if_size _ _ _ _ _ _ _ _ F) as Sz.
    pose proof (if_par _ _ _ _ _ _ _ _ F) as Pz.
    destruct (IH z y) as (A1 & A2 & A3 & A4 & A5 & A6); auto; [now rewrite Pz|lia|intros e He; apply Hd; right; exact He|].
    split; [exact A1|]. split; [congruence|]. split; [congruence|]. split; [exact A4|]. split; [cbn [length]; lia|exact A6].
Qed.

Lemma dead_run es : forall x y, physical (lt_par x) -> dead x -> Z.of_nat (length (lt_Nin x)) = lt_size x ->
  (lt_size x <= lt_now x)%Z -> draws_nonneg es -> ltm_run es x = Ok y ->
  lt_fin y = [] /\ lt_q y = (lt_q x ++ entering es)%list.
Proof.
  induction es as [|[[r keep] inc] es IH]; intros x y P D Ln Lt Hd E; cbn in E.
  - apply Ok_inj in E. subst y. unfold entering. cbn. rewrite app_nil_r. split; [apply D|reflexivity].
  - apply bind_ok in E as (z & Ez & E). rewrite stay_nil in Ez by apply D.
    apply lt_interval_inv in Ez as (s & d & cin & F).
    destruct (dead_step r inc x z s d cin) as (Dz & Nz & Qz); auto; [apply (Hd (r, keep, inc)); left; reflexivity|].
    destruct (IH z y) as (A & B); auto.
    + now rewrite (if_par _ _ _ _ _ _ _ _ F).
    + rewrite Nz, (if_size _ _ _ _ _ _ _ _ F). exact Ln.
    + rewrite (if_now _ _ _ _ _ _ _ _ F), (if_size _ _ _ _ _ _ _ _ F). lia.
    + intros e He. apply Hd. right. exact He.
    + split; [exact A|]. rewrite B, Qz. unfold entering. cbn [map concat snd]. now rewrite app_assoc.
Qed.

(** a dead link reports the same room for ever and takes any number of vehicles *)
Lemma dead_supply x : physical (lt_par x) -> dead x ->
  exists s, lt_supply x = Ok s /\ s == Qmin (lt_cap (lt_par x)) (lt_hold (lt_par x)).
Proof.
  intros P D. pose proof (dd_inv _ D) as I. destruct (lt_inv_supply x I) as (s & E). exists s. split; [exact E|].
  unfold lt_supply in E. apply bind_ok in E as (a & Ea & E). apply bind_ok in E as (b & Eb & E). apply Ok_inj in E.
  assert (A0 : a == 0) by (apply (get_result_range (fun v => v == 0) _ _ _ (kp_inc _ _ (li_Nout _ I)) (kp_zero _ _ (li_Nout _ I)) (Qeq_refl 0) (dd_Nout _ D) Ea)).
  assert (B0 : b == 0) by (apply (get_result_range (fun v => v == 0) _ _ _ (kp_inc _ _ (li_Nin _ I)) (kp_zero _ _ (li_Nin _ I)) (Qeq_refl 0) (dd_Nin _ D) Eb)).
  destruct (cap_nonneg _ P) as [C0 H0]. subst s.
  destruct (Qltb_spec (lt_cap (lt_par x)) (a + lt_hold (lt_par x) - b)) as [H|H];
  destruct (Q.min_spec (lt_cap (lt_par x)) (lt_hold (lt_par x))) as [[M1 M2]|[M1 M2]]; rewrite M2;
  match goal with |- context [Qltb ?u ?v] => destruct (Qltb_spec u v) end; lra.
Qed.
Lemma dead_accepts es : forall x, physical (lt_par x) -> dead x -> Z.of_nat (length (lt_Nin x)) = lt_size x ->
  (lt_size x <= lt_now x)%Z -> draws_nonneg es ->
  (forall e, In e es -> (Zlen (snd e) <= trunc (Qmin (lt_cap (lt_par x)) (lt_hold (lt_par x)) * p_fs (lt_par x)))%Z) ->
  exists y, ltm_run es x = Ok y.
Proof.
  induction es as [|[[r keep] inc] es IH]; intros x P D Ln Lt Hd Hi; cbn [ltm_run]; [eauto|].
  destruct (dead_supply x P D) as (s & Es & Vs).
  destruct (lt_interval_total r (filter keep (lt_fin x)) inc x s) as (z & Ez); auto; [apply P|apply D| |].
  { rewrite (trunc_comp _ (Qmin (lt_cap (lt_par x)) (lt_hold (lt_par x)) * p_fs (lt_par x))) by (rewrite Vs; reflexivity).
    apply (Hi (r, keep, inc)). left. reflexivity. }
  rewrite Ez. cbn [bind]. rewrite stay_nil in Ez by apply D. apply lt_interval_inv in Ez as (s' & d & cin & F).
  destruct (dead_step r inc x z s' d cin) as (Dz & Nz & Qz); auto; [apply (Hd (r, keep, inc)); left; reflexivity|].
  pose proof (if_par _ _ _ _ _ _ _ _ F) as Pz.
  apply IH; auto.
  - now rewrite Pz.
  - rewrite Nz, (if_size _ _ _ _ _ _ _ _ F). exact Ln.
  - rewrite (if_now _ _ _ _ _ _ _ _ F), (if_size _ _ _ _ _ _ _ _ F). lia.
  - intros e He. apply Hd. right. exact He.
  - intros e He. rewrite Pz. apply Hi. right. exact He.
Qed.

Lemma fresh_dead p x : physical p -> make_ltm p = Ok x -> (lt_size x < 10000)%Z -> dead x.
Proof.
  intros P E Hs. destruct (make_ltm_inv p x P E) as (I & Ep & Ef & Eq & En & Ei & Eo & Ev).
  split; auto.
  - rewrite Ev. reflexivity.
  - rewrite Ei. intros r [].
  - rewrite Eo. intros r [].
  - rewrite Ei. intros [|i] r H; discriminate.
Qed.
