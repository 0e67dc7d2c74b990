(** C58-C62: the link transmission model. *)
From Verif Require Import Base Base_lemmas Model_Num Proof_Num Model_CC Model_Link Spec_Path Model_Ltm Spec_Ltm Proof_Ltm Proof_Ltm2 Proof_Ltm3 Proof_Ltm4.
Local Open Scope Q_scope.

(** C58: vehicles taken from the front leave in the order of entry and none is lost. *)
Theorem C58_first_in_first_out p x entered gone y :
  make_ltm p = Ok x -> fifo_run x entered gone y ->
  entered = (gone ++ lt_fin y ++ lt_q y)%list.
Proof.
  intros E R. assert (I0 : lt_in x = [] /\ lt_fin x = [] /\ lt_q x = []).
  { unfold make_ltm in E. apply bind_ok in E as (u & _ & E). apply Ok_inj in E. subst x. auto. }
  destruct I0 as (I0 & F0 & Q0). destruct (fifo_run_line x entered gone y R I0) as [A _].
  rewrite F0, Q0 in A. symmetry. exact A.
Qed.
Print Assumptions C58_first_in_first_out.

(** C58: whatever the nodes take, the vehicles on the link stand in the order of entry. *)
Theorem C58_order_kept p x es y :
  make_ltm p = Ok x -> ltm_run es x = Ok y ->
  subseq (lt_fin y ++ lt_q y) (entering es).
Proof.
  intros E R. assert (I0 : lt_in x = [] /\ lt_fin x = [] /\ lt_q x = []).
  { unfold make_ltm in E. apply bind_ok in E as (u & _ & E). apply Ok_inj in E. subst x. auto. }
  destruct I0 as (I0 & F0 & Q0). pose proof (ltm_run_order es x y R I0) as A. rewrite F0, Q0 in A. exact A.
Qed.
Print Assumptions C58_order_kept.

(** C59: in every interval at most capacity times unit time enters. *)
Theorem C59_entries_within_capacity p x es y r stay inc z :
  physical p -> make_ltm p = Ok x -> ltm_run es x = Ok y -> lt_interval r stay inc y = Ok z ->
  inject_Z (Zlen inc) / p_fs p <= p_flow p * inject_Z (p_lanes p) * p_ut p.
Proof.
  intros P E R Z. destruct (make_ltm_inv p x P E) as (I & Ep & _).
  assert (Hu : 0 < p_ut (lt_par x)) by (rewrite Ep; apply P).
  destruct (lt_inv_run es x y Hu I R) as (Iy & Py & _). rewrite Ep in Py.
  apply lt_interval_inv in Z as (s & d & cin & F).
  destruct (cap_nonneg p P) as [C0 _]. pose proof P as (_ & Hf & _).
  pose proof (lt_supply_bounds y s ltac:(rewrite Py; exact C0) (if_supply _ _ _ _ _ _ _ _ F)) as [S0 S1]. rewrite Py in S1.
  pose proof (if_room _ _ _ _ _ _ _ _ F) as Rm. rewrite (li_in _ Iy) in Rm. cbn [app] in Rm. rewrite Py in Rm.
  assert (SF : 0 <= s * p_fs p) by (apply Qmult_le_0_compat; lra).
  apply (Qle_trans _ s); [|exact S1]. apply Qle_shift_div_r; [exact Hf|].
  pose proof (trunc_lo _ SF). pose proof (proj2 (injZ_le _ _) Rm). lra.
Qed.
Print Assumptions C59_entries_within_capacity.

(** C59: the link always reports its room, and an interval that brings no more than this room
    completes without an error, for any history. *)
Theorem C59_never_fails p x es y :
  physical p -> make_ltm p = Ok x -> ltm_run es x = Ok y ->
  exists s, lt_supply y = Ok s /\ 0 <= s /\
    forall r stay inc, (Zlen inc <= trunc (s * p_fs p))%Z -> exists z, lt_interval r stay inc y = Ok z.
Proof.
  intros P E R. destruct (make_ltm_inv p x P E) as (I & Ep & _).
  assert (Hu : 0 < p_ut (lt_par x)) by (rewrite Ep; apply P).
  destruct (lt_inv_run es x y Hu I R) as (Iy & Py & _). rewrite Ep in Py.
  destruct (lt_inv_supply y Iy) as (s & Es). exists s. split; [exact Es|].
  destruct (cap_nonneg p P) as [C0 _].
  split; [apply (lt_supply_bounds y s); [rewrite Py; exact C0|exact Es]|].
  intros r stay inc L. apply (lt_interval_total r stay inc y s); [rewrite Py; apply P|exact Iy|exact Es|rewrite Py; exact L].
Qed.
Print Assumptions C59_never_fails.

(** C60 refuted: after [lt_size] intervals without arrivals the link never again lets a vehicle
    out, whatever happens; every vehicle that enters later stays on the link. *)
Theorem C60_standstill_refuted p x quiet later y z :
  physical p -> make_ltm p = Ok x -> (lt_size x < 10000)%Z ->
  Z.of_nat (length quiet) = lt_size x -> entering quiet = [] ->
  draws_nonneg quiet -> draws_nonneg later ->
  ltm_run quiet x = Ok y -> ltm_run later y = Ok z ->
  lt_fin z = [] /\ lt_q z = entering later.
Proof.
  intros P E Hs Hl Hq D1 D2 R1 R2. destruct (make_ltm_inv p x P E) as (I & Ep & Ef & Eq & En & Ei & Eo & Ev).
  destruct (quiet_run quiet x y) as (Dy & Py & Sy & Ly & Ny & Qy); auto.
  - now rewrite Ep.
  - apply (fresh_dead p); auto.
  - rewrite Ei, En. reflexivity.
  - lia.
  - destruct (dead_run later y z) as (A & B); auto.
    + now rewrite Py, Ep.
    + lia.
    + lia.
    + rewrite Qy in B. split; [exact A|exact B].
Qed.
Print Assumptions C60_standstill_refuted.

(** C61: while no more than [lt_size] intervals have passed and the unit time is at most one, the
    vehicles on the link never exceed the holding capacity. *)
Theorem C61_storage_partial p x es y :
  physical p -> p_ut p <= 1 -> make_ltm p = Ok x ->
  (Z.of_nat (length es) <= lt_size x)%Z -> (Z.of_nat (length es) <= 10000)%Z ->
  ltm_run es x = Ok y ->
  inject_Z (Zlen (lt_fin y ++ lt_q y)%list) / p_fs p <= p_hold p * inject_Z (p_lanes p) * p_len p.
Proof.
  intros P U E L1 L2 R. destruct (make_ltm_inv p x P E) as (I & Ep & Ef & Eq & En & _).
  destruct (filling_run es x y) as (W & Py); auto.
  - now rewrite Ep.
  - now rewrite Ep.
  - lia.
  - lia.
  - apply (fresh_filling p); auto.
  - pose proof (fl_cap _ W) as C. rewrite Py, Ep in C. exact C.
Qed.
Print Assumptions C61_storage_partial.

(** C61 refuted: after [lt_size] quiet intervals the link goes on admitting its full share in every
    interval; for every number there is a history that puts more vehicles on the link. *)
Definition crowd (m : Z) : list Z := repeat 0%Z (Z.to_nat m).
Definition push (m : Z) : event := (0, (fun _ => true), crowd m).
Theorem C61_storage_refuted p x quiet y m :
  physical p -> make_ltm p = Ok x -> (lt_size x < 10000)%Z ->
  Z.of_nat (length quiet) = lt_size x -> entering quiet = [] -> draws_nonneg quiet ->
  ltm_run quiet x = Ok y ->
  (0 <= m)%Z -> inject_Z m <= p_flow p * inject_Z (p_lanes p) * p_ut p * p_fs p ->
  inject_Z m <= p_hold p * inject_Z (p_lanes p) * p_len p * p_fs p ->
  forall n, exists z, ltm_run (repeat (push m) n) y = Ok z /\
    Zlen (lt_q z) = (Z.of_nat n * m)%Z /\ lt_fin z = [].
Proof.
  intros P E Hs Hl Hq D1 R1 Hm Hc Hh n. destruct (make_ltm_inv p x P E) as (I & Ep & Ef & Eq & En & Ei & Eo & Ev).
  destruct (quiet_run quiet x y) as (Dy & Py & Sy & Ly & Ny & Qy); auto.
  { now rewrite Ep. } { apply (fresh_dead p); auto. } { rewrite Ei, En. reflexivity. } { lia. }
  assert (Dn : draws_nonneg (repeat (push m) n)).
  { intros e He. apply repeat_spec in He. subst e. cbn. lra. }
  assert (Lm : Zlen (crowd m) = m) by (unfold Zlen, crowd; rewrite repeat_length; lia).
  destruct (dead_accepts (repeat (push m) n) y) as (z & Rz); auto.
  - now rewrite Py, Ep.
  - lia.
  - lia.
  - intros e He. apply repeat_spec in He. subst e. cbn [push snd]. rewrite Lm, Py, Ep. apply trunc_ge; [exact Hm|].
    fold (lt_cap p) in Hc. fold (lt_hold p) in Hh.
    destruct (Q.min_spec (lt_cap p) (lt_hold p)) as [[_ M]|[_ M]]; rewrite M; assumption.
  - exists z. split; [exact Rz|].
    destruct (dead_run (repeat (push m) n) y z) as (A & B); auto; [now rewrite Py, Ep|lia|lia|].
    split; [|exact A]. rewrite B, Qy. cbn [app]. unfold entering. clear - Lm. induction n as [|n IH]; [reflexivity|].
    cbn [repeat map concat snd push]. unfold Zlen in *. rewrite app_length. lia.
Qed.
Print Assumptions C61_storage_refuted.

(** C62: while no more than [lt_size] intervals have passed, vehicles that entered in interval [k] or
    later, the first interval excepted, are still queueing when the free-flow time has not yet
    passed (up to the relative tolerance 1e-4 of the curves). *)
Theorem C62_free_flow_time_partial p x es y k :
  physical p -> make_ltm p = Ok x -> draws_nonneg es ->
  (Z.of_nat (length es) <= lt_size x)%Z -> (Z.of_nat (length es) <= 10000)%Z ->
  ltm_run es x = Ok y ->
  (1 <= k <= length es)%nat ->
  inject_Z (Z.of_nat (length es)) * p_ut p - p_len p / p_ffs p < (9999 # 10000) * (inject_Z (Z.of_nat k) * p_ut p) ->
  exists pre, lt_q y = (pre ++ entering (skipn k es))%list.
Proof.
  intros P E D L1 L2 R Hk Hl. destruct (make_ltm_inv p x P E) as (I & Ep & Ef & Eq & En & _).
  destruct (flowing_run es [] x y) as (W & Py); auto; try lia; [now rewrite Ep|now apply (fresh_flowing p)|].
  cbn [app] in W. apply (fw_suffix _ _ W k Hk). unfold too_recent. rewrite (fw_now _ _ W), Py, Ep.
  assert (T : 1 - tol == 9999 # 10000) by reflexivity. rewrite T. exact Hl.
Qed.
Print Assumptions C62_free_flow_time_partial.

(** C62 refuted: the vehicles of the first interval cross the link at once, however long it is. *)
Theorem C62_first_interval_refuted p x r inc y :
  physical p -> make_ltm p = Ok x -> 0 <= r -> lt_interval r [] inc x = Ok y ->
  lt_fin y = inc /\ lt_q y = [].
Proof.
  intros P E Hr R. destruct (make_ltm_inv p x P E) as (I & Ep & Ef & Eq & En & Ei & Eo & Ev).
  apply lt_interval_inv in R as (s & d & cin & F). pose proof P as (Hu & Hf & _). pose proof (li_size _ I) as Sz.
  destruct (cap_nonneg p P) as [C0 _].
  pose proof (lt_supply_bounds x s ltac:(rewrite Ep; exact C0) (if_supply _ _ _ _ _ _ _ _ F)) as [S0 S1]. rewrite Ep in S1.
  pose proof (if_room _ _ _ _ _ _ _ _ F) as Rm. rewrite (li_in _ I), Ep in Rm. cbn [app] in Rm.
  assert (SF : 0 <= s * p_fs p) by (apply Qmult_le_0_compat; lra).
  assert (Rs : inject_Z (Zlen inc) / p_fs p <= s).
  { apply Qle_shift_div_r; [exact Hf|]. pose proof (trunc_lo _ SF). pose proof (proj2 (injZ_le _ _) Rm). lra. }
  pose proof (if_cin _ _ _ _ _ _ _ _ F) as Ec. rewrite Ei, (li_in _ I), Ep in Ec. cbn [app] in Ec. unfold add_increment in Ec. rewrite Proof_CC.last_opt_nil in Ec.
  apply Ok_inj in Ec. subst cin.
  pose proof (if_nin _ _ _ _ _ _ _ _ F) as Ny. unfold shrink, add_record in Ny. cbn [app length] in Ny.
  destruct (Z.gtb_spec (Z.of_nat 1) (lt_size x)) as [G|G]; [lia|]. apply Ok_inj in Ny.
  destruct (if_nout _ _ _ _ _ _ _ _ F) as (no & Eno & Enoy). rewrite Eo in Eno. unfold shrink in Eno. cbn [length] in Eno.
  destruct (Z.gtb_spec (Z.of_nat 0) (lt_size x)) as [G'|G']; [lia|]. apply Ok_inj in Eno. subst no.
  unfold add_increment in Enoy. rewrite Proof_CC.last_opt_nil in Enoy. apply Ok_inj in Enoy.
  destruct (if_demand _ _ _ _ _ _ _ _ F) as (a & b & Ea & Eb & Ed).
  rewrite <- Ny in Ea. cbn in Ea. apply Ok_inj in Ea. rewrite <- Enoy in Eb. cbn in Eb. apply Ok_inj in Eb. rewrite Ev, Ep in Eb.
  assert (B0 : b == 0). { rewrite <- Eb || rewrite Eb. change (inject_Z (Zlen (@nil Z))) with 0. unfold Qdiv. ring. }
  rewrite Ep in Ed.
  assert (D : d == inject_Z (Zlen inc) / p_fs p).
  { rewrite Ed. subst a. destruct (Qltb_spec (lt_cap p) (inject_Z (Zlen inc) / p_fs p - b)); lra. }
  pose proof (if_fin _ _ _ _ _ _ _ _ F) as Fn. rewrite Ep, Eq, (li_in _ I) in Fn. cbn [app] in Fn.
  assert (Z0 : inject_Z (Zlen (@nil Z)) / p_fs p == 0) by (change (inject_Z (Zlen (@nil Z))) with 0; unfold Qdiv; ring).
  assert (I0 : (0 <= Zlen inc)%Z) by (unfold Zlen; lia).
  assert (I1 : 0 <= inject_Z (Zlen inc) / p_fs p) by (apply Qle_shift_div_l; [exact Hf|]; pose proof (injZ_nonneg _ I0); lra).
  destruct (Qltb_spec d (inject_Z (Zlen (@nil Z)) / p_fs p)) as [H|H]; [lra|].
  assert (RR : rround r (d * p_fs p) = Zlen inc).
  { rewrite (rround_comp r _ (inject_Z (Zlen inc))); [now apply rround_int|]. rewrite D. field. lra. }
  rewrite RR in Fn. change (Zlen (@nil Z)) with 0%Z in Fn.
  pose proof (if_line _ _ _ _ _ _ _ _ F) as Line. rewrite Eq, (li_in _ I) in Line. cbn [app] in Line.
  assert (Q0 : lt_q y = []).
  { apply (f_equal Zlen) in Line. unfold Zlen in *. rewrite app_length in Line. destruct (lt_q y); [reflexivity|]. cbn [length] in Line. lia. }
  rewrite Q0, app_nil_r in Line. split; [exact Line|exact Q0].
Qed.
Print Assumptions C62_first_interval_refuted.

(** * Cases *)
(** one lane, 100 long, free-flow speed 20, wave speed 20, unit time 1 *)
Definition xl : lparam := {| p_kind := KPq; p_hold := 1 # 10; p_flow := 1; p_lanes := 1; p_len := 100; p_ffs := 20; p_ut := 1; p_fs := 1 |}.
Definition xl0 : ltm := match make_ltm xl with Ok x => x | Err _ => {| lt_par := xl; lt_w := 0; lt_size := 0; lt_in := []; lt_q := []; lt_fin := []; lt_vol := 0; lt_now := 0; lt_Nin := []; lt_Nout := []; lt_prev := 0 |} end.
Definition xl_after (es : list event) (x : ltm) : ltm := match ltm_run es x with Ok y => y | Err _ => x end.
Definition nobody : event := (0, (fun _ => true), []).
Definition vehicle (v : Z) : event := (0, (fun _ => false), [v]).
Lemma xl_physical : physical xl.
Proof. unfold physical, xl; cbn. repeat split; try lra; lia. Qed.
Example C58_case :
  make_ltm xl = Ok xl0 /\ lt_size xl0 = 6%Z /\
  lt_q (xl_after [nobody; vehicle 1; vehicle 2; nobody; nobody] xl0) = [1; 2]%Z /\
  lt_fin (xl_after [nobody; vehicle 1; vehicle 2; nobody; nobody; nobody] xl0) = [1]%Z /\
  lt_q (xl_after [nobody; vehicle 1; vehicle 2; nobody; nobody; nobody] xl0) = [2]%Z.
Proof. vm_compute. repeat split; reflexivity. Qed.
(** the first vehicle needs no time, although the free-flow time is 5 intervals *)
Example C62_case :
  lt_fin (xl_after [vehicle 1] xl0) = [1]%Z /\ Qeq_bool (p_len xl / p_ffs xl) 5 = true.
Proof. vm_compute. repeat split; reflexivity. Qed.
(** vehicle 7 enters in interval 6 and never leaves, and so do the 40 vehicles after it, although
    the link may hold 10 *)
Example C60_case :
  lt_q (xl_after (repeat nobody 6 ++ [vehicle 7] ++ repeat nobody 100)%list xl0) = [7]%Z /\
  lt_fin (xl_after (repeat nobody 6 ++ [vehicle 7] ++ repeat nobody 100)%list xl0) = [] /\
  Zlen (lt_q (xl_after (repeat nobody 6 ++ repeat (push 1) 40)%list xl0)) = 40%Z /\
  Qeq_bool (lt_hold xl) 10 = true.
Proof. vm_compute. repeat split; reflexivity. Qed.
(** continuous traffic, unit time 5: three intervals put 15 vehicles on a link that holds 10 *)
Definition xl5 : lparam := {| p_kind := KPq; p_hold := 1 # 10; p_flow := 1; p_lanes := 1; p_len := 100; p_ffs := 20; p_ut := 5; p_fs := 1 |}.
Definition xl50 : ltm := match make_ltm xl5 with Ok x => x | Err _ => xl0 end.
Example C61_case :
  Zlen (lt_fin (xl_after (repeat (push 5) 3) xl50) ++ lt_q (xl_after (repeat (push 5) 3) xl50))%list = 15%Z /\
  Qeq_bool (lt_hold xl5) 10 = true.
Proof. vm_compute. repeat split; reflexivity. Qed.
