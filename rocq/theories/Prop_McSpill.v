(** Reports of spill-back of a two-class run: C268. *)
From Coq Require Import Permutation.
From Verif Require Import Base Base_lemmas Model_Num Proof_Num Spec_Path Model_CC Spec_CC Proof_CC Model_Path Model_Link Spec_Link Spec_Node
  Proof_Link Proof_Link4 Proof_Link5 Proof_Sim2 Model_World Model_Node Model_Sim Spec_Sim Proof_Sim1 Proof_Sim3 Proof_Sim4 Ex_Net
  Proof_Sim7 Model_McLink Spec_McLink Proof_McLink Model_McNode Spec_McNode Model_McSim Spec_McSim Proof_McSim1 Proof_McSim2 Proof_McSim3 Proof_McSim4 Proof_McSim5 Ex_McNet Prop_Node Prop_Sim Prop_McSim
  Proof_McAttr Model_McWait Spec_McWait Proof_McWait Model_McSpill Spec_McSpill Proof_McSpill.
Local Open Scope Z_scope.

Lemma report_1 w l : is_spillback w l = 1 <-> ml_spill (mw_link w l) = true.
Proof. unfold is_spillback. destruct (ml_spill (mw_link w l)); split; congruence. Qed.

(** * C268: spill-back is reported for links that have been overfull *)
Theorem C268_stays : forall M D n s l i j, mnet_ok M -> one_run M D n s -> In l (mn_links M) -> (i <= j <= n)%nat ->
  is_spillback (ms_w (s i)) l = 1 -> is_spillback (ms_w (s j)) l = 1.
Proof.
  intros M D n s l i j K R Hl [Hij Hn] H. rewrite report_1 in *. induction Hij as [|j Hij IH]; [exact H|].
  destruct (run_step M K D n s j l R Hn Hl) as (l0 & E & _ & U). apply (update_stays _ _ _ U). rewrite E. apply IH. lia.
Qed.
Print Assumptions C268_stays.
Theorem C268_only_when_overfull : forall M D n s l, mnet_ok M -> one_run M D n s -> In l (mn_links M) -> sane_numbers (ms_w (s n)) l ->
  is_spillback (ms_w (s n)) l = 1 ->
  exists i, (0 < i <= n)%nat /\ overfull (ms_w (s i)) l /\ forall j, (j <= n)%nat -> (is_spillback (ms_w (s j)) l = 1 <-> (i <= j)%nat).
Proof.
  intros M D n s l K R Hl Sn H. pose proof R as (w0 & F & DV & Rn). destruct (fresh_facts M w0 l F Hl) as [FD0 S0].
  assert (E0 : ms_w (s 0%nat) = w0) by (specialize (Rn 0%nat ltac:(lia)); cbn [mrun] in Rn; apply Ok_inj in Rn as <-; reflexivity).
  assert (X : forall k, (k <= n)%nat -> ml_spill (mw_link (ms_w (s k)) l) = true -> exists i, (i < k)%nat /\ ml_spill (mw_link (ms_w (s i)) l) = false /\ ml_spill (mw_link (ms_w (s (S i))) l) = true).
  { induction k as [|k IH]; intros Hk Sk; [rewrite E0 in Sk; congruence|]. destruct (ml_spill (mw_link (ms_w (s k)) l)) eqn:E.
    - destruct (IH ltac:(lia) eq_refl) as (i & Hi & A & B). exists i. split; [lia|auto].
    - exists k. auto. }
  apply report_1 in H. destruct (X n (le_n n) H) as (i & Hi & A & B). exists (S i). split; [lia|].
  destruct (run_step M K D n s i l R Hi Hl) as (l0 & E & HB & U).
  pose proof (reached_like M K D w0 DV _ _ (Rn (S i) ltac:(lia)) l) as L1. pose proof (reached_like M K D w0 DV _ _ (Rn n (le_n n)) l) as Ln.
  assert (P : ml_par (mw_link (ms_w (s n)) l) = ml_par (mw_link (ms_w (s (S i))) l)) by (rewrite (proj1 Ln), (proj1 L1); reflexivity).
  unfold sane_numbers in Sn. cbv zeta in Sn. rewrite P in Sn. destruct Sn as (N1 & N2 & N3). split.
  - apply (update_spill _ _ _ U HB); auto; [apply (fd_like _ _ L1 FD0)|congruence].
  - intros j Hj. split; intros G.
    + destruct (Nat.le_gt_cases (S i) j) as [L|L]; [exact L|exfalso]. assert (Z : is_spillback (ms_w (s i)) l = 1) by (apply (C268_stays M D n s l j i K R Hl); [lia|exact G]). rewrite report_1 in Z. congruence.
    + apply (C268_stays M D n s l (S i) j K R Hl); [lia|]. now apply report_1.
Qed.
Print Assumptions C268_only_when_overfull.
Theorem C268_connectors_never : forall M D n s l, mnet_ok M -> one_run M D n s -> In l (mn_links M) ->
  (exists m pool a b, ml_body (mw_link (ms_w (s n)) l) = MPq m pool a b) -> is_spillback (ms_w (s n)) l = 0.
Proof.
  intros M D n s l K R Hl (m & pool & a & b & Hb). pose proof R as (w0 & F & DV & Rn). destruct (fresh_facts M w0 l F Hl) as [_ S0].
  assert (E0 : ms_w (s 0%nat) = w0) by (specialize (Rn 0%nat ltac:(lia)); cbn [mrun] in Rn; apply Ok_inj in Rn as <-; reflexivity).
  assert (Q : forall k, (k <= n)%nat -> is_pq (mw_link (ms_w (s k)) l) = true).
  { intros k Hk. pose proof (reached_like M K D w0 DV _ _ (Rn k Hk) l) as (_ & B1 & _). pose proof (reached_like M K D w0 DV _ _ (Rn n (le_n n)) l) as (_ & Bn & _).
    unfold is_pq. rewrite <- B1, Hb in Bn. destruct (ml_body (mw_link (ms_w (s k)) l)); cbn in Bn; congruence. }
  enough (Z : forall k, (k <= n)%nat -> ml_spill (mw_link (ms_w (s k)) l) = false) by (unfold is_spillback; now rewrite Z).
  induction k as [|k IH]; intros Hk; [now rewrite E0|]. destruct (run_step M K D n s k l R ltac:(lia) Hl) as (l0 & E & _ & U). rewrite (update_pq _ _ _ U (Q _ Hk)), E. apply IH. lia.
Qed.
Print Assumptions C268_connectors_never.

(** link 25 with room for three equivalents: overfull with two trucks after three intervals, empty after ten *)
Definition ys_par : mparam :=
  {| mp_kind := MKCtm; mp_lanes := 2; mp_len := 150; mp_hold_c := 1 # 100; mp_hold_t := 1 # 80; mp_flow_c := 1 # 20; mp_flow_t := 1 # 40;
     mp_ffs_c := 15; mp_ffs_t := 10; mp_ut := 5; mp_pcu := 2; mp_fs := 1 |}.
Definition ys_world : mworld := mset_link ym_world 25 (ym_get (make_mctm ys_par)).
Definition ys_run (k : nat) : res mlstate := mrun ym (fun _ => ym_draws) k (minit ym ys_world).
Definition ys_at (k : nat) : mlstate := match ys_run k with Ok s => s | Err _ => minit ym ys_world end.
Lemma ys_fresh : mfresh_world ym ys_world.
Proof.
  destruct (ym_fresh (MRBiclass 0 0) ym_os) as [A B C D E F G]. constructor; auto. intros l Hl. unfold ys_world. cbn [mset_link mw_link].
  destruct (Z.eq_dec l 25) as [->|N]; [rewrite upd_same; exists ys_par; vm_compute; reflexivity|rewrite upd_other by exact N; apply C, Hl].
Qed.
Example C268_case : mnet_ok ym /\ one_run ym (fun _ => ym_draws) 10 ys_at /\ sane_numbers (ms_w (ys_at 10)) 25 /\
  report_spillback (ms_w (ys_at 10)) [10; 20; 25; 30] = [0; 0; 1; 0] /\
  map (fun j => (is_spillback (ms_w (ys_at j)) 25, pcu_load (mw_cls (ms_w (ys_at j))) (mw_link (ms_w (ys_at j)) 25))) [2; 3; 10]%nat = [(0, 2%Q); (1, 4%Q); (1, 0%Q)].
Proof.
  split; [apply ym_net_ok; reflexivity|]. split; [|split; [vm_compute; repeat split; discriminate|split; vm_compute; reflexivity]].
  exists ys_world. split; [exact ys_fresh|]. split; [intros; exact ym_draws_valid|]. intros i Hi.
  assert (O : is_ok (ys_run i) = true) by (do 11 (destruct i as [|i]; [vm_compute; reflexivity|]); lia).
  unfold ys_at. fold (ys_run i). destruct (ys_run i); [reflexivity|discriminate].
Qed.
