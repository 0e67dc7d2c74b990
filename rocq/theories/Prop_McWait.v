(** Waiting times at intersections of a two-class run: C266, C267. *)
From Coq Require Import Permutation.
From Verif Require Import Base Base_lemmas Model_Num Proof_Num Spec_Path Model_CC Spec_CC Proof_CC Model_Path Model_Link Spec_Link Spec_Node
  Proof_Link Proof_Link4 Proof_Link5 Proof_Sim2 Model_World Model_Node Model_Sim Spec_Sim Proof_Sim1 Proof_Sim3 Proof_Sim4 Ex_Net
  Proof_Sim7 Model_McLink Spec_McLink Proof_McLink Model_McNode Spec_McNode Model_McSim Spec_McSim Proof_McSim1 Proof_McSim2 Proof_McSim3 Proof_McSim4 Proof_McSim5 Ex_McNet Prop_Node Prop_Sim Prop_McSim
  Model_McWait Spec_McWait Proof_McWait.
Local Open Scope Q_scope.

Lemma last_count_total c n : last_count c = Ok n -> n = cum_total c.
Proof.
  destruct c as [|x c0 _] using rev_ind; [discriminate|]. unfold last_count, cum_total. rewrite last_opt_snoc.
  destruct (c0 ++ [x])%list eqn:E; [destruct c0; discriminate|]. rewrite <- E, last_last. intros H. now apply Ok_inj in H.
Qed.
Lemma div_back x n a : 0 < n -> a == x / n -> a * n == x.
Proof. intros P ->. field. intros C. rewrite C in P. lra. Qed.

(** ** C266: what is reported *)
Theorem C266_average : forall M D j s k l a n, mnet_ok M -> mreached M D j s -> let w := ms_w s in
  counted (mk_Nin (mw_cc w) k l) n -> avg_wait_k w k l = Ok a ->
  a * (n + (1 # 1000000)) == if k then ml_wait_t (mw_link w l) else ml_wait_c (mw_link w l).
Proof.
  intros M D j s k l a n K R w (c & E & Hn) H. unfold avg_wait_k in H. rewrite E in H. apply bind_ok in H as (m & Hm & H). apply Ok_inj in H as <-. apply last_count_total in Hm as ->.
  pose proof (reached_entries M K D j s k l R c E) as P. apply div_back; [rewrite <- Hn; lra|]. unfold wait_k. rewrite Hn. reflexivity.
Qed.
Print Assumptions C266_average.
Theorem C266_average_all : forall M D j s l a n n', mnet_ok M -> mreached M D j s -> In l (mn_links M) -> let w := ms_w s in
  counted (mk_Nin (mw_cc w) false l) n -> counted (mk_Nin (mw_cc w) true l) n' -> avg_wait w l = Ok a ->
  a * (n + n' + (1 # 1000000)) == ml_wait_c (mw_link w l) + ml_wait_t (mw_link w l).
Proof.
  intros M D j s l a n n' K R Hl w (c & E & Hn) (c' & E' & Hn') H. unfold avg_wait in H. rewrite E, E' in H. apply bind_ok in H as (m & Hm & H). apply bind_ok in H as (m' & Hm' & H). apply Ok_inj in H as <-.
  apply last_count_total in Hm as ->. apply last_count_total in Hm' as ->.
  pose proof (reached_entries M K D j s _ l R c E) as P. pose proof (reached_entries M K D j s _ l R c' E') as P'. apply div_back; [rewrite <- Hn, <- Hn'; lra|].
  pose proof (reached_sums M D j s l R Hl) as Sm. unfold sums in Sm. fold w in Sm. rewrite Sm, Hn, Hn'. reflexivity.
Qed.
Print Assumptions C266_average_all.
Theorem C266_no_curve_refused : forall w l k, mk_Nin (mw_cc w) k l = None -> avg_wait_k w k l = Err EThrow /\ avg_wait w l = Err EThrow.
Proof. intros w l k E. unfold avg_wait_k, avg_wait. destruct k; rewrite E; split; try reflexivity. now destruct (mk_Nin (mw_cc w) false l). Qed.
Print Assumptions C266_no_curve_refused.

(** ** C267: every vehicle that has left counts at least one interval of waiting *)
Theorem C267_one_interval_each : forall M D j s k l u m, mnet_ok M -> mreached M D j s -> In l (mn_links M) -> let w := ms_w s in
  link_scale M w l u -> counted (mk_Nout (mw_cc w) k l) m ->
  m * u <= if k then ml_wait_t (mw_link w l) else ml_wait_c (mw_link w l).
Proof.
  intros M D j s k l u m K R Hl w (S1 & S2 & S3) (c & E & Hm). fold w in S1. assert (U : 0 <= mp_ut (ml_par (mw_link w l))) by (rewrite S2; exact S3).
  pose proof (reached_accounts M K D j s k l R Hl S1 U c E) as A. fold w in A. change (wait_k k (mw_link w l)) with (if k then ml_wait_t (mw_link w l) else ml_wait_c (mw_link w l)) in A.
  eapply Qle_trans; [|exact A]. rewrite <- Hm, S2.
  assert (P : 0 <= class_count (mw_cls w) k (ml_fin (mw_link w l)) / mn_fs M) by (apply Qle_shift_div_l; [apply (mno_fs M K)|pose proof (class_count_pos (mw_cls w) k (ml_fin (mw_link w l))); lra]).
  apply Qmult_le_compat_r; [lra|exact S3].
Qed.
Print Assumptions C267_one_interval_each.
Theorem C267_average_bound : forall M D j s k l u a n m, mnet_ok M -> mreached M D j s -> In l (mn_links M) -> let w := ms_w s in
  link_scale M w l u -> counted (mk_Nin (mw_cc w) k l) n -> counted (mk_Nout (mw_cc w) k l) m -> avg_wait_k w k l = Ok a ->
  m * u <= a * (n + (1 # 1000000)).
Proof. intros M D j s k l u a n m K R Hl w Sc Hn Hm H. unfold w in *. rewrite (C266_average M D j s k l a n K R Hn H). exact (C267_one_interval_each M D j s k l u m K R Hl Sc Hm). Qed.
Print Assumptions C267_average_bound.
(** the claim itself: a link whose vehicles all leave at the first chance reports no waiting *)
Theorem C267_no_waiting_refuted : ~ (forall M D n s k l a, mnet_ok M -> one_run M D n s -> In l (mn_links M) ->
  never_held s n l -> avg_wait_k (ms_w (s n)) k l = Ok a -> a == 0).
Proof.
  intros H. assert (A : avg_wait_k (ms_w (ym_at ym 8)) false 30 = Ok (40000000 # 8000001)) by (vm_compute; reflexivity).
  specialize (H ym (fun _ => ym_draws) 8%nat (ym_at ym) false 30%Z (40000000 # 8000001)).
  assert (Z : (40000000 # 8000001) == 0); [|discriminate Z]. apply H; [apply ym_net_ok; reflexivity| |cbn; auto| |exact A].
  - exists ym_world. split; [apply ym_fresh|]. split; [intros; exact ym_draws_valid|]. intros i Hi. apply ym_mrun.
    do 9 (destruct i as [|i]; [vm_compute; reflexivity|]). lia.
  - assert (F : map (fun j => ml_fin (mw_link (ms_w (ym_at ym j)) 30)) (seq 0 9) = [[]; []; []; []; [6]; [5]; [8; 9; 4; 3; 2]; [11; 12; 10; 7; 1]; []]%Z) by (vm_compute; reflexivity).
    assert (G : forall i, (i < 9)%nat -> ml_fin (mw_link (ms_w (ym_at ym i)) 30) = nth i [[]; []; []; []; [6]; [5]; [8; 9; 4; 3; 2]; [11; 12; 10; 7; 1]; []]%Z []).
    { intros i Hi. rewrite <- F. rewrite (nth_indep _ [] (ml_fin (mw_link (ms_w (ym_at ym 0)) 30))) by (rewrite map_length, seq_length; exact Hi).
      rewrite (map_nth (fun j => ml_fin (mw_link (ms_w (ym_at ym j)) 30)) (seq 0 9) 0%nat i), seq_nth by exact Hi. reflexivity. }
    intros i v Hi. rewrite !G by lia. clear - Hi. do 8 (destruct i as [|i]; [cbn; lia|]). lia.
Qed.
Print Assumptions C267_no_waiting_refuted.

(** a run in which 8 cars and 4 trucks have passed link 30, each leaving at its first chance; the interval is 5 seconds *)
Example C266_case : mnet_ok ym /\ mreached ym (fun _ => ym_draws) 8 (ym_at ym 8) /\ let w := ms_w (ym_at ym 8) in
  counted (mk_Nin (mw_cc w) false 30) 8 /\ counted (mk_Nin (mw_cc w) true 30) 4 /\
  report_wait_k w false [30; 10]%Z = Ok [40000000 # 8000001; 35000000 # 6000001] /\ report_wait w [30]%Z = Ok [60000000 # 12000001].
Proof.
  split; [apply ym_net_ok; reflexivity|]. split; [apply ym_reached; vm_compute; reflexivity|]. cbv zeta.
  split; [eexists; split; [vm_compute; reflexivity|reflexivity]|]. split; [eexists; split; [vm_compute; reflexivity|reflexivity]|]. split; vm_compute; reflexivity.
Qed.
Example C267_case : let w := ms_w (ym_at ym 8) in In 30%Z (mn_links ym) /\ link_scale ym w 30 5 /\ counted (mk_Nout (mw_cc w) false 30) 8 /\
  ml_wait_c (mw_link w 30) = 40 /\ counted (mk_Nout (mw_cc w) false 10) 6 /\ ml_wait_c (mw_link w 10) = 35.
Proof.
  cbv zeta. split; [cbn; auto|]. split; [split; [vm_compute; reflexivity|split; [vm_compute; reflexivity|discriminate]]|].
  split; [eexists; split; [vm_compute; reflexivity|reflexivity]|]. split; [vm_compute; reflexivity|]. split; [eexists; split; [vm_compute; reflexivity|reflexivity]|]. vm_compute; reflexivity.
Qed.
