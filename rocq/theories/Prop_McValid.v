(** C257: two-class loading on valid fixed-route input never fails and, with a
    configured number of intervals, ends. *)
From Verif Require Import Base Base_lemmas Model_Num Proof_Num Spec_Path Proof_Path Model_CC Spec_CC Proof_CC Model_Path Model_Link Spec_Link Spec_Node
  Proof_Link Proof_Link3 Proof_Link4 Proof_Link5 Model_World Model_Node Proof_Node Proof_Node3 Model_Sim Spec_Sim Proof_Sim1 Proof_Sim2 Proof_Sim3 Proof_Sim4 Proof_Sim5 Proof_Sim6 Spec_Route Spec_Valid
  Model_McLink Spec_McLink Proof_McLink Model_McNode Spec_McNode Proof_McNode Model_McSim Spec_McSim Proof_McSim1 Proof_McSim2 Proof_McSim3 Spec_McValid Proof_McValid2
  Ex_Net Ex_McNet Prop_Node Prop_Sim Prop_McSim.
Local Open Scope Z_scope.

(** Every interval runs to its end, whatever the draws: no exception, no failed
    assertion, no access outside an array or through a null pointer. *)
Theorem C257_two_class_run_never_fails : forall M w0 D k, mvalid_input M w0 -> (forall t, mdraws_valid (D t)) ->
  exists s, mrun M D k (minit M w0) = Ok s /\ ms_cur s = Z.of_nat k.
Proof. intros M w0 D k VA DV. destruct (mrun_total M w0 VA D DV k) as (s & E & C & _). eauto. Qed.
Print Assumptions C257_two_class_run_never_fails.

Lemma mloading_from M w0 D : mvalid_input M w0 -> (forall t, mdraws_valid (D t)) -> forall f k s, mrun M D k (minit M w0) = Ok s ->
  mloading M D f s = Err EFuel \/ exists j s', mloading M D f s = Ok s' /\ (k <= j <= k + f)%nat /\ mrun M D j (minit M w0) = Ok s' /\ mloop_cond M s' = false.
Proof.
  intros VA DV. induction f as [|f IH]; intros k s E; cbn [mloading].
  - destruct (mloop_cond M s) eqn:Ec; [now left|]. right. exists k, s. repeat split; auto; lia.
  - destruct (mloop_cond M s) eqn:Ec; [|right; exists k, s; repeat split; auto; lia].
    destruct (mrun_total M w0 VA D DV (S k)) as (s2 & E2 & _). pose proof (run_next M D k _ s s2 E E2) as B. rewrite B. cbn [bind].
    destruct (IH (S k) s2 E2) as [F|(j & s' & F & L & G)]; [now left|]. right. exists j, s'. split; [exact F|]. split; [lia|exact G].
Qed.

(** The loading loop either is still running after the given number of iterations or
    has ended normally; it never ends in a failure. *)
Theorem C257_two_class_loading_never_fails : forall M w0 D f, mvalid_input M w0 -> (forall t, mdraws_valid (D t)) ->
  mloading M D f (minit M w0) = Err EFuel \/
  exists j s, mloading M D f (minit M w0) = Ok s /\ (j <= f)%nat /\ mrun M D j (minit M w0) = Ok s /\ mloop_cond M s = false.
Proof.
  intros M w0 D f VA DV. destruct (mloading_from M w0 D VA DV f 0%nat (minit M w0) eq_refl) as [F|(j & s & A & L & B)]; [now left|].
  right. exists j, s. split; [exact A|]. split; [lia|exact B].
Qed.
Print Assumptions C257_two_class_loading_never_fails.

(** With a configured number of intervals the loading ends: after that many intervals,
    or once all assignment intervals are released, whichever is later. *)
Theorem C257_two_class_loading_ends : forall M w0 D, mvalid_input M w0 -> (forall t, mdraws_valid (D t)) -> 0 < mn_total_int M ->
  exists f s, mloading M D f (minit M w0) = Ok s /\ mn_total_int M <= ms_cur s /\ mn_total_assign M <= ms_assign s /\
    (Z.of_nat f <= Z.max (mn_total_int M) (mn_freq M * (mn_total_assign M - mn_start_assign M))).
Proof.
  intros M w0 D VA DV T. pose proof (mv_freq _ _ VA) as Fq.
  set (B := Z.max (mn_total_int M) (mn_freq M * (mn_total_assign M - mn_start_assign M))).
  assert (HB : mn_total_int M <= B) by (unfold B; lia).
  assert (HA : mn_freq M * (mn_total_assign M - mn_start_assign M) <= B) by (unfold B; lia).
  assert (G : forall d k s, mrun M D k (minit M w0) = Ok s -> Z.of_nat k + Z.of_nat d = B ->
            exists s', mloading M D d s = Ok s' /\ mloop_cond M s' = false).
  { induction d as [|d IH]; intros k s E L.
    - assert (Ec : mloop_cond M s = false).
      { destruct (mrun_total M w0 VA D DV k) as (s2 & E2 & C & _). rewrite E in E2. apply Ok_inj in E2 as <-.
        assert (R : mreached M D k s) by (exists w0; split; [apply (mv_fresh _ _ VA)|split; [exact DV|exact E]]).
        pose proof (mreached_assign M D k s Fq R) as EA. unfold m_assign_at in EA. unfold mloop_cond, mfinished_loading.
        rewrite (proj2 (Z.ltb_lt _ _) T). apply orb_false_intro.
        - apply negb_false_iff. apply Z.leb_le. lia.
        - apply Z.ltb_ge. rewrite EA. assert (mn_total_assign M - mn_start_assign M <= Z.of_nat k / mn_freq M); [|lia].
          apply Z.div_le_lower_bound; lia. }
      exists s. cbn [mloading]. rewrite Ec. auto.
    - cbn [mloading]. destruct (mloop_cond M s) eqn:Ec; [|eauto].
      destruct (mrun_total M w0 VA D DV (S k)) as (s2 & E2 & _). rewrite (run_next M D k _ s s2 E E2). cbn [bind]. apply (IH (S k) s2 E2). lia. }
  destruct (G (Z.to_nat B) 0%nat (minit M w0) eq_refl ltac:(lia)) as (s & E & C). exists (Z.to_nat B), s. split; [exact E|].
  unfold mloop_cond, mfinished_loading in C. rewrite (proj2 (Z.ltb_lt _ _) T) in C. apply orb_false_elim in C as [C1 C2].
  apply negb_false_iff, Z.leb_le in C1. apply Z.ltb_ge in C2. split; [exact C1|]. split; [exact C2|]. lia.
Qed.
Print Assumptions C257_two_class_loading_ends.

(** two origins, both classes, two parallel cell-transmission links *)
Definition yv (b : bool) : mnet := ym_net (if b then MRBiclass 0 0 else MRFixed) ym_os.
Definition yv_end (b : bool) : mnet :=
  {| mn_fs := mn_fs (yv b); mn_pcu := mn_pcu (yv b); mn_nodes := mn_nodes (yv b); mn_out := mn_out (yv b); mn_in := mn_in (yv b); mn_links := mn_links (yv b); mn_to := mn_to (yv b);
     mn_origins := mn_origins (yv b); mn_dests := mn_dests (yv b); mn_freq := mn_freq (yv b); mn_total_assign := mn_total_assign (yv b);
     mn_start_assign := mn_start_assign (yv b); mn_total_int := 7; mn_routing := mn_routing (yv b); mn_rfreq := mn_rfreq (yv b); mn_rlen := mn_rlen (yv b) |}.
Lemma yv_valid b : mvalid_input (yv b) ym_world.
Proof.
  constructor.
  - apply ym_net_ok; reflexivity.
  - apply ym_fresh.
  - reflexivity.
  - reflexivity.
  - destruct b; [right|left]; reflexivity.
  - discriminate.
  - intros o k d [<-|[<-|[]]]; reflexivity.
  - intros l Hl. cbn in Hl. repeat (destruct Hl as [<-|Hl]; [cbn; tauto|]). destruct Hl.
  - intros o [<-|[<-|[]]]; cbn; tauto.
  - intros d [<-|[]]. split; [cbn; tauto|reflexivity].
  - intros l Hl. assert (R : exists k f n, k <> MKLq /\ (0 <= f)%Q /\ fresh_mlink (ym_par k f n) (mw_link ym_world l)).
    { cbn in Hl. destruct Hl as [<-|[<-|[<-|[<-|[<-|[]]]]]];
        [exists MKPq, 10%Q, 100%Q|exists MKPq, 10%Q, 100%Q|exists MKCtm, (1 # 2)%Q, 300%Q|exists MKPq, 10%Q, 100%Q|exists MKCtm, (1 # 3)%Q, 150%Q];
        (split; [discriminate|split; [discriminate|vm_compute; reflexivity]]). }
    destruct R as (k & f & n & A & B & C). exists (ym_par k f n). split; [exact C|]. split; [exact A|]. split; [reflexivity|]. split; [reflexivity|exact B].
  - intros o l [<-|[<-|[]]] Hb; cbn in Hb; destruct Hb as [<-|[]]; vm_compute; repeat eexists.
  - intros d a [<-|[]] Ha. cbn in Ha. destruct Ha as [<-|[]]; vm_compute; repeat eexists.
  - intros o d p (es & e & A & B & <-). cbn in A. destruct A as [A|[A|[]]]; injection A as <- <- <-; cbn in B;
      repeat (destruct B as [<-|B]; [cbn; tauto|]); destruct B.
  - right. split; [reflexivity|]. split; [reflexivity|]. intros k es A e He. cbn in A. destruct A as [A|[A|[]]]; injection A as <- <-; cbn in He;
      repeat (destruct He as [<-|He]; [split; [cbn; lia|]; cbn; intros x Hx; repeat (destruct Hx as [<-|Hx]; [discriminate|]); destruct Hx|]); destruct He.
  - intros k es A. cbn in A. destruct A as [A|[A|[]]]; injection A as <- <-; discriminate.
  - intros o k d [<-|[<-|[]]] Hd; cbn in Hd; destruct Hd as [<-|[]]; (split; [cbn; tauto|]); eexists; cbn; [left|right; left]; reflexivity.
Qed.
Lemma yv_end_valid b : mvalid_input (yv_end b) ym_world.
Proof.
  pose proof (yv_valid b) as V. constructor.
  - pose proof (mv_net _ _ V) as []. constructor; assumption.
  - pose proof (mv_fresh _ _ V) as []. constructor; assumption.
  - exact (mv_freq _ _ V).
  - exact (mv_pcu _ _ V).
  - exact (mv_routing _ _ V).
  - exact (mv_columns _ _ V).
  - exact (mv_ratio _ _ V).
  - exact (mv_ends _ _ V).
  - exact (mv_orig _ _ V).
  - exact (mv_dest _ _ V).
  - exact (mv_link _ _ V).
  - exact (mv_from_origin _ _ V).
  - exact (mv_to_dest _ _ V).
  - intros o d p H. pose proof (mv_routes _ _ V o d p H) as L. revert L. clear H. generalize (r_links p) as ls. intros ls.
    { clear. revert o. induction ls as [|l ls IH]; intros o; cbn; [tauto|]. intros [A B]. split; [exact A|exact (IH _ B)]. }
  - exact (mv_shares _ _ V).
  - exact (mv_filled _ _ V).
  - exact (mv_demand _ _ V).
Qed.

(** the same shares for both classes, and shares per class *)
Example C257_case : (forall b, mvalid_input (yv_end b) ym_world) /\ mdraws_valid ym_draws /\
  map (fun b => match mloading (yv_end b) (fun _ => ym_draws) 7 (minit (yv_end b) ym_world) with
    | Ok s => Some (ms_cur s, f_num (mw_fac (ms_w s)), map (fun v => (mw_cls (ms_w s) v, option_map r_links (v_path (mw_veh (ms_w s) v)))) [1; 6; 15])
    | Err _ => None
    end) [false; true] =
  [Some (7, 15, [(false, Some [10; 20; 30]); (true, Some [10; 20; 30]); (true, Some [50; 20; 30])]);
   Some (7, 15, [(false, Some [10; 20; 30]); (true, Some [10; 25; 30]); (true, Some [50; 20; 30])])].
Proof. split; [apply yv_end_valid|]. split; [apply ym_draws_valid|]. vm_compute. reflexivity. Qed.
