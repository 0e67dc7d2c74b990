(** The route report of a tracking run. *)
From Verif Require Import Base Base_lemmas Model_CC Model_Path Model_Link Model_World Model_Node Model_Sim Spec_Sim Proof_Node3 Proof_Sim1 Proof_Sim2 Proof_Sim3
  Model_McLink Model_McNode Model_McSim Spec_McSim Proof_McSim1 Proof_McSim2 Proof_McValid2 Model_Track Spec_Track.
Local Open Scope Z_scope.

(** picked now, whatever the flag was *)
Definition picked (M : mnet) (C : tconf) (t : Z) (u : Z -> Q) (w : mworld) (v : Z) : bool := track_flag M C t u w false v.
Lemma flag_or M C t u w b v : track_flag M C t u w b v = b || picked M C t u w v.
Proof.
  unfold picked, track_flag. cbv zeta. destruct (v_cur _); [|now rewrite orb_false_r]. destruct (v_next _); [|now rewrite orb_false_r].
  destruct b; [now rewrite andb_false_r|reflexivity].
Qed.
Lemma picked_spec M C t u w v : picked M C t u w v = true <->
  let x := mw_veh w v in (tc_ints C = [] \/ In t (tc_ints C)) /\ (u v <= tc_rate C)%Q /\ v_start x = t /\ v_next x <> None /\
    (exists l, v_cur x = Some l /\ In l (mn_out M (v_org x))) /\ (tc_ods C = [] \/ In (tc_oid C (v_org x), tc_did C (v_dst x)) (tc_ods C)).
Proof.
  unfold picked, track_flag. cbv zeta.
  assert (FL : (match tc_ints C with [] => true | _ => memb t (tc_ints C) end) = true <-> tc_ints C = [] \/ In t (tc_ints C)).
  { destruct (tc_ints C) as [|a l]; [tauto|]. rewrite memb_In. split; [now right|]. intros [E|E]; [discriminate|exact E]. }
  assert (OD : forall q, (match tc_ods C with [] => q | _ => if existsb (fun p => (fst p =? tc_oid C (v_org (mw_veh w v))) && (snd p =? tc_did C (v_dst (mw_veh w v)))) (tc_ods C) then q else false end) = true <->
     (tc_ods C = [] \/ In (tc_oid C (v_org (mw_veh w v)), tc_did C (v_dst (mw_veh w v))) (tc_ods C)) /\ q = true).
  { intros q. assert (EX : forall l, existsb (fun p => (fst p =? tc_oid C (v_org (mw_veh w v))) && (snd p =? tc_did C (v_dst (mw_veh w v)))) l = true <-> In (tc_oid C (v_org (mw_veh w v)), tc_did C (v_dst (mw_veh w v))) l).
    { intros l. rewrite existsb_exists. split.
      - intros ([a b] & I & E). cbn [fst snd] in E. apply andb_true_iff in E as [E1 E2]. apply Z.eqb_eq in E1, E2. now subst.
      - intros I. eexists. split; [exact I|]. cbn [fst snd]. now rewrite !Z.eqb_refl. }
    specialize (EX (tc_ods C)). destruct (tc_ods C) as [|p l]; [intuition|]. destruct (existsb _ _).
    - split; [intros ->; split; [right; now apply EX|reflexivity]|tauto].
    - split; [discriminate|]. intros [[E|E] _]; [discriminate|]. apply EX in E. discriminate. }
  destruct (v_cur (mw_veh w v)) as [l|]; [|split; [discriminate|intros (_ & _ & _ & _ & (l & E & _) & _); discriminate]].
  destruct (v_next (mw_veh w v)) as [l'|]; [|split; [discriminate|intros (_ & _ & _ & E & _); now destruct E]].
  rewrite andb_true_r. destruct (match tc_ints C with [] => true | _ => memb t (tc_ints C) end).
  2:{ split; [discriminate|]. intros (A & _). apply FL in A. discriminate. }
  destruct (Z.eqb_spec (v_start (mw_veh w v)) t) as [Es|Ns]; cbn [andb]; [|split; [discriminate|intros (_ & _ & A & _); contradiction]].
  destruct (memb l (mn_out M (v_org (mw_veh w v)))) eqn:Em.
  - apply memb_In in Em. rewrite OD, Qle_bool_iff. split.
    + intros [A B]. split; [now apply FL|]. split; [exact B|]. split; [exact Es|]. split; [discriminate|]. split; [eauto|exact A].
    + intros (_ & A & _ & _ & _ & B). auto.
  - split; [discriminate|]. intros (_ & _ & _ & _ & (l2 & E & I) & _). injection E as <-. apply memb_In in I. congruence.
Qed.
Lemma fold_track M C t u w : forall l trk rows,
  let r := fold_left (track_veh M C t u w) l (trk, rows) in
  (forall v, fst r v = trk v || (memb v l && picked M C t u w v)) /\
  snd r = rows ++ map (route_row C t w) (filter (fun v => trk v || picked M C t u w v) l).
Proof.
  induction l as [|a l IH]; intros trk rows; cbn [fold_left].
  - cbn. split; [intros v; now rewrite orb_false_r|now rewrite app_nil_r].
  - assert (Hs : track_veh M C t u w (trk, rows) a = (upd trk a (trk a || picked M C t u w a), if trk a || picked M C t u w a then rows ++ [route_row C t w a] else rows))
      by (unfold track_veh; cbn [fst snd]; rewrite flag_or; reflexivity).
    rewrite Hs. specialize (IH (upd trk a (trk a || picked M C t u w a)) (if trk a || picked M C t u w a then rows ++ [route_row C t w a] else rows)).
    cbv zeta in *. destruct IH as [A B]. split.
    + intros v. rewrite A. destruct (Z.eq_dec v a) as [->|Ne].
      * rewrite upd_same. cbn [memb existsb]. rewrite Z.eqb_refl. cbn [orb andb]. destruct (trk a), (picked M C t u w a); cbn; auto. now rewrite andb_false_r.
      * rewrite upd_other by exact Ne. f_equal. f_equal. cbn [memb existsb]. now rewrite (proj2 (Z.eqb_neq v a) Ne).
    + rewrite B. cbn [filter].
      replace (filter (fun v => upd trk a (trk a || picked M C t u w a) v || picked M C t u w v) l) with (filter (fun v => trk v || picked M C t u w v) l).
      2:{ apply filter_ext. intros v. destruct (Z.eq_dec v a) as [->|Ne]; [rewrite upd_same|now rewrite upd_other]. now destruct (trk a), (picked M C t u w a). }
      destruct (trk a || picked M C t u w a); cbn [map]; [now rewrite <- app_assoc|reflexivity].
Qed.

Lemma describes_row C t w v r : describes C t w v r <-> r = route_row C t w v.
Proof.
  unfold describes. cbv zeta. split; [|intros ->; cbn; tauto]. destruct r. cbn. intros (-> & -> & -> & -> & -> & -> & -> & -> & -> & ->). reflexivity.
Qed.

Section Run.
Context (M : mnet) (K : mnet_ok M) (D : Z -> mdrawsI) (w0 : mworld) (F : mfresh_world M w0) (DV : forall t, mdraws_valid (D t)).
Context (C : tconf) (U : Z -> Z -> Q) (R : Z -> list Z -> list Z) (FQ : 0 < tc_freq C) (PR : forall t l, Permutation l (R t l)).
Notation run k s := (mrun M D k (minit M w0) = Ok s).
Lemma trun_minv k s : run k s -> minv M (ms_w s).
Proof. intros H. eapply mreached_minv; [exact K|]. exists w0. eauto. Qed.
Lemma live_way w v : minv M w -> In v (f_live (mw_fac w)) <-> under_way w v.
Proof.
  intros I. rewrite zc_In, (n_live _ _ I). pose proof (n_count _ _ I v) as N. unfold under_way, mdone in *. rewrite zc_In.
  assert (Z0 : 0 <= mzcount M w v) by (rewrite <- (n_live _ _ I); apply zc_nonneg). pose proof (zc_nonneg v (map fst (f_done (mw_fac w)))). unfold one_if in N.
  destruct (Z.leb_spec 1 v), (Z.leb_spec v (f_num (mw_fac w))); cbn [andb] in N; lia.
Qed.
Lemma live_nodup w : minv M w -> NoDup (f_live (mw_fac w)).
Proof.
  intros I. assert (L : forall v, zc v (f_live (mw_fac w)) <= 1).
  { intros v. rewrite (n_live _ _ I). pose proof (n_count _ _ I v) as N. pose proof (zc_nonneg v (map fst (mdone w))). unfold one_if in N. destruct (_ && _); lia. }
  now apply zc_nodup.
Qed.
Definition row_due (k : nat) (r : trow) : Prop :=
  exists a v s, (a < k)%nat /\ (tc_freq C | Z.of_nat a) /\ run (S a) s /\ under_way (ms_w s) v /\ (exists b, (b <= a)%nat /\ selected M D C U w0 b v) /\
    describes C (Z.of_nat a) (ms_w s) v r.
Lemma track_run_spec : forall k s trk rows, track_run M D C U R k (minit M w0) = Ok (s, trk, rows) ->
  run k s /\ ms_cur s = Z.of_nat k /\ (forall v, trk v = true <-> exists b, (b < k)%nat /\ selected M D C U w0 b v) /\
  (forall r, In r rows <-> row_due k r) /\ NoDup (map (fun r => (tr_time r, tr_veh r)) rows).
Proof.
  induction k as [|k IH]; intros s trk rows H; cbn [track_run] in H.
  - apply Ok_inj in H. injection H as <- <- <-. split; [reflexivity|]. split; [reflexivity|]. split; [split; [discriminate|intros (b & L & _); lia]|]. split; [|constructor].
    intros r. split; [intros []|intros (a & v & s & L & _); lia].
  - apply bind_ok in H as ([[s1 trk1] rows1] & H1 & H). destruct (IH _ _ _ H1) as (E1 & C1 & T1 & R1 & N1).
    apply bind_ok in H as (s2 & H2 & H). assert (E2 : run (S k) s2) by (cbn [mrun]; rewrite E1; exact H2).
    pose proof (trun_minv _ _ E2) as I2. pose proof (mloop_body_inv M D s1 s2 H2) as (w' & _ & C2 & _).
    rewrite C1 in H. destruct (print_routes _ _ _ _ _ _ _) as [trk2 more] eqn:Ep. apply Ok_inj in H. injection H as <- <- <-.
    split; [exact E2|]. split; [lia|].
    set (t := Z.of_nat k) in *. set (P := picked M C t (U t) (ms_w s2)).
    assert (SEL : forall v, selected M D C U w0 k v <-> (tc_freq C | t) /\ In v (f_live (mw_fac (ms_w s2))) /\ P v = true).
    { intros v. unfold P. rewrite picked_spec, (live_way _ v I2). unfold selected. fold t. cbv zeta. split.
      - intros (A & B & Uq & s' & Es & W & X). rewrite E2 in Es. apply Ok_inj in Es as <-. tauto.
      - intros (A & W & B & Uq & X). split; [exact A|]. split; [exact B|]. split; [exact Uq|]. exists s2. tauto. }
    assert (REM : Z.rem t (tc_freq C) =? 0 = true <-> (tc_freq C | t)).
    { rewrite Z.eqb_eq, Z.rem_mod_nonneg by (unfold t; lia). apply Z.mod_divide. lia. }
    assert (OLD : forall v, (exists b, (b < S k)%nat /\ selected M D C U w0 b v) <-> trk1 v = true \/ selected M D C U w0 k v).
    { intros v. rewrite T1. split.
      - intros (b & L & S). destruct (Nat.eq_dec b k) as [->|]; [now right|]. left. exists b. split; [lia|exact S].
      - intros [(b & L & S)|S]; [exists b; split; [lia|exact S]|exists k; split; [lia|exact S]]. }
    unfold print_routes in Ep. replace (tc_freq C =? 0) with false in Ep by (symmetry; apply Z.eqb_neq; lia).
    destruct (Z.rem t (tc_freq C) =? 0) eqn:Er.
    + pose proof (proj1 REM eq_refl) as DVD. set (ord := R t (f_live (mw_fac (ms_w s2)))) in *.
      assert (PO : Permutation (f_live (mw_fac (ms_w s2))) ord) by apply PR.
      assert (IO : forall v, In v ord <-> In v (f_live (mw_fac (ms_w s2)))) by (intros v; split; apply Permutation_in; [symmetry|]; exact PO).
      destruct (fold_track M C t (U t) (ms_w s2) ord trk1 []) as [A B]. rewrite Ep in A, B. cbn [fst snd app] in A, B. fold P in A, B.
      assert (FLAG : forall v, In v (f_live (mw_fac (ms_w s2))) -> (trk1 v || P v = true <-> exists b, (b <= k)%nat /\ selected M D C U w0 b v)).
      { intros v Hv. rewrite orb_true_iff. transitivity (exists b, (b < S k)%nat /\ selected M D C U w0 b v).
        - rewrite OLD, SEL. tauto.
        - split; intros (b & L & S); exists b; (split; [lia|exact S]). }
      split; [|split].
      * intros v. rewrite A, OLD, SEL, orb_true_iff, andb_true_iff, memb_In, IO. tauto.
      * intros r. rewrite in_app_iff, R1, B, in_map_iff. unfold row_due. split.
        -- intros [(a & v & s & L & X)|(v & <- & Hv)]; [exists a, v, s; split; [lia|exact X]|].
           apply filter_In in Hv as [Hv Hf]. apply IO in Hv. exists k, v, s2. split; [lia|]. split; [exact DVD|]. split; [exact E2|]. split; [now apply (live_way _ _ I2)|].
           split; [now apply FLAG|]. now apply describes_row.
        -- intros (a & v & s & L & X). destruct (Nat.eq_dec a k) as [->|]; [|left; exists a, v, s; split; [lia|exact X]]. right.
           destruct X as (_ & Es & W & S & De). rewrite E2 in Es. apply Ok_inj in Es as <-. apply describes_row in De as ->. exists v. split; [reflexivity|].
           apply (live_way _ _ I2) in W. apply filter_In. split; [now apply IO|]. now apply FLAG.
      * rewrite map_app. apply NoDup_app_intro; [exact N1| |].
        -- rewrite B, map_map. cbn [route_row tr_time tr_veh]. assert (ND : NoDup (filter (fun v => trk1 v || P v) ord)).
           { apply NoDup_filter. eapply Permutation_NoDup; [exact PO|]. now apply live_nodup. }
           revert ND. generalize (filter (fun v => trk1 v || P v) ord) as l. induction l as [|x l IHl]; intros ND; constructor; apply NoDup_cons_iff in ND as [Nx ND].
           ++ intros I. apply in_map_iff in I as (y & Ey & Iy). cbn in Ey. injection Ey as ->. contradiction.
           ++ now apply IHl.
        -- intros [x y] I J. apply in_map_iff in I as (r & Er1 & Ir). apply R1 in Ir as (a & v & s & L & _ & _ & _ & _ & De). destruct De as (De & _).
           rewrite B, map_map in J. apply in_map_iff in J as (z & Ez & _). cbn in Ez. injection Er1 as X1 _. injection Ez as X2 _. unfold t in X2. lia.
    + injection Ep as <- <-. assert (NO : ~ (tc_freq C | t)) by (intros X; apply REM in X; discriminate).
      split; [|split].
      * intros v. rewrite OLD, SEL. tauto.
      * intros r. rewrite app_nil_r, R1. unfold row_due. split; intros (a & v & s & L & X).
        -- exists a, v, s. split; [lia|exact X].
        -- destruct (Nat.eq_dec a k) as [->|]; [destruct X as (X & _); contradiction|]. exists a, v, s. split; [lia|exact X].
      * rewrite app_nil_r. exact N1.
Qed.
Lemma track_run_total k s : run k s -> exists trk rows, track_run M D C U R k (minit M w0) = Ok (s, trk, rows).
Proof.
  revert s. induction k as [|k IH]; intros s H; [apply Ok_inj in H as <-; cbn [track_run]; eauto|].
  cbn [mrun] in H. apply bind_ok in H as (s1 & H1 & H2). destruct (IH _ H1) as (trk & rows & E). cbn [track_run]. rewrite E. cbn [bind]. rewrite H2. cbn [bind].
  destruct (print_routes _ _ _ _ _ _ _) as [a b]. eauto.
Qed.
End Run.
