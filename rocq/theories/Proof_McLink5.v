(** Two-class links: point queue, totality, supply, reported counts, waiting, spill-back. *)
From Verif Require Import Base Base_lemmas Model_Num Proof_Num Spec_Path Proof_Path Model_Link Spec_Link
  Proof_Sim2 Proof_Link Proof_Link2 Proof_Link3 Proof_Link4 Proof_Link5 Model_McLink Spec_McLink Proof_McLink Proof_McLink2 Proof_McLink3 Proof_McLink4.

(** ** point queue *)
Lemma mpq_take_ceil : forall inc x, mpq_take x inc = (firstn (Z.to_nat (Qceiling x)) inc, skipn (Z.to_nat (Qceiling x)) inc).
Proof.
  induction inc as [|v inc IH]; intros x; cbn [mpq_take]; [rewrite firstn_nil, skipn_nil; reflexivity|].
  destruct (Qltb_spec 0 x) as [L|L].
  - assert (C : (1 <= Qceiling x)%Z).
    { destruct (Z_le_gt_dec 1 (Qceiling x)); auto. exfalso. pose proof (Qle_ceiling x) as Q1.
      assert (inject_Z (Qceiling x) <= 0)%Q by (change 0%Q with (inject_Z 0); rewrite <- Zle_Qle; lia). lra. }
    assert (C1 : Qceiling (x - 1) = (Qceiling x - 1)%Z).
    { pose proof (Qle_ceiling x) as A1. pose proof (Qceiling_lt x) as A2. pose proof (Qle_ceiling (x - 1)) as B1. pose proof (Qceiling_lt (x - 1)) as B2.
      assert (M : forall z, (inject_Z (z - 1) == inject_Z z - 1)%Q) by (intros z; unfold Z.sub; rewrite inject_Z_plus; change (inject_Z (- (1))) with (-(1))%Q; ring).
      pose proof (M (Qceiling x)) as M1. pose proof (M (Qceiling (x - 1))) as M2.
      assert (L1 : (inject_Z (Qceiling x - 1) < inject_Z (Qceiling (x - 1) + 1))%Q) by (rewrite inject_Z_plus; change (inject_Z 1) with 1%Q; lra).
      assert (L2 : (inject_Z (Qceiling (x - 1) - 1) < inject_Z (Qceiling x - 1))%Q) by lra.
      rewrite injZ_lt in L1, L2. lia. }
    rewrite IH, C1. cbn [fst snd]. replace (Z.to_nat (Qceiling x)) with (S (Z.to_nat (Qceiling x - 1))) by lia. reflexivity.
  - assert (C : (Qceiling x <= 0)%Z). { change 0%Z with (Qceiling 0). apply Qceiling_resp_le. lra. }
    replace (Z.to_nat (Qceiling x)) with O by lia. reflexivity.
Qed.

Definition pqpar (n : Z) : lparam :=
  {| p_kind := KPq; p_lanes := 1; p_len := 0; p_ffs := 0; p_hold := 0; p_flow := inject_Z n; p_fs := 1; p_ut := 1 |}.
Definition pm (l : mlink) : link :=
  {| l_par := pqpar (Z.max 0 (Qceiling (mpq_supply (ml_par l) * mp_fs (ml_par l)))); l_in := ml_in l; l_fin := ml_fin l;
     l_body := match ml_body l with MPq m pool vc vt => BPq m pool (vc + vt) | _ => BPq 0 [] 0 end |}.

Lemma cars_trucks cls l : (Zlen (cars cls l) + Zlen (trucks cls l) = Zlen l)%Z.
Proof. unfold cars, trucks, Zlen. induction l as [|v l IH]; [reflexivity|]. cbn [filter]. destruct (cls v); cbn [negb length]; lia. Qed.

Lemma pm_interval cls l arr l' : minterval cls l arr l' -> (exists m pool vc vt, ml_body l = MPq m pool vc vt) ->
  interval (pm l) arr (pm l') /\ ml_par l' = ml_par l /\ (exists m pool vc vt, ml_body l' = MPq m pool vc vt).
Proof.
  intros (rest & hn & D & l1 & Hs & HD & E1 & E2) (m & pool & vc & vt & Hb). unfold mlink_clear, moffered in E1. cbn [with_body ml_body ml_par ml_in ml_fin] in E1.
  rewrite Hb in E1. apply Ok_inj in E1 as <-. unfold mlink_evolve in E2. cbn [with_body ml_body ml_par ml_in ml_fin] in E2. apply Ok_inj in E2 as <-.
  cbn [settle with_body ml_par ml_in ml_fin ml_body]. split; [|eauto 6].
  set (x := (mpq_supply (ml_par l) * mp_fs (ml_par l))%Q). set (n := Z.max 0 (Qceiling x)).
  exists rest, (fun _ => 0%Q), hn. eexists. split; [exact Hs|]. split; [intros i; lra|].
  unfold link_clear, offered. cbn [set_fin set_in pm l_body l_par l_in l_fin]. rewrite Hb. split; [reflexivity|].
  unfold link_evolve. cbn [l_body l_par l_in l_fin]. unfold pm, pq_clear, pq_supply. cbn [settle with_body ml_par ml_in ml_fin ml_body pqpar p_flow p_lanes p_ut p_fs fst snd]. fold x n.
  assert (K : Z.to_nat (Z.min (Zlen (ml_in l ++ arr)) (trunc (inject_Z n * inject_Z 1 * 1 * 1))) = Nat.min (length (ml_in l ++ arr)) (Z.to_nat (Qceiling x))).
  { assert (T : trunc (inject_Z n * inject_Z 1 * 1 * 1) = n). { unfold trunc. cbn. rewrite !Z.mul_1_r. apply Z.quot_1_r. }
    rewrite T. unfold n, Zlen. lia. }
  rewrite K, mpq_take_ceil. cbn [fst snd].
  assert (F : forall inc : list Z, firstn (Nat.min (length inc) (Z.to_nat (Qceiling x))) inc = firstn (Z.to_nat (Qceiling x)) inc).
  { intros inc. destruct (le_lt_dec (length inc) (Z.to_nat (Qceiling x))).
    - rewrite Nat.min_l by auto. rewrite firstn_all, firstn_all2 by auto. reflexivity.
    - rewrite Nat.min_r by lia. reflexivity. }
  assert (G : forall inc : list Z, skipn (Nat.min (length inc) (Z.to_nat (Qceiling x))) inc = skipn (Z.to_nat (Qceiling x)) inc).
  { intros inc. destruct (le_lt_dec (length inc) (Z.to_nat (Qceiling x))).
    - rewrite Nat.min_l by auto. rewrite skipn_all, skipn_all2 by auto. reflexivity.
    - rewrite Nat.min_r by lia. reflexivity. }
  rewrite F, G. rewrite cars_trucks. rewrite (Zlen_app (map fst _)), Zlen_map, (Z.add_comm _ (Zlen rest)). reflexivity.
Qed.

Lemma make_mpq_inv p l : make_mpq p = Ok l -> (0 < mp_ut p)%Q -> l = mnew p (MPq (mfreeflow_intervals p) [] 0 0) /\ (1 <= mfreeflow_intervals p)%Z.
Proof.
  unfold make_mpq. intros E Hu. apply bind_ok in E as ([] & B & E). apply mbase_ok in B as (B1 & B2 & B3).
  apply bind_ok in E as (? & G & E). apply guard_ok, negb_true_iff in G. apply bind_ok in E as (m & M & E). apply Ok_inj in E as <-.
  split; [|unfold mfreeflow_intervals; lia]. do 2 f_equal.
  assert (S0 : (0 < mp_ffs_c p * mp_ut p)%Q).
  { destruct (Qeqb_spec (mp_ffs_c p * mp_ut p) 0) as [|Z]; [discriminate|]. assert (0 <= mp_ffs_c p * mp_ut p)%Q by nra. lra. }
  assert (X0 : (0 <= mp_len p / (mp_ffs_c p * mp_ut p))%Q) by (apply div_nn; auto).
  destruct (round_down_time_total (mp_len p / (mp_ffs_c p * mp_ut p))) as (k & K & K1 & K2). rewrite K in M. apply Ok_inj in M as <-.
  unfold mfreeflow_intervals. generalize dependent (mp_len p / (mp_ffs_c p * mp_ut p))%Q. intros y X0 K K2.
  destruct (Qlt_le_dec y 1) as [L|L].
  - rewrite (proj2 K2) by lra. assert (Qfloor y <= 0)%Z; [|lia].
    pose proof (Qfloor_le y). assert (inject_Z (Qfloor y) < inject_Z 1)%Q by (change (inject_Z 1) with 1%Q; lra).
    rewrite injZ_lt in *. lia.
  - rewrite (proj1 K2) by lra. assert (1 <= Qfloor y)%Z; [|lia].
    change 1%Z with (Qfloor 1). apply Qfloor_resp_le. exact L.
Qed.

Lemma mpq_traversal cls p N s arr : make_mpq p = Ok (s 0%nat) -> (0 < mp_ut p)%Q -> mhistory cls N s arr -> NoDup (arrivals N arr) ->
  forall t v n, Z.of_nat n = mfreeflow_intervals p -> (t < N)%nat -> In v (ml_in (s t) ++ arr t) -> ~ In v (ml_in (s (S t))) ->
    (forall i, (t < i < t + n)%nat -> (i <= N)%nat -> ~ In v (ml_fin (s i))) /\ ((t + n <= N)%nat -> In v (ml_fin (s (t + n)%nat))).
Proof.
  intros E Hu H ND t v n Hn Ht Hin Hout. destruct (make_mpq_inv _ _ E Hu) as [E0 Hm].
  assert (A : forall i, (i <= N)%nat -> exists m pool vc vt, ml_body (s i) = MPq m pool vc vt).
  { induction i as [|i IH]; intros Li; [rewrite E0; cbn; eauto 6|]. destruct (IH ltac:(lia)) as (m & pool & vc & vt & Hb).
    destruct (pm_interval cls (s i) (arr i) (s (S i))) as (_ & _ & X); [apply H; lia|eauto 6|exact X]. }
  assert (HH : history N (fun i => pm (s i)) arr).
  { intros i Hi. apply (pm_interval cls); [apply H; exact Hi|apply A; lia]. }
  assert (P0 : pq_of (pm (s 0%nat)) (mfreeflow_intervals p) []) by (exists 0%Z; rewrite E0; reflexivity).
  assert (He : on_link (pm (s 0%nat)) = []) by (rewrite E0; reflexivity).
  split.
  - intros i Hi HN. replace i with (S (t + (i - t - 1))) by lia.
    change (ml_fin (s (S (t + (i - t - 1))))) with (l_fin (pm (s (S (t + (i - t - 1)))))).
    eapply (pq_not_before N (fun i => pm (s i)) arr (mfreeflow_intervals p)); eauto; lia.
  - intros HN. replace (t + n)%nat with (S (t + (n - 1))) by lia.
    refine (proj2 (pq_follow N (fun i => pm (s i)) arr (mfreeflow_intervals p) HH P0 t v Ht Hin Hout (n - 1) _) _); lia.
Qed.

(** ** totality *)
Definition known (d : dens) : Prop := d <> DUnset.
Definition msane (l : mlink) : Prop :=
  match ml_body l with
  | MCtm _ cs => cs <> [] /\ forall c, In c cs -> known (s_pc (mc_sp c)) /\ known (s_pt (mc_sp c))
  | MLq _ _ _ _ _ _ => ~ (mp_pcu (ml_par l) == 0)%Q
  | MPq _ _ _ _ => True
  end.
Lemma perceive_known f fs len vc vt : known (s_pc (perceive f fs len vc vt)) /\ known (s_pt (perceive f fs len vc vt)).
Proof.
  unfold known, perceive. cbv zeta. destruct (Qle_bool _ _); [split; discriminate|]. destruct (_ && _); [split; cbn; unfold ddiv; try destruct (Qeq_bool _ _); discriminate|].
  destruct (vt =? 0)%Z; [split; cbn; unfold ddiv; try destruct (Qeq_bool _ _); discriminate|].
  destruct (vc =? 0)%Z; split; cbn; unfold ddiv; try destruct (Qeq_bool _ _); discriminate.
Qed.
Lemma pdemand_known cap vf ut k : known k -> exists q, pdemand cap vf ut k = Ok q.
Proof. unfold known. destruct k; cbn; intros H; [eauto|eauto|congruence]. Qed.
Lemma psupply_known cap w K ut k : known k -> exists q, psupply cap w K ut k = Ok q.
Proof. unfold known. destruct k; cbn; intros H; [eauto|eauto|congruence]. Qed.
Lemma mouts_total f ut fs D : forall cs i, (forall c, In c cs -> known (s_pc (mc_sp c)) /\ known (s_pt (mc_sp c))) -> exists os, mouts f ut fs D i cs = Ok os.
Proof.
  induction cs as [|c cs IH]; intros i H; [cbn; eauto|]. destruct cs as [|c' cs]; [cbn; eauto|]. rewrite mouts_cons2.
  destruct (H c (or_introl eq_refl)) as [K1 K2]. destruct (H c' (or_intror (or_introl eq_refl))) as [K3 K4]. unfold mflux.
  destruct (pdemand_known (cap_c f) (vf_c f) ut _ K1) as [? ->]. destruct (psupply_known (cap_c f) (w_c f) (K_c f) ut _ K3) as [? ->].
  destruct (pdemand_known (cap_t f) (vf_t f) ut _ K2) as [? ->]. destruct (psupply_known (cap_t f) (w_t f) (K_t f) ut _ K4) as [? ->]. cbn [bind].
  destruct (IH (S i)) as [os ->]; [intros d Hd; apply H; right; exact Hd|]. cbn [bind]. eauto.
Qed.

Lemma mlink_total cls l rest arr hn D : msane l -> (forall v k, In v (on_mlink cls k l) \/ In v arr -> hn v = true) ->
  exists l1 l', mlink_clear cls (moffered l rest arr) = Ok l1 /\ mlink_evolve cls hn D l1 = Ok l'.
Proof.
  intros HS HN. cut (exists l', (do l1 <- mlink_clear cls (moffered l rest arr); mlink_evolve cls hn D l1) = Ok l').
  { intros (l' & E). apply bind_ok in E as (l1 & E1 & E2). eauto. }
  revert HS HN. unfold msane, mlink_clear, moffered, on_mlink. cbn [with_body ml_body ml_in ml_fin ml_par]. destruct (ml_body l) as [f cs|f qc qt vc vt sp|m pool vc vt] eqn:Hb; intros HS HN.
  - destruct HS as [Hn Hk]. destruct cs as [|c tl]; [congruence|]. cbn [mctm_clear bind].
    set (c1 := set_mvol f (mp_fs (ml_par l)) (set_mq c (mc_qc c ++ cars cls (ml_in l ++ arr)) (mc_qt c ++ trucks cls (ml_in l ++ arr)))
       (Zlen (mc_qc (set_mq c (mc_qc c ++ cars cls (ml_in l ++ arr)) (mc_qt c ++ trucks cls (ml_in l ++ arr)))))
       (Zlen (mc_qt (set_mq c (mc_qc c ++ cars cls (ml_in l ++ arr)) (mc_qt c ++ trucks cls (ml_in l ++ arr)))))).
    destruct (mouts_total f (mp_ut (ml_par l)) (mp_fs (ml_par l)) D (c1 :: tl) 0) as [os Eo].
    { intros d [<-|Hd]; [apply perceive_known|apply Hk; right; exact Hd]. }
    pose proof (mctm_evolve_eq (ml_par l) f cls hn D c1 tl rest os Eo) as EE. cbv zeta in EE.
    assert (FB : forallb hn (mlast false (c1 :: tl) os ++ mlast true (c1 :: tl) os) = true).
    { apply forallb_forall. intros v Hv.
      assert (Hq : exists k d, nth_error (c1 :: tl) (length (c1 :: tl) - 1) = Some d /\ In v (queue_of k d)).
      { apply in_app_or in Hv as [Hv|Hv]; apply last_out_In in Hv as (d & Ed & Hd); rewrite map_length in Ed;
          apply nth_pc_inv in Ed as (d0 & E0 & ->); rewrite pc_q in Hd; eauto. }
      destruct Hq as (k & d & Ed & Hd).
      assert (Old : forall e, In e (c :: tl) -> In v (queue_of k e) -> hn v = true).
      { intros e He Hve. apply (HN v k). left. apply in_or_app. right. apply in_or_app. left.
        change (minside cls k (MCtm f (c :: tl))) with (concat (rev (map (queue_of k) (c :: tl)))).
        apply in_concat. exists (queue_of k e). split; [apply -> in_rev; apply in_map; exact He|exact Hve]. }
      apply nth_error_In in Ed as [<-|Ed]; [|apply (Old d); [right; exact Ed|exact Hd]].
      assert (Hd' : In v (queue_of k c ++ of_class cls k (ml_in l ++ arr))).
      { unfold c1, queue_of in Hd. rewrite of_class_cars, of_class_trucks in Hd. destruct k; exact Hd. }
      apply in_app_or in Hd' as [Hd'|Hd']; [apply (Old c); [left; reflexivity|exact Hd']|].
      apply of_class_In in Hd' as [Hd' Hc]. apply in_app_or in Hd' as [Hd'|Hd']; [|apply (HN v k); auto].
      apply (HN v k). left. rewrite !in_app_iff. right. right. apply of_class_In. auto. }
    rewrite FB in EE. eexists. unfold mlink_evolve. cbn [with_body ml_body ml_par ml_fin]. rewrite EE. reflexivity.
  - cbn [bind]. unfold mlink_evolve, mlq_evolve, mlq_tomove. cbn [with_body ml_body ml_par ml_fin ml_in].
    set (qc' := qc ++ cars cls (ml_in l ++ arr)). set (qt' := qt ++ trucks cls (ml_in l ++ arr)).
    set (sp' := perceive f (mp_fs (ml_par l)) (mp_len (ml_par l)) (Zlen qc' + Zlen (cars cls rest)) (Zlen qt' + Zlen (trucks cls rest))).
    destruct (perceive_known f (mp_fs (ml_par l)) (mp_len (ml_par l)) (Zlen qc' + Zlen (cars cls rest)) (Zlen qt' + Zlen (trucks cls rest))) as [K1 K2]. fold sp' in K1, K2.
    destruct (pdemand_known (cap_c f) (vf_c f) (mp_ut (ml_par l)) _ K1) as [a Ea]. destruct (pdemand_known (cap_t f) (vf_t f) (mp_ut (ml_par l)) _ K2) as [b Eb].
    cbn [mlq_evolve bind]. rewrite Ea, Eb. cbn [bind].
    assert (G : guard (negb (Qeq_bool (mp_pcu (ml_par l)) 0)) EUB = Ok tt). { destruct (Qeqb_spec (mp_pcu (ml_par l)) 0); [contradiction|reflexivity]. }
    rewrite G. cbn [bind fst snd]. unfold move_queue.
    set (n1 := rround _ _). set (n2 := rround _ _).
    destruct (Z.ltb_spec (Zlen qc') (Z.min n1 (Zlen qc'))) as [L|_]; [lia|]. destruct (Z.ltb_spec (Zlen qt') (Z.min n2 (Zlen qt'))) as [L|_]; [lia|]. cbn [bind fst snd app].
    match goal with |- context [guard ?b EThrow] => assert (FB : b = true) end.
    { apply forallb_forall. intros v Hv.
      assert (Hq : In v qc' \/ In v qt'). { apply in_app_or in Hv as [Hv|Hv]; [left|right]; eapply (in_firstn _ _ _ Hv). }
      unfold qc', qt' in Hq. rewrite of_class_cars, of_class_trucks, !in_app_iff, !of_class_In in Hq.
      destruct Hq as [[Hq|[Hq Hc]]|[Hq|[Hq Hc]]].
      - apply (HN v false). left. apply in_or_app. right. apply in_or_app. left. exact Hq.
      - apply in_app_or in Hq as [Hq|Hq]; [|apply (HN v false); right; exact Hq]. apply (HN v false). left. apply in_or_app. right. apply in_or_app. right. apply of_class_In. split; assumption.
      - apply (HN v true). left. apply in_or_app. right. apply in_or_app. left. exact Hq.
      - apply in_app_or in Hq as [Hq|Hq]; [|apply (HN v false); right; exact Hq]. apply (HN v true). left. apply in_or_app. right. apply in_or_app. right. apply of_class_In. split; assumption. }
    rewrite FB. cbn [guard bind]. eexists. reflexivity.
  - eexists. reflexivity.
Qed.
