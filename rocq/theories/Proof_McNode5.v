(** What the nodes of two-class origins and destinations do in one interval. *)
From Verif Require Import Base Base_lemmas Model_Num Proof_Num Spec_Path Proof_Path Model_CC Spec_CC Proof_CC Proof_CC3 Model_Path Model_Link Spec_Link Spec_Node
  Proof_Link Proof_Link3 Proof_Link4 Model_World Model_Node Proof_Node Proof_Node2 Proof_Node3 Proof_Node4 Model_McLink Spec_McLink Model_McNode Spec_McNode
  Proof_McNode Proof_McNode2 Proof_McNode3 Proof_Sim1.
Local Open Scope Z_scope.

Definition otake (w : mworld) (n : Z) (bk : Z * Z) : list Z := firstn (Z.to_nat (snd bk)) (filter (mgoes w (fst bk)) (mw_oq w n)).
Record moeff (fs : Q) (t n : Z) (ks : list (Z * Z)) (w w' : mworld) : Prop := {
  mo_plans : same_plans w w'; mo_miles : forall v, v_miles (mw_veh w' v) = v_miles (mw_veh w v); mo_dq : mw_dq w' = mw_dq w;
  mo_oq_other : forall n', n' <> n -> mw_oq w' n' = mw_oq w n';
  mo_oq : subseq (mw_oq w' n) (mw_oq w n);
  mo_part : forall b k, In (b, k) ks -> filter (mgoes w b) (mw_oq w' n) = skipn (Z.to_nat k) (filter (mgoes w b) (mw_oq w n));
  mo_part_other : forall b, ~ In b (map fst ks) -> filter (mgoes w b) (mw_oq w' n) = filter (mgoes w b) (mw_oq w n);
  mo_cnt : forall v, cnt v (mw_oq w n) = (cnt v (concat (map (otake w n) ks)) + cnt v (mw_oq w' n))%nat;
  mo_link : forall b k, In (b, k) ks -> mw_link w' b = ml_set_in (mw_link w b) (ml_in (mw_link w b) ++ otake w n (b, k));
  mo_pq1 : forall b k, In (b, k) ks -> is_point_queue (mw_link w b);
  mo_link_other : forall l, ~ In l (map fst ks) -> mw_link w' l = mw_link w l;
  mo_cur : forall v, v_cur (mw_veh w' v) = if memb v (concat (map (otake w n) ks)) then v_next (mw_veh w v) else v_cur (mw_veh w v);
  mo_Nout : mk_Nout (mw_cc w') = mk_Nout (mw_cc w); mo_Tin : mk_Tin (mw_cc w') = mk_Tin (mw_cc w);
  mo_Nin : forall c b k, In (b, k) ks -> counts (t + 1) (class_count (mw_cls w) c (otake w n (b, k)) / fs) (mk_Nin (mw_cc w) c b) (mk_Nin (mw_cc w') c b);
  mo_Nin_other : forall c l, ~ In l (map fst ks) -> mk_Nin (mw_cc w') c l = mk_Nin (mw_cc w) c l }.

Lemma is_pq_ok l : is_pq l = true <-> is_point_queue l.
Proof.
  unfold is_pq, is_point_queue. destruct (ml_body l); split; intros H; try discriminate; try reflexivity; eauto;
  destruct H as (? & ? & ? & ? & H); discriminate.
Qed.

Lemma morigin_move_ok fs t n b k w w' : (0 < fs)%Q -> morigin_move fs t n w (b, k) = Ok w' -> moeff fs t n [(b, k)] w w'.
Proof.
  intros Hf H. unfold morigin_move in H. destruct (pull (mgoes w b) k (mw_oq w n)) as [[vs rest] lft] eqn:E.
  destruct (pull_any _ _ _ _ _ _ E) as (Hv & Hr & Hg & Hs & Hc). cbv zeta in H. apply bind_ok in H as (u & Gq & H). apply guard_ok in Gq.
  match type of H with (do w4 <- rec_in _ _ _ _ _ ?x; _) = _ => set (w3 := x) in * end.
  apply (rec_in_both fs t (fun k => kcount w k vs)) in H as ((K & KT) & NO & NI & NX); [|exact Hf|intros; apply kcount_nonneg].
  assert (KK := mcc_plans _ _ K). destruct K as (Kv & Kc & Kk & Kl & Ko & Kd & Kf & Kcf & Kt & Kp).
  assert (EV : mw_veh w' = on_vehs (set_cur (Some b)) vs (mw_veh w)) by exact Kv.
  assert (OT : otake w n (b, k) = vs) by (unfold otake; cbn [fst snd]; now symmetry).
  assert (OTC : concat (map (otake w n) [(b, k)]) = vs) by (cbn [map concat]; rewrite app_nil_r; exact OT).
  constructor.
  - eapply plans_trans; [|exact KK]. unfold same_plans. cbn [w3 mset_vehs mset_link mset_oq mw_veh mw_cls mw_lab mw_fac mw_cf mw_trk mw_pt].
    repeat (split; [reflexivity|]). intros v. cbv zeta. apply (on_vehs_keep _ vs). intros x. repeat split.
  - intros v. rewrite EV. apply on_vehs_proj. reflexivity.
  - exact Kd.
  - intros n' Hn. rewrite Ko. cbn. now rewrite upd_other.
  - rewrite Ko. cbn. now rewrite upd_same.
  - intros b' k' [E'|[]]. injection E' as <- <-. rewrite Ko. cbn [w3 mset_vehs mset_link mset_oq mw_oq]. now rewrite upd_same.
  - intros b' Hb'. rewrite Ko. cbn [w3 mset_vehs mset_link mset_oq mw_oq]. rewrite upd_same. apply Hg. intros v Gv. eapply mgoes_one; [|exact Gv]. intros ->. apply Hb'. now left.
  - intros v. rewrite OTC, Ko. cbn [w3 mset_vehs mset_link mset_oq mw_oq]. now rewrite upd_same.
  - intros b' k' [E'|[]]. injection E' as <- <-. rewrite OT, Kl. cbn [w3 mset_vehs mset_link mset_oq mw_link]. now rewrite upd_same.
  - intros b' k' [E'|[]]. injection E' as <- <-. now apply is_pq_ok.
  - intros l Hl. rewrite Kl. cbn [w3 mset_vehs mset_link mset_oq mw_link]. rewrite upd_other; [reflexivity|]. intros ->. apply Hl. now left.
  - intros v. rewrite OTC, EV. destruct (memb v vs) eqn:M.
    + apply memb_In in M. rewrite (on_vehs_const v_cur (Some b)) by (reflexivity || exact M).
      assert (I : In v (filter (mgoes w b) (mw_oq w n))) by (rewrite <- (firstn_skipn (Z.to_nat k)), <- Hv; apply in_or_app; now left).
      apply filter_In in I as [_ I]. apply mgoes_next in I. now symmetry.
    + apply memb_false in M. now rewrite on_vehs_out by exact M.
  - exact NO.
  - exact KT.
  - intros c b' k' [E'|[]]. injection E' as <- <-. rewrite OT. apply NI.
  - intros c l Hl. rewrite NX; [reflexivity|]. intros ->. apply Hl. now left.
Qed.

Lemma morigin_moves_ok fs t n : (0 < fs)%Q -> forall ks w w', NoDup (map fst ks) ->
  foldM (morigin_move fs t n) w ks = Ok w' -> moeff fs t n ks w w'.
Proof.
  intros Hf. induction ks as [|[b k] ks IH]; intros w w' ND H.
  - simpl in H. apply Ok_inj in H as <-. constructor; auto using plans_refl, subseq_refl; try (intros ? ? []; fail); try (intros; reflexivity); intros; contradiction.
  - simpl in H. apply bind_ok in H as (w1 & H1 & H2). cbn [map fst] in ND. apply NoDup_cons_iff in ND as [Nb ND].
    apply morigin_move_ok in H1; [|exact Hf]. apply IH in H2; [|exact ND].
    destruct H1 as [W1 I1 D1 O1 S1 P1 Q1 C1 L1 Y1 M1 U1 A1 A2 B1 B1'], H2 as [W2 I2 D2 O2 S2 P2 Q2 C2 L2 Y2 M2 U2 A4 A5 B2 B2'].
    assert (G : forall b l, filter (mgoes w1 b) l = filter (mgoes w b) l) by (intros; now apply filter_mgoes_keep).
    assert (FF : forall b', b' <> b -> filter (mgoes w b') (mw_oq w1 n) = filter (mgoes w b') (mw_oq w n)).
    { intros b' Hb'. apply Q1. simpl. intros [->|[]]. congruence. }
    assert (NB : forall b' k', In (b', k') ks -> b' <> b) by (intros b' k' I ->; apply Nb; apply in_map_iff; exists (b, k'); auto).
    assert (FO : forall b' k', In (b', k') ks -> otake w1 n (b', k') = otake w n (b', k')).
    { intros b' k' I. unfold otake. cbn [fst snd]. rewrite G, FF by eauto. reflexivity. }
    assert (FT : map (otake w1 n) ks = map (otake w n) ks) by (apply map_ext_in; intros [b' k'] I; now apply FO).
    assert (Ec : mw_cls w1 = mw_cls w) by apply W1.
    rewrite FT in *. cbn [map concat fst] in C1, U1. rewrite app_nil_r in C1, U1.
    constructor; cbn [map concat fst].
    + eapply plans_trans; eauto.
    + intros v. now rewrite I2.
    + congruence.
    + intros n' Hn. rewrite O2, O1 by exact Hn. reflexivity.
    + eapply subseq_trans; eauto.
    + intros b' k' [E|I].
      * injection E as <- <-. rewrite <- G, (Q2 b Nb), G. apply P1. now left.
      * rewrite <- (FF b') by eauto. rewrite <- !G. apply P2, I.
    + intros b' Hb'. rewrite <- G, Q2, G by (intros C; apply Hb'; now right). apply FF. intros ->. apply Hb'. now left.
    + intros v. rewrite C1, C2, cnt_app. lia.
    + intros b' k' [E|I].
      * injection E as <- <-. rewrite (M2 b Nb). apply L1. now left.
      * rewrite (L2 _ _ I), FO by exact I. rewrite (M1 b') by (simpl; intros [->|[]]; apply (NB _ _ I eq_refl)). reflexivity.
    + intros b' k' [E|I].
      * injection E as <- <-. apply (Y1 b k). now left.
      * specialize (Y2 _ _ I). rewrite (M1 b') in Y2 by (simpl; intros [->|[]]; apply (NB _ _ I eq_refl)). exact Y2.
    + intros l Hl. simpl in Hl. rewrite M2, M1; [reflexivity| |]; simpl; tauto.
    + intros v. rewrite U2, U1. destruct W1 as (_ & _ & _ & _ & _ & _ & W1). destruct (W1 v) as (_&_&_&_&_&_&Ev&_). rewrite Ev.
      assert (MA : forall a c, memb v (a ++ c) = memb v a || memb v c) by (intros a c; unfold memb; apply existsb_app).
      rewrite MA. destruct (memb v (otake w n (b, k))), (memb v (concat _)); reflexivity.
    + congruence.
    + congruence.
    + intros c b' k' [E|I].
      * injection E as <- <-. rewrite (B2' c b Nb). apply B1. now left.
      * rewrite <- (B1' c b') by (simpl; intros [->|[]]; apply (NB _ _ I eq_refl)). rewrite <- (FO _ _ I), <- Ec. apply B2, I.
    + intros c l Hl. simpl in Hl. rewrite B2', B1'; [reflexivity| |]; simpl; tauto.
Qed.

Lemma morigin_volume_ok fs r w n b k : (0 < fs)%Q -> (0 <= r)%Q -> morigin_volume fs r w n b = Ok k ->
  exists s, mlink_supply (mw_link w b) = Ok s /\ ((0 <= s)%Q -> 0 <= k) /\ k <= Zlen (mline w b (mw_oq w n)) /\
    ((0 <= s)%Q -> inject_Z k < s * fs + 1)%Q /\ ((inject_Z (Zlen (mline w b (mw_oq w n))) <= s * fs)%Q -> k = Zlen (mline w b (mw_oq w n))) /\
    ((0 <= s)%Q -> (s * fs < inject_Z (Zlen (mline w b (mw_oq w n))))%Q -> (s * fs < inject_Z k + 1)%Q).
Proof.
  intros Hf Hr H. unfold morigin_volume in H. apply bind_ok in H as (s & Hs & H). exists s. split; [exact Hs|].
  cbv zeta in H. apply Ok_inj in H. change (Zlen (mline w b (mw_oq w n))) with (count_if (mgoes w b) (mw_oq w n)). set (c := count_if _ _) in *.
  assert (Hc : 0 <= c) by (unfold c, count_if, Zlen; lia).
  destruct (Qltb_spec (s * fs) (inject_Z c)) as [L|L].
  - assert (HX : (0 <= s -> 0 <= s * fs)%Q) by (intros; apply Qmult_le_0_compat; lra).
    rewrite <- H. clear H. set (x := (s * fs)%Q) in *. clearbody x c.
    split; [intros; apply rround_nonneg; auto|]. split; [|split; [|split; [intros; lra|]]].
    + destruct (Qlt_le_dec x 0) as [N|P].
      * assert (trunc x <= 0) by (unfold trunc; unfold Qlt in N; simpl in N; destruct x as [p q]; simpl in *;
          pose proof (Z.quot_opp_l (- p) (Z.pos q) ltac:(lia)) as Q1; rewrite Z.opp_involutive in Q1; rewrite Q1;
          pose proof (Z.quot_pos (-p) (Z.pos q) ltac:(lia) ltac:(lia)); lia).
        destruct (rround_cases r x) as [->| E]; [lia|]. pose proof E as E'. apply rround_up in E'.
        assert (trunc x < 0); [|lia].
        destruct (Z.eq_dec (trunc x) 0) as [Z0|]; [|lia]. rewrite Z0 in E'. change (inject_Z 0) with 0%Q in E'. lra.
      * assert (inject_Z (rround r x) < inject_Z (c + 1))%Q; [|rewrite <- Zlt_Qlt in H; lia].
        rewrite inject_Z_plus. change (inject_Z 1) with 1%Q. pose proof (rround_lt r x P Hr). lra.
    + intros P. apply rround_lt; auto.
    + intros P _. specialize (HX P). pose proof (rround_gt r x HX). lra.
  - rewrite <- H. split; [auto|]. split; [lia|]. split; [intros; lra|]. split; [reflexivity|]. intros. lra.
Qed.

Lemma morigin_ok fs outs r t n w w' : (0 < fs)%Q -> (forall b, (0 <= r b)%Q) -> NoDup outs ->
  morigin_evolve fs outs r t n w = Ok w' ->
  exists kf, (forall b, In b outs -> morigin_volume fs (r b) w n b = Ok (kf b) /\ kf b <= Zlen (mline w b (mw_oq w n))) /\
    moeff fs t n (map (fun b => (b, kf b)) outs) w w'.
Proof.
  intros Hf Hr NO H. unfold morigin_evolve in H. apply bind_ok in H as (ks & Hk & H). apply mapM_keyed in Hk as [Ek Hk].
  set (kf := fun b => match find (fun x => fst x =? b) ks with Some x => snd x | None => 0 end).
  assert (Hkf : forall b c, In (b, c) ks -> c = kf b).
  { intros b c Hb. unfold kf. rewrite (find_keyed ks b c) by congruence || auto. reflexivity. }
  assert (EK : ks = map (fun b => (b, kf b)) outs).
  { rewrite <- Ek, map_map. rewrite <- (map_id ks) at 1. apply map_ext_in. intros [b c] I. cbn. now rewrite (Hkf b c I). }
  exists kf. split.
  - intros b Hb. assert (I : In (b, kf b) ks) by (rewrite EK; apply in_map_iff; eauto). pose proof (Hk _ _ I) as V. split; [exact V|].
    apply morigin_volume_ok in V as (s & _ & _ & L & _); auto.
  - rewrite <- EK. apply (morigin_moves_ok fs t n Hf); [congruence|exact H].
Qed.

Lemma morigin_effect fs outs r t n w w' : (0 < fs)%Q -> (forall b, unit_draw (r b)) -> NoDup outs -> msupplies_ok w outs ->
  morigin_evolve fs outs r t n w = Ok w' ->
  exists send, morigin_sends outs n w w' send /\ same_plans w w' /\
    (forall v, v_cur (mw_veh w' v) = if memb v (concat (map send outs)) then v_next (mw_veh w v) else v_cur (mw_veh w v)) /\
    (forall v, v_miles (mw_veh w' v) = v_miles (mw_veh w v)) /\
    (forall b s, In b outs -> mlink_supply (mw_link w b) = Ok s ->
      (inject_Z (Zlen (send b)) < s * fs + 1)%Q /\
      ((inject_Z (Zlen (mline w b (mw_oq w n))) <= s * fs)%Q -> send b = mline w b (mw_oq w n)) /\
      ((s * fs < inject_Z (Zlen (mline w b (mw_oq w n))))%Q -> (s * fs < inject_Z (Zlen (send b)) + 1)%Q)) /\
    mk_Nout (mw_cc w') = mk_Nout (mw_cc w) /\ mk_Tin (mw_cc w') = mk_Tin (mw_cc w) /\
    (forall k b, In b outs -> counts (t + 1) (class_count (mw_cls w) k (send b) / fs) (mk_Nin (mw_cc w) k b) (mk_Nin (mw_cc w') k b)) /\
    (forall k l, ~ In l outs -> mk_Nin (mw_cc w') k l = mk_Nin (mw_cc w) k l) /\
    (forall b, In b outs -> is_point_queue (mw_link w b)).
Proof.
  intros Hf Hr NO HS H. assert (Hr0 : forall b, (0 <= r b)%Q) by (intros b; apply Hr). apply morigin_ok in H as (kf & Hk & O); auto.
  exists (fun b => otake w n (b, kf b)). set (send := fun b => otake w n (b, kf b)).
  destruct O as [W1 I1 D1 O1 S1 P1 Q1 C1 L1 Y1 M1 U1 A1 A2 B1 B1'].
  assert (IK : forall b, In b outs -> In (b, kf b) (map (fun b => (b, kf b)) outs)) by (intros b Hb; apply in_map_iff; eauto).
  assert (EF : map fst (map (fun b => (b, kf b)) outs) = outs) by (rewrite map_map; apply map_id). rewrite EF in *.
  rewrite map_map in C1, U1. fold send in C1, U1.
  split; [|split; [exact W1|split; [exact U1|split; [exact I1|split; [|split; [exact A1|split; [exact A2|split; [|split; [exact B1'|]]]]]]]]].
  - constructor.
    + intros b Hb. change (mline w b) with (filter (mgoes w b)). rewrite (P1 b (kf b) (IK b Hb)). symmetry. exact (firstn_skipn (Z.to_nat (kf b)) (filter (mgoes w b) (mw_oq w n))).
    + exact S1.
    + apply perm_cnt. intros v. rewrite cnt_app. apply C1.
    + intros b Hb. apply (L1 b (kf b)), IK, Hb.
    + exact M1.
    + split; [exact O1|exact D1].
  - intros b s Hb Es. destruct (Hk b Hb) as [V LE]. apply morigin_volume_ok in V as (s' & Es' & N0 & _ & V1 & V2 & V3); auto.
    rewrite Es in Es'. apply Ok_inj in Es'. subst s'. destruct (HS b Hb) as (s' & Es' & P0). rewrite Es in Es'. apply Ok_inj in Es'. subst s'.
    assert (LZ : Zlen (otake w n (b, kf b)) = kf b).
    { unfold otake. cbn [fst snd]. specialize (N0 P0). unfold Zlen, mline in *. change (fun v => match v_next (mw_veh w v) with Some k => k =? b | None => false end) with (mgoes w b) in LE. rewrite firstn_length. lia. }
    fold (send b). unfold send. rewrite LZ. split; [apply V1, P0|]. split.
    + intros L. specialize (V2 L). unfold otake. cbn [fst snd]. rewrite V2. unfold Zlen. rewrite Nat2Z.id. apply firstn_all.
    + apply V3, P0.
  - intros k b Hb. apply (B1 k b (kf b)), IK, Hb.
  - intros b Hb. apply (Y1 b (kf b)), IK, Hb.
Qed.

Lemma morigin_total fs outs r t n w : morigin_ready fs outs r t n w ->
  exists w', morigin_evolve fs outs r t n w = Ok w' /\ mtimely (t + 1) (mw_cc w').
Proof.
  intros [Hf Ht NO Hr TM SP PQ]. unfold morigin_evolve.
  destruct (mapM_keyed_total (fun b => morigin_volume fs (r b) w n b) outs) as (ks & Ek).
  { intros b Hb. destruct (SP b Hb) as (s & E & _). unfold morigin_volume. rewrite E. cbn [bind]. eauto. }
  rewrite Ek. cbn [bind]. apply mapM_keyed in Ek as [Ek _].
  assert (IK : forall x, In x ks -> In (fst x) outs) by (intros x Hx; rewrite <- Ek; now apply in_map).
  destruct (foldM_total (morigin_move fs t n) (fun s => mtimely (t + 1) (mw_cc s) /\ forall b, In b outs -> is_point_queue (mw_link s b)) ks) with (s := w) as (w' & E & T' & _).
  - intros s [b k] [Hs Hq] I. specialize (IK _ I). cbn [fst] in IK. unfold morigin_move. destruct (pull (mgoes s b) k (mw_oq s n)) as [[vs rest] lft]. cbv zeta.
    rewrite (proj2 (is_pq_ok (mw_link s b)) (Hq b IK)). cbn [guard bind].
    match goal with |- context [rec_in fs t false b ?c ?x] => set (s3 := x); destruct (rec_in_total fs t false b c s3 Hs) as (s1 & Es & Ts & K1) end.
    rewrite Es. cbn [bind].
    match goal with |- context [rec_in fs t true b ?c ?x] => destruct (rec_in_total fs t true b c x Ts) as (s2 & Es2 & Ts2 & K2) end.
    exists s2. split; [exact Es2|]. split; [exact Ts2|]. intros b' Hb'.
    destruct K1 as (_ & _ & _ & L1 & _). destruct K2 as (_ & _ & _ & L2 & _). 
    assert (EL : mw_link s2 = mw_link s3) by congruence. rewrite EL. unfold s3. cbn [mset_vehs mset_link mset_oq mw_link]. unfold upd.
    destruct (Z.eqb_spec b' b); [|now apply Hq]. subst b'. exact (Hq b IK).
  - split; assumption.
  - eauto.
Qed.
Lemma morigin_connector fs outs r t n w w' : (0 < fs)%Q -> (forall b, unit_draw (r b)) -> NoDup outs ->
  morigin_evolve fs outs r t n w = Ok w' -> forall b, In b outs -> is_point_queue (mw_link w b).
Proof.
  intros Hf Hr NO H b Hb. assert (Hr0 : forall b, (0 <= r b)%Q) by (intros b'; apply Hr). apply morigin_ok in H as (kf & Hk & O); auto.
  apply (mo_pq1 _ _ _ _ _ _ O b (kf b)). apply in_map_iff. eauto.
Qed.

(** ** destination *)
Record mdeff (fs : Q) (t n : Z) (ins : list Z) (w w' : mworld) : Prop := {
  md_plans : same_plans w w'; md_miles : forall v, v_miles (mw_veh w' v) = v_miles (mw_veh w v); md_oq : mw_oq w' = mw_oq w;
  md_dq_other : forall n', n' <> n -> mw_dq w' n' = mw_dq w n';
  md_dq : mw_dq w' n = mw_dq w n ++ concat (map (fun a => ml_fin (mw_link w a)) ins);
  md_next : forall a v, In a ins -> In v (ml_fin (mw_link w a)) -> v_next (mw_veh w v) = None;
  md_pq : forall a, In a ins -> is_point_queue (mw_link w a);
  md_link : forall a, In a ins -> mw_link w' a = ml_set_fin (mw_link w a) [];
  md_link_other : forall l, ~ In l ins -> mw_link w' l = mw_link w l;
  md_cur : forall v, v_cur (mw_veh w' v) = if memb v (concat (map (fun a => ml_fin (mw_link w a)) ins)) then None else v_cur (mw_veh w v);
  md_Nin : mk_Nin (mw_cc w') = mk_Nin (mw_cc w); md_Tin : mk_Tin (mw_cc w') = mk_Tin (mw_cc w);
  md_Nout : forall k a, In a ins -> counts (t + 1) (class_count (mw_cls w) k (ml_fin (mw_link w a)) / fs) (mk_Nout (mw_cc w) k a) (mk_Nout (mw_cc w') k a);
  md_Nout_other : forall k l, ~ In l ins -> mk_Nout (mw_cc w') k l = mk_Nout (mw_cc w) k l }.

Lemma mdest_step_ok fs t n a w w' : (0 < fs)%Q -> mdest_step fs t n w a = Ok w' -> mdeff fs t n [a] w w'.
Proof.
  intros Hf H. unfold mdest_step in H. cbv zeta in H. apply bind_ok in H as (u & G & H). apply guard_ok in G. rewrite forallb_forall in G.
  apply bind_ok in H as (u' & Gq & H). apply guard_ok in Gq. set (fin := ml_fin (mw_link w a)) in *.
  match type of H with (do w4 <- rec_out _ _ _ _ _ ?x; _) = _ => set (w3 := x) in * end.
  apply (rec_out_both fs t (fun k => kcount w k fin)) in H as ((K & KT) & NO & NI & NX); [|exact Hf|intros; apply kcount_nonneg].
  assert (KK := mcc_plans _ _ K). destruct K as (Kv & Kc & Kk & Kl & Ko & Kd & Kf & Kcf & Kt & Kp).
  assert (EV : mw_veh w' = on_vehs (set_cur None) fin (mw_veh w)) by exact Kv.
  assert (FE : concat (map (fun a => ml_fin (mw_link w a)) [a]) = fin) by (cbn [map concat]; apply app_nil_r).
  constructor; rewrite ?FE.
  - eapply plans_trans; [|exact KK]. unfold same_plans. cbn [w3 mset_vehs mset_link mset_dq mw_veh mw_cls mw_lab mw_fac mw_cf mw_trk mw_pt].
    repeat (split; [reflexivity|]). intros v. cbv zeta. apply (on_vehs_keep _ fin). intros x. repeat split.
  - intros v. rewrite EV. apply on_vehs_proj. reflexivity.
  - exact Ko.
  - intros n' Hn. rewrite Kd. cbn [w3 mset_vehs mset_link mset_dq mw_dq]. now rewrite upd_other.
  - rewrite Kd. cbn [w3 mset_vehs mset_link mset_dq mw_dq]. now rewrite upd_same.
  - intros a' v [<-|[]] Hv. specialize (G v Hv). destruct (v_next (mw_veh w v)); [discriminate|reflexivity].
  - intros a' [<-|[]]. now apply is_pq_ok.
  - intros a' [<-|[]]. rewrite Kl. cbn [w3 mset_vehs mset_link mset_dq mw_link]. now rewrite upd_same.
  - intros l Hl. rewrite Kl. cbn [w3 mset_vehs mset_link mset_dq mw_link]. rewrite upd_other; [reflexivity|]. intros ->. apply Hl. now left.
  - intros v. rewrite EV. destruct (memb v fin) eqn:M.
    + apply memb_In in M. now rewrite (on_vehs_const v_cur None) by (reflexivity || exact M).
    + apply memb_false in M. now rewrite on_vehs_out by exact M.
  - exact NO.
  - exact KT.
  - intros k a' [<-|[]]. apply NI.
  - intros k l Hl. rewrite NX; [reflexivity|]. intros ->. apply Hl. now left.
Qed.

Lemma mdest_ok fs t n : (0 < fs)%Q -> forall ins w w', NoDup ins -> mdest_evolve fs ins t n w = Ok w' -> mdeff fs t n ins w w'.
Proof.
  intros Hf. unfold mdest_evolve. induction ins as [|a ins IH]; intros w w' ND H.
  - simpl in H. apply Ok_inj in H as <-. constructor; auto using plans_refl; try (intros; contradiction).
    all: simpl; now rewrite ?app_nil_r.
  - simpl in H. apply bind_ok in H as (w1 & H1 & H2). apply NoDup_cons_iff in ND as [Na ND].
    apply mdest_step_ok in H1; [|exact Hf]. apply IH in H2; [|exact ND].
    destruct H1 as [W1 I1 O1 D1 E1 X1 Y1 L1 M1 U1 A1 A2 B1 B1'], H2 as [W2 I2 O2 D2 E2 X2 Y2 L2 M2 U2 A4 A5 B2 B2'].
    assert (NB : forall a', In a' ins -> ~ In a' [a]) by (intros a' I [->|[]]; contradiction).
    assert (FT : map (fun a => ml_fin (mw_link w1 a)) ins = map (fun a => ml_fin (mw_link w a)) ins).
    { apply map_ext_in. intros a' I. rewrite M1; [reflexivity|now apply NB]. }
    assert (Ec : mw_cls w1 = mw_cls w) by apply W1.
    rewrite FT in *. cbn [map concat] in E1, U1. rewrite app_nil_r in E1, U1.
    constructor; cbn [map concat].
    + eapply plans_trans; eauto.
    + intros v. now rewrite I2.
    + congruence.
    + intros n' Hn. rewrite D2, D1 by exact Hn. reflexivity.
    + rewrite E2, E1, app_assoc. reflexivity.
    + intros a' v [<-|I] Hv; [apply (X1 a); [now left|exact Hv]|]. rewrite <- (M1 a') in Hv by now apply NB. specialize (X2 a' v I Hv).
      destruct W1 as (_ & _ & _ & _ & _ & _ & W1). destruct (W1 v) as (_&_&_&_&_&_&Ev&_). congruence.
    + intros a' [<-|I]; [apply Y1; now left|]. rewrite <- (M1 a') by now apply NB. now apply Y2.
    + intros a' [<-|I]; [rewrite M2 by exact Na; apply L1; now left|]. rewrite (L2 a' I), (M1 a') by now apply NB. reflexivity.
    + intros l Hl. cbn [In] in Hl. rewrite M2, M1; [reflexivity| |]; cbn [In]; tauto.
    + intros v. rewrite U2, U1.
      assert (MA : forall a c, memb v (a ++ c) = memb v a || memb v c) by (intros x c; unfold memb; apply existsb_app).
      rewrite MA. destruct (memb v (ml_fin (mw_link w a))), (memb v (concat _)); reflexivity.
    + congruence.
    + congruence.
    + intros k a' [<-|I]; [rewrite (B2' k a Na); apply B1; now left|]. specialize (B2 k a' I). rewrite (B1' k a'), (M1 a'), Ec in B2 by now apply NB. exact B2.
    + intros k l Hl. cbn [In] in Hl. rewrite B2', B1'; [reflexivity| |]; cbn [In]; tauto.
Qed.

Lemma mdest_total fs ins t n w : mtimely (t + 1) (mw_cc w) -> (forall a, In a ins -> is_point_queue (mw_link w a)) -> NoDup ins ->
  (forall a v, In a ins -> In v (ml_fin (mw_link w a)) -> v_next (mw_veh w v) = None) ->
  exists w', mdest_evolve fs ins t n w = Ok w' /\ mtimely (t + 1) (mw_cc w').
Proof.
  intros TM PQ ND HN. unfold mdest_evolve.
  destruct (foldM_total (mdest_step fs t n) (fun s => mtimely (t + 1) (mw_cc s) /\ (forall a, In a ins -> is_point_queue (mw_link s a)) /\
     (forall v, v_next (mw_veh s v) = v_next (mw_veh w v)) /\ (forall a v, In v (ml_fin (mw_link s a)) -> In v (ml_fin (mw_link w a)))) ins) with (s := w) as (w' & E & T' & _).
  - intros s a (Hs & Hq & Hn & Hi) I. unfold mdest_step. cbv zeta.
    assert (G : forallb (fun v => match v_next (mw_veh s v) with None => true | Some _ => false end) (ml_fin (mw_link s a)) = true).
    { apply forallb_forall. intros v Hv. rewrite Hn, (HN a v I); [reflexivity|]. now apply Hi. }
    rewrite G. cbn [guard bind]. rewrite (proj2 (is_pq_ok (mw_link s a)) (Hq a I)). cbn [guard bind].
    match goal with |- context [rec_out fs t false a ?c ?x] => set (s3 := x); destruct (rec_out_total fs t false a c s3 Hs) as (s1 & Es & Ts & K1) end.
    rewrite Es. cbn [bind].
    match goal with |- context [rec_out fs t true a ?c ?x] => destruct (rec_out_total fs t true a c x Ts) as (s2 & Es2 & Ts2 & K2) end.
    exists s2. split; [exact Es2|]. split; [exact Ts2|].
    destruct K1 as (V1 & _ & _ & L1 & _). destruct K2 as (V2 & _ & _ & L2 & _).
    assert (EL : mw_link s2 = mw_link s3) by congruence. assert (EV : mw_veh s2 = mw_veh s3) by congruence. rewrite EL, EV. unfold s3.
    cbn [mset_vehs mset_link mset_dq mw_link mw_veh]. unfold upd. split; [|split].
    + intros a' Ha'. destruct (Z.eqb_spec a' a); [|now apply Hq]. subst a'. exact (Hq a I).
    + intros v. rewrite <- Hn. apply on_vehs_proj. reflexivity.
    + intros a' v. destruct (Z.eqb_spec a' a); [|apply Hi]. cbn. intros [].
  - split; [exact TM|]. split; [exact PQ|]. split; auto.
  - eauto.
Qed.
