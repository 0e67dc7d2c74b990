(** Two-class runs on valid input never fail: releases, nodes, one interval, the run. *)
From Verif Require Import Base Base_lemmas Model_Num Proof_Num Spec_Path Proof_Path Model_CC Spec_CC Proof_CC Model_Path Model_Link Spec_Link Spec_Node
  Proof_Link Proof_Link3 Proof_Link4 Proof_Link5 Model_World Model_Node Proof_Node Proof_Node2 Proof_Node3 Proof_Node4 Model_Sim Spec_Sim Proof_Sim1 Proof_Sim2 Proof_Sim3 Proof_Sim4 Proof_Sim5 Proof_Sim6 Spec_Route Proof_Sim7
  Spec_Valid Proof_Safe2
  Model_McLink Spec_McLink Proof_McLink Model_McNode Spec_McNode Proof_McNode Proof_McNode4 Proof_McNode5 Model_McSim Spec_McSim Proof_McSim1 Proof_McSim2 Proof_McRoute1 Proof_McRoute2 Spec_McValid Proof_McValid0 Proof_McValid1.
Local Open Scope Z_scope.

Section Valid.
Context (M : mnet) (w0 : mworld) (VA : mvalid_input M w0).
Let K : mnet_ok M := mv_net _ _ VA.
Let N := snet M.
Let s0 := shadow w0.
Let pt0 := mw_pt w0.
Lemma mleads_leads : forall ls u v, mleads M u ls v -> leads N u ls v.
Proof. induction ls as [|l ls IH]; intros u v H; [exact H|]. destruct H as [A B]. split; [exact A|apply IH, B]. Qed.
Lemma rvalid_shadow : rvalid N s0.
Proof.
  constructor.
  - apply snet_ok, K.
  - unfold N. cbn [snet n_routing seen_net]. destruct (mv_routing _ _ VA) as [-> | ->]; reflexivity.
  - apply (mv_ends _ _ VA).
  - intros o Ho. cbn [N snet n_origins n_nodes] in *. apply in_map_iff in Ho as (x & <- & Hx). cbn [sorigin o_node].
    apply in_map_iff. exists (og_node x, MNOrigin). split; [reflexivity|apply (mv_orig _ _ VA), Hx].
  - intros d Hd. destruct (mv_dest _ _ VA d Hd) as [A B]. split; [|exact B]. cbn [N snet n_nodes]. apply in_map_iff. exists (d, MNDest). split; [reflexivity|exact A].
  - intros o d p R. apply mleads_leads, (mv_routes _ _ VA), R.
  - intros o d Ho Hd. cbn [N snet n_origins] in Ho. apply in_map_iff in Ho as (x & <- & Hx). cbn [sorigin o_node o_demand] in *. rewrite map_app in Hd.
    apply in_app_or in Hd as [Hd|Hd]; exact (mv_demand _ _ VA x _ d Hx Hd).
Qed.
Let RV := rvalid_shadow.
Notation rinv := (rinv N s0).
Notation ros := (valid_routes_ok N s0 RV).

(** ** release *)
Lemma mrelease_ind (P : mworld -> Prop) D cur assign w w' :
  (forall x o k d lab, In o (mn_origins M) -> In d (map fst (og_demand o k)) -> P x ->
     let y := mmake_veh x cur false k (og_node o) d (Z.quot cur (mn_freq M)) lab in P (mset_oq y (og_node o) (mw_oq y (og_node o) ++ [f_num (mw_fac x) + 1]))) ->
  (forall x o, In o (mn_origins M) -> P x -> P (mset_oq x (og_node o) (d_oshuf (r_base D) (og_node o) (mw_oq x (og_node o))))) ->
  P w -> mrelease_all M D cur assign w = Ok w' -> P w'.
Proof.
  intros H1 H2 H H'. unfold mrelease_all in H'. apply bind_ok in H' as (u & _ & H').
  destruct (_ =? 0); apply Ok_inj in H' as <-; [|exact H].
  set (asg := if mn_total_assign M <=? assign then -1 else assign). clearbody asg.
  assert (Y : forall o k, In o (mn_origins M) -> forall ds, incl ds (og_demand o k) -> forall x, P x -> P (fst (mrelease_dests M D cur asg o k 0%Q ds x)) /\ snd (mrelease_dests M D cur asg o k 0%Q ds x) = 0%Q).
  { intros o k Ho. induction ds as [|[d dem] ds IHd]; intros Ind y Py; [split; [exact Py|reflexivity]|]. cbn [mrelease_dests]. cbv zeta. rewrite (mv_ratio _ _ VA o k d Ho). apply IHd; [intros z Hz; apply Ind; now right|].
    assert (Hd : In d (map fst (og_demand o k))) by (apply in_map_iff; exists (d, dem); split; [reflexivity|apply Ind; now left]).
    generalize (Z.to_nat (rround (r_rel D k (og_node o) d) (dem asg * mn_fs M))). intros j. revert y Py. induction j as [|j IHj]; intros y Py; [exact Py|]. cbn [mrelease_n]. cbv zeta.
    change (pick_adaptive 0 (d_adapt (r_base D) (f_num (mw_fac y) + 1))) with false. apply IHj. apply H1; assumption. }
  assert (X : forall os, incl os (mn_origins M) -> forall w, P w -> P (fold_left (mrelease_one M D cur asg) os w)).
  { induction os as [|o os IH]; intros Inc x Px; [exact Px|]. cbn [fold_left]. assert (Ho : In o (mn_origins M)) by (apply Inc; now left).
    apply IH; [intros y Hy; apply Inc; now right|]. unfold mrelease_one. destruct (asg <? 0); [exact Px|].
    assert (B0 : forall k, mbase_ratio (mn_routing M) k = 0%Q) by (intros k; destruct (mv_routing _ _ VA) as [-> | ->]; [reflexivity|destruct k; reflexivity]). rewrite !B0.
    destruct (Y o false Ho (og_demand o false) (incl_refl _) x Px) as [P1 R1]. destruct (mrelease_dests M D cur asg o false 0%Q _ x) as [x1 r1]. cbn [fst snd] in P1, R1. subst r1. cbv zeta.
    replace (match mn_routing M with MRBiclass _ _ => 0%Q | _ => 0%Q end) with 0%Q by (destruct (mn_routing M); reflexivity).
    destruct (Y o true Ho (og_demand o true) (incl_refl _) x1 P1) as [P2 _]. destruct (mrelease_dests M D cur asg o true 0%Q _ x1) as [x2 r2]. cbn [fst] in P2. apply H2; assumption. }
  apply X; [apply incl_refl|exact H].
Qed.
Lemma mrelease_ok D cur assign w : exists w', mrelease_all M D cur assign w = Ok w'.
Proof.
  unfold mrelease_all. replace (mn_freq M =? 0) with false by (symmetry; apply Z.eqb_neq; pose proof (mv_freq _ _ VA); lia). cbn [negb guard bind]. destruct (_ =? 0); eauto.
Qed.
Lemma mrelease_rinv D cur assign w w' : mdraws_valid D -> minv M w -> rinv (shadow w) -> mrelease_all M D cur assign w = Ok w' ->
  minv M w' /\ rinv (shadow w') /\ mw_link w' = mw_link w /\ mw_dq w' = mw_dq w /\ mw_cc w' = mw_cc w /\ mw_pt w' = mw_pt w /\ f_num (mw_fac w) <= f_num (mw_fac w') /\
  (forall v, v <= f_num (mw_fac w) -> mw_veh w' v = mw_veh w v) /\ (forall v, f_num (mw_fac w) < v <= f_num (mw_fac w') -> v_start (mw_veh w' v) = cur).
Proof.
  intros DV Im R H. pose proof R as [I V T O]. destruct (release_all_minv M K D cur assign w w' DV H Im) as [Im' GR].
  assert (RI : rinv (shadow w')).
  { constructor; [apply shadow_sinv, Im'|intros v; destruct (V v) as (h & Vh); exists h; eapply (release_v M K); eauto| |].
    - refine (mrelease_ind (fun x => forall v, 1 <= v <= f_num (mw_fac x) -> trip_ok N (mw_veh x v)) D cur assign w w' _ _ T H); [|auto]; cbv beta.
      intros x o k d lab Ho Hd Px y v. subst y. cbn [mset_oq mmake_veh mw_fac mw_veh f_num]. intros Hv. destruct (Z.eq_dec v (f_num (mw_fac x) + 1)) as [->|Ne].
      + rewrite upd_same. split; [reflexivity|]. exists (sorigin o). cbn [v_org v_dst sorigin o_node o_demand N snet n_origins]. split; [apply in_map, Ho|]. split; [reflexivity|].
        rewrite map_app. apply in_or_app. destruct k; [right|left]; exact Hd.
      + rewrite upd_other by exact Ne. apply Px. lia.
    - enough (X : minv M w' /\ forall n v, In n (map og_node (mn_origins M)) -> In v (mw_oq w' n) -> v_org (mw_veh w' v) = n).
      { intros n v Hn. unfold N in Hn. rewrite snet_origins in Hn. apply X, Hn. }
      assert (O' : forall n v, In n (map og_node (mn_origins M)) -> In v (mw_oq w n) -> v_org (mw_veh w v) = n).
      { intros n v Hn. apply (O n v). unfold N. rewrite snet_origins. exact Hn. }
      refine (mrelease_ind (fun x => minv M x /\ forall n v, In n (map og_node (mn_origins M)) -> In v (mw_oq x n) -> v_org (mw_veh x v) = n) D cur assign w w' _ _ (conj Im O') H); cbv beta.
      + intros x o k d lab Ho Hd [Ix Px] y. assert (Hn : In (og_node o) (map og_node (mn_origins M))) by now apply in_map.
        split; [eapply (release_one_minv M K); [exact Hn|exact Ix|reflexivity|reflexivity]|].
        subst y. cbn [mset_oq mmake_veh mw_fac mw_veh mw_oq f_num]. intros n v Hn' Hv.
        assert (Y : In v (mw_oq x n) \/ (v = f_num (mw_fac x) + 1 /\ n = og_node o)).
        { destruct (Z.eq_dec n (og_node o)) as [->|Ne]; [rewrite upd_same in Hv; apply in_app_or in Hv as [Hv|[Hv|[]]]; auto|rewrite upd_other in Hv by exact Ne; auto]. }
        destruct Y as [Hv'|[-> ->]]; [|now rewrite upd_same]. rewrite upd_other; [auto|].
        assert (Hn2 : In n (map o_node (n_origins N))) by (unfold N; rewrite snet_origins; exact Hn').
        pose proof (u_o_old N (shadow x) (shadow_sinv M x Ix) v n Hn2 Hv') as U. cbn [shadow w_fac] in U. lia.
      + intros x o Ho [Ix Px]. assert (Hn : In (og_node o) (map og_node (mn_origins M))) by now apply in_map.
        assert (Sh : Permutation (d_oshuf (r_base D) (og_node o) (mw_oq x (og_node o))) (mw_oq x (og_node o))) by (destruct DV as ((_ & _ & S & _) & _); apply S).
        split; [apply (shuffle_minv M K 0); auto|]. cbn [mset_oq mw_oq mw_veh]. intros n v Hn' Hv. apply Px; auto. destruct (Z.eq_dec n (og_node o)) as [->|Ne]; [rewrite upd_same in Hv|now rewrite upd_other in Hv].
        eapply Permutation_in; eauto. }
  split; [exact Im'|]. split; [exact RI|].
  enough (X : mw_link w' = mw_link w /\ mw_dq w' = mw_dq w /\ mw_cc w' = mw_cc w /\ mw_pt w' = mw_pt w /\ f_num (mw_fac w) <= f_num (mw_fac w') /\ (forall v, v <= f_num (mw_fac w) -> mw_veh w' v = mw_veh w v)).
  { destruct X as (X1 & X2 & X3 & X4 & X5 & X6). repeat (split; [assumption|]). destruct GR as (_ & _ & G & _). exact G. }
  refine (mrelease_ind (fun x => mw_link x = mw_link w /\ mw_dq x = mw_dq w /\ mw_cc x = mw_cc w /\ mw_pt x = mw_pt w /\ f_num (mw_fac w) <= f_num (mw_fac x) /\ (forall v, v <= f_num (mw_fac w) -> mw_veh x v = mw_veh w v)) D cur assign w w' _ _ _ H); cbv beta.
  - intros x o k d lab Ho Hd (X1 & X2 & X3 & X4 & X5 & X6) y. subst y. cbn [mset_oq mmake_veh mw_fac mw_veh mw_oq mw_link mw_dq mw_cc mw_pt f_num]. repeat (split; [assumption || lia|]).
    intros v Hv. rewrite upd_other by lia. auto.
  - intros x o Ho X. exact X.
  - split; [reflexivity|]. split; [reflexivity|]. split; [reflexivity|]. split; [reflexivity|]. split; [lia|reflexivity].
Qed.

(** ** between two intervals, and after routing *)
Definition inl (l : mlink) : list Z := minall (ml_body l) ++ ml_in l.
Definition conn (w : mworld) : Prop :=
  (forall o b, In o (mn_origins M) -> In b (mn_out M (og_node o)) -> is_point_queue (mw_link w b)) /\
  (forall d a, In d (mn_dests M) -> In a (mn_in M d) -> is_point_queue (mw_link w a)).
Record mbound (t : Z) (w : mworld) : Prop := {
  mb_s : minv M w; mb_r : rinv (shadow w);
  mb_start : forall v, 1 <= v <= f_num (mw_fac w) -> 0 <= v_start (mw_veh w v) < t;
  mb_link : forall l, In l (mn_links M) -> mgood (mw_link w l);
  mb_next : forall l v, In l (mn_links M) -> In v (inl (mw_link w l)) -> v_next (mw_veh w v) = Some l;
  mb_conn : conn w;
  mb_dq : forall n, In n (mn_dests M) -> mw_dq w n = [];
  mb_time : mtimely t (mw_cc w);
  mb_tbl : tbl N pt0 t (mw_pt w) }.
Record mready (t : Z) (w : mworld) : Prop := {
  md_s : minv M w; md_r : rinv (shadow w);
  md_new : forall v, 1 <= v <= f_num (mw_fac w) -> 0 <= v_start (mw_veh w v) < t + 1;
  md_start : forall l v, In l (mn_links M) -> In v (mall (mw_link w l)) -> 0 <= v_start (mw_veh w v) < t;
  md_link : forall l, In l (mn_links M) -> mgood (mw_link w l);
  md_next : forall l v, In l (mn_links M) -> In v (inl (mw_link w l)) -> v_next (mw_veh w v) = Some l;
  md_conn : conn w;
  md_dq : forall n, In n (mn_dests M) -> mw_dq w n = [];
  md_time : mtimely (t + 1) (mw_cc w);
  md_tbl : tbl N pt0 (t + 1) (mw_pt w);
  md_oq : forall n v, In n (map og_node (mn_origins M)) -> In v (mw_oq w n) -> exists b, In b (mn_out M n) /\ v_next (mw_veh w v) = Some b;
  md_fin : forall l v, In l (mn_links M) -> In v (ml_fin (mw_link w l)) ->
       (v_dst (mw_veh w v) = mn_to M l /\ v_next (mw_veh w v) = None) \/
       (v_dst (mw_veh w v) <> mn_to M l /\ exists b, In b (mn_out M (mn_to M l)) /\ v_next (mw_veh w v) = Some b) }.
Lemma mtimely_mono T T' c : T <= T' -> mtimely T c -> mtimely T' c.
Proof.
  intros L (A & B & C). repeat split; intros k l x E.
  - eapply ctime_mono; [exact L|]. eapply A; eauto. - eapply ctime_mono; [exact L|]. eapply B; eauto.
  - specialize (C k l x E). eapply Forall_impl; [|exact C]. intros y. apply ctime_mono, L.
Qed.
Lemma inl_fin w v l a : minv M w -> In l (mn_links M) -> In a (mn_links M) -> In v (inl (mw_link w l)) -> In v (ml_fin (mw_link w a)) -> False.
Proof.
  intros Im Hl Ha A B. pose proof (shadow_sinv M w Im) as I.
  assert (A' : In v (on_link (w_link (shadow w) l))) by (cbn [shadow w_link]; rewrite on_shadow; unfold mall; apply in_or_app; right; exact A).
  assert (B' : In v (on_link (w_link (shadow w) a))) by (cbn [shadow w_link]; rewrite on_shadow; unfold mall; apply in_or_app; left; exact B).
  pose proof (u_ll N (shadow w) I v a l Ha Hl B' A') as ->.
  apply zc_In in A, B. pose proof (zl_ge N (shadow w) v l Hl) as G. cbn [shadow w_link] in G. rewrite on_shadow in G. unfold mall in G. fold (inl (mw_link w l)) in G. rewrite zc_app in G.
  pose proof (zd_nn N (shadow w) v). pose proof (zo_nn N (shadow w) v). pose proof (one_le N (shadow w) I v) as O1. pose proof (zc_nonneg v (arrived (shadow w))). unfold zcount in O1. lia.
Qed.
Lemma mto_ready D t a w : mdraws_valid D -> 0 <= t -> mbound t w ->
  exists w1 w2, mrelease_all M D t a w = Ok w1 /\ mupdate_routing M D t w1 = Ok w2 /\ mready t w2.
Proof.
  intros DV Ht [Im R ST LS CT CN DQ TM TB]. destruct (mrelease_ok D t a w) as (w1 & E1). destruct (mrelease_rinv D t a w w1 DV Im R E1) as (Im1 & R1 & L1 & Q1 & C1 & P1 & F1 & V1 & S1).
  assert (RT : exists y, srouting M D t (mw_cls w1) (shadow w1) = Ok y /\ rinv y /\ tbl N pt0 (t + 1) (w_pt y) /\
    (forall n v, In n (map o_node (n_origins N)) -> In v (w_oq y n) -> exists b, In b (n_out N n) /\ v_next (w_veh y v) = Some b) /\
    (forall l v, In l (n_links N) -> In v (l_fin (w_link y l)) ->
       (v_dst (w_veh y v) = n_to N l /\ v_next (w_veh y v) = None) \/
       (v_dst (w_veh y v) <> n_to N l /\ exists b, In b (n_out N (n_to N l)) /\ v_next (w_veh y v) = Some b)) /\
    (forall v, (forall n, In n (map o_node (n_origins N)) -> ~ In v (w_oq (shadow w1) n)) -> (forall l, In l (n_links N) -> ~ In v (l_fin (w_link (shadow w1) l))) -> w_veh y v = w_veh (shadow w1) v)).
  { assert (TB' : tbl N pt0 t (w_pt (shadow w1))) by (cbn [shadow w_pt]; now rewrite P1).
    unfold srouting. destruct (mv_routing _ _ VA) as [Er|Er]; rewrite Er.
    - rewrite update_seen. exact (routing_total N s0 RV (r_base D) t (shadow w1) (proj1 DV) Ht R1 TB').
    - cbn [Qltb orb]. apply (routing2_total M s0 RV); [apply DV|exact Ht|apply (mv_columns _ _ VA); rewrite Er; discriminate|exact R1|exact TB']. }
  destruct RT as (y & E2 & R2 & TB2 & O2 & FI2 & U2).
  destruct (routing_shadow_total M D t w1 y E2) as (w2 & E2' & Ey).
  subst y. exists w1, w2. split; [exact E1|]. split; [exact E2'|]. pose proof (proj1 (routing_minv M D t w1 w2 E2' Im1)) as Im2.
  destruct (routing_stat _ _ _ _ _ E2') as (Ecl & _ & Ql & Qo & Qd & Qc & Qf & _ & RR).
  assert (VS : forall v, v_start (mw_veh w2 v) = v_start (mw_veh w1 v)) by (intros v; apply stat_start, RR).
  pose proof (ri_s _ _ _ R) as I.
  assert (Kn : forall l v, In l (mn_links M) -> In v (mall (mw_link w l)) -> 1 <= v <= f_num (mw_fac w)).
  { intros l v Hl Hv. apply (known N (shadow w) v I). right. left. exists l. split; [exact Hl|]. cbn [shadow w_link]. now rewrite on_shadow. }
  constructor; auto.
  - intros v Hv. rewrite VS, Qf in *. destruct (Z_le_gt_dec v (f_num (mw_fac w))) as [L|G]; [rewrite V1 by exact L; pose proof (ST v ltac:(lia)); lia|].
    rewrite S1; lia.
  - intros l v Hl. rewrite VS, Ql, L1. intros Hv. pose proof (Kn l v Hl Hv) as Kv. rewrite V1 by lia. auto.
  - rewrite Ql, L1. exact LS.
  - intros l v Hl. rewrite Ql, L1. intros Hv. assert (Hon : In v (mall (mw_link w l))) by (unfold mall; apply in_or_app; right; exact Hv).
    pose proof (Kn l v Hl Hon) as Kv. change (v_next (w_veh (shadow w2) v) = Some l). rewrite (U2 v).
    + cbn [shadow w_veh]. rewrite V1 by lia. eauto.
    + intros n Hn C. eapply (u_ol N (shadow w1) (ri_s _ _ _ R1) v n l); eauto. cbn [shadow w_link]. now rewrite on_shadow, L1.
    + intros a' Ha C. cbn [shadow w_link shadow_link l_fin] in C. rewrite L1 in C. eapply inl_fin; [exact Im|exact Hl|exact Ha|exact Hv|exact C].
  - unfold conn. rewrite Ql, L1. exact CN.
  - rewrite Qd, Q1. exact DQ.
  - rewrite Qc, C1. eapply mtimely_mono; [|exact TM]. lia.
  - intros n v Hn. apply (O2 n v). unfold N. rewrite snet_origins. exact Hn.
Qed.

(** ** nodes *)
Section Nodes.
Context (D : mdrawsI) (DV : mdraws_valid D) (t : Z) (Ht : 0 <= t) (w2 : mworld) (RD : mready t w2).
Record mnodes (w : mworld) : Prop := {
  no_s : minv M w; no_keep : wkeep (shadow w2) (shadow w);
  no_like : forall l, ml_body (mw_link w l) = ml_body (mw_link w2 l) /\ ml_par (mw_link w l) = ml_par (mw_link w2 l);
  no_sub : forall l, subseq (ml_fin (mw_link w l)) (ml_fin (mw_link w2 l));
  no_oq : forall n, subseq (mw_oq w n) (mw_oq w2 n);
  no_time : mtimely (t + 1) (mw_cc w);
  no_dq : forall n v, In n (mn_dests M) -> In v (mw_dq w n) -> v_dst (mw_veh w2 v) = n /\ 0 <= v_start (mw_veh w2 v) < t;
  no_next : forall l v, In v (ml_in (mw_link w l)) -> In v (ml_in (mw_link w2 l)) \/ v_next (mw_veh w2 v) = Some l }.
Lemma mnodes_start : mnodes w2.
Proof.
  constructor; auto using wkeep_refl, subseq_refl.
  - apply (md_s _ _ RD). - apply (md_time _ _ RD).
  - intros n v Hn C. rewrite (md_dq _ _ RD n Hn) in C. destruct C.
Qed.
Lemma no_veh w v : mnodes w -> v_next (mw_veh w v) = v_next (mw_veh w2 v).
Proof. intros W. destruct (no_keep _ W) as (_ & _ & _ & V). apply (V v). Qed.
Lemma no_good w l : mnodes w -> In l (mn_links M) -> mgood (mw_link w l).
Proof. intros W Hl. destruct (no_like _ W l) as [A B]. eapply mgood_same; [exact A|exact B|]. apply (md_link _ _ RD), Hl. Qed.
Lemma no_pq w l : mnodes w -> is_point_queue (mw_link w2 l) -> is_point_queue (mw_link w l).
Proof. intros W. unfold is_point_queue. now rewrite (proj1 (no_like _ W l)). Qed.
Lemma node_total w n k : mnodes w -> In (n, k) (mn_nodes M) ->
  exists w', mnode_evolve (mn_fs M) (mn_pcu M) (mn_out M) (mn_in M) (r_node D) t w (n, k) = Ok w' /\ mtimely (t + 1) (mw_cc w').
Proof.
  intros W Hin. pose proof W as [I KP LK SB OQ TM DQ MN].
  assert (HS : msupplies_ok w (mn_out M n)) by (intros b Hb; apply mgood_supply, no_good; eauto using mno_out).
  assert (HF : forall a v, In a (mn_in M n) -> In v (ml_fin (mw_link w a)) -> In a (mn_links M) /\ mn_to M a = n /\ In v (ml_fin (mw_link w2 a))).
  { intros a v Ha Hv. destruct (mno_in M K n a Ha) as [A B]. split; [exact A|]. split; [exact B|]. eapply subseq_In; [apply SB|exact Hv]. }
  destruct DV as (_ & _ & _ & DO & DS & _).
  destruct k; cbn [mnode_evolve].
  - apply junction_total. constructor; auto; try apply K; try apply VA; try apply DS.
    intros a Ha v Hv. destruct (HF a v Ha Hv) as (A & B & C). rewrite (no_veh _ v W). destruct (md_fin _ _ RD a v A C) as [[X _]|(_ & b & X & Y)]; [exfalso|rewrite B in X; eauto].
    pose proof (md_r _ _ RD) as R2.
    assert (Kn : 1 <= v <= f_num (w_fac (shadow w2))).
    { apply (known N (shadow w2) v (ri_s _ _ _ R2)). right. left. exists a. split; [exact A|]. cbn [shadow w_link]. rewrite on_shadow. unfold mall. apply in_or_app. now left. }
    destruct (trip_dest N s0 RV _ (ri_trip _ _ _ R2 v Kn)) as (_ & Z1 & _). cbn [shadow w_veh] in Z1. rewrite X, B in Z1.
    assert (Z2 : In (n, NFwj) (n_nodes N)) by (cbn [N snet n_nodes]; apply in_map_iff; exists (n, MNFwj); split; [reflexivity|exact Hin]).
    pose proof (kind_unique N s0 RV _ _ _ Z1 Z2). discriminate.
  - apply morigin_total. pose proof (mno_orig_nodes M K n Hin) as Hn. constructor; auto; try apply K.
    intros b Hb. apply no_pq; [exact W|]. apply in_map_iff in Hn as (o & <- & Ho). exact (proj1 (md_conn _ _ RD) o b Ho Hb).
  - pose proof (mno_dest_nodes M K n Hin) as Hn. apply mdest_total; [exact TM| |apply K|].
    + intros a Ha. apply no_pq; [exact W|]. exact (proj2 (md_conn _ _ RD) n a Hn Ha).
    + intros a v Ha Hv. destruct (HF a v Ha Hv) as (A & B & C). rewrite (no_veh _ v W).
      destruct (md_fin _ _ RD a v A C) as [[_ X]|(_ & b & X & Y)]; [exact X|exfalso]. rewrite B in X. destruct (mv_dest _ _ VA n Hn) as [_ Z1]. rewrite Z1 in X. destruct X.
Qed.
Lemma node_step w w' nk : mnodes w -> In nk (mn_nodes M) -> mnode_evolve (mn_fs M) (mn_pcu M) (mn_out M) (mn_in M) (r_node D) t w nk = Ok w' -> mtimely (t + 1) (mw_cc w') -> mnodes w'.
Proof.
  intros W Hin H TM'. pose proof W as [I KP LK SB OQ TM DQ MN].
  destruct (node_shadow M K D t w w' nk DV Hin H) as (e & lv & o & d & J). destruct (node_meff M K D t w w' nk DV Hin H) as (e' & lv' & J').
  constructor.
  - exact (proj1 (meff_minv M K t w w' e' lv' J' I)).
  - eapply wkeep_trans; [exact KP|apply (ne_keep _ _ _ _ _ _ _ _ J)].
  - intros l. destruct (LK l) as [A B], (me_body _ _ _ _ _ J' l) as [A' B']. split; congruence.
  - intros l. eapply subseq_trans; [apply (ne_sub _ _ _ _ _ _ _ _ J l)|apply SB].
  - intros n'. eapply subseq_trans; [apply (ne_oq_sub _ _ _ _ _ _ _ _ J n')|apply OQ].
  - exact TM'.
  - intros n' v Hn Hv. pose proof (ne_dq _ _ _ _ _ _ _ _ J n') as Ed. cbn [shadow w_dq] in Ed. rewrite Ed in Hv. apply in_app_or in Hv as [Hv|Hv]; [auto|].
    destruct (ne_di_next _ _ _ _ _ _ _ _ J n' v Hv) as (Nx & a & La & To). pose proof (proj1 (mno_in M K _ _ (ne_leave_in _ _ _ _ _ _ _ _ J a v La))) as Ha.
    assert (Hf : In v (ml_fin (mw_link w a))) by (eapply Permutation_in; [symmetry; apply (ne_fin _ _ _ _ _ _ _ _ J a)|apply in_or_app; now left]).
    assert (Hf2 : In v (ml_fin (mw_link w2 a))) by (eapply subseq_In; [apply (SB a)|exact Hf]). cbn [shadow w_veh] in Nx. rewrite (no_veh _ v W) in Nx. cbn [N snet n_to] in To. split.
    + destruct (md_fin _ _ RD a v Ha Hf2) as [[X _]|(_ & b & _ & X)]; congruence.
    + apply (md_start _ _ RD a v Ha). unfold mall. apply in_or_app. now left.
  - intros l v Hv. pose proof (ne_in _ _ _ _ _ _ _ _ J l) as Ei. cbn [shadow w_link shadow_link l_in] in Ei. rewrite Ei in Hv. apply in_app_or in Hv as [Hv|Hv]; [auto|]. right. rewrite <- (no_veh _ v W).
    exact (ne_enter_next _ _ _ _ _ _ _ _ J l v Hv).
Qed.
Lemma nodes_total : exists w3, foldM (mnode_evolve (mn_fs M) (mn_pcu M) (mn_out M) (mn_in M) (r_node D) t) w2 (mn_nodes M) = Ok w3 /\ mnodes w3.
Proof.
  apply foldM_total; [|apply mnodes_start]. intros s [n k] Hs Hin. destruct (node_total s n k Hs Hin) as (s' & E & T'). exists s'. split; [exact E|]. eapply node_step; eauto.
Qed.
End Nodes.

(** ** links *)
Section Links.
Context (D : mdrawsI) (DV : mdraws_valid D) (t : Z) (w2 w3 : mworld) (RD : mready t w2) (W : mnodes t w2 w3).
Record mlinks (w : mworld) : Prop := {
  lk_s : minv M w; lk_cls : mw_cls w = mw_cls w3;
  lk_veh : mw_veh w = mw_veh w3; lk_oq : mw_oq w = mw_oq w3; lk_dq : mw_dq w = mw_dq w3; lk_cc : mw_cc w = mw_cc w3; lk_fac : mw_fac w = mw_fac w3; lk_pt : mw_pt w = mw_pt w3;
  lk_link : forall l, In l (mn_links M) -> mgood (mw_link w l) /\ (is_point_queue (mw_link w2 l) -> is_point_queue (mw_link w l)) /\
    (forall v, In v (inl (mw_link w l)) -> v_next (mw_veh w3 v) = Some l) }.
Lemma links_total : exists w4, foldM (mlink_step D) w3 (mn_links M) = Ok w4 /\ mlinks w4.
Proof.
  apply foldM_total.
  - intros s l L Hl. pose proof L as [I Ec Ev Eo Ed Ecc Ef Ep LL]. destruct (LL l Hl) as (G & PQ & NX).
    destruct (link_good (mw_cls s) (mhas_next s) (r_link D l) (mw_link s l) G (n_body _ _ I l Hl)) as (x & y & Ex & Ey & Gy & PQy & Iy).
    { destruct DV as (_ & _ & _ & _ & _ & X). apply X. }
    { intros v Hv. unfold mhas_next. rewrite Ev, (NX v Hv). reflexivity. }
    assert (H : mlink_step D s l = Ok (mset_link s l y)) by (unfold mlink_step; rewrite Ex; cbn [bind]; rewrite Ey; reflexivity).
    exists (mset_link s l y). split; [exact H|]. constructor; auto; [exact (proj1 (link_step_minv M D t s l _ Hl H I))|].
    intros l' Hl'. cbn [mset_link mw_link]. destruct (Z.eq_dec l' l) as [->|Ne]; [rewrite upd_same|rewrite upd_other by exact Ne; auto].
    split; [exact Gy|]. split; [auto|]. intros v Hv. apply NX, Iy, Hv.
  - constructor; auto; [apply W|]. intros l Hl. split; [eapply no_good; eauto|]. split; [apply (no_pq t w2 w3 l W)|]. intros v Hv. rewrite (no_veh t w2 w3 v W). unfold inl in Hv. apply in_app_or in Hv as [Hv|Hv].
    + apply (md_next _ _ RD l v Hl). unfold inl. apply in_or_app. left. now rewrite (proj1 (no_like _ _ _ W l)) in Hv.
    + destruct (no_next _ _ _ W l v Hv) as [X|X]; [|exact X]. apply (md_next _ _ RD l v Hl). unfold inl. apply in_or_app. now right.
Qed.
End Links.

(** ** arrivals *)
Lemma zc_nodup l : (forall v, zc v l <= 1) -> NoDup l.
Proof.
  induction l as [|x l IH]; intros H; [constructor|]. constructor.
  - intros C. apply zc_In in C. specialize (H x). change (x :: l) with ([x] ++ l) in H. rewrite zc_app, zc_one, Z.eqb_refl in H. unfold one_if in H. lia.
  - apply IH. intros v. specialize (H v). change (x :: l) with ([x] ++ l) in H. rewrite zc_app, zc_one in H. unfold one_if in H. destruct (v =? x); lia.
Qed.
Definition mdinv (w4 : mworld) (done : list Z) (w : mworld) : Prop :=
  minv M w /\ mw_link w = mw_link w4 /\ mw_oq w = mw_oq w4 /\ mw_cc w = mw_cc w4 /\ mw_pt w = mw_pt w4 /\ f_num (mw_fac w) = f_num (mw_fac w4) /\
  (forall v, stat (mw_veh w v) = stat (mw_veh w4 v) /\ v_next (mw_veh w v) = v_next (mw_veh w4 v)) /\
  (forall n, In n done -> mw_dq w n = []) /\ (forall n, ~ In n done -> mw_dq w n = mw_dq w4 n).
Lemma mdests_total t w4 : minv M w4 -> (forall v, 1 <= v <= f_num (mw_fac w4) -> trip_ok N (mw_veh w4 v)) ->
  (forall n v, In n (mn_dests M) -> In v (mw_dq w4 n) -> v_dst (mw_veh w4 v) = n /\ 0 <= v_start (mw_veh w4 v) < t) ->
  exists w5, foldM (mreceive M t) w4 (mn_dests M) = Ok w5 /\ mdinv w4 (mn_dests M) w5.
Proof.
  intros I4 TR DQ. pose proof (shadow_sinv M w4 I4) as S4.
  assert (X : forall rest done w, mn_dests M = done ++ rest -> mdinv w4 done w -> exists w5, foldM (mreceive M t) w rest = Ok w5 /\ mdinv w4 (mn_dests M) w5).
  { induction rest as [|n rest IH]; intros done w E L; cbn [foldM].
    - exists w. split; [reflexivity|]. rewrite E, app_nil_r. exact L.
    - pose proof L as (I & El & Eo & Ec & Ep & En & Ev & Dn & Du).
      assert (Hn : In n (mn_dests M)) by (rewrite E; apply in_or_app; right; now left).
      assert (Nn : ~ In n done). { pose proof (mno_dests M K) as ND. rewrite E in ND. apply NoDup_remove_2 in ND. intros C. apply ND. apply in_or_app. now left. }
      assert (Y : exists w', mreceive M t w n = Ok w').
      { unfold mreceive. rewrite (Du n Nn).
        destruct (mreceive_loop_total M t n (mv_routing _ _ VA) (mw_dq w4 n) w) as (w1 & E1).
        - apply zc_nodup. intros v. pose proof (zd_ge N (shadow w4) v n Hn) as G1. pose proof (zo_nn N (shadow w4) v). pose proof (zl_nn N (shadow w4) v). pose proof (one_le N (shadow w4) S4 v) as G2. pose proof (zc_nonneg v (arrived (shadow w4))). unfold zcount in G2. cbn [shadow w_dq] in G1. lia.
        - intros v Hv. destruct (DQ n v Hn Hv) as [A B]. destruct (Ev v) as [Sv _]. unfold stat in Sv. injection Sv as S1 S2 S3 S4' S5. rewrite S2, S4', S3.
          split; [exact A|]. split; [exact B|].
          pose proof (known N (shadow w4) v S4 (or_intror (or_intror (ex_intro _ n (conj Hn Hv))))) as Kn. destruct (TR v Kn) as (Ad & _). split; [exact Ad|].
          apply zc_In. rewrite (n_live _ _ I). assert (Hv' : In v (mw_dq w n)) by now rewrite (Du n Nn). apply zc_In in Hv'.
          pose proof (mzd_ge M w v n Hn). pose proof (mzo_nonneg M w v). pose proof (mzl_nonneg M w v). unfold mzcount. lia.
        - apply (n_enr _ _ I).
        - apply (n_cenr _ _ I).
        - rewrite E1. cbn [bind]. eauto. }
      destruct Y as (w' & E'). rewrite E'. cbn [bind]. apply (IH (done ++ [n])); [rewrite E, <- app_assoc; reflexivity|].
      pose proof (proj1 (receive_minv M K t n w w' Hn E' I)) as I'. unfold mreceive in E'. apply bind_ok in E' as (w1 & H1 & E'). apply Ok_inj in E' as <-.
      apply mreceive_loop_eff in H1. destruct H1 as [A1 A2 A3 A4 A5 Ac Al A6 A7 A8 A9 A10 A11 A12 A13 A15 A16].
      split; [exact I'|]. cbn [mset_dq mw_link mw_oq mw_cc mw_pt mw_fac mw_veh mw_dq]. split; [congruence|]. split; [congruence|]. split; [congruence|]. split; [congruence|]. split; [congruence|]. split.
      + intros v. rewrite A13. destruct (memb v _); apply Ev.
      + split.
        * intros n' C. destruct (Z.eq_dec n' n) as [->|Ne]; [apply upd_same|]. rewrite upd_other, A3 by exact Ne. apply Dn. apply in_app_or in C as [C|[C|[]]]; [exact C|congruence].
        * intros n' C. rewrite upd_other, A3; [apply Du; intros C'; apply C; apply in_or_app; now left|]. intros ->. apply C. apply in_or_app. right. now left. }
  apply (X (mn_dests M) [] w4 eq_refl). split; [exact I4|]. repeat (split; [reflexivity|]). split; [intros v; split; reflexivity|]. split; [intros n []|reflexivity].
Qed.

(** ** one interval *)
Lemma mload_total D t a w : mdraws_valid D -> 0 <= t -> mbound t w -> exists w', mload_once M D t a w = Ok w' /\ mbound (t + 1) w'.
Proof.
  intros DV Ht B. destruct (mto_ready D t a w DV Ht B) as (w1 & w2 & E1 & E2 & RD). destruct (nodes_total D DV t Ht w2 RD) as (w3 & E3 & W).
  destruct (links_total D DV t w2 w3 RD W) as (w4 & E4 & L).
  pose proof L as [I4 _ Lv Lo Ld Lc Lf Lp LD]. pose proof (no_keep _ _ _ W) as (Kf & Kt & Kp & Kv). cbn [shadow w_fac w_trk w_pt w_veh] in Kf, Kt, Kp, Kv. pose proof (md_r _ _ RD) as R2.
  assert (ST4 : forall v, stat (mw_veh w4 v) = stat (mw_veh w2 v)) by (intros v; rewrite Lv; apply vkeep_stat, Kv).
  assert (TR4 : forall v, 1 <= v <= f_num (mw_fac w4) -> trip_ok N (mw_veh w4 v)).
  { intros v Hv. rewrite Lf, Kf in Hv. destruct (ri_trip _ _ _ R2 v Hv) as (X & Y). cbn [shadow w_veh] in X, Y. pose proof (ST4 v) as S4. unfold stat in S4. injection S4 as S1 S2 S3 S4 S5. split; [congruence|]. now rewrite S1, S2. }
  destruct (mdests_total t w4 I4 TR4) as (w5 & E5 & DI).
  { intros n v Hn Hv. rewrite Ld in Hv. destruct (no_dq _ _ _ W n v Hn Hv) as [A C]. pose proof (ST4 v) as S4. unfold stat in S4. injection S4 as S1 S2 S3 S4 S5. now rewrite S2, S4. }
  assert (EL : mload_once M D t a w = Ok w5) by (unfold mload_once; rewrite E1; cbn [bind]; rewrite E2; cbn [bind]; rewrite E3; cbn [bind]; rewrite E4; cbn [bind]; exact E5).
  exists w5. split; [exact EL|]. destruct DI as (I5 & Fl & Fo & Fc & Fp & Fn & Fv & Fd & _).
  assert (ST5 : forall v, stat (mw_veh w5 v) = stat (mw_veh w2 v)) by (intros v; rewrite (proj1 (Fv v)); apply ST4).
  constructor.
  - exact I5.
  - constructor.
    + apply shadow_sinv, I5.
    + intros v. destruct (ri_v _ _ _ (mb_r _ _ B) v) as (h & V). eexists.
      exact (load_once_shadow_v M K pt0 ros v None D t a w w5 h DV (mb_s _ _ B) EL V).
    + cbn [shadow w_fac w_veh]. intros v Hv. rewrite Fn in Hv. destruct (TR4 v Hv) as (X & Y). destruct (Fv v) as [S4 _]. unfold stat in S4. injection S4 as S1 S2 S3 S4 S5. split; [congruence|]. now rewrite S1, S2.
    + cbn [shadow w_oq w_veh]. intros n v Hn Hv. rewrite Fo, Lo in Hv. assert (Hv2 : In v (mw_oq w2 n)) by (eapply subseq_In; [apply (no_oq _ _ _ W)|exact Hv]).
      pose proof (ri_oq _ _ _ R2 n v Hn Hv2) as Q2. cbn [shadow w_veh] in Q2. pose proof (ST5 v) as S5. unfold stat in S5. congruence.
  - intros v Hv. rewrite Fn, Lf, Kf in Hv. rewrite (stat_start _ _ (ST5 v)). apply (md_new _ _ RD v Hv).
  - intros l Hl. rewrite Fl. apply (LD l Hl).
  - intros l v Hl. rewrite Fl. intros Hv. rewrite (proj2 (Fv v)), Lv. apply (LD l Hl), Hv.
  - unfold conn. rewrite Fl. split.
    + intros o b Ho Hb. apply (LD b (mno_out M K _ _ Hb)). exact (proj1 (md_conn _ _ RD) o b Ho Hb).
    + intros d x Hd Hx. apply (LD x (proj1 (mno_in M K _ _ Hx))). exact (proj2 (md_conn _ _ RD) d x Hd Hx).
  - exact Fd.
  - rewrite Fc, Lc. apply (no_time _ _ _ W).
  - rewrite Fp, Lp, Kp. apply (md_tbl _ _ RD).
Qed.

(** ** the run *)
Lemma mbound_fresh : mbound 0 w0.
Proof.
  pose proof (mv_fresh _ _ VA) as F. pose proof F as [F1 F2 F3 F4 F5 F6 F7]. pose proof (fresh_minv M w0 F) as I.
  assert (EM : forall l v, In l (mn_links M) -> ~ In v (mall (mw_link w0 l))).
  { intros l v Hl C. destruct (F3 l Hl) as (p & Hp). destruct (fresh_mempty _ _ Hp (mw_cls w0)) as (B & O & _). apply zc_In in C.
    rewrite (mall_split _ _ v B), (O false), (O true) in C. change (zc v []) with 0 in C. lia. }
  constructor.
  - exact I.
  - constructor.
    + apply shadow_sinv, I.
    + intros v. exists []. apply (fresh_shadow_v M pt0 v None); auto.
    + cbn [shadow w_fac]. rewrite F6. cbn [f_num]. intros; lia.
    + cbn [shadow w_oq]. intros n v _ C. rewrite F1 in C. destruct C.
  - rewrite F6. cbn [f_num]. intros; lia.
  - intros l Hl. destruct (mv_link _ _ VA l Hl) as (p & Fr & Hk & Hp & Hu & Hf). eapply mgood_fresh; eauto.
  - intros l v Hl C. exfalso. apply (EM l v Hl). unfold mall. apply in_or_app. right. exact C.
  - split; [apply (mv_from_origin _ _ VA)|apply (mv_to_dest _ _ VA)].
  - intros n _. apply F2.
  - assert (CT : ctime 0 fresh_curve) by (apply fresh_time; lia).
    split; [|split]; intros k l x E; destruct (F4 k l) as (A & B & C).
    + destruct A as [A|A]; rewrite A in E; [discriminate|]. injection E as <-. exact CT.
    + destruct B as [A'|A']; rewrite A' in E; [discriminate|]. injection E as <-. exact CT.
    + destruct C as [A'|A']; rewrite A' in E; [discriminate|]. injection E as <-. constructor.
  - constructor.
    + intros k es H. eauto.
    + apply (mv_filled _ _ VA).
    + destruct (mv_shares _ _ VA) as [[A B]|(A & B & C)]; [left|right]; split; auto. split; [exact B|]. split; [exact C|]. lia.
Qed.
Lemma mrun_total D : (forall t, mdraws_valid (D t)) -> forall k,
  exists s, mrun M D k (minit M w0) = Ok s /\ ms_cur s = Z.of_nat k /\ mbound (Z.of_nat k) (ms_w s).
Proof.
  intros DV. induction k as [|k IH]; [eexists; split; [reflexivity|]; split; [reflexivity|apply mbound_fresh]|].
  cbn [mrun]. destruct IH as (s & E & C & B). rewrite E. cbn [bind]. unfold mloop_body. rewrite C.
  destruct (mload_total (D (Z.of_nat k)) (Z.of_nat k) (ms_assign s) (ms_w s) (DV _) ltac:(lia) B) as (w' & E' & B'). rewrite E'. cbn [bind].
  eexists. split; [reflexivity|]. cbn [ms_cur ms_w]. split; [lia|]. now replace (Z.of_nat (S k)) with (Z.of_nat k + 1) by lia.
Qed.
End Valid.
