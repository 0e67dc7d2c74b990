(** Delivery vehicles wait at the origins of their tour. *)
From Verif Require Import Base Base_lemmas Model_Num Proof_Num Spec_Path Proof_Path Model_CC Spec_CC Proof_CC Model_Path Model_Link Spec_Link Spec_Node
  Proof_Link Proof_Link3 Proof_Link4 Proof_Link5 Model_World Model_Node Proof_Node Proof_Node2 Proof_Node3 Proof_Node4 Proof_Node5 Model_Sim Spec_Sim Spec_Route
  Proof_Sim1 Proof_Sim2 Proof_Sim3 Proof_Sim4 Proof_Sim5 Proof_Sim6 Proof_Sim7 Model_Deliver Spec_Deliver Proof_Deliver1 Proof_Deliver2.
Local Open Scope Z_scope.

Definition lst (d : dworld) (v s : Z) : Prop := exists l n, stops d v = l ++ [(s, n)].
Definition gate (N : net) (l : Z) : Prop := exists n, In (n, NOrigin) (n_nodes N) /\ In l (n_out N n).
Definition in_oq (N : net) (w : world) (v : Z) : Prop := exists o, In o (map o_node (n_origins N)) /\ In v (w_oq w o).
Definition in_gate (N : net) (w : world) (l v : Z) : Prop := gate N l /\ In v (l_in (w_link w l)).
(** [c]: enough time has passed when the vehicle drives; [e], [c]: the waits of vehicles
    that were not, and that were, counted down in this interval; [ls]: links to come *)
Definition J1 (DN : dnet) (c e : Z) (ls : list Z) (w : world) (v W wt s : Z) : Prop :=
  W + 1 <= c - s \/ (in_oq (dn_net DN) w v /\ W <= wt + (e - s)) \/
  exists l, in_gate (dn_net DN) w l v /\ W <= wt + (c - s) /\ (In l ls -> W <= wt + (e - s)).
Definition J (DN : dnet) (c e : Z) (ls : list Z) (d : dworld) : Prop :=
  forall v tr s, dw_tour d v = Some tr -> lst d v s -> ~ In v (arrived (dw_w d)) ->
    J1 DN c e ls (dw_w d) v (dn_pickup DN (v_org (w_veh (dw_w d) v))) (tr_wait tr) s.
Lemma J_mono DN c e ls d d' : e <= c ->
  (forall v tr' s, dw_tour d' v = Some tr' -> lst d' v s -> ~ In v (arrived (dw_w d')) ->
     exists tr, dw_tour d v = Some tr /\ lst d v s /\ ~ In v (arrived (dw_w d)) /\ tr_wait tr' = tr_wait tr /\
       v_org (w_veh (dw_w d') v) = v_org (w_veh (dw_w d) v)) ->
  (forall v, in_oq (dn_net DN) (dw_w d) v -> in_oq (dn_net DN) (dw_w d') v \/ exists l, in_gate (dn_net DN) (dw_w d') l v) ->
  (forall l v, in_gate (dn_net DN) (dw_w d) l v -> in_gate (dn_net DN) (dw_w d') l v) ->
  J DN c e ls d -> J DN c e ls d'.
Proof.
  intros Le T O G H v tr' s Hv Hs Ha. destruct (T v tr' s Hv Hs Ha) as (tr & A1 & A2 & A3 & -> & ->). specialize (H v tr s A1 A2 A3).
  destruct H as [H|[[H1 H2]|(l & H1 & H2 & H3)]].
  - now left.
  - right. destruct (O v H1) as [O1|(l & O1)]; [now left|right]. exists l. repeat split; auto; try apply O1; lia.
  - right; right. exists l. auto.
Qed.
Lemma J_time DN c e ls c' e' d : c <= c' -> e <= e' -> J DN c e [] d -> (forall l, In l ls -> c <= e') -> J DN c' e' ls d.
Proof.
  intros Lc Le H L v tr s Hv Hs Ha. destruct (H v tr s Hv Hs Ha) as [H1|[[H1 H2]|(l & H1 & H2 & H3)]].
  - left. lia.
  - right; left. split; [exact H1|lia].
  - right; right. exists l. split; [exact H1|]. split; [lia|]. intros Hl. specialize (L l Hl). lia.
Qed.

(** ** release, routing, nodes *)
Lemma lst_log d d' v s : dw_log d' = dw_log d -> lst d' v s -> lst d v s.
Proof. unfold lst, stops. now intros ->. Qed.
Lemma lst_id DN d v s : dinv DN d -> lst d v s -> 1 <= v <= f_num (fac_of d).
Proof.
  intros I (l & n & E). assert (X : In (s, n) (stops d v)) by (rewrite E; apply in_or_app; right; now left).
  unfold stops in X. apply in_map_iff in X as ([v' e] & _ & Hin). apply filter_In in Hin as [Hin Hv]. apply Z.eqb_eq in Hv. cbn [fst] in Hv. subst v'. apply (dv_log _ _ I _ Hin).
Qed.
Lemma newv_J DN c e ls d d' : e <= c -> dinv DN d -> newv DN d d' -> J DN c e ls d -> J DN c e ls d'.
Proof.
  intros Le I [(o & dst & start & ad & a & x & H1 & H2 & H3 & H4 & H5 & H6)]. apply J_mono; auto.
  - intros v tr' s Hv Hs Ha. apply (lst_log _ _ _ _ H4) in Hs. pose proof (lst_id DN d v s I Hs) as B.
    rewrite H3, upd_other in Hv by lia. exists tr'. split; [exact Hv|]. split; [exact Hs|]. split; [|split; [reflexivity|]].
    + intros X. apply Ha. unfold arrived in *. rewrite H2. exact X.
    + rewrite H2. cbn [set_oq make_veh set_fac set_vehs w_veh]. rewrite upd_other by (unfold fac_of in B; lia). reflexivity.
  - intros v (o0 & A & B). left. exists o0. split; [exact A|]. rewrite H2. cbn [set_oq make_veh set_fac set_vehs w_oq].
    destruct (Z.eq_dec o0 o) as [->|Ne]; [rewrite upd_same; apply in_or_app; now left|now rewrite upd_other].
  - intros l v [A B]. split; [exact A|]. rewrite H2. exact B.
Qed.
Lemma shufv_J DN c e ls d d' : e <= c -> shufv DN d d' -> J DN c e ls d -> J DN c e ls d'.
Proof.
  intros Le [(o & f & Ho & Hf & ->)]. apply J_mono; auto.
  - intros v tr' s Hv Hs Ha. exists tr'. repeat split; auto.
  - intros v (o0 & A & B). left. exists o0. split; [exact A|]. cbn [dset_w dw_w set_oq w_oq].
    destruct (Z.eq_dec o0 o) as [->|Ne]; [rewrite upd_same; eapply Permutation_in; [symmetry; apply Hf|exact B]|now rewrite upd_other].
Qed.
Lemma routing_J DN c e ls d w : e <= c -> rrel (dw_w d) w -> J DN c e ls d -> J DN c e ls (dset_w d w).
Proof.
  intros Le [(Q1 & Q2 & Q3 & Q4 & Q5) S]. apply J_mono; auto.
  - intros v tr' s Hv Hs Ha. exists tr'. split; [exact Hv|]. split; [exact Hs|]. split; [|split; [reflexivity|]].
    + unfold arrived in *. cbn [dset_w dw_w] in Ha. rewrite Q5 in Ha. exact Ha.
    + destruct (S v) as [E _]. unfold stat in E. cbn [dset_w dw_w]. congruence.
  - intros v (o & A & B). left. exists o. split; [exact A|]. cbn [dset_w dw_w]. rewrite Q2. exact B.
  - intros l v [A B]. split; [exact A|]. cbn [dset_w dw_w]. rewrite Q1. exact B.
Qed.
Lemma node_J DN c e ls d t w en le ol di : e <= c -> dnet_ok DN -> sinv (dn_net DN) (dw_w d) -> neff (dn_net DN) t (dw_w d) w en le ol di -> J DN c e ls d -> J DN c e ls (dset_w d w).
Proof.
  intros Le K I E. pose proof (ne_keep _ _ _ _ _ _ _ _ E) as (Ef & _ & _ & V). apply J_mono; auto.
  - intros v tr' s Hv Hs Ha. exists tr'. split; [exact Hv|]. split; [exact Hs|]. split; [|split; [reflexivity|]].
    + unfold arrived in *. cbn [dset_w dw_w] in Ha. rewrite Ef in Ha. exact Ha.
    + destruct (V v) as (? & ? & ? & ? & ? & ? & ?). cbn [dset_w dw_w]. congruence.
  - intros v (o & A & B). cbn [dset_w dw_w].
    pose proof (Permutation_in v (ne_oq _ _ _ _ _ _ _ _ E o) B) as B'. apply in_app_or in B' as [B'|B']; [right|left; exists o; auto].
    destruct (ne_ol_to _ _ _ _ _ _ _ _ E o v B') as (b & Hb). destruct (ne_enter_from _ _ _ _ _ _ _ _ E b v Hb) as [_ [(n & Hn & Hbn)|(a & Ha & _)]].
    + exists b. split; [|rewrite (ne_in _ _ _ _ _ _ _ _ E); apply in_or_app; now right]. exists n. split; [|exact Hbn]. apply (dk_gate _ K). eapply ne_ol_in; eauto.
    + exfalso. assert (Hf : In v (l_fin (w_link (dw_w d) a))) by (eapply Permutation_in; [symmetry; apply (ne_fin _ _ _ _ _ _ _ _ E)|apply in_or_app; now left]).
      eapply (u_ol _ _ I v o a); eauto.
      * apply (no_in _ (dk_net _ K) (n_to (dn_net DN) a)). eapply ne_leave_in; eauto.
      * unfold on_link. apply in_or_app. now left.
  - intros l v [A B]. split; [exact A|]. cbn [dset_w dw_w]. rewrite (ne_in _ _ _ _ _ _ _ _ E). apply in_or_app. now left.
Qed.

(** ** links *)
Lemma set_wait_at f d x v : dw_tour (set_wait f d x) v =
  if v =? x then match dw_tour d v with Some tr => Some {| tr_seq := tr_seq tr; tr_at := tr_at tr; tr_wait := f (tr_wait tr) |} | None => None end else dw_tour d v.
Proof.
  unfold set_wait. destruct (Z.eqb_spec v x) as [->|Ne].
  - destruct (dw_tour d x) eqn:E; [cbn [dset_tour dw_tour]; now rewrite upd_same|exact E].
  - destruct (dw_tour d x); [cbn [dset_tour dw_tour]; now rewrite upd_other|reflexivity].
Qed.
Lemma fold_wait_at f v : forall vs d, NoDup vs -> dw_tour (fold_left (set_wait f) vs d) v =
  if memb v vs then match dw_tour d v with Some tr => Some {| tr_seq := tr_seq tr; tr_at := tr_at tr; tr_wait := f (tr_wait tr) |} | None => None end else dw_tour d v.
Proof.
  induction vs as [|x vs IH]; intros d ND; [reflexivity|]. inversion ND as [|? ? NI ND']; subst. cbn [fold_left]. rewrite IH by exact ND'. rewrite set_wait_at.
  unfold memb. cbn [existsb]. fold (memb v vs). destruct (Z.eqb_spec v x) as [->|Ne]; cbn [orb]; [|reflexivity].
  rewrite (proj2 (memb_false _ _) NI). reflexivity.
Qed.
Definition is_pq (b : body) : Prop := exists m q vol, b = BPq m q vol.
Lemma from_origin_gate N l : from_origin N l = true <-> gate N l.
Proof.
  unfold from_origin, gate. rewrite existsb_exists. split.
  - intros ([n k] & Hn & H). cbn [fst snd] in H. destruct k; try discriminate. apply memb_In in H. eauto.
  - intros (n & Hn & H). exists (n, NOrigin). split; [exact Hn|]. cbn [fst snd]. now apply memb_In.
Qed.
(** clearing the entrance of a link, seen from one vehicle *)
Lemma delay_clear_veh DN d l d' v : delay_clear DN d l = Ok d' -> NoDup (l_in (w_link (dw_w d) l)) -> (gate (dn_net DN) l -> is_pq (l_body (w_link (dw_w d) l))) ->
  (~ In v (l_in (w_link (dw_w d) l)) -> dw_tour d' v = dw_tour d v) /\
  (gate (dn_net DN) l -> In v (l_in (w_link (dw_w d) l)) -> forall tr, dw_tour d v = Some tr ->
     tr_wait tr <= 0 \/ (In v (l_in (w_link (dw_w d') l)) /\ exists tr', dw_tour d' v = Some tr' /\ tr_wait tr - 1 <= tr_wait tr')) /\
  (gate (dn_net DN) l -> is_pq (l_body (w_link (dw_w d') l))).
Proof.
  unfold delay_clear. cbv zeta. intros H ND PQ. destruct (l_body (w_link (dw_w d) l)) as [cs|m q vol|q vol] eqn:EB.
  2:{ set (r := delay_scan _ _ _) in H. set (q' := q ++ map (fun v => (v, 0)) (fst (fst r))) in H.
      set (y := {| l_par := l_par (w_link (dw_w d) l); l_in := snd (fst r); l_fin := l_fin (w_link (dw_w d) l); l_body := BPq m q' (Zlen (l_fin (w_link (dw_w d) l)) + Zlen q') |}) in H.
      set (d1 := fold_left (set_wait (fun k => k - 1)) (snd r) d) in H. set (d2 := if from_origin (dn_net DN) l then fold_left (set_wait (fun _ => 0)) (fst (fst r)) d1 else d1) in H. apply Ok_inj in H as <-.
      pose proof (delay_scan_perm (waiting DN d l) (l_in (w_link (dw_w d) l)) (pq_supply (l_par (w_link (dw_w d) l)) * p_fs (l_par (w_link (dw_w d) l)))) as P. fold r in P.
      pose proof (delay_scan_moved (waiting DN d l) (l_in (w_link (dw_w d) l)) (pq_supply (l_par (w_link (dw_w d) l)) * p_fs (l_par (w_link (dw_w d) l))) v) as M. fold r in M.
      destruct (delay_scan_ticked (waiting DN d l) (l_in (w_link (dw_w d) l)) (pq_supply (l_par (w_link (dw_w d) l)) * p_fs (l_par (w_link (dw_w d) l)))) as [T1 T2]. fold r in T1, T2.
      pose proof (Permutation_NoDup P ND) as NDr. pose proof (NoDup_app_inv _ _ NDr) as (ND1 & ND2 & ND3).
      assert (NDt : NoDup (snd r)) by (pose proof (subseq_NoDup _ _ T1 ND) as X; exact X).
      cbn [dset_w dw_w dw_tour set_link w_link]. rewrite upd_same. cbn [y l_in l_body]. split; [|split; [|intros _; red; eauto]].
      - intros NI.
        assert (N1 : memb v (snd r) = false) by (apply memb_false; intros X; apply NI; eapply subseq_In; eauto).
        assert (N2 : memb v (fst (fst r)) = false) by (apply memb_false; intros X; apply NI; apply M; exact X).
        unfold d2. destruct (from_origin _ _); [rewrite fold_wait_at, N2 by exact ND1|]; unfold d1; rewrite fold_wait_at, N1 by exact NDt; reflexivity.
      - intros Hg Hin tr Ht. apply (Permutation_in v P) in Hin. apply in_app_or in Hin as [Hin|Hin].
        + left. destruct (M Hin) as [W _]. unfold waiting in W. rewrite Ht in W. apply from_origin_gate in Hg. rewrite Hg in W. cbn [andb] in W. apply Z.ltb_ge in W. exact W.
        + right. split; [exact Hin|]. apply from_origin_gate in Hg.
          assert (N2 : memb v (fst (fst r)) = false) by (apply memb_false; intros X; apply (ND3 v X Hin)).
          unfold d2. rewrite Hg, fold_wait_at, N2 by exact ND1. unfold d1. rewrite fold_wait_at, Ht by exact NDt.
          destruct (memb v (snd r)); eexists; (split; [reflexivity|cbn [tr_wait]; lia]). }
  all: apply bind_ok in H as (y & Hy & H); apply Ok_inj in H as <-; split; [reflexivity|];
    split; [intros Hg|intros Hg]; destruct (PQ Hg) as (? & ? & ? & X); discriminate X.
Qed.
Lemma l_in_on l v : In v (l_in l) -> In v (on_link l).
Proof. intros H. unfold on_link. apply in_or_app. right. apply in_or_app. now right. Qed.
Lemma l_in_NoDup N w l : sinv N w -> In l (n_links N) -> NoDup (l_in (w_link w l)).
Proof.
  intros I Hl. apply NoDup_cnt. intros v. pose proof (zl_ge N w v l Hl) as G. unfold on_link in G. rewrite !zc_app in G.
  pose proof (one_le N w I v). pose proof (zo_nn N w v). pose proof (zd_nn N w v). pose proof (zc_nonneg v (arrived w)).
  pose proof (zc_nonneg v (l_fin (w_link w l))). pose proof (zc_nonneg v (inside (l_body (w_link w l)))). unfold zcount, zc in *. lia.
Qed.
Lemma dlink_J DN D c ls d l d' : dnet_ok DN -> In l (n_links (dn_net DN)) -> sinv (dn_net DN) (dw_w d) -> gates_pq (dn_net DN) (dw_w d) -> ~ In l ls ->
  dlink_step DN D d l = Ok d' -> J DN c (c - 1) (l :: ls) d -> J DN c (c - 1) ls d' /\ gates_pq (dn_net DN) (dw_w d').
Proof.
  intros K Hl I PQ NI H. pose proof (dlink_step_eff _ _ _ _ _ H) as CE. pose proof (dlink_step_same _ _ _ _ _ H) as TS.
  unfold dlink_step in H. apply bind_ok in H as (d1 & H1 & H). apply bind_ok in H as (y & Hy & H). apply Ok_inj in H as <-.
  assert (PQ' : gate (dn_net DN) l -> is_pq (l_body (w_link (dw_w d) l))) by (intros (n & A & B); apply (PQ n l A B)).
  pose proof (l_in_NoDup _ _ l I Hl) as ND.
  assert (IN : l_in y = l_in (w_link (dw_w d1) l)).
  { unfold link_evolve in Hy. destruct (l_body (w_link (dw_w d1) l)); [apply bind_ok in Hy as (m & _ & Hy)| |apply bind_ok in Hy as (m & _ & Hy)]; apply Ok_inj in Hy as <-; reflexivity. }
  intros HJ. split.
  - intros v tr' s Hv Hs Ha. pose proof (ts_tour _ _ TS v) as TT. rewrite Hv in TT. destruct (dw_tour d v) as [tr|] eqn:Etr; [|contradiction].
    apply (lst_log _ _ _ _ (ts_log _ _ TS)) in Hs.
    assert (Ha' : ~ In v (arrived (dw_w d))) by (unfold arrived in *; pose proof (ts_fac _ _ TS) as Ff; unfold fac_of in Ff; rewrite Ff in Ha; exact Ha).
    specialize (HJ v tr s Etr Hs Ha'). rewrite (ce_veh _ _ _ _ CE).
    destruct (delay_clear_veh DN d l d1 v H1 ND PQ') as (A1 & A2 & A3). cbn [dset_w dw_tour] in Hv.
    assert (OUT : ~ In v (l_in (w_link (dw_w d) l)) -> tr' = tr) by (intros X; rewrite (A1 X), Etr in Hv; congruence).
    destruct HJ as [HJ|[[Ho HW]|(l0 & [Hg Hin] & HW1 & HW2)]].
    + now left.
    + right; left. destruct Ho as (o & Ho & Hq). split; [exists o; split; [exact Ho|now rewrite (ce_oq _ _ _ _ CE)]|].
      rewrite OUT; [exact HW|]. intros X. eapply (u_ol _ _ I v o l); eauto. now apply l_in_on.
    + destruct (Z.eq_dec l0 l) as [->|Ne].
      * specialize (HW2 (or_introl eq_refl)). destruct (A2 Hg Hin tr Etr) as [W0|(Hin' & t1 & E1 & W1)]; [left; lia|].
        right; right. exists l. split; [split; [exact Hg|]|].
        -- cbn [dset_w dw_w set_link w_link]. rewrite upd_same, IN. exact Hin'.
        -- assert (t1 = tr') by congruence. subst t1. split; [lia|]. intros X. contradiction.
      * right; right. exists l0. split; [split; [exact Hg|now rewrite (ce_other _ _ _ _ CE l0 Ne)]|].
        assert (Hl0 : In l0 (n_links (dn_net DN))) by (destruct Hg as (n & _ & Hn); eapply no_out; [apply K|exact Hn]).
        rewrite OUT.
        -- split; [exact HW1|]. intros X. apply HW2. now right.
        -- intros X. apply Ne. eapply (u_ll _ _ I v l0 l); eauto; now apply l_in_on.
  - intros n l0 Hn Ho. destruct (Z.eq_dec l0 l) as [->|Ne]; [|rewrite (ce_other _ _ _ _ CE l0 Ne); apply (PQ n l0 Hn Ho)].
    destruct (delay_clear_veh DN d l d1 0 H1 ND PQ') as (_ & _ & A3). destruct A3 as (m & q & vol & EB); [exists n; auto|].
    cbn [dset_w dw_w set_link w_link]. rewrite upd_same. unfold link_evolve in Hy. rewrite EB in Hy. apply Ok_inj in Hy as <-. cbn [l_body]. eauto.
Qed.

(** ** arrivals *)
Lemma stops_app d d' v e : dw_log d' = dw_log d ++ [e] -> stops d' v = stops d v ++ (if fst e =? v then [snd e] else []).
Proof. intros E. unfold stops. rewrite E, filter_app, !map_app. f_equal. cbn [filter]. destruct (fst e =? v); reflexivity. Qed.
Lemma lst_other d d' v x t n s : dw_log d' = dw_log d ++ [(v, (t, n))] -> x <> v -> lst d' x s -> lst d x s.
Proof.
  intros E Ne (l & m & H). rewrite (stops_app d d' x _ E) in H. cbn [fst] in H. destruct (Z.eqb_spec v x); [congruence|]. rewrite app_nil_r in H. red; eauto.
Qed.
Lemma lst_now d d' v t n s : dw_log d' = dw_log d ++ [(v, (t, n))] -> lst d' v s -> s = t.
Proof.
  intros E (l & m & H). rewrite (stops_app d d' v _ E) in H. cbn [fst snd] in H. rewrite Z.eqb_refl in H. apply app_inj_tail in H as [_ H]. congruence.
Qed.
Lemma recv_J DN t n v d d' : dreceive_veh DN t n d v = Ok d' -> 
  (forall tr, dw_tour d v = Some tr -> forall i o' e', nth_error (tr_seq tr) i = Some (o', e') -> In o' (map o_node (n_origins (dn_net DN)))) ->
  J DN t t [] d -> J DN t t [] d'.
Proof.
  intros H TO HJ. apply dreceive_veh_eff in H as (HD & R & EL & EM).
  assert (FIN : reff t n [v] (dw_w d) (dw_w d') -> dw_tour d' = dw_tour d -> J DN t t [] d').
  { intros RE ET x tr s Hx Hs Ha. pose proof RE as [A1 A2 A3 A4 A5 A6 A7 A8 A9 A10 A11 A12 A13 A14 A15].
    assert (AR : arrived (dw_w d') = arrived (dw_w d) ++ [v]) by (unfold arrived; rewrite A7, map_app; reflexivity).
    assert (Ne : x <> v) by (intros ->; apply Ha; rewrite AR; apply in_or_app; right; now left).
    rewrite ET in Hx. apply (lst_other _ _ _ _ _ _ _ EL Ne) in Hs.
    assert (Ha' : ~ In x (arrived (dw_w d))) by (intros X; apply Ha; rewrite AR; apply in_or_app; now left).
    specialize (HJ x tr s Hx Hs Ha'). rewrite A13. destruct (memb x [v]) eqn:Em; [apply memb_In in Em as [Em|[]]; congruence|].
    destruct HJ as [HJ|[[(o & Ho & Hq) HW]|(l & [Hg Hin] & HW)]]; [now left| |].
    - right; left. split; [exists o; split; [exact Ho|rewrite A2; exact Hq]|exact HW].
    - right; right. exists l. split; [split; [exact Hg|rewrite A1; exact Hin]|exact HW]. }
  destruct R as [TN RE ET|tr o TS EN RE ET|tr o o' e' TS EN NL E2 NE ET F1 F2 F3 F4 F5 FV FT]; [now apply FIN|now apply FIN|].
  intros x tx s Hx Hs Ha. unfold arrived in Ha. rewrite F4 in Ha. fold (arrived (dw_w d)) in Ha. rewrite ET in Hx. destruct (Z.eq_dec x v) as [->|Ne].
  - rewrite upd_same in Hx. injection Hx as <-. apply (lst_now _ _ _ _ _ _ EL) in Hs. subst s. right; left. split.
    + exists o'. split; [eapply TO; eauto|]. rewrite F5, upd_same. apply in_or_app. right. now left.
    + cbn [tr_wait]. rewrite FV, Z.eqb_refl. cbn [set_path set_od v_org]. lia.
  - rewrite upd_other in Hx by exact Ne. apply (lst_other _ _ _ _ _ _ _ EL Ne) in Hs. specialize (HJ x tx s Hx Hs Ha). rewrite FV. destruct (Z.eqb_spec x v); [contradiction|].
    destruct HJ as [HJ|[[(q & Ho & Hq) HW]|(l & [Hg Hin] & HW)]]; [now left| |].
    + right; left. split; [exists q; split; [exact Ho|]|exact HW]. rewrite F5. destruct (Z.eq_dec q o') as [->|Nq]; [rewrite upd_same; apply in_or_app; now left|now rewrite upd_other].
    + right; right. exists l. split; [split; [exact Hg|rewrite F1; exact Hin]|exact HW].
Qed.
Lemma tour_origins DN d v tr : dnet_ok DN -> tin DN d v tr -> forall i o' e', nth_error (tr_seq tr) i = Some (o', e') -> In o' (map o_node (n_origins (dn_net DN))).
Proof.
  intros K [H1 H2 H3 H4 H5 HD H6 H7] i o' e' E. destruct H2 as (oo & dem & Hoo & Hin). destruct (dk_tours _ K oo _ _ Hoo Hin) as [_ FA]; [intros X; rewrite X in H3; cbn in H3; lia|].
  rewrite Forall_forall in FA. apply (FA (o', e')). eapply nth_error_In; eauto.
Qed.
Lemma recv_links DN t n v d d' : dreceive_veh DN t n d v = Ok d' -> w_link (dw_w d') = w_link (dw_w d).
Proof. intros H. apply dreceive_veh_eff in H as (_ & R & _). destruct R as [? RE ?|? ? ? ? RE ?|]; auto; apply RE. Qed.
Lemma dreceive_J DN t n d d' : dnet_ok DN -> In n (n_dests (dn_net DN)) -> dreceive DN t d n = Ok d' -> dinv DN d -> J DN t t [] d ->
  J DN t t [] d' /\ w_link (dw_w d') = w_link (dw_w d).
Proof.
  intros K Hn H I HJ. pose proof H as H0. unfold dreceive in H. apply bind_ok in H as (d1 & H1 & H). apply Ok_inj in H as <-.
  assert (JQ : forall q x, J DN t t [] x -> J DN t t [] (dq_to n q x)).
  { intros q x. apply J_mono; [lia| | |]; auto. intros v tr s A B C. exists tr. auto. }
  assert (I0 : dinv DN (dq_to n (w_dq (dw_w d) n) d)).
  { eapply tsame_dinv; [apply tsame_w; reflexivity| |exact I]. cbn [dset_w dw_w]. pose proof (dv_s _ _ I) as [G1 G2 G3 G4 G5 G6 G7 G8 G9 G10].
    assert (Z0 : forall v, zcount (dn_net DN) (set_dq (dw_w d) n (w_dq (dw_w d) n)) v = zcount (dn_net DN) (dw_w d) v).
    { intros v. rewrite (zcount_dq _ _ _ _ _ (dk_net _ K) Hn). lia. }
    constructor; auto; intros v; rewrite Z0; [apply G3|apply G4]. }
  clear I H0. enough (X : J DN t t [] d1 /\ w_link (dw_w d1) = w_link (dw_w d)) by (destruct X; split; [now apply (JQ [] d1)|assumption]).
  revert I0 H1 HJ. generalize (w_dq (dw_w d) n). intros vs. revert d. induction vs as [|v vs IH]; intros d0 I0 H1 HJ; cbn [foldM] in H1.
  - apply Ok_inj in H1 as <-. auto.
  - apply bind_ok in H1 as (d2 & H2 & H1). rewrite <- (recv_links _ _ _ _ _ _ H2). apply IH; [eapply recv_dinv; eauto|exact H1|]. eapply recv_J; eauto.
    intros tr Ht. apply (tour_origins DN (dq_to n (v :: vs) d0) v); auto. apply (dv_t _ _ I0 v tr Ht).
Qed.

(** ** interval and run *)
Lemma gates_like N w w' : (forall l, l_body (w_link w' l) = l_body (w_link w l)) -> gates_pq N w -> gates_pq N w'.
Proof. intros H G n l A B. rewrite H. apply (G n l A B). Qed.
Definition K3 (DN : dnet) (c e : Z) (ls : list Z) (d : dworld) : Prop := dinv DN d /\ gates_pq (dn_net DN) (dw_w d) /\ J DN c e ls d.
Lemma nodes_K3 DN D t c e ls w w' d : dnet_ok DN -> draws_valid D -> e <= c -> K3 DN c e ls d -> dw_w d = w ->
  foldM (node_evolve (dn_net DN) D t) w (n_nodes (dn_net DN)) = Ok w' -> K3 DN c e ls (dset_w d w').
Proof.
  intros K DV Le I <- H.
  assert (I0 : K3 DN c e ls (dset_w d (dw_w d))) by (destruct d; exact I). clear I.
  eapply (foldM_inv (node_evolve (dn_net DN) D t) (fun x => K3 DN c e ls (dset_w d x))); [|exact I0|exact H].
  intros nk s s' Hin (Hs & Hg & Hj) E. pose proof (dv_s _ _ Hs) as S. cbn [dset_w dw_w] in S, Hg.
  destruct (node_neff (dn_net DN) D t s s' nk (dk_net _ K) DV (i_paired _ _ S) Hin E) as (en & lv & ol & di & NE).
  split; [|split].
  - eapply (tsame_dinv DN (dset_w d s)); [|eapply neff_sinv; eauto|exact Hs]. 2: apply K.
    destruct (ne_keep _ _ _ _ _ _ _ _ NE) as (Ef & _ & _ & V). apply (tsame_w (dset_w d s)); cbn [dset_w dw_w]; [exact Ef|].
    intros v. symmetry. apply vkeep_stat. destruct (V v) as (? & ? & ? & ? & ? & ? & ?). unfold vkeep. intuition congruence.
  - cbn [dset_w dw_w]. eapply gates_like; [|exact Hg]. intros l. apply (ne_like _ _ _ _ _ _ _ _ NE l).
  - apply (node_J DN c e ls (dset_w d s) t s' en lv ol di); auto.
Qed.
Lemma links_K3 DN D c : dnet_ok DN -> forall ls d d', incl ls (n_links (dn_net DN)) -> NoDup ls -> foldM (dlink_step DN D) d ls = Ok d' ->
  K3 DN c (c - 1) ls d -> K3 DN c (c - 1) [] d'.
Proof.
  intros K. induction ls as [|l ls IH]; intros d d' Hi ND H (I & G & HJ); cbn [foldM] in H.
  - apply Ok_inj in H as <-. split; auto.
  - apply bind_ok in H as (d1 & H1 & H). inversion ND as [|? ? NI ND']; subst. assert (Hl : In l (n_links (dn_net DN))) by (apply Hi; now left).
    eapply IH; [intros x X; apply Hi; now right|exact ND'|exact H|].
    destruct (dlink_J DN D c ls d l d1 K Hl (dv_s _ _ I) G NI H1 HJ) as [J' G'].
    split; [|auto]. eapply tsame_dinv; [eapply dlink_step_same; eauto| |exact I].
    eapply ceff_sinv; [apply K|exact Hl|eapply dlink_step_eff; eauto|apply I].
Qed.
Lemma dload_once_K3 DN D t a d d' : dnet_ok DN -> draws_valid (dd_base D) -> dload_once DN D t a d = Ok d' -> K3 DN (t - 1) (t - 1) [] d -> K3 DN t t [] d'.
Proof.
  intros K DV H (I & G & HJ). unfold dload_once in H. cbv zeta in H.
  apply bind_ok in H as (d1 & H1 & H). apply bind_ok in H as (d2 & H2 & H). apply bind_ok in H as (d3 & H3 & H). apply bind_ok in H as (d4 & H4 & H).
  assert (I0 : K3 DN t (t - 1) (n_links (dn_net DN)) d) by (split; [exact I|split; [exact G|]]; eapply J_time; [| |exact HJ|]; intros; lia).
  assert (I1 : K3 DN t (t - 1) (n_links (dn_net DN)) d1).
  { eapply (drelease_all_ind DN K (K3 DN t (t - 1) (n_links (dn_net DN)))); [| |exact DV|exact H1|exact I0].
    - intros x y N (A & B & C). split; [eapply newv_dinv; eauto|split; [|eapply newv_J; eauto; lia]].
      destruct N as [(o & dst & start & ad & aa & xx & E1 & E2 & _)]. intros n l X Y. rewrite E2. apply (B n l X Y).
    - intros x y N (A & B & C). split; [eapply shufv_dinv; eauto|split; [|eapply shufv_J; eauto; lia]].
      destruct N as [(o & f & E1 & E2 & ->)]. exact B. }
  assert (I2 : K3 DN t (t - 1) (n_links (dn_net DN)) d2).
  { unfold on_world in H2. apply bind_ok in H2 as (w & Hw & H2). apply Ok_inj in H2 as <-. apply update_routing_r in Hw. destruct I1 as (A & B & C).
    split; [|split; [|apply routing_J; auto; lia]].
    - destruct Hw as [Q S]. eapply tsame_dinv; [apply tsame_w; [apply Q|intros v; apply S]| |exact A]. cbn [dset_w dw_w]. eapply sinv_q; [exact Q|apply A].
    - destruct Hw as [(Q & _) _]. cbn [dset_w dw_w]. intros n l X Y. rewrite Q. apply (B n l X Y). }
  assert (I3 : K3 DN t (t - 1) (n_links (dn_net DN)) d3).
  { unfold on_world in H3. apply bind_ok in H3 as (w & Hw & H3). apply Ok_inj in H3 as <-. eapply nodes_K3; eauto. lia. }
  assert (I4 : K3 DN t (t - 1) [] d4) by (eapply links_K3; [exact K|apply incl_refl|apply (no_links _ (dk_net _ K))|exact H4|exact I3]).
  assert (I5 : K3 DN t t [] d4) by (destruct I4 as (A & B & C); split; [exact A|split; [exact B|]]; eapply J_time; [| |exact C|]; intros; try lia; contradiction).
  eapply (foldM_inv _ (K3 DN t t [])); [|exact I5|exact H]. intros n s s' Hn (A & B & C) E.
  destruct (dreceive_J DN t n s s' K Hn E A C) as [J' L]. split; [eapply dreceive_dinv; eauto|split; [|exact J']]. intros n0 l X Y. rewrite L. apply (B n0 l X Y).
Qed.
Lemma dreached_K3 DN D k s w0 : dnet_ok DN -> fresh_world (dn_net DN) w0 -> gates_pq (dn_net DN) w0 -> (forall t, draws_valid (dd_base (D t))) ->
  drun DN D k (dinit DN w0) = Ok s -> K3 DN (ds_cur s - 1) (ds_cur s - 1) [] (ds_d s) /\ ds_cur s = Z.of_nat k.
Proof.
  intros K F G DV H. revert s H. induction k as [|k IH]; intros s H.
  - simpl in H. apply Ok_inj in H as <-. split; [|reflexivity]. cbn [dinit ds_d ds_cur].
    assert (R : dreached DN D 0 (dinit DN w0)) by (exists w0; auto). apply dreached_dinv in R as [I _]; [|exact K]. split; [exact I|split; [exact G|]].
    intros v tr s Hv. cbn [dw_tour] in Hv. discriminate.
  - apply drun_S in H as (s1 & H1 & H2). apply dloop_body_inv in H2 as (H2 & E). destruct (IH s1 H1) as [I EC]. split; [|lia].
    rewrite E. replace (ds_cur s1 + 1 - 1) with (ds_cur s1) by lia. eapply dload_once_K3; [exact K|apply DV|exact H2|exact I].
Qed.
Lemma waits_at_gate DN D k s w0 v tr l t n : dnet_ok DN -> fresh_world (dn_net DN) w0 -> gates_pq (dn_net DN) w0 -> (forall t, draws_valid (dd_base (D t))) ->
  drun DN D k (dinit DN w0) = Ok s -> dw_tour (ds_d s) v = Some tr -> ~ In v (arrived (dw_w (ds_d s))) -> stops (ds_d s) v = l ++ [(t, n)] ->
  Z.of_nat k <= t + dn_pickup DN (v_org (w_veh (dw_w (ds_d s)) v)) + 1 -> at_gate (dn_net DN) (dw_w (ds_d s)) v.
Proof.
  intros K F G DV H HT HA HS HK. destruct (dreached_K3 DN D k s w0 K F G DV H) as [(I & _ & HJ) EC].
  destruct (HJ v tr t HT) as [X|[[(o & Ho & Hq) X]|(g & [(m & Hm & Hg) Hin] & X)]]; auto.
  - red; eauto.
  - lia.
  - left. apply in_map_iff in Ho as (o0 & <- & Ho). eauto.
  - right. eauto.
Qed.
