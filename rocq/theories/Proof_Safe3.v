(** Releases and nodes never fail on valid input. *)
From Verif Require Import Base Base_lemmas Model_Num Proof_Num Spec_Path Proof_Path Model_CC Spec_CC Proof_CC Model_Path Model_Link Spec_Link Spec_Node
  Proof_Link Proof_Link3 Proof_Link4 Proof_Link5 Model_World Model_Node Proof_Node Proof_Node2 Proof_Node3 Proof_Node4 Proof_Node5 Model_Sim Spec_Sim Spec_Route
  Proof_Sim1 Proof_Sim2 Proof_Sim3 Proof_Sim4 Proof_Sim5 Proof_Sim6 Proof_Sim7 Spec_Valid Proof_Safe1 Proof_Safe2 Prop_Node.
Local Open Scope Z_scope.

Section Safe.
Context (N : net) (w0 : world) (VA : valid_input N w0).
Let K : net_ok N := va_net _ _ VA.
Let pt0 := w_pt w0.
Notation rinv := (rinv N w0).

(** ** release *)
Lemma release_all_ind (P : world -> Prop) D cur assign w w' :
  (forall x o d, In o (n_origins N) -> In d (map fst (o_demand o)) -> P x ->
     let y := make_veh x cur false (o_node o) d (Z.quot cur (n_freq N)) in P (set_oq y (o_node o) (w_oq y (o_node o) ++ [f_num (w_fac x) + 1]))) ->
  (forall x o, In o (n_origins N) -> P x -> P (set_oq x (o_node o) (d_oshuf D (o_node o) (w_oq x (o_node o))))) ->
  P w -> release_all N D cur assign w = Ok w' -> P w'.
Proof.
  intros H1 H2 H H'. unfold release_all in H'. apply bind_ok in H' as (u & _ & H').
  destruct (_ =? 0); apply Ok_inj in H' as <-; [|exact H]. rewrite (va_routing _ _ VA). cbn [base_ratio].
  set (asg := if n_total_assign N <=? assign then -1 else assign). clearbody asg.
  assert (X : forall os, incl os (n_origins N) -> forall w, P w -> P (fold_left (release_one N D cur asg 0%Q) os w)).
  { induction os as [|o os IH]; intros Inc x Px; [exact Px|]. simpl. assert (Ho : In o (n_origins N)) by (apply Inc; now left).
    apply IH; [intros y Hy; apply Inc; now right|]. unfold release_one. destruct (asg <? 0); [exact Px|]. cbv zeta. apply H2; [exact Ho|].
    assert (Y : forall ds, incl ds (o_demand o) -> forall x, P x -> P (release_dests N D cur asg o 0%Q ds x)).
    { induction ds as [|[d dem] ds IHd]; intros Ind y Py; [exact Py|]. cbn [release_dests]. rewrite (va_ratio _ _ VA o d Ho). apply IHd; [intros z Hz; apply Ind; now right|].
      assert (Hd : In d (map fst (o_demand o))) by (apply in_map_iff; exists (d, dem); split; [reflexivity|apply Ind; now left]).
      generalize (Z.to_nat (rround (d_rel D (o_node o) d) (dem asg * n_fs N))). intros k. revert y Py. induction k as [|k IHk]; intros y Py; [exact Py|]. cbn [release_n].
      change (pick_adaptive 0 (d_adapt D (f_num (w_fac y) + 1))) with false. apply IHk. apply H1; assumption. }
    apply Y; [apply incl_refl|exact Px]. }
  apply X; [apply incl_refl|exact H].
Qed.
Lemma release_ok D cur assign w : exists w', release_all N D cur assign w = Ok w'.
Proof.
  unfold release_all. replace (n_freq N =? 0) with false by (symmetry; apply Z.eqb_neq; pose proof (va_freq _ _ VA); lia). cbn [negb guard bind]. destruct (_ =? 0); eauto.
Qed.
Lemma release_rinv D cur assign w w' : draws_valid D -> rinv w -> release_all N D cur assign w = Ok w' ->
  rinv w' /\ w_link w' = w_link w /\ w_dq w' = w_dq w /\ w_cc w' = w_cc w /\ w_pt w' = w_pt w /\ f_num (w_fac w) <= f_num (w_fac w') /\
  (forall v, v <= f_num (w_fac w) -> w_veh w' v = w_veh w v) /\ (forall v, f_num (w_fac w) < v <= f_num (w_fac w') -> v_start (w_veh w' v) = cur).
Proof.
  intros DV R H. pose proof R as [I V T O].
  assert (RI : rinv w').
  { constructor; [eapply release_all_sinv; eauto|intros v; destruct (V v) as (h & Vh); exists h; eapply release_all_v; eauto| |].
    - refine (release_all_ind (fun x => forall v, 1 <= v <= f_num (w_fac x) -> trip_ok N (w_veh x v)) D cur assign w w' _ _ T H); [|auto]; cbv beta.
      intros x o d Ho Hd Px y v. subst y. cbn [set_oq make_veh set_fac set_vehs w_fac w_veh f_num]. intros Hv. destruct (Z.eq_dec v (f_num (w_fac x) + 1)) as [->|Ne].
      + rewrite upd_same. split; [reflexivity|]. exists o. auto.
      + rewrite upd_other by exact Ne. apply Px. lia.
    - enough (X : sinv N w' /\ forall n v, In n (map o_node (n_origins N)) -> In v (w_oq w' n) -> v_org (w_veh w' v) = n) by apply X.
      refine (release_all_ind (fun x => sinv N x /\ forall n v, In n (map o_node (n_origins N)) -> In v (w_oq x n) -> v_org (w_veh x v) = n) D cur assign w w' _ _ (conj I O) H); cbv beta.
      + intros x o d Ho Hd [Ix Px] y. assert (Hn : In (o_node o) (map o_node (n_origins N))) by now apply in_map. split; [eapply release_one_sinv; [exact K|exact Hn|exact Ix|reflexivity|reflexivity]|].
        subst y. cbn [set_oq make_veh set_fac set_vehs w_fac w_veh w_oq f_num]. intros n v Hn' Hv.
        assert (Y : In v (w_oq x n) \/ (v = f_num (w_fac x) + 1 /\ n = o_node o)).
        { destruct (Z.eq_dec n (o_node o)) as [->|Ne]; [rewrite upd_same in Hv; apply in_app_or in Hv as [Hv|[Hv|[]]]; auto|rewrite upd_other in Hv by exact Ne; auto]. }
        destruct Y as [Hv'|[-> ->]]; [|now rewrite upd_same]. rewrite upd_other; [auto|]. pose proof (u_o_old N x Ix v n Hn' Hv'). lia.
      + intros x o Ho [Ix Px]. assert (Hn : In (o_node o) (map o_node (n_origins N))) by now apply in_map.
        assert (Sh : Permutation (d_oshuf D (o_node o) (w_oq x (o_node o))) (w_oq x (o_node o))) by (destruct DV as (_ & _ & S & _); apply S).
        split; [apply shuffle_sinv; auto|]. cbn [set_oq w_oq w_veh]. intros n v Hn' Hv. apply Px; auto. destruct (Z.eq_dec n (o_node o)) as [->|Ne]; [rewrite upd_same in Hv|now rewrite upd_other in Hv].
        eapply Permutation_in; eauto. }
  split; [exact RI|].
  enough (X : w_link w' = w_link w /\ w_dq w' = w_dq w /\ w_cc w' = w_cc w /\ w_pt w' = w_pt w /\ f_num (w_fac w) <= f_num (w_fac w') /\ (forall v, v <= f_num (w_fac w) -> w_veh w' v = w_veh w v)).
  { destruct X as (X1 & X2 & X3 & X4 & X5 & X6). repeat (split; [assumption|]). eapply release_all_srel; eauto. }
  refine (release_all_ind (fun x => w_link x = w_link w /\ w_dq x = w_dq w /\ w_cc x = w_cc w /\ w_pt x = w_pt w /\ f_num (w_fac w) <= f_num (w_fac x) /\ (forall v, v <= f_num (w_fac w) -> w_veh x v = w_veh w v)) D cur assign w w' _ _ _ H); cbv beta.
  - intros x o d Ho Hd (X1 & X2 & X3 & X4 & X5 & X6) y. subst y. cbn [set_oq make_veh set_fac set_vehs w_fac w_veh w_oq w_link w_dq w_cc w_pt f_num]. repeat (split; [assumption || lia|]).
    intros v Hv. rewrite upd_other by lia. auto.
  - intros x o Ho X. exact X.
  - split; [reflexivity|]. split; [reflexivity|]. split; [reflexivity|]. split; [reflexivity|]. split; [lia|reflexivity].
Qed.

(** ** between two intervals *)
Record bound (t : Z) (w : world) : Prop := {
  b_r : rinv w;
  b_start : forall v, 1 <= v <= f_num (w_fac w) -> 0 <= v_start (w_veh w v) < t;
  b_link : forall l, In l (n_links N) -> lsafe (n_fs N) (w_link w l);
  b_ctm : forall l cs v, In l (n_links N) -> l_body (w_link w l) = BCtm cs -> In v (inside (l_body (w_link w l)) ++ l_in (w_link w l)) -> v_next (w_veh w v) = Some l;
  b_conn : forall n b, In n (map o_node (n_origins N)) -> In b (n_out N n) -> is_pq (w_link w b) = true;
  b_dq : forall n, In n (n_dests N) -> w_dq w n = [];
  b_time : timely t (w_cc w);
  b_tbl : tbl N pt0 t (w_pt w) }.
(** ** after routing *)
Record ready (t : Z) (w : world) : Prop := {
  rd_r : rinv w;
  rd_new : forall v, 1 <= v <= f_num (w_fac w) -> 0 <= v_start (w_veh w v) < t + 1;
  rd_start : forall l v, In l (n_links N) -> In v (on_link (w_link w l)) -> 0 <= v_start (w_veh w v) < t;
  rd_link : forall l, In l (n_links N) -> lsafe (n_fs N) (w_link w l);
  rd_ctm : forall l cs v, In l (n_links N) -> l_body (w_link w l) = BCtm cs -> In v (inside (l_body (w_link w l)) ++ l_in (w_link w l)) -> v_next (w_veh w v) = Some l;
  rd_conn : forall n b, In n (map o_node (n_origins N)) -> In b (n_out N n) -> is_pq (w_link w b) = true;
  rd_dq : forall n, In n (n_dests N) -> w_dq w n = [];
  rd_time : timely (t + 1) (w_cc w);
  rd_tbl : tbl N pt0 (t + 1) (w_pt w);
  rd_oq : forall n v, In n (map o_node (n_origins N)) -> In v (w_oq w n) -> exists b, In b (n_out N n) /\ v_next (w_veh w v) = Some b;
  rd_fin : forall l v, In l (n_links N) -> In v (l_fin (w_link w l)) ->
       (v_dst (w_veh w v) = n_to N l /\ v_next (w_veh w v) = None) \/
       (v_dst (w_veh w v) <> n_to N l /\ exists b, In b (n_out N (n_to N l)) /\ v_next (w_veh w v) = Some b) }.

Lemma u_inside_fin w v l a : sinv N w -> In l (n_links N) -> In a (n_links N) -> In v (inside (l_body (w_link w l)) ++ l_in (w_link w l)) -> In v (l_fin (w_link w a)) -> False.
Proof.
  intros I Hl Ha A B. assert (A' : In v (on_link (w_link w l))) by (unfold on_link; apply in_or_app; now right).
  assert (B' : In v (on_link (w_link w a))) by (unfold on_link; apply in_or_app; now left). pose proof (u_ll N w I v a l Ha Hl B' A') as ->.
  apply zc_In in A, B. pose proof (zl_ge N w v l Hl) as G. unfold on_link in G. rewrite zc_app in G.
  pose proof (zd_nn N w v). pose proof (zo_nn N w v). pose proof (one_le N w I v). pose proof (zc_nonneg v (arrived w)). unfold zcount in *. lia.
Qed.

Lemma to_ready D t a w : draws_valid D -> 0 <= t -> bound t w ->
  exists w1 w2, release_all N D t a w = Ok w1 /\ update_routing N D t w1 = Ok w2 /\ ready t w2.
Proof.
  intros DV Ht [R ST LS CT CN DQ TM TB]. destruct (release_ok D t a w) as (w1 & E1). destruct (release_rinv D t a w w1 DV R E1) as (R1 & L1 & Q1 & C1 & P1 & F1 & V1 & S1).
  destruct (routing_total N w0 VA D t w1 DV Ht R1) as (w2 & E2 & R2 & TB2 & O2 & FI2 & U2); [now rewrite P1|].
  exists w1, w2. split; [exact E1|]. split; [exact E2|]. pose proof (update_routing_r _ _ _ _ _ E2) as [(Ql & Qo & Qd & Qc & Qf) RR].
  assert (VS : forall v, v_start (w_veh w2 v) = v_start (w_veh w1 v)) by (intros v; apply stat_start, RR).
  pose proof (ri_s _ _ _ R) as I. constructor; auto.
  - intros v Hv. rewrite VS, Qf in *. destruct (Z_le_gt_dec v (f_num (w_fac w))) as [L|G]; [rewrite V1 by exact L; pose proof (ST v ltac:(lia)); lia|].
    rewrite S1; lia.
  - intros l v Hl. rewrite VS, Ql, L1. intros Hv. pose proof (known N w v I (or_intror (or_introl (ex_intro _ l (conj Hl Hv))))) as Kn. rewrite V1 by lia. auto.
  - rewrite Ql, L1. exact LS.
  - intros l cs v Hl. rewrite Ql, L1. intros B Hv. assert (Hon : In v (on_link (w_link w l))) by (unfold on_link; apply in_or_app; now right).
    pose proof (known N w v I (or_intror (or_introl (ex_intro _ l (conj Hl Hon))))) as Kn. rewrite U2.
    + rewrite V1 by lia. eauto.
    + intros n Hn C. eapply (u_ol N w1 (ri_s _ _ _ R1) v n l); eauto. now rewrite L1.
    + intros a' Ha C. rewrite L1 in C. eapply u_inside_fin; [exact I|exact Hl|exact Ha|exact Hv|exact C].
  - rewrite Ql, L1. exact CN.
  - rewrite Qd, Q1. exact DQ.
  - rewrite Qc, C1. eapply timely_mono; [|exact TM]. lia.
Qed.

(** ** during the node updates *)
Section Nodes.
Context (D : draws) (DV : draws_valid D) (t : Z) (Ht : 0 <= t) (w2 : world) (RD : ready t w2).
Record minv (done : list (Z * nkind)) (w : world) : Prop := {
  m_s : sinv N w; m_keep : wkeep w2 w; m_like : forall l, link_like (w_link w2 l) (w_link w l);
  m_sub : forall l, subseq (l_fin (w_link w l)) (l_fin (w_link w2 l));
  m_oq : forall n, subseq (w_oq w n) (w_oq w2 n);
  m_time : timely (t + 1) (w_cc w);
  m_in : forall l, In l (n_links N) -> l_in (w_link w l) = l_in (w_link w2 l) \/
    exists n k, In (n, k) done /\ In l (n_out N n) /\ exists arr, l_in (w_link w l) = l_in (w_link w2 l) ++ arr /\
      (is_pq (w_link w2 l) = false -> forall s, link_supply (w_link w2 l) = Ok s -> (inject_Z (Zlen arr) <= s * n_fs N)%Q);
  m_dq : forall n v, In n (n_dests N) -> In v (w_dq w n) -> v_dst (w_veh w2 v) = n /\ 0 <= v_start (w_veh w2 v) < t;
  m_next : forall l v, In v (l_in (w_link w l)) -> In v (l_in (w_link w2 l)) \/ v_next (w_veh w2 v) = Some l }.
Lemma minv_start : minv [] w2.
Proof.
  constructor; auto using wkeep_refl, subseq_refl.
  - apply (rd_r _ _ RD). - intros l. split; reflexivity. - apply (rd_time _ _ RD).
  - intros n v Hn C. rewrite (rd_dq _ _ RD n Hn) in C. destruct C.
Qed.
Lemma m_supply done w l : minv done w -> In l (n_links N) -> exists s, link_supply (w_link w l) = Ok s /\ (0 <= s)%Q.
Proof.
  intros M Hl. destruct (m_like _ _ M l) as [A B]. rewrite (lsafe_like (w_link w2 l)) by assumption. eapply lsafe_supply, (rd_link _ _ RD), Hl.
Qed.
Lemma m_veh done w v : minv done w -> v_next (w_veh w v) = v_next (w_veh w2 v).
Proof. intros M. destruct (m_keep _ _ M) as (_ & _ & _ & V). apply (V v). Qed.
Lemma m_ready done rest w n k : minv done w -> n_nodes N = done ++ (n, k) :: rest ->
  match k with NFwj => junction_ready N D t n w | NOrigin => origin_ready N D t n w | NDest => exists w', node_evolve N D t w (n, k) = Ok w' | NGrj => False end.
Proof.
  intros M E. assert (Hin : In (n, k) (n_nodes N)) by (rewrite E; apply in_or_app; right; now left).
  pose proof M as [I KP LK SB OQ TM MI DQ MN].
  assert (HS : supplies_ok N w n) by (intros b Hb; eapply m_supply; eauto using no_out).
  assert (HF : forall a v, In a (n_in N n) -> In v (l_fin (w_link w a)) -> In a (n_links N) /\ n_to N a = n /\ In v (l_fin (w_link w2 a))).
  { intros a v Ha Hv. destruct (no_in N K n a Ha) as [A B]. split; [exact A|]. split; [exact B|]. eapply subseq_In; [apply SB|exact Hv]. }
  destruct (va_kinds _ _ VA n k Hin) as [-> | [-> | ->]].
  - constructor; auto; try apply K; try apply I.
    intros a Ha v Hv. destruct (HF a v Ha Hv) as (A & B & C). rewrite (m_veh _ _ v M). destruct (rd_fin _ _ RD a v A C) as [[X _]|(_ & b & X & Y)]; [exfalso|rewrite B in X; eauto].
    assert (Hon : In v (on_link (w_link w2 a))) by (unfold on_link; apply in_or_app; now left). pose proof (rd_r _ _ RD) as R2.
    pose proof (known N w2 v (ri_s _ _ _ R2) (or_intror (or_introl (ex_intro _ a (conj A Hon))))) as Kn. destruct (trip_dest N w0 VA _ (ri_trip _ _ _ R2 v Kn)) as (_ & Z1 & _).
    rewrite X, B in Z1. pose proof (kind_unique N w0 VA _ _ _ Z1 Hin). discriminate.
  - constructor; auto; try apply K.
    intros v Hv. rewrite (m_veh _ _ v M). apply (rd_oq _ _ RD); [now apply (no_orig_nodes N K)|]. eapply subseq_In; [apply OQ|exact Hv].
  - cbn [node_evolve]. apply dest_total; auto; [apply K|]. intros a v Ha Hv. destruct (HF a v Ha Hv) as (A & B & C). rewrite (m_veh _ _ v M).
    destruct (rd_fin _ _ RD a v A C) as [[_ X]|(_ & b & X & Y)]; [exact X|exfalso]. rewrite B in X. destruct (va_dest _ _ VA n) as [_ Z1]; [now apply (no_dest_nodes N K)|]. rewrite Z1 in X. destruct X.
Qed.
(** a node only appends to its outgoing links *)
Lemma node_in_only n k w w' : In (n, k) (n_nodes N) -> k <> NGrj -> sinv N w -> node_evolve N D t w (n, k) = Ok w' -> forall l, ~ In l (n_out N n) -> l_in (w_link w' l) = l_in (w_link w l).
Proof.
  intros Hin Hk I H l Hl. destruct (no_around N K n) as (NI & NO & DJ). destruct k; [|congruence| |].
  - cbn [node_evolve] in H. destruct (junction_passage N D t n w w' _ (no_around N K n) DV (i_paired _ _ I) H) as (pass & P).
    destruct (in_dec Z.eq_dec l (n_in N n)) as [Il|Nl]; [rewrite (fp_in_only _ _ _ _ _ P l Il); reflexivity|now rewrite (fp_others _ _ _ _ _ P l Nl Hl)].
  - destruct (origin_spec0 N D t n w w' (no_fs N K) NO DV H) as (kf & _ & (P & _) & _). now rewrite (os_others _ _ _ _ _ P l Hl).
  - cbn [node_evolve] in H. pose proof (dest_ok _ _ _ _ _ _ NI H) as [_ _ _ _ _ Dl Dlo _ _ _ _ _ _].
    destruct (in_dec Z.eq_dec l (n_in N n)) as [Il|Nl]; [rewrite (Dl l Il); reflexivity|now rewrite Dlo].
Qed.
Lemma m_step done rest w w' n k : minv done w -> n_nodes N = done ++ (n, k) :: rest -> node_evolve N D t w (n, k) = Ok w' -> minv (done ++ [(n, k)]) w'.
Proof.
  intros M E H. pose proof (m_ready done rest w n k M E) as RDY. assert (Hin : In (n, k) (n_nodes N)) by (rewrite E; apply in_or_app; right; now left).
  pose proof M as [I KP LK SB OQ TM MI DQ MN].
  destruct (node_neff N D t w w' (n, k) K DV (i_paired _ _ I) Hin H) as (e & lv & o & d & J).
  assert (NK : k <> NGrj) by (intros ->; exact RDY).
  assert (KP' : wkeep w2 w') by (eapply wkeep_trans; [exact KP|apply (ne_keep _ _ _ _ _ _ _ _ J)]).
  constructor.
  - eapply neff_sinv; eauto.
  - exact KP'.
  - intros l. destruct (LK l) as [A B], (ne_like _ _ _ _ _ _ _ _ J l) as [A' B']. split; congruence.
  - intros l. eapply subseq_trans; [apply (ne_sub _ _ _ _ _ _ _ _ J)|apply SB].
  - intros n'. eapply subseq_trans; [apply (ne_oq_sub _ _ _ _ _ _ _ _ J)|apply OQ].
  - destruct k; [|congruence| |]; cbn [node_evolve] in H.
    + eapply junction_timely; [exact Ht|apply (i_paired _ _ I)|exact TM|exact H]. + eapply origin_timely; eauto. + eapply dest_timely; eauto.
  - intros l Hl. destruct (in_dec Z.eq_dec l (n_out N n)) as [Io|No].
    + (* nobody else feeds this link *)
      assert (Same : l_in (w_link w l) = l_in (w_link w2 l)).
      { destruct (MI l Hl) as [X|(n' & k' & Dn & Io' & _)]; [exact X|exfalso]. pose proof (no_from N K _ _ _ Io Io') as ->.
        pose proof (no_nodes N K) as ND. rewrite E, map_app in ND. simpl in ND. apply NoDup_remove_2 in ND. apply ND. apply in_or_app. left. change n' with (fst (n', k')). now apply in_map. }
      right. exists n, k. split; [apply in_or_app; right; now left|]. split; [exact Io|]. destruct k; [|congruence| |].
      * destruct (m_supply _ _ l M Hl) as (s & Es & _). destruct (C07_junction_capacity N D t n w w' RDY H l s Io Es) as (new & En & Ln & _).
        exists new. rewrite <- Same. split; [exact En|]. intros _ s' Es'. destruct (LK l) as [A B]. rewrite (lsafe_like (w_link w2 l)) in Es by assumption. rewrite Es in Es'. apply Ok_inj in Es' as <-. exact Ln.
      * exists (e l). rewrite <- Same. split; [apply (ne_in _ _ _ _ _ _ _ _ J)|]. intros C. exfalso. rewrite (rd_conn _ _ RD n l (no_orig_nodes N K n Hin) Io) in C. discriminate.
      * exfalso. destruct (va_dest _ _ VA n (no_dest_nodes N K n Hin)) as [_ C]. rewrite C in Io. destruct Io.
    + rewrite (node_in_only n k w w' Hin NK I H l No). destruct (MI l Hl) as [X|(n' & k' & Dn & X)]; [now left|right]. exists n', k'. split; [apply in_or_app; now left|exact X].
  - intros n' v Hn Hv. rewrite (ne_dq _ _ _ _ _ _ _ _ J) in Hv. apply in_app_or in Hv as [Hv|Hv]; [auto|].
    destruct (ne_di_next _ _ _ _ _ _ _ _ J n' v Hv) as (Nx & a & La & To). pose proof (proj1 (no_in N K _ _ (ne_leave_in _ _ _ _ _ _ _ _ J a v La))) as Ha.
    assert (Hf : In v (l_fin (w_link w a))) by (eapply Permutation_in; [symmetry; apply (ne_fin _ _ _ _ _ _ _ _ J)|apply in_or_app; now left]).
    assert (Hf2 : In v (l_fin (w_link w2 a))) by (eapply subseq_In; [apply (SB a)|exact Hf]). rewrite (m_veh _ _ v M) in Nx. split.
    + destruct (rd_fin _ _ RD a v Ha Hf2) as [[X _]|(_ & b & _ & X)]; congruence.
    + apply (rd_start _ _ RD a v Ha). unfold on_link. apply in_or_app. now left.
  - intros l v Hv. rewrite (ne_in _ _ _ _ _ _ _ _ J) in Hv. apply in_app_or in Hv as [Hv|Hv]; [auto|]. right. rewrite <- (m_veh _ _ v M). eapply ne_enter_next; eauto.
Qed.
Lemma nodes_safe : forall rest done w, n_nodes N = done ++ rest -> minv done w ->
  (exists w', foldM (node_evolve N D t) w rest = Ok w' /\ minv (n_nodes N) w') \/ foldM (node_evolve N D t) w rest = Err EFuel.
Proof.
  induction rest as [|[n k] rest IH]; intros done w E M; cbn [foldM].
  - left. exists w. split; [reflexivity|]. rewrite E, app_nil_r. exact M.
  - pose proof (m_ready done rest w n k M E) as R. destruct (node_evolve N D t w (n, k)) as [w'|er] eqn:X.
    + cbn [bind]. apply (IH (done ++ [(n, k)])); [rewrite E, <- app_assoc; reflexivity|]. eapply m_step; eauto.
    + right. cbn [bind]. f_equal. destruct k; [|contradiction| |].
      * eapply node_fwj_total; eauto.
      * exfalso. destruct (C09_origin_never_fails N D t n w R) as (w' & C). congruence.
      * exfalso. destruct R as (w' & C). congruence.
Qed.
End Nodes.
End Safe.
