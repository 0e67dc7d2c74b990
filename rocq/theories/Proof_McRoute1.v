(** A two-class state seen through the single-class base classes, and what one node
    update does to it. *)
From Verif Require Import Base Base_lemmas Model_Num Proof_Num Spec_Path Proof_Path Model_CC Spec_CC Proof_CC Model_Path Model_Link Spec_Link Spec_Node
  Proof_Link Proof_Link3 Proof_Link4 Proof_Link5 Model_World Model_Node Proof_Node Proof_Node3 Model_Sim Spec_Sim Proof_Sim1 Proof_Sim2 Proof_Sim3 Proof_Sim4 Spec_Route Proof_Sim7
  Model_McLink Spec_McLink Proof_McLink Model_McNode Spec_McNode Proof_McNode Proof_McNode2 Proof_McNode3 Proof_McNode4 Proof_McNode5 Model_McSim Spec_McSim Proof_McSim1 Proof_McSim2.
Local Open Scope Z_scope.

Definition shadow_par : lparam := {| p_kind := KLq; p_lanes := 0; p_len := 0; p_hold := 0; p_flow := 0; p_ffs := 0; p_ut := 0; p_fs := 0 |}.
Definition shadow_link (l : mlink) : link := {| l_par := shadow_par; l_in := ml_in l; l_fin := ml_fin l; l_body := BLq (minall (ml_body l)) 0 |}.
Definition shadow (w : mworld) : world :=
  {| w_veh := mw_veh w; w_link := fun l => shadow_link (mw_link w l); w_oq := mw_oq w; w_dq := mw_dq w;
     w_cc := {| cc_Nin := fun _ => None; cc_Nout := fun _ => None; cc_Tin := fun _ => None; cc_Tout := fun _ => None |};
     w_fac := mw_fac w; w_trk := mw_trk w; w_pt := mw_pt w |}.
Definition skind (k : mnkind) : nkind := match k with MNFwj => NFwj | MNOrigin => NOrigin | MNDest => NDest end.
Definition sorigin (o : morigin) : origin :=
  {| o_node := og_node o; o_demand := og_demand o false ++ og_demand o true; o_ratio := fun _ => None |}.
Definition snet (M : mnet) : net :=
  {| n_fs := mn_fs M; n_nodes := map (fun x => (fst x, skind (snd x))) (mn_nodes M); n_out := mn_out M; n_in := mn_in M; n_links := mn_links M; n_to := mn_to M;
     n_origins := map sorigin (mn_origins M); n_dests := mn_dests M; n_freq := mn_freq M; n_total_assign := mn_total_assign M;
     n_start_assign := mn_start_assign M; n_total_int := mn_total_int M; n_routing := n_routing (seen_net M); n_rfreq := mn_rfreq M; n_rlen := mn_rlen M |}.

Lemma snet_origins M : map o_node (n_origins (snet M)) = map og_node (mn_origins M).
Proof. cbn [snet n_origins]. rewrite map_map. reflexivity. Qed.
Lemma snet_node M n k : In (n, k) (n_nodes (snet M)) -> exists k', In (n, k') (mn_nodes M) /\ k = skind k'.
Proof. cbn [snet n_nodes]. intros H. apply in_map_iff in H as ([n' k'] & E & H). cbn [fst snd] in E. injection E as -> <-. eauto. Qed.
Lemma snet_ok M : mnet_ok M -> net_ok (snet M).
Proof.
  intros [A1 A2 A3 A4 A5 A6 A7 A8 A9 A10 A11]. constructor; try assumption.
  - cbn [snet n_nodes]. rewrite map_map. exact A2.
  - rewrite snet_origins. exact A4.
  - intros n H. rewrite snet_origins. apply snet_node in H as (k & H & E). destruct k; try discriminate. auto.
  - intros n H. apply snet_node in H as (k & H & E). destruct k; try discriminate. apply A11, H.
Qed.
Lemma on_shadow l : on_link (shadow_link l) = mall l.
Proof. reflexivity. Qed.
Lemma shadow_count M w v : zcount (snet M) (shadow w) v = mzcount M w v.
Proof. unfold zcount, mzcount, zo, mzo. rewrite snet_origins. reflexivity. Qed.
Lemma shadow_sinv M w : minv M w -> sinv (snet M) (shadow w).
Proof.
  intros [H1 H2 H3 H4 H5 H6 H7 H8 H9 _ _ _ _ _]. constructor; auto.
  - intros l. cbn. tauto.
  - intros l _. exact I.
  - intros v. rewrite shadow_count. apply H2.
  - intros v. rewrite shadow_count. apply H3.
  - intros l c c' _ C. discriminate.
Qed.

Section Node.
Context (M : mnet) (K : mnet_ok M).
Let N := snet M.
Lemma sbump t x : bump t None None x.
Proof. exact I. Qed.
Lemma plans_keep w w' : same_plans w w' -> wkeep (shadow w) (shadow w').
Proof.
  intros (_ & _ & F & _ & T & P & V). split; [exact F|]. split; [exact T|]. split; [exact P|]. intros v. destruct (V v) as (B1 & B2 & B3 & B4 & B5 & B6 & B7 & B8).
  repeat split; assumption.
Qed.

Lemma junction_shadow n shuf pcu t w w' : (forall b, shuffle (shuf b)) ->
  mjunction_evolve (mn_fs M) pcu (mn_in M n) (mn_out M n) shuf t w = Ok w' ->
  exists e lv, neff N t (shadow w) (shadow w') e lv (fun _ => []) (fun _ => []).
Proof.
  intros Hs H. destruct (junction_meff M K n shuf pcu t w w' Hs H) as (e0 & lv0 & [_ _ _ _ _ _ CT]).
  set (ins := mn_in M n) in *. set (outs := mn_out M n) in *. pose proof (mno_around M K n) as A. fold ins outs in A.
  assert (P : forall b, Permutation (shuf b ins) ins) by (intros b; apply Hs). pose proof (mno_fs M K) as Hf.
  destruct (mjunction_ok _ _ _ _ _ _ _ _ Hf A P H) as (supply & w1 & Hsup & _ & Mv & R).
  pose proof (junction_passage _ _ _ _ _ _ _ _ _ _ Hf A P Mv R) as PA.
  pose proof (junction_plans _ _ _ _ _ _ _ _ _ _ Hf A Mv R) as PL.
  pose proof (junction_cur _ _ _ _ _ _ _ _ _ _ Hf A P Mv R) as CU.
  assert (PN : forall a b v, In v (mtaken pcu w (a, b, (mflow (mn_fs M) pcu w ins supply a b * mn_fs M)%Q)) -> v_next (mw_veh w v) = Some b /\ In v (ml_fin (mw_link w a))).
  { intros a b v Hv. eapply pass_next; eauto. }
  match type of PA with mpassage _ _ _ _ ?p => set (pass := p) in * end.
  destruct PA as [Ff Fs Fp Fe Fi Fo Fx [Fq Fd]].
  set (e := onl outs (fun b => skipn (length (ml_in (mw_link w b))) (ml_in (mw_link w' b)))).
  set (lv := onl ins (fun a => concat (map (pass a) outs))).
  assert (Ee : forall b, In b outs -> ml_in (mw_link w' b) = ml_in (mw_link w b) ++ e b /\ forall v, In v (e b) <-> exists a, In a ins /\ In v (pass a b)).
  { intros b Hb. destruct (Fe b Hb) as (order & Po & E). unfold e. rewrite onl_in by exact Hb.
    assert (X : skipn (length (ml_in (mw_link w b))) (ml_in (mw_link w' b)) = concat (map (fun a => pass a b) order)) by (rewrite E, skipn_app, skipn_all, Nat.sub_diag; reflexivity).
    rewrite X. split; [exact E|]. intros v. rewrite in_concat. split.
    - intros (y & Hy & Hv). apply in_map_iff in Hy as (a & <- & Ha). exists a. split; [eapply Permutation_in; eauto|exact Hv].
    - intros (a & Ha & Hv). exists (pass a b). split; [|exact Hv]. apply in_map_iff. exists a. split; [reflexivity|]. eapply Permutation_in; [symmetry; exact Po|exact Ha]. }
  assert (Eb : forall b v, In v (e b) -> In b outs /\ exists a, In a ins /\ In v (pass a b)).
  { intros b v Hv. destruct (dec_in b outs) as [Hb|Hb]; [|unfold e in Hv; rewrite onl_out in Hv by exact Hb; destruct Hv]. split; [exact Hb|]. now apply Ee. }
  assert (El : forall a v, In v (lv a) -> In a ins /\ exists b, In b outs /\ In v (pass a b)).
  { intros a v Hv. destruct (dec_in a ins) as [Ha|Ha]; [|unfold lv in Hv; rewrite onl_out in Hv by exact Ha; destruct Hv]. split; [exact Ha|].
    unfold lv in Hv. rewrite onl_in in Hv by exact Ha. apply in_concat in Hv as (y & Hy & Hv). apply in_map_iff in Hy as (b & <- & Hb). eauto. }
  assert (Lv : forall a b v, In a ins -> In b outs -> In v (pass a b) -> In v (lv a)).
  { intros a b v Ha Hb Hv. unfold lv. rewrite onl_in by exact Ha. apply in_concat. exists (pass a b). split; [now apply in_map|exact Hv]. }
  pose proof A as (NI & NO & DJ).
  exists e, lv. constructor; cbn [shadow w_link w_oq w_dq w_veh shadow_link l_in l_fin w_cc cc_Nin cc_Nout].
  - apply plans_keep, PL.
  - intros l. split; [reflexivity|]. change (BLq (minall (ml_body (mw_link w' l))) 0 = BLq (minall (ml_body (mw_link w l))) 0). destruct (dec_in l ins) as [Hi|Hi]; [rewrite (Fi l Hi); reflexivity|].
    destruct (dec_in l outs) as [Ho|Ho]; [rewrite (Fo l Ho); reflexivity|]. now rewrite Fx.
  - intros l. destruct (dec_in l outs) as [Ho|Ho]; [now apply Ee|]. unfold e. rewrite (onl_out _ _ _ Ho), app_nil_r.
    destruct (dec_in l ins) as [Hi|Hi]; [rewrite (Fi l Hi); reflexivity|]. now rewrite Fx.
  - intros l. unfold lv. destruct (dec_in l ins) as [Hi|Hi]; [rewrite onl_in by exact Hi; now apply Fp|]. rewrite (onl_out _ _ _ Hi).
    destruct (dec_in l outs) as [Ho|Ho]; [rewrite (Fo l Ho); apply Permutation_refl|]. rewrite Fx by assumption. apply Permutation_refl.
  - intros l. destruct (dec_in l ins) as [Hi|Hi]; [now apply Fs|]. destruct (dec_in l outs) as [Ho|Ho]; [rewrite (Fo l Ho); apply subseq_refl|]. rewrite Fx by assumption. apply subseq_refl.
  - intros n'. rewrite Fq. apply Permutation_refl.
  - intros n'. rewrite Fq. apply subseq_refl.
  - intros n'. now rewrite Fd, app_nil_r.
  - intros l v Hv. apply Eb in Hv as (Hl & a & Ha & Hv). apply (PN a l v Hv).
  - intros l v Hv. apply Eb in Hv as (Hl & a & Ha & Hv). split; [apply (mno_out M K n l Hl)|]. right. exists a. split; [eauto|].
    cbn [snet N n_out n_to]. rewrite (proj2 (mno_in M K n a Ha)). exact Hl.
  - intros n' v [].
  - intros l v Hv. apply Eb in Hv as (Hl & a & Ha & Hv). exact (proj1 (CU v) a l Ha Hl Hv).
  - intros n' v [].
  - intros v Hv _. apply (proj2 (CU v)). intros a b Ha Hb C. apply (Hv b). apply Ee; eauto.
  - intros l. apply sbump.
  - intros l. apply sbump.
  - intros v. transitivity (mzcount M w' v); [exact (shadow_count M w' v)|]. rewrite CT. symmetry. exact (shadow_count M w v).
  - intros l v Hv. left. apply El in Hv as (Ha & b & Hb & Hv). exists b. apply Ee; eauto.
  - intros n' v [].
  - intros l v Hv. apply El in Hv as (Ha & _). cbn [snet N n_in n_to]. now rewrite (proj2 (mno_in M K n l Ha)).
  - intros n' v [].
  - intros n' v [].
Qed.

Lemma otake_in w n bk v : In v (otake w n bk) -> v_next (mw_veh w v) = Some (fst bk) /\ In v (mw_oq w n).
Proof.
  unfold otake. intros H. assert (I : In v (filter (mgoes w (fst bk)) (mw_oq w n))) by (destruct bk; cbn [fst snd] in *; eapply in_firstn; exact H).
  apply filter_In in I as [I1 I2]. split; [now apply mgoes_next|exact I1].
Qed.
Lemma origin_shadow n r t w w' : In n (map og_node (mn_origins M)) -> (forall b, unit_draw (r b)) ->
  morigin_evolve (mn_fs M) (mn_out M n) r t n w = Ok w' ->
  exists e o, neff N t (shadow w) (shadow w') e (fun _ => []) o (fun _ => []).
Proof.
  intros Hn Hr H. destruct (origin_meff M K n r t w w' Hn Hr H) as (e0 & lv0 & [_ _ _ _ _ _ CT]).
  set (outs := mn_out M n) in *. pose proof (mno_around M K n) as (_ & NO & _). fold outs in NO.
  apply morigin_ok in H as (kf & Hk & O); [|apply (mno_fs M K)|intros b; apply Hr|exact NO].
  destruct O as [W1 I1 D1 O1 S1 P1 Q1 C1 L1 Y1 M1 U1 A1 A2 B1 B1'].
  assert (IK : forall b, In b outs -> In (b, kf b) (map (fun b => (b, kf b)) outs)) by (intros b Hb; apply in_map_iff; eauto).
  assert (NK : forall l, ~ In l outs -> ~ In l (map fst (map (fun b => (b, kf b)) outs))) by (intros l Hl; rewrite map_map; cbn [fst]; now rewrite map_id).
  set (all := concat (map (otake w n) (map (fun b => (b, kf b)) outs))) in *.
  set (e := onl outs (fun b => otake w n (b, kf b))). set (o := onl [n] (fun _ => all)).
  assert (Al : forall v, In v all <-> exists b, In b outs /\ In v (otake w n (b, kf b))).
  { intros v. unfold all. rewrite map_map, in_concat. split.
    - intros (y & Hy & Hv). apply in_map_iff in Hy as (b & <- & Hb). eauto.
    - intros (b & Hb & Hv). exists (otake w n (b, kf b)). split; [|exact Hv]. apply in_map_iff. eauto. }
  assert (Eb : forall b v, In v (e b) -> In b outs /\ In v (otake w n (b, kf b))).
  { intros b v Hv. unfold e in Hv. destruct (dec_in b outs) as [Hb|Hb]; [rewrite onl_in in Hv by exact Hb; auto|]. rewrite onl_out in Hv by exact Hb. destruct Hv. }
  assert (Eo : forall n' v, In v (o n') -> n' = n /\ In v all).
  { intros n' v Hv. unfold o in Hv. destruct (dec_in n' [n]) as [Hb|Hb]; [rewrite onl_in in Hv by exact Hb; destruct Hb as [->|[]]; auto|]. rewrite onl_out in Hv by exact Hb. destruct Hv. }
  assert (On : o n = all) by (unfold o; rewrite onl_in by (now left); reflexivity).
  exists e, o. constructor; cbn [shadow w_link w_oq w_dq w_veh shadow_link l_in l_fin w_cc cc_Nin cc_Nout].
  - apply plans_keep, W1.
  - intros l. split; [reflexivity|]. change (BLq (minall (ml_body (mw_link w' l))) 0 = BLq (minall (ml_body (mw_link w l))) 0). destruct (dec_in l outs) as [Ho|Ho]; [rewrite (L1 _ _ (IK l Ho)); reflexivity|]. now rewrite (M1 l (NK l Ho)).
  - intros l. unfold e. destruct (dec_in l outs) as [Ho|Ho]; [rewrite (L1 _ _ (IK l Ho)), onl_in by exact Ho; reflexivity|]. rewrite (M1 l (NK l Ho)), onl_out, app_nil_r by exact Ho. reflexivity.
  - intros l. destruct (dec_in l outs) as [Ho|Ho]; [rewrite (L1 _ _ (IK l Ho)); apply Permutation_refl|]. rewrite (M1 l (NK l Ho)). apply Permutation_refl.
  - intros l. destruct (dec_in l outs) as [Ho|Ho]; [rewrite (L1 _ _ (IK l Ho)); apply subseq_refl|]. rewrite (M1 l (NK l Ho)). apply subseq_refl.
  - intros n'. destruct (Z.eq_dec n' n) as [->|Ne].
    + rewrite On. apply perm_cnt. intros v. rewrite cnt_app. apply C1.
    + unfold o. rewrite onl_out by (intros [E|[]]; congruence). rewrite O1 by exact Ne. apply Permutation_refl.
  - intros n'. destruct (Z.eq_dec n' n) as [->|Ne]; [exact S1|]. rewrite O1 by exact Ne. apply subseq_refl.
  - intros n'. now rewrite D1, app_nil_r.
  - intros l v Hv. apply Eb in Hv as (Hl & Hv). exact (proj1 (otake_in _ _ _ _ Hv)).
  - intros l v Hv. apply Eb in Hv as (Hl & Hv). split; [apply (mno_out M K n l Hl)|]. left. exists n. split; [|exact Hl]. rewrite On. apply Al. eauto.
  - intros n' v [].
  - intros l v Hv. apply Eb in Hv as (Hl & Hv). rewrite U1. replace (memb v all) with true; [exact (proj1 (otake_in _ _ _ _ Hv))|].
    symmetry. apply memb_In, Al. eauto.
  - intros n' v [].
  - intros v Hv _. rewrite U1. replace (memb v all) with false; [reflexivity|]. symmetry. apply memb_false. intros C. apply Al in C as (b & Hb & C).
    apply (Hv b). unfold e. now rewrite onl_in.
  - intros l. apply sbump.
  - intros l. apply sbump.
  - intros v. transitivity (mzcount M w' v); [exact (shadow_count M w' v)|]. rewrite CT. symmetry. exact (shadow_count M w v).
  - intros l v [].
  - intros n' v Hv. apply Eo in Hv as (-> & Hv). apply Al in Hv as (b & Hb & Hv). exists b. unfold e. now rewrite onl_in.
  - intros l v [].
  - intros n' v Hv. apply Eo in Hv as (-> & Hv). unfold N. now rewrite snet_origins.
  - intros n' v [].
Qed.

Lemma dest_shadow n t w w' : In n (mn_dests M) -> mdest_evolve (mn_fs M) (mn_in M n) t n w = Ok w' ->
  exists lv d, neff N t (shadow w) (shadow w') (fun _ => []) lv (fun _ => []) d.
Proof.
  intros Hn H. destruct (dest_meff M K n t w w' Hn H) as (e0 & lv0 & [_ _ _ _ _ _ CT]).
  set (ins := mn_in M n) in *. pose proof (mno_around M K n) as (NI & _ & _). fold ins in NI.
  apply mdest_ok in H; [|apply (mno_fs M K)|exact NI]. destruct H as [W1 I1 O1 D1 E1 X1 Y1 L1 M1 U1 A1 A2 B1 B1'].
  set (all := concat (map (fun a => ml_fin (mw_link w a)) ins)) in *.
  set (lv := onl ins (fun a => ml_fin (mw_link w a))). set (d := onl [n] (fun _ => all)).
  assert (Al : forall v, In v all <-> exists a, In a ins /\ In v (ml_fin (mw_link w a))).
  { intros v. unfold all. rewrite in_concat. split.
    - intros (y & Hy & Hv). apply in_map_iff in Hy as (b & <- & Hb). eauto.
    - intros (b & Hb & Hv). exists (ml_fin (mw_link w b)). split; [|exact Hv]. apply in_map_iff. eauto. }
  assert (El : forall b v, In v (lv b) -> In b ins /\ In v (ml_fin (mw_link w b))).
  { intros b v Hv. unfold lv in Hv. destruct (dec_in b ins) as [Hb|Hb]; [rewrite onl_in in Hv by exact Hb; auto|]. rewrite onl_out in Hv by exact Hb. destruct Hv. }
  assert (Ed : forall n' v, In v (d n') -> n' = n /\ In v all).
  { intros n' v Hv. unfold d in Hv. destruct (dec_in n' [n]) as [Hb|Hb]; [rewrite onl_in in Hv by exact Hb; destruct Hb as [->|[]]; auto|]. rewrite onl_out in Hv by exact Hb. destruct Hv. }
  assert (Dn : d n = all) by (unfold d; rewrite onl_in by (now left); reflexivity).
  exists lv, d. constructor; cbn [shadow w_link w_oq w_dq w_veh shadow_link l_in l_fin w_cc cc_Nin cc_Nout].
  - apply plans_keep, W1.
  - intros l. split; [reflexivity|]. change (BLq (minall (ml_body (mw_link w' l))) 0 = BLq (minall (ml_body (mw_link w l))) 0). destruct (dec_in l ins) as [Ho|Ho]; [rewrite (L1 l Ho); reflexivity|]. now rewrite (M1 l Ho).
  - intros l. rewrite app_nil_r. destruct (dec_in l ins) as [Ho|Ho]; [rewrite (L1 l Ho); reflexivity|]. now rewrite (M1 l Ho).
  - intros l. unfold lv. destruct (dec_in l ins) as [Ho|Ho].
    + rewrite (L1 l Ho), onl_in by exact Ho. unfold ml_set_fin, with_body. cbn [ml_fin]. rewrite app_nil_r. apply Permutation_refl.
    + rewrite (M1 l Ho), onl_out by exact Ho. apply Permutation_refl.
  - intros l. destruct (dec_in l ins) as [Ho|Ho]; [rewrite (L1 l Ho); apply ss_nil|]. rewrite (M1 l Ho). apply subseq_refl.
  - intros n'. rewrite O1. apply Permutation_refl.
  - intros n'. rewrite O1. apply subseq_refl.
  - intros n'. destruct (Z.eq_dec n' n) as [->|Ne]; [rewrite Dn; exact E1|]. rewrite D1 by exact Ne. unfold d. rewrite onl_out by (intros [C|[]]; congruence). now rewrite app_nil_r.
  - intros l v [].
  - intros l v [].
  - intros n' v Hv. apply Ed in Hv as (-> & Hv). apply Al in Hv as (a & Ha & Hv). split; [eauto|]. exists a. split; [unfold lv; now rewrite onl_in|].
    exact (proj2 (mno_in M K n a Ha)).
  - intros l v [].
  - intros n' v Hv. apply Ed in Hv as (-> & Hv). rewrite U1. now rewrite (proj2 (memb_In _ _) Hv).
  - intros v _ Hv. rewrite U1. replace (memb v all) with false; [reflexivity|]. symmetry. apply memb_false. intros C. apply (Hv n). now rewrite Dn.
  - intros l. apply sbump.
  - intros l. apply sbump.
  - intros v. transitivity (mzcount M w' v); [exact (shadow_count M w' v)|]. rewrite CT. symmetry. exact (shadow_count M w v).
  - intros l v Hv. right. apply El in Hv as (Ha & Hv). cbn [snet N n_to]. rewrite (proj2 (mno_in M K n l Ha)), Dn. apply Al. eauto.
  - intros n' v [].
  - intros l v Hv. apply El in Hv as (Ha & _). cbn [snet N n_in n_to]. now rewrite (proj2 (mno_in M K n l Ha)).
  - intros n' v [].
  - intros n' v Hv. apply Ed in Hv as (-> & _). exact Hn.
Qed.

Lemma node_shadow D t w w' nk : mdraws_valid D -> In nk (mn_nodes M) ->
  mnode_evolve (mn_fs M) (mn_pcu M) (mn_out M) (mn_in M) (r_node D) t w nk = Ok w' -> exists e lv o d, neff N t (shadow w) (shadow w') e lv o d.
Proof.
  intros (_ & _ & _ & Ho & Hs & _) Hin H. destruct nk as [n []]; cbn [mnode_evolve] in H.
  - destruct (junction_shadow n _ _ _ _ _ (fun b => Hs n b) H) as (e & lv & J). eauto.
  - destruct (origin_shadow n _ _ _ _ (mno_orig_nodes M K n Hin) (fun b => Ho n b) H) as (e & o & J). eauto.
  - destruct (dest_shadow n _ _ _ (mno_dest_nodes M K n Hin) H) as (lv & d & J). eauto.
Qed.
End Node.
