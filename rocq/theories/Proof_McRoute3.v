(** The route invariant along a two-class run. *)
From Verif Require Import Base Base_lemmas Model_Num Proof_Num Spec_Path Proof_Path Model_CC Spec_CC Proof_CC Model_Path Model_Link Spec_Link Spec_Node
  Proof_Link Proof_Link3 Proof_Link4 Proof_Link5 Model_World Model_Node Proof_Node Proof_Node3 Model_Sim Spec_Sim Proof_Sim1 Proof_Sim2 Proof_Sim3 Proof_Sim4 Proof_Sim5 Proof_Sim6 Spec_Route Proof_Sim7
  Model_McLink Spec_McLink Proof_McLink Model_McNode Spec_McNode Proof_McNode Model_McSim Spec_McSim Proof_McSim1 Proof_McSim2 Spec_McRoute Proof_McRoute1 Proof_McRoute2.
Local Open Scope Z_scope.

Lemma in_own M w v l : minv M w -> In l (mn_links M) -> (In v (on_mlink (mw_cls w) (mw_cls w v) (mw_link w l)) <-> In v (mall (mw_link w l))).
Proof.
  intros I Hl. rewrite !zc_In, on_mlink_class by (apply (n_body _ _ I l Hl)). rewrite Bool.eqb_reflx. tauto.
Qed.
Lemma find_ext {A} (f g : A -> bool) l : (forall x, In x l -> f x = g x) -> find f l = find g l.
Proof. induction l as [|a l IH]; intros H; cbn [find]; [reflexivity|]. rewrite (H a (or_introl eq_refl)), IH; [reflexivity|intros; apply H; now right]. Qed.
Lemma existsb_in v l : existsb (fun u => u =? v) l = true <-> In v l.
Proof. rewrite existsb_exists. split; [intros (u & H & E); apply Z.eqb_eq in E as ->; exact H|intros H; exists v; split; [exact H|apply Z.eqb_refl]]. Qed.
Lemma mlink_of_shadow M w v : minv M w -> mlink_of M w v = link_of (snet M) (shadow w) v.
Proof.
  intros I. unfold mlink_of, link_of. cbn [snet n_links]. apply find_ext. intros l Hl. cbn [shadow w_link]. rewrite on_shadow.
  apply Bool.eq_true_iff_eq. rewrite !existsb_in. now apply (in_own M).
Qed.

Section Run.
Context (M : mnet) (K : mnet_ok M) (D : Z -> mdrawsI) (w0 : mworld) (F : mfresh_world M w0) (DV : forall t, mdraws_valid (D t)) (RO : routes_ok (mw_pt w0)) (v : Z).
Notation R k s := (mrun M D k (minit M w0) = Ok s).
Lemma run_minv k s : R k s -> minv M (ms_w s).
Proof. intros H. eapply mreached_minv; [exact K|]. exists w0. eauto. Qed.
Lemma run_cur k s : R k s -> ms_cur s = Z.of_nat k.
Proof. intros H. eapply mreached_cur. exists w0. eauto. Qed.
Lemma mrun_v k s : R k s -> vinv (snet M) (mw_pt w0) v None (shadow (ms_w s)) (mvisited M D w0 v k).
Proof.
  revert s. induction k as [|k IH]; intros s H.
  - simpl in H. apply Ok_inj in H as <-. now apply fresh_shadow_v.
  - cbn [mvisited]. rewrite H. pose proof H as H'. apply mrun_S in H' as (s1 & H1 & H2). apply mloop_body_inv in H2 as (w & H2 & _ & <- & _).
    rewrite (mlink_of_shadow M _ v (run_minv _ _ H)). eapply (load_once_shadow_v M K (mw_pt w0) RO v None); [apply DV|exact (run_minv _ _ H1)|exact H2|exact (IH _ H1)].
Qed.
Lemma mrun_path_kept : forall j k s s' p, (j <= k)%nat -> R j s -> R k s' ->
  v <= f_num (mw_fac (ms_w s)) -> v_path (mw_veh (ms_w s) v) = Some p -> v_path (mw_veh (ms_w s') v) = Some p.
Proof.
  intros j k s s' p L H H' Hv Hp.
  assert (V0 : vinv (snet M) (mw_pt w0) v (Some p) (shadow (ms_w s)) (mvisited M D w0 v j)).
  { destruct (mrun_v j s H) as [P1 P2 P3 P4]. constructor; auto. intros p' E. injection E as <-. auto. }
  enough (X : exists h, vinv (snet M) (mw_pt w0) v (Some p) (shadow (ms_w s')) h) by (destruct X as (h & V); exact (proj2 (vi_fix _ _ _ _ _ _ V p eq_refl))).
  revert s' H'. induction L as [|k L IH]; intros s' H'.
  - rewrite H in H'. apply Ok_inj in H' as <-. eauto.
  - pose proof H' as H2. apply mrun_S in H2 as (s1 & H1 & H2). apply mloop_body_inv in H2 as (w & H2 & _ & <- & _). destruct (IH _ H1) as (h & V1).
    eexists. eapply (load_once_shadow_v M K (mw_pt w0) RO v (Some p)); [apply DV|exact (run_minv _ _ H1)|exact H2|exact V1].
Qed.
End Run.

(** where a released vehicle is, and what it has seen *)
Lemma follows M pt0 v w h : minv M w -> vinv (snet M) pt0 v None (shadow w) h -> 1 <= v <= f_num (mw_fac w) -> v_adapt (mw_veh w v) = false ->
  (In v (m_at_origins M w (mw_cls w v)) /\ h = []) \/
  (exists p rest, v_path (mw_veh w v) = Some p /\ is_route pt0 (v_org (mw_veh w v)) (v_dst (mw_veh w v)) p /\ r_links p = h ++ rest /\
    (forall l, In l (mn_links M) -> In v (on_mlink (mw_cls w) (mw_cls w v) (mw_link w l)) -> last_opt h = Some l) /\
    (In v (m_arrived w (mw_cls w v)) -> rest = [])).
Proof.
  intros MI V Hv Ad. set (N := snet M). set (x := shadow w). pose proof (shadow_sinv M w MI) as I. destruct V as [P1 P2 P3 P4].
  destruct (P3 ltac:(cbn; lia) Ad) as [S1 S2 S3 S4]. pose proof (i_count _ _ I v) as C. fold N x in C.
  change (f_num (w_fac x)) with (f_num (mw_fac w)) in C.
  rewrite (proj2 (Z.leb_le 1 v)), (proj2 (Z.leb_le v _)) in C by lia. cbn [andb one_if] in C. rewrite zcount_places, <- zc_app in C.
  assert (P : In v ((at_origins N x ++ on_links N x ++ at_dests N x) ++ arrived x)) by (apply zc_In; lia).
  assert (OWN : forall l, In l (mn_links M) -> In v (on_mlink (mw_cls w) (mw_cls w v) (mw_link w l)) -> In v (on_link (w_link x l))).
  { intros l Hl Hx. apply (in_own M) in Hx; auto. }
  assert (ARR : In v (m_arrived w (mw_cls w v)) -> In v (arrived x)).
  { unfold m_arrived, m_trips, arrived. cbn [x shadow w_fac]. intros H. apply in_map_iff in H as (d & <- & H). apply filter_In in H as [H _]. now apply in_map. }
  rewrite !in_app_iff in P. destruct P as [[P|[P|P]]|P].
  - left. unfold at_origins in P. apply in_concat in P as (y & Hy & P). apply in_map_iff in Hy as (o & <- & Ho).
    split; [|eapply S1; [|exact P]; now apply in_map]. unfold N in Ho. cbn [snet n_origins] in Ho. apply in_map_iff in Ho as (o' & <- & Ho'). cbn [sorigin o_node x shadow w_oq] in P.
    unfold m_at_origins. apply in_concat. eexists. split; [apply in_map_iff; exists o'; split; [reflexivity|exact Ho']|]. unfold of_class. apply filter_In. split; [exact P|apply Bool.eqb_reflx].
  - right. unfold on_links in P. apply in_concat in P as (y & Hy & P). apply in_map_iff in Hy as (l & <- & Hl).
    destruct (S2 l Hl P) as (p & pre & rest & [R1 R2] & Er & Eh & _). exists p, rest. split; [exact R1|]. split; [exact R2|].
    split; [rewrite Er, Eh, <- app_assoc; reflexivity|]. split.
    + intros l2 Hl2 P2'. rewrite (u_ll N _ I v l2 l Hl2 Hl (OWN _ Hl2 P2') P), Eh. apply last_opt_snoc.
    + intros A. exfalso. exact (u_la N _ I v l Hl P (ARR A)).
  - right. unfold at_dests in P. apply in_concat in P as (y & Hy & P). apply in_map_iff in Hy as (d & <- & Hd).
    destruct (S3 d Hd P) as (p & [R1 R2] & Eh). exists p, []. split; [exact R1|]. split; [exact R2|]. split; [rewrite Eh; now rewrite app_nil_r|]. split; [|auto].
    intros l Hl C2. exfalso. exact (u_ld N _ I v l d Hl Hd (OWN _ Hl C2) P).
  - right. destruct (S4 P) as (p & [R1 R2] & Eh). exists p, []. split; [exact R1|]. split; [exact R2|]. split; [rewrite Eh; now rewrite app_nil_r|]. split; [|auto].
    intros l Hl C2. exfalso. exact (u_la N _ I v l Hl (OWN _ Hl C2) P).
Qed.
