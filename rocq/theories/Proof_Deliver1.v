(** Conservation through a loading with delivery vehicles. *)
From Verif Require Import Base Base_lemmas Model_Num Proof_Num Spec_Path Proof_Path Model_CC Spec_CC Proof_CC Model_Path Model_Link Spec_Link Spec_Node
  Proof_Link Proof_Link3 Proof_Link4 Proof_Link5 Model_World Model_Node Proof_Node Proof_Node2 Proof_Node3 Proof_Node4 Proof_Node5 Model_Sim Spec_Sim Proof_Sim1 Proof_Sim2 Proof_Sim3 Proof_Sim4
  Model_Deliver Spec_Deliver.
Local Open Scope Z_scope.

(** ** release *)
Lemma drelease_n_sinv N D cur assign o d ratio : net_ok N -> In o (map o_node (n_origins N)) ->
  forall k w, sinv N (dw_w w) -> sinv N (dw_w (drelease_n k D cur assign o d ratio w)).
Proof.
  intros K Ho. induction k as [|k IH]; intros w I; [exact I|]. cbn [drelease_n]. apply IH. cbn [dset_tour dset_w dw_w].
  eapply release_one_sinv; eauto.
Qed.
Lemma drelease_dests_sinv N D cur assign o : net_ok N -> In o (map o_node (n_origins N)) ->
  forall ds ratio w, sinv N (dw_w w) -> sinv N (dw_w (drelease_dests N D cur assign o ratio ds w)).
Proof.
  intros K Ho. induction ds as [|[d dem] ds IH]; intros ratio w I; [exact I|]. cbn [drelease_dests]. apply IH. apply drelease_n_sinv; auto.
Qed.
Lemma drelease_tour_sinv N D cur assign o ratio sq : net_ok N -> In o (map o_node (n_origins N)) ->
  forall k w w', drelease_tour k D cur assign o ratio sq w = Ok w' -> sinv N (dw_w w) -> sinv N (dw_w w').
Proof.
  intros K Ho. induction k as [|k IH]; intros w w' H I; cbn [drelease_tour] in H; [apply Ok_inj in H as <-; exact I|].
  apply bind_ok in H as (u & _ & H). eapply IH; [exact H|]. cbn [dset_tour dset_w dw_w]. eapply release_one_sinv; eauto.
Qed.
Lemma drelease_tours_sinv N D cur assign o ratio : net_ok N -> In o (map o_node (n_origins N)) ->
  forall ts i w w', drelease_tours N D cur assign o ratio i ts w = Ok w' -> sinv N (dw_w w) -> sinv N (dw_w w').
Proof.
  intros K Ho. induction ts as [|[sq dem] ts IH]; intros i w w' H I; cbn [drelease_tours] in H; [apply Ok_inj in H as <-; exact I|].
  apply bind_ok in H as (w1 & H1 & H). eapply IH; [exact H|]. eapply drelease_tour_sinv; eauto.
Qed.
Lemma drelease_all_sinv DN D cur assign w w' : dnet_ok DN -> draws_valid (dd_base D) -> drelease_all DN D cur assign w = Ok w' ->
  sinv (dn_net DN) (dw_w w) -> sinv (dn_net DN) (dw_w w').
Proof.
  intros [K _ _] (_ & _ & Hs & _) H I. unfold drelease_all in H. apply bind_ok in H as (u & _ & H).
  destruct (_ =? 0); [|apply Ok_inj in H as <-; exact I].
  eapply (foldM_inv _ (fun x => sinv (dn_net DN) (dw_w x))); [|exact I|exact H].
  intros o s s' Ho Is E. apply (in_map o_node) in Ho. unfold drelease_one in E. destruct (_ <? 0); [apply Ok_inj in E as <-; exact Is|].
  apply bind_ok in E as (w2 & E2 & E). apply Ok_inj in E as <-. cbn [dset_w dw_w]. apply shuffle_sinv; auto; [apply Hs|].
  eapply drelease_tours_sinv; eauto. now apply drelease_dests_sinv.
Qed.

(** ** links *)
Lemma delay_scan_perm waits : forall inc b, Permutation inc (fst (fst (delay_scan waits b inc)) ++ snd (fst (delay_scan waits b inc))).
Proof.
  induction inc as [|v inc IH]; intros b; [constructor|]. cbn [delay_scan]. destruct (Qltb 0 b); [|reflexivity].
  destruct (waits v); cbn [fst snd].
  - rewrite (IH b) at 1. apply Permutation_middle.
  - cbn [app]. constructor. apply IH.
Qed.
Lemma delay_scan_moved waits : forall inc b v, In v (fst (fst (delay_scan waits b inc))) -> waits v = false /\ In v inc.
Proof.
  induction inc as [|x inc IH]; intros b v; [intros []|]. cbn [delay_scan]. destruct (Qltb 0 b); [|intros []].
  destruct (waits x) eqn:E; cbn [fst snd].
  - intros H. apply IH in H as []. auto using in_cons.
  - intros [<-|H]; [auto using in_eq|]. apply IH in H as []. auto using in_cons.
Qed.
Lemma delay_scan_ticked waits : forall inc b, subseq (snd (delay_scan waits b inc)) inc /\
  (forall v, In v (snd (delay_scan waits b inc)) -> waits v = true).
Proof.
  induction inc as [|x inc IH]; intros b; [split; [constructor|intros v []]|]. cbn [delay_scan]. destruct (Qltb 0 b); [|split; [constructor|intros v []]].
  destruct (waits x) eqn:E; cbn [fst snd].
  - destruct (IH b) as [A B]. split; [now constructor|]. intros v [<-|H]; auto.
  - destruct (IH (b - 1)%Q) as [A B]. split; [now constructor|]. auto.
Qed.
Lemma fold_wait_w f : forall vs d, dw_w (fold_left (set_wait f) vs d) = dw_w d /\ dw_made (fold_left (set_wait f) vs d) = dw_made d /\
  dw_log (fold_left (set_wait f) vs d) = dw_log d.
Proof.
  induction vs as [|v vs IH]; intros d; [auto|]. cbn [fold_left]. destruct (IH (set_wait f d v)) as (A & B & C). rewrite A, B, C.
  unfold set_wait. destruct (dw_tour d v); auto.
Qed.
(** the body kinds and the vehicles of a link after the incoming array was cleared *)
Record ceff (N : net) (l : Z) (d d' : dworld) : Prop := {
  ce_other : forall l', l' <> l -> w_link (dw_w d') l' = w_link (dw_w d) l';
  ce_oq : w_oq (dw_w d') = w_oq (dw_w d); ce_dq : w_dq (dw_w d') = w_dq (dw_w d); ce_veh : w_veh (dw_w d') = w_veh (dw_w d);
  ce_cc : w_cc (dw_w d') = w_cc (dw_w d); ce_fac : w_fac (dw_w d') = w_fac (dw_w d); ce_trk : w_trk (dw_w d') = w_trk (dw_w d);
  ce_made : dw_made d' = dw_made d; ce_log : dw_log d' = dw_log d;
  ce_body : body_inv (l_body (w_link (dw_w d) l)) -> body_inv (l_body (w_link (dw_w d') l));
  ce_on : body_inv (l_body (w_link (dw_w d) l)) -> Permutation (on_link (w_link (dw_w d) l)) (on_link (w_link (dw_w d') l));
  ce_in : body_inv (l_body (w_link (dw_w d) l)) -> forall v, In v (l_in (w_link (dw_w d') l)) -> In v (l_in (w_link (dw_w d) l)) }.
Lemma delay_clear_eff DN d l d' : delay_clear DN d l = Ok d' -> ceff (dn_net DN) l d d'.
Proof.
  unfold delay_clear. cbv zeta. destruct (l_body (w_link (dw_w d) l)) as [cs|m q vol|q vol] eqn:EB.
  2:{ intros H. set (r := delay_scan _ _ _) in H. set (q' := q ++ map (fun v => (v, 0)) (fst (fst r))) in H.
      set (y := {| l_par := l_par (w_link (dw_w d) l); l_in := snd (fst r); l_fin := l_fin (w_link (dw_w d) l); l_body := BPq m q' (Zlen (l_fin (w_link (dw_w d) l)) + Zlen q') |}) in H.
      set (d1 := fold_left (set_wait (fun k => k - 1)) (snd r) d) in H. set (d2 := if from_origin (dn_net DN) l then fold_left (set_wait (fun _ => 0)) (fst (fst r)) d1 else d1) in H. apply Ok_inj in H as <-.
      assert (E1 : dw_w d1 = dw_w d /\ dw_made d1 = dw_made d /\ dw_log d1 = dw_log d) by apply fold_wait_w.
      assert (E2 : dw_w d2 = dw_w d /\ dw_made d2 = dw_made d /\ dw_log d2 = dw_log d).
      { unfold d2. destruct (from_origin _ _); [|exact E1]. destruct E1 as (<- & <- & <-). apply fold_wait_w. }
      destruct E2 as (W & M & L). pose proof (delay_scan_perm (waiting DN d l) (l_in (w_link (dw_w d) l)) (pq_supply (l_par (w_link (dw_w d) l)) * p_fs (l_par (w_link (dw_w d) l)))) as P. fold r in P.
      constructor; cbn [dset_w dw_w set_link w_link w_oq w_dq w_veh w_cc w_fac w_trk dw_made dw_log]; rewrite ?W, ?M, ?L; auto.
      - intros l' Ne. now rewrite upd_other.
      - rewrite upd_same, EB. cbn [l_body body_inv]. intros [H1 H2]. split; [apply stamps_app_zero; auto|]. intros z Hz. apply in_app_or in Hz as [Hz|Hz]; auto.
        apply in_map_iff in Hz as (? & <- & _). simpl. lia.
      - rewrite upd_same. intros _. unfold on_link. rewrite EB. cbn [l_fin l_in l_body inside y]. apply Permutation_app_head.
        unfold q'. rewrite map_app, map_map. cbn [fst]. rewrite map_id, <- app_assoc. apply Permutation_app_head. exact P.
      - rewrite upd_same. intros _ v Hv. cbn [l_in y] in Hv. eapply Permutation_in; [symmetry; exact P|]. apply in_or_app. now right. }
  all: intros H; apply bind_ok in H as (y & Hy & H); apply Ok_inj in H as <-; constructor;
    cbn [dset_w dw_w set_link w_link w_oq w_dq w_veh w_cc w_fac w_trk dw_made dw_log]; rewrite ?upd_same; auto;
    try (intros l' Ne; now rewrite upd_other);
    intros Hb; rewrite EB in *; try rewrite <- EB in Hb; destruct (link_clear_line _ _ Hy Hb) as (A & B & _ & _ & _ & C); auto; rewrite B; reflexivity.
Qed.
Lemma dlink_step_eff DN D d l d' : dlink_step DN D d l = Ok d' -> ceff (dn_net DN) l d d'.
Proof.
  unfold dlink_step. intros H. apply bind_ok in H as (d1 & H1 & H). apply bind_ok in H as (y & Hy & H). apply Ok_inj in H as <-.
  apply delay_clear_eff in H1. destruct H1 as [A1 A2 A3 A4 A5 A6 A7 A8 A9 A10 A11 A12].
  constructor; cbn [dset_w dw_w set_link w_link w_oq w_dq w_veh w_cc w_fac w_trk dw_made dw_log]; rewrite ?upd_same; auto.
  - intros l' Ne. rewrite upd_other by exact Ne. auto.
  - intros Hb. destruct (link_evolve_line _ _ _ _ Hy (A10 Hb)) as (B & _). exact B.
  - intros Hb. destruct (link_evolve_line _ _ _ _ Hy (A10 Hb)) as (_ & B & _). rewrite B. auto.
  - intros Hb v Hv. destruct (link_evolve_line _ _ _ _ Hy (A10 Hb)) as (_ & _ & B & _). rewrite B in Hv. auto.
Qed.
Lemma ceff_sinv N l d d' : net_ok N -> In l (n_links N) -> ceff N l d d' -> sinv N (dw_w d) -> sinv N (dw_w d').
Proof.
  intros K Hl [A1 A2 A3 A4 A5 A6 A7 A8 A9 A10 A11 A12] [H1 H2 H3 H4 H5 H6 H7 H8 H9 H10].
  assert (OL : forall l', In l' (n_links N) -> Permutation (on_link (w_link (dw_w d) l')) (on_link (w_link (dw_w d') l'))).
  { intros l' Hl'. destruct (Z.eq_dec l' l) as [->|Ne]; [auto|rewrite A1 by exact Ne; reflexivity]. }
  assert (Z0 : forall v, zcount N (dw_w d') v = zcount N (dw_w d) v).
  { intros v. unfold zcount, zo, zl, zd. rewrite A2, A3. f_equal. f_equal. apply sumZ_map_ext. intros l' Hl'. symmetry. apply zc_perm, OL, Hl'. }
  constructor; unfold arrived; rewrite ?A5, ?A6; auto.
  - intros l' Hl'. destruct (Z.eq_dec l' l) as [->|Ne]; [auto|rewrite A1 by exact Ne; auto].
  - intros v. rewrite Z0. apply H3.
  - intros v. rewrite Z0. apply H4.
  - intros l' c c' Hl' Ec Ec'. specialize (H6 l' c c' Hl' Ec Ec'). unfold Zlen. rewrite <- (Permutation_length (OL l' Hl')). exact H6.
Qed.

(** ** arrivals *)
Lemma zcount_dq N w n q v : net_ok N -> In n (n_dests N) -> zcount N (set_dq w n q) v = zcount N w v - zc v (w_dq w n) + zc v q.
Proof.
  intros K Hn. unfold zcount, zo, zl. cbn [set_dq w_oq w_link]. enough (zd N (set_dq w n q) v - zd N w v = - zc v (w_dq w n) + zc v q) by lia.
  unfold zd. rewrite <- sumZ_map_minus, (sumZ_support1 _ _ n (no_dests N K) Hn).
  - cbn [set_dq w_dq]. rewrite upd_same. lia.
  - intros y _ Hy. cbn [set_dq w_dq]. rewrite upd_other by exact Hy. lia.
Qed.
(** one vehicle of the queue of destination [n] finishes *)
Lemma finish_sinv N t n v q w w' : net_ok N -> In n (n_dests N) -> reff t n [v] w w' -> sinv N (set_dq w n (v :: q)) -> sinv N (set_dq w' n q).
Proof.
  intros K Hn [A1 A2 A3 A4 A5 A6 A7 A8 A9 A10 A11 A12 A13 A14 A15] [H1 H2 H3 H4 H5 H6 H7 H8 H9 H10].
  assert (Z0 : forall x, zcount N (set_dq w' n q) x = zcount N (set_dq w n (v :: q)) x - one_if (x =? v)).
  { intros x. rewrite !zcount_dq by assumption. rewrite (zcount_q N w w' x A1 A2 A3), A3.
    change (v :: q) with ([v] ++ q). rewrite zc_app, zc_one. lia. }
  assert (AR : forall x, zc x (arrived (set_dq w' n q)) = zc x (arrived (set_dq w n (v :: q))) + one_if (x =? v)).
  { intros x. unfold arrived. cbn [set_dq w_fac]. rewrite A7, map_app, map_map, zc_app. cbn [fst map]. now rewrite zc_one. }
  assert (CC : forall x, 0 <= zcount N (set_dq w' n q) x).
  { intros x. rewrite zcount_places. apply zc_nonneg. }
  cbn [set_dq w_cc w_link w_fac] in *.
  constructor; cbn [set_dq w_cc w_link w_fac]; rewrite ?A4, ?A1, ?A6, ?A8, ?A9, ?A10; auto.
  - intros x. fold (set_dq w' n q). rewrite Z0, AR, <- H3. lia.
  - intros x. fold (set_dq w' n q). rewrite A12, Z0. unfold memb. cbn [existsb]. rewrite orb_false_r. specialize (H4 x). specialize (H3 x).
    specialize (CC x). rewrite Z0 in CC. pose proof (zc_nonneg x (arrived (set_dq w n (v :: q)))) as NN.
    destruct (Z.eqb_spec x v) as [->|Ne]; cbn [one_if] in *; [|lia]. unfold one_if in H3. destruct (_ && _); lia.
  - rewrite H7. unfold Zlen. cbn [length]. lia.
  - rewrite H8, A7, Zlen_app, Zlen_map. reflexivity.
  - rewrite H9, A7, map_app, map_map, sumZ_app, inject_Z_plus. reflexivity.
  - rewrite A7. apply Forall_app. split; [exact H10|]. apply Forall_map. eapply Forall_impl; [|exact A11]. intros x [L _]. unfold trip. simpl. lia.
Qed.
(** one vehicle of the queue of destination [n] goes to the queue of origin [o] *)
Lemma forward_sinv N n v q o w w' : net_ok N -> In n (n_dests N) -> In o (map o_node (n_origins N)) ->
  w_link w' = w_link w -> w_dq w' = w_dq w -> w_cc w' = w_cc w -> w_fac w' = w_fac w -> w_oq w' = upd (w_oq w) o (w_oq w o ++ [v]) ->
  sinv N (set_dq w n (v :: q)) -> sinv N (set_dq w' n q).
Proof.
  intros K Hn Ho A1 A2 A3 A4 A5 [H1 H2 H3 H4 H5 H6 H7 H8 H9 H10].
  assert (Z0 : forall x, zcount N (set_dq w' n q) x = zcount N (set_dq w n (v :: q)) x).
  { intros x. rewrite !zcount_dq by assumption. rewrite A2. rewrite (zcount_oq N w w' o x (one_if (x =? v))); auto.
    - change (v :: q) with ([v] ++ q). rewrite zc_app, zc_one. lia.
    - intros m Hm. rewrite A5. now rewrite upd_other.
    - rewrite A5, upd_same, zc_app, zc_one. reflexivity. }
  cbn [set_dq w_cc w_link w_fac] in *.
  constructor; cbn [set_dq w_cc w_link w_fac]; unfold arrived in *; cbn [set_dq w_fac] in *; rewrite ?A1, ?A3, ?A4; auto.
  - intros x. fold (set_dq w' n q). rewrite Z0. apply H3.
  - intros x. fold (set_dq w' n q). rewrite Z0. apply H4.
Qed.

Lemma forget_eff w v w' : forget_route w v = Ok w' -> w_fac w' = w_fac w /\ w_link w' = w_link w /\ w_oq w' = w_oq w /\ w_dq w' = w_dq w /\ w_cc w' = w_cc w /\
  w_pt w' = w_pt w /\ w_veh w' = w_veh w /\ (forall y, w_trk w' y = w_trk w y \/ (y = v /\ w_trk w' y = None)).
Proof.
  unfold forget_route. destruct (w_trk w v) eqn:E; intros H; [apply bind_ok in H as (u & _ & H)|]; apply Ok_inj in H as <-; repeat split; auto.
  intros y. cbn [set_trk w_trk]. destruct (Z.eq_dec y v) as [->|Ne]; [right; split; [reflexivity|apply upd_same]|left; now rewrite upd_other].
Qed.
Lemma finish_tour_eff t n w v w' : v_dst (w_veh w v) = n -> finish_tour t w v = Ok w' -> reff t n [v] w w'.
Proof.
  intros G H. unfold finish_tour in H. cbv zeta in H. apply bind_ok in H as (w2 & H2 & H). apply forget_eff in H2 as (Xf & Xl & Xo & Xd & Xc & Xp & Xv & Xt).
  cbn [set_vehs w_fac w_link w_oq w_dq w_cc w_pt w_veh w_trk] in *. rewrite Xf in H.
  apply bind_ok in H as (u3 & G3 & H). apply guard_ok in G3. apply memb_In in G3.
  apply bind_ok in H as (u4 & G4 & H). apply guard_ok in G4. apply Z.ltb_lt in G4. cbn [set_vfin v_fin v_start] in G4.
  apply bind_ok in H as (u5 & _ & H). apply Ok_inj in H as <-.
  constructor; cbn [set_fac w_link w_oq w_dq w_cc w_pt w_fac w_veh w_trk f_num f_done f_enroute f_finished f_tt f_live map sumZ fold_right set_vfin v_fin v_start]; auto.
  - rewrite Z.add_0_r. reflexivity.
  - intros v'. rewrite zc_filter_neq. unfold memb. simpl. rewrite orb_false_r, Z.eqb_sym. destruct (v =? v'); reflexivity.
  - intros v'. rewrite Xv. unfold memb. simpl. rewrite orb_false_r. destruct (Z.eqb_spec v' v) as [->|Ne]; [now rewrite upd_same|now rewrite upd_other].
  - intros y. destruct (Xt y) as [E|[-> E]]; [now left|right; split; [now left|exact E]].
  - intros v' [<-|[]]. exact G3.
Qed.

(** what receiving one vehicle does *)
Inductive recv (DN : dnet) (t n : Z) (v : Z) (d d' : dworld) : Prop :=
| rv_plain : dw_tour d v = None -> reff t n [v] (dw_w d) (dw_w d') -> dw_tour d' = dw_tour d -> recv DN t n v d d'
| rv_end tr o : dw_tour d v = Some tr -> nth_error (tr_seq tr) (tr_at tr) = Some (o, snd (last (tr_seq tr) (0, 0))) ->
    reff t n [v] (dw_w d) (dw_w d') -> dw_tour d' = dw_tour d -> recv DN t n v d d'
| rv_next tr o o' e' : dw_tour d v = Some tr -> nth_error (tr_seq tr) (tr_at tr) = Some (o, n) -> n <> snd (last (tr_seq tr) (0, 0)) ->
    nth_error (tr_seq tr) (S (tr_at tr)) = Some (o', e') -> e' <> n ->
    dw_tour d' = upd (dw_tour d) v (Some {| tr_seq := tr_seq tr; tr_at := S (tr_at tr); tr_wait := dn_pickup DN o' |}) ->
    w_link (dw_w d') = w_link (dw_w d) -> w_dq (dw_w d') = w_dq (dw_w d) -> w_cc (dw_w d') = w_cc (dw_w d) -> w_fac (dw_w d') = w_fac (dw_w d) ->
    w_oq (dw_w d') = upd (w_oq (dw_w d)) o' (w_oq (dw_w d) o' ++ [v]) ->
    (forall y, w_veh (dw_w d') y = if y =? v then set_path None (set_od o' e' (w_veh (dw_w d) v)) else w_veh (dw_w d) y) ->
    (forall y, w_trk (dw_w d') y = w_trk (dw_w d) y \/ (y = v /\ w_trk (dw_w d') y = None)) -> recv DN t n v d d'.
Lemma nth_error_last {A} (l : list A) i x d : nth_error l i = Some x -> S i = length l -> last l d = x.
Proof.
  intros H E. revert i H E. induction l as [|a l IH]; intros i H E; [destruct i; discriminate|].
  destruct i as [|i]; cbn [nth_error length] in *.
  - injection H as <-. destruct l; [reflexivity|cbn in E; lia].
  - destruct l as [|b l]; [destruct i; discriminate|]. cbn [last]. apply (IH i H). lia.
Qed.
Lemma dreceive_veh_eff DN t n d v d' : dreceive_veh DN t n d v = Ok d' ->
  v_dst (w_veh (dw_w d) v) = n /\ recv DN t n v d d' /\ dw_log d' = dw_log d ++ [(v, (t, n))] /\ dw_made d' = dw_made d.
Proof.
  unfold dreceive_veh. intros H. apply bind_ok in H as (u & G & H). apply guard_ok in G. apply Z.eqb_eq in G. split; [exact G|].
  apply bind_ok in H as (d1 & H1 & H). apply Ok_inj in H as <-. cbn [dlog dw_log dw_made].
  destruct (dw_tour d v) as [tr|] eqn:ET.
  2:{ apply bind_ok in H1 as (w & Hw & H1). apply Ok_inj in H1 as <-. apply receive_veh_eff in Hw. split; [|split; reflexivity]. now apply rv_plain. }
  unfold receive_tour in H1. destruct (nth_error (tr_seq tr) (tr_at tr)) as [[o here]|] eqn:EN; [|discriminate].
  destruct (Z.eqb_spec (snd (last (tr_seq tr) (0, 0))) here) as [EL|NL]; cbn [negb] in H1.
  - apply bind_ok in H1 as (w & Hw & H1). apply Ok_inj in H1 as <-. split; [|split; reflexivity]. subst here.
    apply (rv_end _ _ _ _ _ _ tr o); auto. cbn [dset_w dw_w]. apply finish_tour_eff; auto.
  - apply bind_ok in H1 as (u1 & G1 & H1). apply guard_ok in G1. apply Z.eqb_eq in G1. subst here.
    assert (LT : (S (tr_at tr) < length (tr_seq tr))%nat).
    { assert (tr_at tr < length (tr_seq tr))%nat by (apply nth_error_Some; congruence).
      destruct (Nat.eq_dec (S (tr_at tr)) (length (tr_seq tr))) as [E|E]; [|lia]. exfalso. apply NL.
      now rewrite (nth_error_last _ _ _ (0, 0) EN E). }
    assert (NA : next_at tr = S (tr_at tr)) by (unfold next_at; now rewrite (proj2 (Nat.ltb_lt _ _) LT)). rewrite NA in H1.
    destruct (nth_error (tr_seq tr) (S (tr_at tr))) as [[o' e']|] eqn:E2; [|discriminate].
    apply bind_ok in H1 as (u2 & G2 & H1). apply guard_ok in G2. apply negb_true_iff in G2. apply Z.eqb_neq in G2. cbv zeta in H1.
    apply bind_ok in H1 as (w3 & H3 & H1). apply Ok_inj in H1 as <-. apply forget_eff in H3 as (Xf & Xl & Xo & Xd & Xc & Xp & Xv & Xt).
    cbn [set_oq set_vehs w_fac w_link w_oq w_dq w_cc w_pt w_veh w_trk] in *. split; [|split; reflexivity].
    apply (rv_next _ _ _ _ _ _ tr o o' e'); cbn [dset_tour dset_w dlog dw_tour dw_w set_vehs w_fac w_link w_oq w_dq w_cc w_veh w_trk]; auto.
    intros y. rewrite Xv. destruct (Z.eqb_spec y v) as [->|Ne]; [now rewrite !upd_same|now rewrite !upd_other].
Qed.
