From Coq Require Import Lqa.
From Verif Require Import Base Base_lemmas Model_Num Proof_Num Model_Graph Spec_Graph Proof_Graph Proof_Graph2 Model_Io Spec_Io Proof_Io3 Proof_PreRouting Proof_Safe2 Model_CC Model_Node Model_Grad Model_World Model_Link Model_Path Spec_Path Spec_Link
  Spec_Node Model_Sim Spec_Sim Proof_Link Proof_Link4 Proof_Sim1 Proof_Sim2 Model_McLink Spec_McLink Model_McNode Spec_McNode Model_McSim Spec_McSim
  Proof_McLink Proof_McNode Proof_McSim1 Proof_McSim2 Proof_McSim3 Proof_McSim4 Proof_McSim5 Model_Query Spec_Query.
Local Open Scope Z_scope.

(** ** nodes and links *)
Lemma links_heads g ns ls : along g ns ls -> mapM (fun l => do e <- get_endpoints g l; Ok (snd e)) ls = Ok (tl ns).
Proof.
  induction 1 as [n|n l m ns ls E A IH]; [reflexivity|]. cbn [mapM]. rewrite E. cbn [bind snd]. rewrite IH. reflexivity.
Qed.
Lemma links_nodes g ns ls : along g ns ls -> ls <> [] -> link_seq_to_node_seq g ls = Ok ns.
Proof.
  intros A N. pose proof (links_heads _ _ _ A) as H. destruct A as [n|n l m ns ls E A]; [contradiction|].
  unfold link_seq_to_node_seq. rewrite E. cbn [bind fst]. rewrite H. reflexivity.
Qed.
Lemma nodes_links g a mem : Rep g a -> (forall l e, get_endpoints g l = Ok e -> 0 <= l) ->
  forall ns ls0, along g ns ls0 -> forall i, exists ls, node_seq_loop g mem i ns = Ok ls /\ along g ns ls.
Proof.
  intros R P ns ls0 A. induction A as [n|n l m ns ls E A IH]; intros i.
  - exists []. split; [reflexivity|constructor].
  - destruct (hop g a n m R) as (cs & C & [(l' & F & E')|(F & K)]); [apply (endpoints_node _ _ _ _ _ R E)| |elim (K l E)].
    destruct (IH (S i)) as (ls' & L & A'). exists (l' :: ls'). split; [|constructor; assumption].
    change (node_seq_loop g mem i (n :: m :: ns)) with
      (do ls <- connections g n Outgoing; do x <- first_to g ls m; let y := match x with Some l => l | None => mem i end in
       do _ <- guard (negb (y <? 0)) EThrow; do ys <- node_seq_loop g mem (S i) (m :: ns); Ok (y :: ys)).
    rewrite C. cbn [bind]. rewrite F. cbn [bind]. cbv zeta. specialize (P l' _ E'). destruct (Z.ltb_spec l' 0); [lia|]. cbn [negb guard bind]. rewrite L. reflexivity.
Qed.
Lemma along_nodes2 g ns ls : along g ns ls -> ls <> [] -> (2 <= length ns)%nat.
Proof. destruct 1; [contradiction|cbn; lia]. Qed.
Lemma along_links g ns ls : along g ns ls -> length ns = S (length ls).
Proof. induction 1; cbn [length] in *; lia. Qed.
(** what comes out, hop by hop *)
Lemma nodes_links_each g a mem : Rep g a -> forall ns i ls, node_seq_loop g mem i ns = Ok ls -> S (length ls) = Nat.max 1 (length ns) /\
  forall j u v, consecutive ns j u v -> In u (a_nodes a) /\ exists l, nth_error ls j = Some l /\ 0 <= l /\
    (get_endpoints g l = Ok (u, v) \/ (l = mem (i + j)%nat /\ ~ joined g u v)).
Proof.
  intros R. induction ns as [|n ns IH]; intros i ls H.
  - cbn [node_seq_loop] in H. apply Ok_inj in H as <-. split; [reflexivity|]. intros j u v [H _]. destruct j; discriminate.
  - destruct ns as [|m ns].
    { cbn [node_seq_loop] in H. apply Ok_inj in H as <-. split; [reflexivity|]. intros j u v [_ H]. destruct j as [|[|j]]; discriminate. }
    change (node_seq_loop g mem i (n :: m :: ns)) with
      (do ls <- connections g n Outgoing; do x <- first_to g ls m; let y := match x with Some l => l | None => mem i end in
       do _ <- guard (negb (y <? 0)) EThrow; do ys <- node_seq_loop g mem (S i) (m :: ns); Ok (y :: ys)) in H.
    apply bind_ok in H as (cs & C & H). apply bind_ok in H as (x & F & H). cbv zeta in H. apply bind_ok in H as ([] & G & H). apply guard_ok in G. apply Bool.negb_true_iff, Z.ltb_ge in G.
    apply bind_ok in H as (ys & Y & H). apply Ok_inj in H as <-. destruct (IH _ _ Y) as [L K].
    assert (In n (a_nodes a)) as In0.
    { rewrite (rep_connections _ _ _ _ R) in C. destruct (memb n (a_nodes a)) eqn:Mb; [now apply memb_In|discriminate]. }
    split; [cbn [length] in *; lia|]. intros [|j] u v [Hu Hv].
    + cbn in Hu, Hv. injection Hu as <-. injection Hv as <-. split; [exact In0|]. eexists. split; [reflexivity|]. split; [exact G|].
      destruct (hop g a n m R In0) as (cs' & C' & [(l' & F' & E')|(F' & N)]); rewrite C in C'; apply Ok_inj in C' as <-; rewrite F in F'; apply Ok_inj in F' as ->.
      * left. exact E'.
      * right. split; [now rewrite Nat.add_0_r|]. intros (l & E). exact (N l E).
    + destruct (K j u v (conj Hu Hv)) as (I & l & N & P & O). split; [exact I|]. exists l. split; [exact N|]. split; [exact P|].
      destruct O as [O|[-> O]]; [left; exact O|right; split; [f_equal; lia|exact O]].
Qed.

(** ** runs with records *)
Lemma bind_assoc {A B C} (x : res A) (f : A -> res B) (g : B -> res C) : (do y <- (do z <- x; f z); g y) = (do z <- x; do y <- f z; g y).
Proof. destruct x; reflexivity. Qed.
Lemma load_parts M D t a w : mload_once M D t a w = do w3 <- to_record M D t a w; from_record M D t w3.
Proof.
  unfold mload_once, to_record, from_record. rewrite bind_assoc. destruct (mrelease_all M D t a w); [|reflexivity]. cbn [bind]. rewrite bind_assoc. reflexivity.
Qed.
Lemma qbody_inv M D x x' : qbody M D x = Ok x' -> exists w3, to_record M (D (ms_cur (q_run x))) (ms_cur (q_run x)) (ms_assign (q_run x)) (ms_w (q_run x)) = Ok w3 /\
  from_record M (D (ms_cur (q_run x))) (ms_cur (q_run x)) w3 = Ok (ms_w (q_run x')) /\ mloop_body M D (q_run x) = Ok (q_run x') /\
  q_num x' = q_num x ++ [queue_total M w3] /\ (forall l, q_map x' l = q_map x l ++ [at_end w3 l]) /\ (forall k l, q_cmap x' k l = q_cmap x k l ++ [at_end_class w3 k l]) /\
  ms_enr (q_run x') = ms_enr (q_run x) ++ [f_enroute (mw_fac (ms_w (q_run x')))].
Proof.
  unfold qbody, mloop_body. intros H. apply bind_ok in H as (w3 & H3 & H). apply bind_ok in H as (w & Hw & H). cbv zeta in H. apply Ok_inj in H as <-.
  exists w3. cbn [q_run q_num q_map q_cmap ms_w ms_enr]. repeat split; auto. rewrite load_parts, H3. cbn [bind]. rewrite Hw. reflexivity.
Qed.
Lemma qrun_S M D k s s' : qrun M D (S k) s = Ok s' -> exists s1, qrun M D k s = Ok s1 /\ qbody M D s1 = Ok s'.
Proof. cbn [qrun]. intros H. apply bind_ok in H. exact H. Qed.
Lemma qrun_mrun M D w0 : forall k x, qrun M D k (qinit M w0) = Ok x -> mrun M D k (minit M w0) = Ok (q_run x).
Proof.
  induction k as [|k IH]; intros x H; [cbn in H; apply Ok_inj in H as <-; reflexivity|].
  apply qrun_S in H as (y & H1 & H2). cbn [mrun]. rewrite (IH _ H1). cbn [bind]. destruct (qbody_inv _ _ _ _ H2) as (w3 & _ & _ & E & _). exact E.
Qed.
(** the records do not change the loading *)
Lemma mrun_qrun M D w0 : forall k s, mrun M D k (minit M w0) = Ok s -> exists x, qrun M D k (qinit M w0) = Ok x /\ q_run x = s.
Proof.
  induction k as [|k IH]; intros s H; [cbn in H; apply Ok_inj in H as <-; eexists; split; reflexivity|].
  apply mrun_S in H as (s1 & H1 & H2). destruct (IH _ H1) as (x & X1 & <-). unfold mloop_body in H2. rewrite load_parts in H2. rewrite bind_assoc in H2.
  apply bind_ok in H2 as (w3 & E3 & H2). apply bind_ok in H2 as (w & Ew & H2). cbv zeta in H2. apply Ok_inj in H2 as <-.
  cbn [qrun]. rewrite X1. cbn [bind]. unfold qbody. rewrite E3. cbn [bind]. rewrite Ew. cbn [bind]. eexists. split; reflexivity.
Qed.
Lemma qreached_m M D w0 j x : qreached M D w0 j x -> mreached M D j (q_run x).
Proof. intros (F & V & H). exists w0. split; [exact F|]. split; [exact V|]. now apply qrun_mrun. Qed.
Lemma qreached_S M D w0 j x : qreached M D w0 (S j) x -> exists y, qreached M D w0 j y /\ qbody M D y = Ok x.
Proof. intros (F & V & H). apply qrun_S in H as (y & H1 & H2). exists y. split; [|exact H2]. split; [exact F|]. split; [exact V|exact H1]. Qed.

(** ** the queue is on the links *)
Definition held (M : mnet) (w : mworld) : Z := sumZ (map (fun l => Zlen (on_mlink (mw_cls w) false (mw_link w l)) + Zlen (on_mlink (mw_cls w) true (mw_link w l))) (mn_links M)).
Lemma Zlen_pos {A} (l : list A) : 0 <= Zlen l. Proof. unfold Zlen. lia. Qed.
Lemma sum_le {A} (f g : A -> Z) l : (forall x, In x l -> f x <= g x) -> sumZ (map f l) <= sumZ (map g l).
Proof.
  induction l as [|a l IH]; intros H; [apply Z.le_refl|]. cbn [map].
  change (sumZ (f a :: map f l)) with (f a + sumZ (map f l)). change (sumZ (g a :: map g l)) with (g a + sumZ (map g l)).
  pose proof (H a (or_introl eq_refl)). pose proof (IH (fun x I => H x (or_intror I))). lia.
Qed.
Lemma queue_held M w : 0 <= queue_total M w <= held M w.
Proof.
  assert (Z0 : forall l, 0 <= at_end w l) by (intros; apply Zlen_pos). split.
  - unfold queue_total. induction (mn_links M) as [|l ls IH]; [apply Z.le_refl|]. cbn [map].
    match goal with |- 0 <= sumZ (?a :: ?b) => change (sumZ (a :: b)) with (a + sumZ b) end. specialize (Z0 l). destruct (is_pq (mw_link w l)); lia.
  - apply sum_le. intros l _. unfold on_mlink. rewrite !Zlen_app. pose proof (class_sum_len (mw_cls w) (ml_fin (mw_link w l))) as E. fold (at_end w l) in E.
    pose proof (Zlen_pos (minside (mw_cls w) false (ml_body (mw_link w l)))). pose proof (Zlen_pos (minside (mw_cls w) true (ml_body (mw_link w l)))).
    pose proof (Zlen_pos (of_class (mw_cls w) false (ml_in (mw_link w l)))). pose proof (Zlen_pos (of_class (mw_cls w) true (ml_in (mw_link w l)))).
    specialize (Z0 l). destruct (is_pq (mw_link w l)); lia.
Qed.
Lemma waiting_total M w : Zlen (waiting M w) = queue_total M w.
Proof.
  unfold waiting, queue_total. rewrite Zlen_concat_sum. apply sumZ_map_ext. intros l _. unfold is_pq, at_end. destruct (ml_body (mw_link w l)); reflexivity.
Qed.
Section Held.
Variable M : mnet.
Hypothesis K : mnet_ok M.
Lemma to_record_minv D t a w w3 : mdraws_valid D -> to_record M D t a w = Ok w3 -> minv M w -> minv M w3.
Proof.
  intros DV H I. unfold to_record in H. apply bind_ok in H as (w1 & H1 & H). apply bind_ok in H as (w2 & H2 & H3).
  destruct (release_all_minv M K _ _ _ _ _ DV H1 I) as [I1 _]. destruct (routing_minv M _ _ _ _ H2 I1) as [I2 _].
  assert (X : minv M w3 /\ mgrow t w2 w3); [|exact (proj1 X)].
  eapply foldM_both; [|exact H3|exact I2]. intros nk s s' Hin E Hs. destruct (node_meff M K D t s s' nk DV Hin E) as (e & lv & J). eapply meff_minv; eauto.
Qed.
Lemma link_step_held D w l w' : In l (mn_links M) -> mlink_step D w l = Ok w' -> minv M w -> mw_cls w' = mw_cls w /\
  forall k l', on_mlink (mw_cls w) k (mw_link w' l') = on_mlink (mw_cls w) k (mw_link w l').
Proof.
  intros Hl H I. pose proof (n_body _ _ I) as H1. unfold mlink_step in H. apply bind_ok in H as (x & Hx & H). apply bind_ok in H as (y & Hy & H).
  apply Ok_inj in H as <-. split; [reflexivity|].
  assert (Bx : mbody_inv (mw_cls w) (ml_body x)) by (apply (mlink_clear_line _ _ _ false Hx (H1 l Hl))).
  intros k l'. cbn [mset_link mw_link]. destruct (Z.eq_dec l' l) as [->|Ne]; [rewrite upd_same|now rewrite upd_other].
  destruct (mlink_clear_line _ _ _ k Hx (H1 l Hl)) as (_ & E1 & _). destruct (mlink_evolve_line _ _ _ _ _ k Hy Bx) as (_ & E2 & _). congruence.
Qed.
Lemma link_steps_held D (t : Z) : forall ls w w', (forall l, In l ls -> In l (mn_links M)) -> foldM (mlink_step D) w ls = Ok w' -> minv M w -> minv M w' /\ mw_cls w' = mw_cls w /\
  forall k l', on_mlink (mw_cls w) k (mw_link w' l') = on_mlink (mw_cls w) k (mw_link w l').
Proof.
  induction ls as [|l ls IH]; intros w w' Hin H I; [cbn in H; apply Ok_inj in H as <-; auto|].
  cbn [foldM] in H. apply bind_ok in H as (w1 & H1 & H). pose proof (Hin l (or_introl eq_refl)) as Hl.
  destruct (link_step_held D w l w1 Hl H1 I) as [C1 L1]. destruct (link_step_minv M D t w l w1 Hl H1 I) as [I1 _].
  destruct (IH w1 w' (fun x Hx => Hin x (or_intror Hx)) H I1) as (I2 & C2 & L2). split; [exact I2|]. split; [congruence|]. intros k l'. rewrite <- L1. rewrite C1 in L2. apply L2.
Qed.
Lemma receives_held t : forall ns w w', foldM (mreceive M t) w ns = Ok w' -> mw_cls w' = mw_cls w /\ mw_link w' = mw_link w.
Proof.
  induction ns as [|n ns IH]; intros w w' H; [cbn in H; apply Ok_inj in H as <-; auto|].
  cbn [foldM] in H. apply bind_ok in H as (w1 & H1 & H). destruct (IH _ _ H) as [A B]. unfold mreceive in H1. apply bind_ok in H1 as (w2 & H1 & H2). apply Ok_inj in H2 as <-.
  apply mreceive_loop_eff in H1. destruct H1. cbn [mset_dq mw_cls mw_link] in *. split; congruence.
Qed.
Lemma from_record_held D t w3 w : from_record M D t w3 = Ok w -> minv M w3 -> held M w = held M w3.
Proof.
  intros H I. unfold from_record in H. apply bind_ok in H as (w4 & H4 & H). destruct (link_steps_held D t _ _ _ (fun _ X => X) H4 I) as (_ & C4 & L4).
  destruct (receives_held t _ _ _ H) as [C5 L5]. unfold held. apply sumZ_map_ext. intros l _. rewrite C5, L5, C4, !L4. reflexivity.
Qed.
End Held.

(** the n-th entries of the records *)
Lemma nth_app {A} (l : list A) x i : nth_error (l ++ [x]) i = if Nat.eqb i (length l) then Some x else nth_error l i.
Proof.
  destruct (Nat.eqb_spec i (length l)) as [->|N]; [rewrite nth_error_app2, Nat.sub_diag by lia; reflexivity|].
  destruct (Nat.lt_ge_cases i (length l)); [now rewrite nth_error_app1|]. rewrite nth_error_app2 by lia. rewrite (proj2 (nth_error_None l i)) by lia. apply nth_error_None. cbn. lia.
Qed.
Lemma recorded M D w0 : mnet_ok M -> forall j x, qreached M D w0 j x ->
  length (ms_enr (q_run x)) = j /\ length (q_num x) = j /\ (forall l, length (q_map x l) = j) /\ (forall k l, length (q_cmap x k l) = j) /\
  forall i, (i < j)%nat -> exists w z, situation M D w0 i w /\ qreached M D w0 (S i) z /\ minv M w /\ held M (ms_w (q_run z)) = held M w /\
    nth_error (ms_enr (q_run x)) i = Some (f_enroute (mw_fac (ms_w (q_run z)))) /\ nth_error (q_num x) i = Some (queue_total M w) /\
    (forall l, nth_error (q_map x l) i = Some (at_end w l)) /\ (forall k l, nth_error (q_cmap x k l) i = Some (at_end_class w k l)).
Proof.
  intros K. induction j as [|j IH]; intros x R.
  - destruct R as (_ & _ & H). cbn in H. apply Ok_inj in H as <-. cbn. repeat split; intros; lia.
  - pose proof R as R'. apply qreached_S in R' as (y & R' & B). pose proof (qbody_inv _ _ _ _ B) as (w3 & T & Fr & _ & En & Em & Ec & Ee).
    destruct (IH y R') as (L1 & L2 & L3 & L4 & Old). rewrite Ee, En, !app_length, L1, L2. split; [cbn; lia|]. split; [cbn; lia|].
    split; [intros l; rewrite Em, app_length, L3; cbn; lia|]. split; [intros k l; rewrite Ec, app_length, L4; cbn; lia|].
    intros i Hi. pose proof (mreached_cur M _ _ _ (qreached_m _ _ _ _ _ R')) as Cur. rewrite Cur in *.
    destruct (Nat.eq_dec i j) as [->|N].
    + exists w3, x. pose proof (to_record_minv M K _ _ _ _ _ (proj1 (proj2 R') (Z.of_nat j)) T (mreached_minv M K _ _ _ (qreached_m _ _ _ _ _ R'))) as I3.
      split; [exists y; auto|]. split; [exact R|]. split; [exact I3|]. split; [exact (from_record_held M _ _ _ _ Fr I3)|].
      rewrite !nth_app, L1, L2, !Nat.eqb_refl. split; [reflexivity|]. split; [reflexivity|].
      split; [intros l; rewrite Em, nth_app, L3, Nat.eqb_refl; reflexivity|intros k l; rewrite Ec, nth_app, L4, Nat.eqb_refl; reflexivity].
    + destruct (Old i ltac:(lia)) as (w & z & S1 & S2 & I & S3 & S4 & S5 & S6 & S7). exists w, z. rewrite !nth_app, L1, L2, (proj2 (Nat.eqb_neq i j)) by exact N.
      repeat (split; [assumption|]). split; [intros l; rewrite Em, nth_app, L3, (proj2 (Nat.eqb_neq i j)) by exact N; apply S6|intros k l; rewrite Ec, nth_app, L4, (proj2 (Nat.eqb_neq i j)) by exact N; apply S7].
Qed.
Lemma held_on_links M w : held M w = Zlen (m_on_links M w false) + Zlen (m_on_links M w true).
Proof. unfold held, m_on_links. rewrite !Zlen_concat_sum, sumZ_map_plus. reflexivity. Qed.

(** ** averages *)
Local Open Scope Q_scope.
Lemma sum_between lo hi ts : Forall (fun t => lo <= t <= hi) ts -> lo * inject_Z (Z.of_nat (length ts)) <= sumQ ts /\ sumQ ts <= hi * inject_Z (Z.of_nat (length ts)).
Proof.
  induction 1 as [|t ts [A B] F [C D]].
  - change (sumQ []) with 0. change (inject_Z (Z.of_nat (length []))) with 0. lra.
  - change (sumQ (t :: ts)) with (t + sumQ ts). assert (E : inject_Z (Z.of_nat (length (t :: ts))) == inject_Z (Z.of_nat (length ts)) + 1).
    { change 1 with (inject_Z 1). rewrite <- inject_Z_plus. cbn [length]. rewrite Nat2Z.inj_succ. unfold Z.succ. reflexivity. }
    rewrite E. lra.
Qed.
Lemma mapM_nth {A B} (f : A -> res B) l r : mapM f l = Ok r -> Forall2 (fun a b => f a = Ok b) l r.
Proof. apply mapM_Forall2. Qed.
Lemma average_between f s e n lo hi : (1 <= n)%Z -> s + 1 <= e -> (forall t, s <= t -> t < e -> exists r, f t = Ok r /\ lo <= r <= hi) ->
  exists q, average_tt f s e n = Ok (VNum q) /\ lo <= q <= hi.
Proof.
  intros Hn He Hf. unfold average_tt. set (k := robust_trials s e n).
  assert (Hk : (1 <= k)%Z). { unfold k, robust_trials. assert (1 <= trunc (e - s))%Z by (apply trunc_ge; [lia|change (inject_Z 1) with 1; lra]). destruct (trunc (e - s) <? n)%Z; lia. }
  assert (Pk : 0 < inject_Z k) by (change 0 with (inject_Z 0); rewrite <- Zlt_Qlt; lia).
  destruct (Z.eqb_spec k 0) as [X|_]; [lia|].
  assert (At : forall i, In i (seq 0 (Z.to_nat k)) -> exists r, f (s + inject_Z (Z.of_nat i) * ((e - s) / inject_Z k)) = Ok r /\ lo <= r <= hi).
  { intros i Hi. apply in_seq in Hi. assert (Bi : 0 <= inject_Z (Z.of_nat i) <= inject_Z k - 1).
    { change 0 with (inject_Z 0). change 1 with (inject_Z 1). unfold Qminus. rewrite <- inject_Z_opp, <- inject_Z_plus, <- !Zle_Qle. lia. }
    assert (Ek : inject_Z k * ((e - s) / inject_Z k) == e - s) by (field; lra). assert (Px : 0 < (e - s) / inject_Z k) by (apply Qlt_shift_div_l; lra).
    apply Hf; set (x := (e - s) / inject_Z k) in *; set (q := inject_Z (Z.of_nat i)) in *; nra. }
  assert (X : exists ts, mapM (fun i => f (s + inject_Z (Z.of_nat i) * ((e - s) / inject_Z k))) (seq 0 (Z.to_nat k)) = Ok ts /\ length ts = Z.to_nat k /\ Forall (fun t => lo <= t <= hi) ts).
  { revert At. assert (Y : forall l, (forall i, In i l -> exists r, f (s + inject_Z (Z.of_nat i) * ((e - s) / inject_Z k)) = Ok r /\ lo <= r <= hi) ->
      exists ts, mapM (fun i => f (s + inject_Z (Z.of_nat i) * ((e - s) / inject_Z k))) l = Ok ts /\ length ts = length l /\ Forall (fun t => lo <= t <= hi) ts);
      [|intros At; specialize (Y _ At); now rewrite seq_length in Y].
    intros l At. induction l as [|i l IH]; [exists []; repeat split; constructor|].
    destruct (At i (or_introl eq_refl)) as (r & E & B). destruct (IH (fun j J => At j (or_intror J))) as (ts & Et & L & F). exists (r :: ts). cbn [mapM]. rewrite E. cbn [bind]. rewrite Et. cbn [bind length].
    split; [reflexivity|]. split; [congruence|constructor; assumption]. }
  destruct X as (ts & Et & L & F). rewrite Et. cbn [bind]. exists (sumQ ts / inject_Z k). split; [reflexivity|].
  destruct (sum_between lo hi ts F) as [A B]. rewrite L, Z2Nat.id in A, B by lia.
  split; [apply Qle_shift_div_l|apply Qle_shift_div_r]; assumption.
Qed.
Lemma cut_between ut len ffs t lo hi : 0 < ut -> 0 <= len -> 0 < ffs -> lo <= t <= hi -> lo * ut <= 20 * (len / ffs) ->
  within (lo * ut) (hi * ut) (cut_tt ut len ffs false (VNum t)) /\ within (lo * ut) (20 * (len / ffs)) (cut_tt ut len ffs false (VNum t)).
Proof.
  intros U L P [A B] C. cbn [cut_tt]. assert (E : 20 * len / ffs == 20 * (len / ffs)) by (field; lra). set (b := len / ffs) in *.
  destruct (Qltb_spec (20 * b) (t * ut)) as [Lt|Lt]; cbn [within].
  - rewrite E. split; split; nra.
  - apply Qnot_lt_le in Lt. split; split; nra.
Qed.
