(** Node updates: curve times, no failure at origins and destinations, and the
    statements of Spec_Node.v. *)
From Verif Require Import Base Base_lemmas Model_Num Proof_Num Spec_Path Proof_Path Model_CC Spec_CC Proof_CC Model_Path Model_Link Spec_Link Spec_Node
  Proof_Link Proof_Link3 Proof_Link4 Model_World Model_Node Proof_Node Proof_Node2 Proof_Node3 Proof_Node4.
Local Open Scope Z_scope.

(** ** curve times are kept *)
Lemma move_pair_timely fs t a b k w w' : 0 <= t -> timely (t + 1) (w_cc w) -> move_pair fs t a b k w = Ok w' -> timely (t + 1) (w_cc w').
Proof.
  intros Ht TM H. unfold move_pair in H. destruct (pull (goes w b) k (l_fin (w_link w a))) as [[vs rest] lft].
  apply bind_ok in H as (w4 & H4 & H). apply bind_ok in H as (u & _ & H). apply Ok_inj in H as <-.
  match type of H4 with foldM _ ?s vs = _ => set (w3 := s) in * end.
  destruct (foldM_total (tree_inc fs t a b) (fun w => timely (t + 1) (w_cc w)) vs) with (s := w3) as (w5 & E5 & T5).
  - intros s v Hs _. now apply tree_inc_total.
  - exact TM.
  - rewrite E5 in H4. apply Ok_inj in H4 as <-. exact T5.
Qed.
Lemma moves_timely fs t : 0 <= t -> forall L w w', timely (t + 1) (w_cc w) -> foldM (mpair fs t) w L = Ok w' -> timely (t + 1) (w_cc w').
Proof.
  intros Ht. induction L as [|[[a b] k] L IH]; intros w w' TM H; simpl in H; [apply Ok_inj in H as <-; exact TM|].
  apply bind_ok in H as (w1 & H1 & H2). apply move_pair_timely in H1; auto. eapply IH; eauto.
Qed.
Lemma junction_timely fs ins outs flow D t n w w' : 0 <= t -> paired (w_cc w) -> timely (t + 1) (w_cc w) ->
  junction_evolve fs ins outs flow D t n w = Ok w' -> timely (t + 1) (w_cc w').
Proof.
  intros Ht Pr TM H. unfold junction_evolve in H. apply bind_ok in H as (m & _ & H). apply bind_ok in H as (w1 & H1 & H2).
  destruct (record_total fs t ins m w Ht TM Pr) as (w1' & E1 & T1). rewrite E1 in H1. apply Ok_inj in H1 as <-.
  rewrite move_vehicles_flat in H2. eapply moves_timely; eauto.
Qed.

Lemma origin_move_total fs t n b k w : 0 <= t -> timely (t + 1) (w_cc w) ->
  exists w', origin_move fs t n w (b, k) = Ok w' /\ timely (t + 1) (w_cc w').
Proof.
  intros Ht TM. unfold origin_move.
  assert (X : exists w1, match cc_Nin (w_cc w) b with
           | Some _ => if 0 <? k then inc_in w b t (inject_Z k / fs) else Ok w
           | None => Ok w end = Ok w1 /\ timely (t + 1) (w_cc w1)).
  { destruct (cc_Nin (w_cc w) b) eqn:E; [|eauto]. destruct (0 <? k); [|eauto]. apply inc_in_total; [exact TM|congruence]. }
  destruct X as (w1 & E1 & T1). rewrite E1. cbn [bind]. destruct (pull _ _ _) as [[vs rest] lft]. eexists. split; [reflexivity|exact T1].
Qed.
Lemma origin_moves_total fs t n ks w : 0 <= t -> timely (t + 1) (w_cc w) ->
  exists w', foldM (origin_move fs t n) w ks = Ok w' /\ timely (t + 1) (w_cc w').
Proof.
  intros Ht TM. apply (foldM_total (origin_move fs t n) (fun w => timely (t + 1) (w_cc w))); [|exact TM].
  intros s [b k] Hs _. now apply origin_move_total.
Qed.
Lemma origin_timely fs outs r t n w w' : 0 <= t -> timely (t + 1) (w_cc w) -> origin_evolve fs outs r t n w = Ok w' -> timely (t + 1) (w_cc w').
Proof.
  intros Ht TM H. unfold origin_evolve in H. apply bind_ok in H as (u & _ & H). apply bind_ok in H as (ks & _ & H).
  destruct (origin_moves_total fs t n ks w Ht TM) as (w2 & E & T2). rewrite E in H. apply Ok_inj in H as <-. exact T2.
Qed.
Lemma origin_total fs outs r t n w : 0 <= t -> timely (t + 1) (w_cc w) ->
  (forall v, In v (w_oq w n) -> exists b, In b outs /\ goes w b v = true) ->
  (forall b, In b outs -> exists s, link_supply (w_link w b) = Ok s) ->
  exists w', origin_evolve fs outs r t n w = Ok w'.
Proof.
  intros Ht TM Hh Hs. unfold origin_evolve.
  replace (forallb _ _) with true.
  2:{ symmetry. apply forallb_forall. intros v Hv. apply existsb_exists. apply Hh, Hv. }
  cbn [guard bind]. destruct (mapM_keyed_total (fun b => origin_volume fs (r b) w n b) outs) as (ks & Ek).
  { intros b Hb. destruct (Hs b Hb) as (s & E). unfold origin_volume. rewrite E. cbn [bind]. eauto. }
  rewrite Ek. cbn [bind]. destruct (origin_moves_total fs t n ks w Ht TM) as (w2 & E & _). eauto.
Qed.

Lemma dest_step_total fs t n a w : 0 <= t -> timely (t + 1) (w_cc w) ->
  (forall v, In v (l_fin (w_link w a)) -> v_next (w_veh w v) = None) ->
  exists w', dest_step fs t n w a = Ok w' /\ timely (t + 1) (w_cc w').
Proof.
  intros Ht TM Hn. unfold dest_step. cbv zeta. set (fin := l_fin (w_link w a)) in *.
  assert (X : exists w1, match cc_Nout (w_cc w) a with
           | Some _ => if 0 <? Zlen fin then inc_out w a t (inject_Z (Zlen fin) / fs) else Ok w
           | None => Ok w end = Ok w1 /\ timely (t + 1) (w_cc w1) /\ w_veh w1 = w_veh w).
  { destruct (cc_Nout (w_cc w) a) eqn:E; [|eauto]. destruct (0 <? Zlen fin); [|eauto].
    destruct (inc_out_total w a t (inject_Z (Zlen fin) / fs) TM) as (w1 & E1 & T1); [congruence|].
    exists w1. split; [exact E1|]. split; [exact T1|]. apply inc_out_ok in E1 as ((K & _) & _). exact K. }
  destruct X as (w1 & E1 & T1 & V1). rewrite E1. cbn [bind].
  replace (forallb _ fin) with true.
  2:{ symmetry. apply forallb_forall. intros v Hv. now rewrite V1, (Hn v Hv). }
  cbn [guard bind]. eexists. split; [reflexivity|exact T1].
Qed.
Lemma dest_step_timely fs t n a w w' : 0 <= t -> timely (t + 1) (w_cc w) -> dest_step fs t n w a = Ok w' -> timely (t + 1) (w_cc w').
Proof.
  intros Ht TM H. pose proof (dest_step_ok _ _ _ _ _ _ H) as E.
  destruct (dest_step_total fs t n a w Ht TM) as (w2 & E2 & T2).
  { intros v Hv. eapply de_next; eauto. now left. }
  rewrite E2 in H. apply Ok_inj in H as <-. exact T2.
Qed.
Lemma dest_timely fs t n : forall ins w w', 0 <= t -> timely (t + 1) (w_cc w) -> dest_evolve fs ins t n w = Ok w' -> timely (t + 1) (w_cc w').
Proof.
  unfold dest_evolve. induction ins as [|a ins IH]; intros w w' Ht TM H; simpl in H; [apply Ok_inj in H as <-; exact TM|].
  apply bind_ok in H as (w1 & H1 & H2). apply dest_step_timely in H1; auto. eapply IH; eauto.
Qed.
Lemma dest_total fs t n : forall ins w, 0 <= t -> NoDup ins -> timely (t + 1) (w_cc w) ->
  (forall a v, In a ins -> In v (l_fin (w_link w a)) -> v_next (w_veh w v) = None) ->
  exists w', dest_evolve fs ins t n w = Ok w'.
Proof.
  unfold dest_evolve. induction ins as [|a ins IH]; intros w Ht ND TM Hn; simpl; [eauto|].
  apply NoDup_cons_iff in ND as [Na ND].
  destruct (dest_step_total fs t n a w Ht TM) as (w1 & E1 & T1); [intros; eapply Hn; eauto; now left|]. rewrite E1. cbn [bind].
  apply IH; auto. intros a' v Ha Hv. apply dest_step_ok in E1. destruct E1 as [W1 _ _ _ _ _ M1 _ _ _ _ _ _].
  rewrite M1 in Hv by (intros [->|[]]; contradiction). destruct W1 as (_ & _ & _ & W1). destruct (W1 v) as (_&_&_&_&_&_&Ev&_). rewrite Ev.
  eapply Hn; eauto. now right.
Qed.

(** ** more fuel does not change a finished trim *)
Lemma trim_mono picks lim : forall f k col col', trim f picks k lim col = Ok col' -> forall f', (f <= f')%nat -> trim f' picks k lim col = Ok col'.
Proof.
  induction f as [|f IH]; intros k col col' H f' L.
  - simpl in H. destruct f'; simpl; destruct (negb (Qltb lim (inject_Z (sumZ col)))); congruence.
  - destruct f' as [|f']; [lia|]. simpl in *. destruct (negb (Qltb lim (inject_Z (sumZ col)))); [exact H|].
    destruct (length col =? 0)%nat; [discriminate|]. cbv zeta in *. apply IH; [exact H|lia].
Qed.

Lemma mapM_keyed_ext {B} (g g' : Z -> res B) l : (forall a, In a l -> g a = g' a) ->
  mapM (fun a => do k <- g a; Ok (a, k)) l = mapM (fun a => do k <- g' a; Ok (a, k)) l.
Proof.
  induction l as [|a l IH]; intros H; simpl; [reflexivity|]. rewrite (H a) by now left. rewrite IH by (intros; apply H; now right). reflexivity.
Qed.

(** ** specification of a junction *)
Section Junction.
Context (N : net) (D : draws) (t n : Z) (w w' : world).

Lemma junction_passage flow : node_links_ok N n -> draws_valid D -> paired (w_cc w) ->
  junction_evolve (n_fs N) (n_in N n) (n_out N n) flow D t n w = Ok w' -> exists pass, fifo_passage N n w w' pass.
Proof.
  intros (NI & NO & DJ) DV Pr H. destruct DV as (_ & _ & _ & _ & _ & _ & Hsh & _).
  apply junction_ok in H as (m & Hm & J); auto; [|intros b; apply Hsh].
  destruct (columns_ok _ _ _ _ _ _ _ _ NO Hm) as (_ & Em & supply & _ & Hc).
  destruct J as [je_keep0 je_oq0 je_dq0 je_like0 je_num0 je_in0 je_in_other0 je_fin0 je_fin_part0 je_fin_cnt0 je_fin_other0 je_cur0 je_Nin0 je_Nout0 je_Nout_other0]. set (col := fun b => match find (fun x => fst x =? b) m with Some x => snd x | None => [] end).
  assert (Hcol : forall b, In b (n_out N n) -> In (b, col b) m).
  { intros b Hb. rewrite <- Em in Hb. apply in_map_iff in Hb as ([b' c] & <- & Hb). unfold col. simpl.
    rewrite (find_keyed m b' c) by congruence || auto. exact Hb. }
  assert (Hm' : forall b c, In (b, c) m -> c = col b).
  { intros b c Hb. unfold col. rewrite (find_keyed m b c) by congruence || auto. reflexivity. }
  exists (fun a b => firstn (Z.to_nat (mv (n_in N n) (col b) a)) (line w b (l_fin (w_link w a)))).
  assert (Elink : forall x y, link_like x y -> l_in y = l_in x -> y = set_fin x (l_fin y)).
  { intros [p i f b] [p' i' f' b'] [A B] C. simpl in *. subst. reflexivity. }
  assert (Elink2 : forall x y, link_like x y -> l_fin y = l_fin x -> y = set_in x (l_in y)).
  { intros [p i f b] [p' i' f' b'] [A B] C. simpl in *. subst. reflexivity. }
  constructor.
  - intros a b Ha Hb. unfold line. change (headed w b) with (goes w b). rewrite (je_fin_part0 b (col b) a (Hcol b Hb) Ha). now rewrite firstn_skipn.
  - exact je_fin0.
  - intros a Ha. apply perm_cnt. intros v. rewrite cnt_app, (je_fin_cnt0 a v Ha). f_equal. f_equal. f_equal.
    rewrite <- Em, map_map. apply map_ext_in. intros [b c] I. cbn [fst snd]. now rewrite <- (Hm' b c I).
  - intros b Hb. exists (d_inshuf D n b (n_in N n)). split; [apply Hsh|]. apply (je_in0 b (col b) (Hcol b Hb)).
  - intros a Ha. apply Elink; [apply je_like0|]. apply je_in_other0. now apply DJ.
  - intros b Hb. apply Elink2; [apply je_like0|]. apply je_fin_other0. intros Ha. now apply (DJ b).
  - intros l Hi Ho. specialize (je_like0 l). specialize (je_in_other0 l Ho). specialize (je_fin_other0 l Hi).
    rewrite (Elink _ _ je_like0 je_in_other0), je_fin_other0. destruct (w_link w l); reflexivity.
  - auto.
Qed.

Lemma ready_right : (forall a, In a (n_in N n) -> all_headed N w n (l_fin (w_link w a))) -> right_node w (n_in N n) (n_out N n) = true.
Proof.
  intros H. apply forallb_forall. intros a Ha. apply forallb_forall. intros v Hv. apply existsb_exists.
  destruct (H a Ha v Hv) as (b & Hb & E). exists b. split; [exact Hb|]. now apply goes_next.
Qed.
Lemma right_ready : right_node w (n_in N n) (n_out N n) = true -> forall a, In a (n_in N n) -> all_headed N w n (l_fin (w_link w a)).
Proof.
  intros H a Ha v Hv. unfold right_node in H. rewrite forallb_forall in H. specialize (H a Ha). rewrite forallb_forall in H.
  specialize (H v Hv). apply existsb_exists in H as (b & Hb & E). exists b. split; [exact Hb|]. now apply goes_next.
Qed.
End Junction.

(** vehicles entering out link [b] do not exceed its receiving capacity *)
Lemma junction_capacity N D t n w w' flow : (0 < n_fs N)%Q -> node_links_ok N n -> draws_valid D -> paired (w_cc w) ->
  junction_evolve (n_fs N) (n_in N n) (n_out N n) flow D t n w = Ok w' ->
  forall b s, In b (n_out N n) -> link_supply (w_link w b) = Ok s ->
  exists new, l_in (w_link w' b) = l_in (w_link w b) ++ new /\ (inject_Z (Zlen new) <= s * n_fs N)%Q.
Proof.
  intros Hf (NI & NO & DJ) DV Pr H b s Hb Es. pose proof DV as (_ & _ & _ & _ & _ & Hd & Hsh & _).
  apply junction_ok in H as (m & Hm & J); auto; [|intros b'; apply Hsh].
  destruct (columns_ok _ _ _ _ _ _ _ _ NO Hm) as (_ & Em & supply & Hsup & Hc).
  assert (Hb' := Hb). rewrite <- Em in Hb'. apply in_map_iff in Hb' as ([b' col] & Eb & I). simpl in Eb. subst b'.
  destruct J as [je_keep0 je_oq0 je_dq0 je_like0 je_num0 je_in0 je_in_other0 je_fin0 je_fin_part0 je_fin_cnt0 je_fin_other0 je_cur0 je_Nin0 je_Nout0 je_Nout_other0]. eexists. split; [apply (je_in0 b col I)|]. destruct (Hc _ _ I) as [Lc Hr].
  unfold round_column in Hr. apply trim_ok in Hr as (_ & Lim & _). rewrite (Hsup b Hb) in Es. apply Ok_inj in Es. rewrite <- Es.
  eapply Qle_trans; [|apply Qnot_lt_le, Lim]. rewrite <- Zle_Qle.
  replace (sumZ col) with (sumZ (map (mv (n_in N n) col) (n_in N n))) by (f_equal; now apply mv_list). rewrite <- (sumZ_perm _ _ (Permutation_map (mv (n_in N n) col) (Hsh n b (n_in N n)))).
  assert (Hn : forall a, In a (d_inshuf D n b (n_in N n)) -> 0 <= mv (n_in N n) col a).
  { intros a Ha. apply (je_num0 b col a I). eapply Permutation_in; [apply Hsh|exact Ha]. }
  clear - Hn. induction (d_inshuf D n b (n_in N n)) as [|a l IH]; [simpl; unfold Zlen; simpl; lia|].
  cbn [map concat sumZ fold_right]. rewrite Zlen_app. specialize (IH (fun a Ha => Hn a (or_intror Ha))).
  pose proof (Hn a (or_introl eq_refl)). fold (sumZ (map (mv (n_in N n) col) l)).
  assert (Zlen (firstn (Z.to_nat (mv (n_in N n) col a)) (filter (goes w b) (l_fin (w_link w a)))) <= mv (n_in N n) col a).
  { unfold Zlen. rewrite firstn_length. lia. }
  lia.
Qed.

Lemma node_fwj_total N D t n w e : junction_ready N D t n w -> node_evolve N D t w (n, NFwj) = Err e -> e = EFuel.
Proof.
  intros [Hf Ht (NI & NO & DJ) DV Pr TM HS HH] H. pose proof DV as (_ & _ & _ & _ & _ & Hd & Hsh & _).
  cbn [node_evolve] in H. eapply junction_total in H; eauto.
  - intros b. apply Hsh.
  - intros a b. apply Hd.
  - now apply ready_right.
  - now apply fwj_within.
Qed.

(** with enough fuel the rounding loop of every column ends *)
Lemma columns_terminate N D n w : (0 < n_fs N)%Q -> node_links_ok N n -> draws_valid D -> supplies_ok N w n ->
  (forall a, In a (n_in N n) -> all_headed N w n (l_fin (w_link w a))) ->
  (forall b, In b (n_out N n) -> fair (d_pick D n b) (length (n_in N n))) ->
  exists f0, forall f, (f0 <= f)%nat -> exists m,
    junction_columns (n_fs N) (n_in N n) (n_out N n) (fun supply a b => fwj_flow (demand (n_fs N) w) (n_in N n) (supply b) a b) (with_fuel f D) n w = Ok m.
Proof.
  intros Hf (NI & NO & DJ) DV HS HH HF. pose proof DV as (_ & _ & _ & _ & _ & Hd & Hsh & _).
  unfold junction_columns. rewrite ready_right by exact HH. cbn [guard bind].
  destruct (mapM_keyed_total (fun b => link_supply (w_link w b)) (n_out N n)) as (sup & Es).
  { intros b Hb. destruct (HS b Hb) as (s & E & _). eauto. }
  rewrite Es. cbn [bind]. cbv zeta.
  set (supply := fun b => match find (fun x => fst x =? b) sup with Some x => snd x | None => 0%Q end).
  assert (Hs : forall b, In b (n_out N n) -> (0 <= supply b)%Q).
  { intros b Hb. apply mapM_keyed in Es as [E1 E2]. assert (Hb' := Hb). rewrite <- E1 in Hb'.
    apply in_map_iff in Hb' as ([b' s] & Eb & I). simpl in Eb. subst b'. unfold supply.
    rewrite (find_keyed sup b s) by congruence || auto. simpl. destruct (HS b Hb) as (s' & Es' & Ps). rewrite (E2 _ _ I) in Es'. apply Ok_inj in Es'. now subst. }
  assert (HC : forall b, In b (n_out N n) -> exists f0, forall f, (f0 <= f)%nat -> exists c,
     round_column (n_fs N) (fun a => d_node D n a b) f (d_pick D n b) (fun a => fwj_flow (demand (n_fs N) w) (n_in N n) (supply b) a b) (supply b) (n_in N n) = Ok c).
  { intros b Hb. unfold round_column. set (col := map _ _).
    destruct (trim_terminates (d_pick D n b) (supply b * n_fs N)) with (col := col) (k := 0%nat) as (f0 & c & E).
    - apply Qmult_le_0_compat; [now apply Hs|lra].
    - intros j. unfold col. destruct (nth_in_or_default j (map (fun a => rround (d_node D n a b) (fwj_flow (demand (n_fs N) w) (n_in N n) (supply b) a b * n_fs N)) (n_in N n)) 0) as [I|E]; [|rewrite E; lia].
      apply in_map_iff in I as (a & <- & _). apply rround_nonneg. apply Qmult_le_0_compat; [|lra]. apply fwj_range; auto.
    - unfold col. rewrite map_length. apply HF, Hb.
    - exists f0. intros f L. exists c. eapply trim_mono; eauto. }
  assert (HL : forall l, (forall b, In b l -> In b (n_out N n)) -> exists f0, forall f, (f0 <= f)%nat -> exists m,
     mapM (fun b => do c <- round_column (n_fs N) (fun a => d_node D n a b) f (d_pick D n b)
                          (fun a => fwj_flow (demand (n_fs N) w) (n_in N n) (supply b) a b) (supply b) (n_in N n); Ok (b, c)) l = Ok m).
  { induction l as [|b l IH]; intros I; [exists 0%nat; intros; simpl; eauto|].
    destruct (HC b (I b (or_introl eq_refl))) as (f1 & H1). destruct IH as (f2 & H2); [intros; apply I; now right|].
    exists (Nat.max f1 f2). intros f L. destruct (H1 f ltac:(lia)) as (c & Ec). destruct (H2 f ltac:(lia)) as (m & Em). simpl. rewrite Ec. cbn [bind]. rewrite Em. cbn [bind]. eauto. }
  apply HL. auto.
Qed.

Lemma node_fwj_terminates N D t n w : junction_ready N D t n w -> (forall b, In b (n_out N n) -> fair (d_pick D n b) (length (n_in N n))) ->
  exists f0, forall f, (f0 <= f)%nat -> exists w', node_evolve N (with_fuel f D) t w (n, NFwj) = Ok w'.
Proof.
  intros R HF. pose proof R as [Hf Ht NL DV Pr TM HS HH].
  destruct (columns_terminate N D n w Hf NL DV HS HH HF) as (f0 & H0). exists f0. intros f L.
  destruct (H0 f L) as (m & Em). cbn [node_evolve]. unfold junction_evolve. rewrite Em. cbn [bind].
  destruct NL as (NI & NO & DJ). pose proof DV as (_ & _ & _ & _ & _ & Hd & Hsh & _).
  destruct (record_total (n_fs N) t (n_in N n) m w Ht TM Pr) as (w1 & E1 & T1). rewrite E1. cbn [bind].
  pose proof (record_keep _ _ _ _ _ _ E1) as K1.
  destruct (columns_ok _ _ _ _ _ _ _ _ NO Em) as (_ & Eo & supply & Hsup & Hc).
  rewrite move_vehicles_flat.
  destruct (moves_total (n_fs N) t Ht (flat (n_in N n) (d_inshuf (with_fuel f D) n) m) w1) as (w2 & E2 & _); [| | exact T1 | | eauto].
  - apply flat_NoDup; [exact NI|intros b; apply Hsh|congruence].
  - intros x y Hx Hy E. apply in_flat in Hx as (c & _ & Hs & _). apply in_flat in Hy as (c' & Hm' & _).
    apply (DJ (src x)); [eapply Permutation_in; [apply Hsh|exact Hs]|]. rewrite E, <- Eo. apply in_map_iff. exists (tgt y, c'). auto.
  - intros x Hx. apply in_flat in Hx as (col & Hm & Hs & Hn). rewrite Hn.
    assert (Ib : In (tgt x) (n_out N n)) by (rewrite <- Eo; apply in_map_iff; exists (tgt x, col); auto).
    assert (Ia : In (src x) (n_in N n)) by (eapply Permutation_in; [apply Hsh|exact Hs]).
    destruct (Hc _ _ Hm) as [_ Hr].
    eapply round_range with (w := w) (b := tgt x) in Hr as (_ & _ & R0); auto.
    + unfold count_if. rewrite (filter_goes_keep w w1) by (apply cc_keep_wkeep, K1). destruct K1 as (_ & -> & _). apply R0, Ia.
    + intros a. apply Hd.
    + intros a Ha. apply fwj_within with (outs := n_out N n); auto. intros b Hb. destruct (HS b Hb) as (s & Es & Ps). rewrite (Hsup b Hb) in Es. apply Ok_inj in Es. now rewrite Es.
Qed.

(** ** specification of an origin *)
Lemma origin_spec0 N D t n w w' : (0 < n_fs N)%Q -> NoDup (n_out N n) -> draws_valid D ->
  node_evolve N D t w (n, NOrigin) = Ok w' ->
  exists kf, (forall b, In b (n_out N n) -> origin_volume (n_fs N) (d_orig D n b) w n b = Ok (kf b) /\ kf b <= Zlen (line w b (w_oq w n))) /\
    (let send := fun b => firstn (Z.to_nat (kf b)) (line w b (w_oq w n)) in
     origin_sends N n w w' send /\ wkeep w w' /\
     (forall v, v_cur (w_veh w' v) = if memb v (concat (map send (n_out N n))) then v_next (w_veh w v) else v_cur (w_veh w v)) /\
     cc_Nout (w_cc w') = cc_Nout (w_cc w) /\
     (forall b, In b (n_out N n) -> bump t (cc_Nin (w_cc w) b) (cc_Nin (w_cc w') b) (inject_Z (Zlen (send b)) / n_fs N)) /\
     (forall l, ~ In l (n_out N n) -> cc_Nin (w_cc w') l = cc_Nin (w_cc w) l)) /\
  (forall v, In v (w_oq w n) -> exists b, In b (n_out N n) /\ v_next (w_veh w v) = Some b).
Proof.
  intros Hf NO DV H. cbn [node_evolve] in H. pose proof DV as (_ & _ & _ & _ & Hd & _ & _ & _).
  apply origin_ok in H as (Hh & ks & Ek & Hk & O); auto.
  2:{ intros b. apply Hd. }
  set (kf := fun b => match find (fun x => fst x =? b) ks with Some x => snd x | None => 0 end).
  assert (Hkf : forall b, In b (n_out N n) -> In (b, kf b) ks).
  { intros b Hb. rewrite <- Ek in Hb. apply in_map_iff in Hb as ([b' c] & <- & Hb). unfold kf. simpl.
    rewrite (find_keyed ks b' c) by congruence || auto. exact Hb. }
  assert (Hkf' : forall b c, In (b, c) ks -> c = kf b).
  { intros b c Hb. unfold kf. rewrite (find_keyed ks b c) by congruence || auto. reflexivity. }
  destruct O as [oe_keep0 oe_dq0 oe_oq_other0 oe_oq0 oe_oq_part0 oe_oq_part_other0 oe_oq_cnt0 oe_link0 oe_link_other0 oe_cur0 oe_Nout0 oe_Tin0 oe_Tout0 oe_Nin0 oe_Nin_other0].
  assert (EC : concat (map (fun bk => firstn (Z.to_nat (snd bk)) (filter (goes w (fst bk)) (w_oq w n))) ks) =
               concat (map (fun b => firstn (Z.to_nat (kf b)) (line w b (w_oq w n))) (n_out N n))).
  { f_equal. rewrite <- Ek, map_map. apply map_ext_in. intros [b c] I. cbn [fst snd]. now rewrite <- (Hkf' b c I). }
  rewrite EC in *. exists kf. split; [|split; [split; [constructor|]|]].
  - intros b Hb. apply (Hk b), Hkf, Hb.
  - intros b Hb. unfold line. change (headed w b) with (goes w b). rewrite (oe_oq_part0 b (kf b) (Hkf b Hb)). now rewrite firstn_skipn.
  - exact oe_oq0.
  - apply perm_cnt. intros v. now rewrite cnt_app, oe_oq_cnt0.
  - intros b Hb. apply (oe_link0 b (kf b) (Hkf b Hb)).
  - intros l Hl. apply oe_link_other0. congruence.
  - auto.
  - repeat (split; [assumption|]). split.
    + intros b Hb. destruct (Hk _ _ (Hkf b Hb)) as [_ B]. specialize (oe_Nin0 _ _ (Hkf b Hb)).
      replace (Zlen (firstn _ _)) with (Z.max 0 (kf b)); [exact oe_Nin0|].
      unfold Zlen, count_if, Zlen in *. rewrite firstn_length. unfold line. change (headed w b) with (goes w b). lia.
    + intros l Hl. apply oe_Nin_other0. congruence.
  - intros v Hv. destruct (Hh v Hv) as (b & Hb & G). exists b. split; [exact Hb|]. now apply goes_next.
Qed.

Lemma origin_spec N D t n w w' : (0 < n_fs N)%Q -> NoDup (n_out N n) -> draws_valid D -> supplies_ok N w n ->
  node_evolve N D t w (n, NOrigin) = Ok w' ->
  exists send, origin_sends N n w w' send /\ (forall b s, In b (n_out N n) -> link_supply (w_link w b) = Ok s ->
    (inject_Z (Zlen (send b)) < s * n_fs N + 1)%Q /\
    ((inject_Z (Zlen (line w b (w_oq w n))) <= s * n_fs N)%Q -> send b = line w b (w_oq w n))).
Proof.
  intros Hf NO DV HS H. destruct (origin_spec0 _ _ _ _ _ _ Hf NO DV H) as (kf & Hk & (O & _) & _).
  pose proof DV as (_ & _ & _ & _ & Hd & _ & _ & _).
  exists (fun b => firstn (Z.to_nat (kf b)) (line w b (w_oq w n))). split; [exact O|].
  intros b s Hb Es. destruct (Hk b Hb) as [Hv R]. apply origin_volume_ok in Hv as (s' & E & _ & _ & B & F); auto; [|apply Hd].
  rewrite Es in E. apply Ok_inj in E. subst s'. destruct (HS b Hb) as (s' & E & P). rewrite Es in E. apply Ok_inj in E. subst s'.
  unfold line in *. change (headed w b) with (goes w b) in *. split.
  - eapply Qle_lt_trans; [|apply B, P]. destruct (Hk b Hb) as [Hv _]. apply origin_volume_ok in Hv as (s' & E & A & _); auto; [|apply Hd]. rewrite Es in E. apply Ok_inj in E. subst s'.
    specialize (A P). rewrite <- Zle_Qle. unfold Zlen. rewrite firstn_length. lia.
  - intros L. unfold count_if in F. rewrite (F L). unfold Zlen. rewrite Nat2Z.id. apply firstn_all.
Qed.
