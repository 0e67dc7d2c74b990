(** Facts about the movement loops of the node models. *)
From Verif Require Import Base Base_lemmas Model_Num Proof_Num Spec_Path Proof_Path Model_CC Model_Path Model_Link Spec_Link
  Proof_Link Proof_Link3 Proof_Link4 Model_World Model_Node.

Lemma filter_all_false {A} (f : A -> bool) l : (forall x, In x l -> f x = false) -> filter f l = [].
Proof. induction l as [|x l IH]; intros H; simpl; [reflexivity|]. rewrite (H x) by now left. apply IH. intros; apply H; now right. Qed.

Lemma pull_le0 f n q : n <= 0 -> pull f n q = ([], q, n).
Proof. intros H. destruct q; simpl; [reflexivity|]. destruct (Z.ltb_spec 0 n); [lia|reflexivity]. Qed.

Lemma pull_spec f : forall q n t r m, 0 <= n -> pull f n q = (t, r, m) ->
  t = firstn (Z.to_nat n) (filter f q) /\ m = n - Zlen t /\
  filter f r = skipn (Z.to_nat n) (filter f q) /\
  (forall g, (forall v, f v = true -> g v = false) -> filter g r = filter g q) /\
  subseq r q /\ (forall v, cnt v q = (cnt v t + cnt v r)%nat).
Proof.
  induction q as [|v q IH]; intros n t r m Hn E; simpl in E.
  - injection E as <- <- <-. simpl. rewrite firstn_nil, skipn_nil. unfold Zlen; simpl.
    repeat split; auto; try lia. constructor.
  - destruct (Z.ltb_spec 0 n) as [L|L].
    + destruct (f v) eqn:F.
      * destruct (pull f (n - 1) q) as [[t1 r1] m1] eqn:E1. injection E as <- <- <-.
        destruct (IH (n - 1) _ _ _ ltac:(lia) E1) as (A & B & C & D & Sb & K).
        replace (Z.to_nat n) with (S (Z.to_nat (n - 1))) by lia. simpl. rewrite F. simpl.
        repeat split.
        -- now rewrite <- A.
        -- unfold Zlen in *. simpl length. lia.
        -- exact C.
        -- intros g Hg. rewrite (Hg v F). auto.
        -- constructor; exact Sb.
        -- intros x. simpl. rewrite K. lia.
      * destruct (pull f n q) as [[t1 r1] m1] eqn:E1. injection E as <- <- <-.
        destruct (IH n _ _ _ Hn E1) as (A & B & C & D & Sb & K).
        simpl. rewrite F. repeat split; auto.
        -- intros g Hg. destruct (g v); rewrite (D g Hg); reflexivity.
        -- constructor; exact Sb.
        -- intros x. simpl. rewrite K. lia.
    + injection E as <- <- <-. replace (Z.to_nat n) with 0%nat by lia. simpl.
      unfold Zlen; simpl. repeat split; auto; try lia. apply subseq_refl.
Qed.

Lemma Zlen_firstn_le {A} (n : Z) (l : list A) : 0 <= n -> n <= Zlen l -> Zlen (firstn (Z.to_nat n) l) = n.
Proof. intros H1 H2. unfold Zlen in *. rewrite firstn_length. lia. Qed.

(** ** on_vehs *)
Lemma on_vehs_nil f m : on_vehs f [] m = m.
Proof. reflexivity. Qed.
Lemma on_vehs_cons f v vs m : on_vehs f (v :: vs) m = on_vehs f vs (upd m v (f (m v))).
Proof. reflexivity. Qed.
Lemma on_vehs_out f vs : forall m v, ~ In v vs -> on_vehs f vs m v = m v.
Proof.
  induction vs as [|x vs IH]; intros m v H; [reflexivity|]. rewrite on_vehs_cons, IH by (intros C; apply H; now right).
  apply upd_other. intros ->. apply H; now left.
Qed.
(** a projection that the update leaves alone *)
Lemma on_vehs_proj {B} (g : veh -> B) f vs : (forall x, g (f x) = g x) -> forall m v, g (on_vehs f vs m v) = g (m v).
Proof.
  intros H. induction vs as [|x vs IH]; intros m v; [reflexivity|]. rewrite on_vehs_cons, IH.
  unfold upd. destruct (Z.eqb_spec v x) as [->|]; [apply H|reflexivity].
Qed.
(** a projection that the update sets to a constant *)
Lemma on_vehs_const {B} (g : veh -> B) b f vs : (forall x, g (f x) = b) -> forall m v, In v vs -> g (on_vehs f vs m v) = b.
Proof.
  intros H. induction vs as [|x vs IH]; intros m v Hv; [contradiction|]. rewrite on_vehs_cons.
  destruct (in_dec Z.eq_dec v vs) as [I|N].
  - apply IH, I.
  - rewrite on_vehs_out by exact N. destruct Hv as [->|]; [|contradiction]. rewrite upd_same. apply H.
Qed.

(** ** What a node step leaves alone *)
(** vehicle data that never change while vehicles move *)
Definition vkeep (a b : veh) : Prop :=
  v_org a = v_org b /\ v_dst a = v_dst b /\ v_adapt a = v_adapt b /\ v_start a = v_start b /\ v_fin a = v_fin b /\
  v_assign a = v_assign b /\ v_next a = v_next b /\ v_path a = v_path b.
Lemma vkeep_refl a : vkeep a a. Proof. repeat split. Qed.
Lemma vkeep_trans a b c : vkeep a b -> vkeep b c -> vkeep a c.
Proof. unfold vkeep. intuition congruence. Qed.
Lemma on_vehs_keep f vs : (forall x, vkeep (f x) x) -> forall m v, vkeep (on_vehs f vs m v) (m v).
Proof.
  intros H. induction vs as [|x vs IH]; intros m v; [apply vkeep_refl|]. rewrite on_vehs_cons.
  eapply vkeep_trans; [apply IH|]. unfold upd. destruct (Z.eqb_spec v x) as [->|]; [apply H|apply vkeep_refl].
Qed.

(** parts of the world no node touches, besides origin and destination queues *)
Definition wkeep (w w' : world) : Prop :=
  w_fac w' = w_fac w /\ w_trk w' = w_trk w /\ w_pt w' = w_pt w /\ (forall v, vkeep (w_veh w' v) (w_veh w v)).
Lemma wkeep_refl w : wkeep w w.
Proof. repeat split. Qed.
Lemma wkeep_trans a b c : wkeep a b -> wkeep b c -> wkeep a c.
Proof.
  intros (A & B & C & D) (A' & B' & C' & D'). repeat split; try congruence; try (now rewrite A'); try (now rewrite B'); try (now rewrite C');
  destruct (D v) as (?&?&?&?&?&?&?&?); destruct (D' v) as (?&?&?&?&?&?&?&?); congruence.
Qed.
Lemma goes_keep w w' b v : wkeep w w' -> goes w' b v = goes w b v.
Proof. intros (_ & _ & _ & H). unfold goes. destruct (H v) as (_&_&_&_&_&_&->&_). reflexivity. Qed.
Lemma goes_one w b b' v : b <> b' -> goes w b v = true -> goes w b' v = false.
Proof. unfold goes. destruct (v_next (w_veh w v)); [|discriminate]. intros H E. apply Z.eqb_eq in E. subst. apply Z.eqb_neq. congruence. Qed.
Lemma goes_next w b v : goes w b v = true <-> v_next (w_veh w v) = Some b.
Proof.
  unfold goes. destruct (v_next (w_veh w v)) as [k|]; split; intros H; try discriminate.
  - apply Z.eqb_eq in H. congruence.
  - injection H as ->. apply Z.eqb_refl.
Qed.

Lemma filter_goes_keep w w' b l : wkeep w w' -> filter (goes w' b) l = filter (goes w b) l.
Proof. intros H. apply filter_ext. intros v. apply goes_keep, H. Qed.

(** ** tree increments only touch the trees *)
Definition cc_keep (w w' : world) : Prop :=
  w_veh w' = w_veh w /\ w_link w' = w_link w /\ w_oq w' = w_oq w /\ w_dq w' = w_dq w /\ w_fac w' = w_fac w /\
  w_trk w' = w_trk w /\ w_pt w' = w_pt w.
Lemma cc_keep_refl w : cc_keep w w. Proof. repeat split. Qed.
Lemma cc_keep_trans a b c : cc_keep a b -> cc_keep b c -> cc_keep a c.
Proof. unfold cc_keep. intuition congruence. Qed.
Lemma cc_keep_set w x : cc_keep w (set_cc w x). Proof. repeat split. Qed.

Definition N_keep (w w' : world) : Prop := cc_Nin (w_cc w') = cc_Nin (w_cc w) /\ cc_Nout (w_cc w') = cc_Nout (w_cc w).

Lemma tree_inc_keep fs t a b w v w' : tree_inc fs t a b w v = Ok w' -> cc_keep w w' /\ N_keep w w'.
Proof.
  unfold tree_inc. cbv zeta. intros H. apply bind_ok in H as (w1 & H1 & H2).
  assert (K1 : cc_keep w w1 /\ N_keep w w1).
  { destruct (cc_Tin (w_cc w) b); [|apply Ok_inj in H1 as <-; repeat split].
    apply bind_ok in H1 as (tr & _ & H1). apply Ok_inj in H1 as <-. repeat split. }
  assert (K2 : cc_keep w1 w' /\ N_keep w1 w').
  { destruct (cc_Tout (w_cc w1) a); [|apply Ok_inj in H2 as <-; repeat split].
    apply bind_ok in H2 as (tr & _ & H2). apply Ok_inj in H2 as <-. repeat split. }
  destruct K1 as [A1 [B1 C1]], K2 as [A2 [B2 C2]]. split; [eapply cc_keep_trans; eauto|split; congruence].
Qed.
Lemma trees_keep fs t a b vs : forall w w', foldM (tree_inc fs t a b) w vs = Ok w' -> cc_keep w w' /\ N_keep w w'.
Proof.
  induction vs as [|v vs IH]; intros w w' H; simpl in H.
  - apply Ok_inj in H as <-. repeat split.
  - apply bind_ok in H as (w1 & H1 & H2). apply tree_inc_keep in H1 as [A1 [B1 C1]]. apply IH in H2 as [A2 [B2 C2]].
    split; [eapply cc_keep_trans; eauto|split; congruence].
Qed.

(** ** one pair of links *)
Lemma move_pair_ok fs t a b k w w' : a <> b -> move_pair fs t a b k w = Ok w' ->
  let vs := firstn (Z.to_nat k) (filter (goes w b) (l_fin (w_link w a))) in
  0 <= k <= count_if (goes w b) (l_fin (w_link w a)) /\
  wkeep w w' /\ w_oq w' = w_oq w /\ w_dq w' = w_dq w /\ N_keep w w' /\
  (exists rest, l_fin (w_link w' a) = rest /\ w_link w' a = set_fin (w_link w a) rest /\
     filter (goes w b) rest = skipn (Z.to_nat k) (filter (goes w b) (l_fin (w_link w a))) /\
     (forall b', b' <> b -> filter (goes w b') rest = filter (goes w b') (l_fin (w_link w a))) /\
     subseq rest (l_fin (w_link w a)) /\
     (forall v, cnt v (l_fin (w_link w a)) = (cnt v vs + cnt v rest)%nat)) /\
  w_link w' b = set_in (w_link w b) (l_in (w_link w b) ++ vs) /\
  (forall l, l <> a -> l <> b -> w_link w' l = w_link w l) /\
  (forall v, v_cur (w_veh w' v) = if memb v vs then Some b else v_cur (w_veh w v)).
Proof.
  intros Hab. unfold move_pair. destruct (pull (goes w b) k (l_fin (w_link w a))) as [[vs rest] lft] eqn:E.
  intros H. apply bind_ok in H as (w4 & H4 & H). apply bind_ok in H as (u & Hg & H). apply Ok_inj in H as <-.
  apply guard_ok in Hg. apply Z.eqb_eq in Hg. subst lft.
  destruct (Z.lt_ge_cases k 0) as [L|L].
  { rewrite pull_le0 in E by lia. injection E as _ _ ->. lia. }
  destruct (pull_spec _ _ _ _ _ _ L E) as (Hv & Hm & Hr & Hg & Hs & Hc). cbv zeta.
  apply trees_keep in H4 as [(K1 & K2 & K3 & K4 & K5 & K6 & K7) KN].
  cbn [set_link set_vehs w_veh w_link w_oq w_dq w_fac w_trk w_pt] in *.
  split.
  { split; [exact L|]. unfold count_if. rewrite Hv in Hm. unfold Zlen in *. rewrite firstn_length in Hm. lia. }
  split.
  { repeat split; try congruence; rewrite K1; apply (on_vehs_keep _ vs); intros x; repeat split. }
  split; [congruence|]. split; [congruence|]. split; [exact KN|].
  split.
  { exists rest. rewrite K2. rewrite upd_other by exact Hab. rewrite upd_same. cbn. repeat split; auto.
    - intros b' Hb'. apply Hg. intros v Gv. eapply goes_one; [|exact Gv]. congruence.
    - now rewrite <- Hv. }
  split.
  { rewrite K2, upd_same. rewrite (upd_other _ a) by congruence. now rewrite <- Hv. }
  split.
  { intros l Ha Hb. rewrite K2. rewrite !upd_other by assumption. reflexivity. }
  intros v. rewrite K1. rewrite <- Hv. destruct (memb v vs) eqn:M.
  - apply memb_In in M. apply (on_vehs_const v_cur (Some b)); [reflexivity|exact M].
  - apply memb_false in M. rewrite on_vehs_out by exact M. reflexivity.
Qed.

(** ** a list of pairs *)
Definition mpair (fs : Q) (t : Z) (w : world) (x : Z * Z * Z) : res world :=
  let '(a, b, k) := x in move_pair fs t a b k w.
Definition flat (ins : list Z) (shuf : Z -> list Z -> list Z) (m : tomove) : list (Z * Z * Z) :=
  concat (map (fun bc => map (fun a => (a, fst bc, mv ins (snd bc) a)) (shuf (fst bc) ins)) m).

Lemma foldM_map {A B S} (f : S -> B -> res S) (g : A -> B) l : forall s, foldM f s (map g l) = foldM (fun s a => f s (g a)) s l.
Proof. induction l as [|a l IH]; intros s; simpl; [reflexivity|]. destruct (f s (g a)); simpl; auto. Qed.

Lemma move_vehicles_flat fs t ins shuf m w : move_vehicles fs t ins shuf m w = foldM (mpair fs t) w (flat ins shuf m).
Proof.
  unfold move_vehicles, flat. revert w. induction m as [|bc m IH]; intros w; simpl; [reflexivity|].
  rewrite foldM_app. unfold move_column. rewrite foldM_map. unfold mpair at 1.
  destruct (foldM _ w _); simpl; [apply IH|reflexivity].
Qed.

Definition src (x : Z * Z * Z) : Z := fst (fst x).
Definition tgt (x : Z * Z * Z) : Z := snd (fst x).
Definition num (x : Z * Z * Z) : Z := snd x.
(** vehicles that pair [x] takes when the state is [w] *)
Definition taken (w : world) (x : Z * Z * Z) : list Z :=
  firstn (Z.to_nat (num x)) (filter (goes w (tgt x)) (l_fin (w_link w (src x)))).

Definition link_like (l l' : link) : Prop := l_par l' = l_par l /\ l_body l' = l_body l.

Lemma moves_ok fs t : forall L w w',
  NoDup (map fst L) -> (forall x y, In x L -> In y L -> src x <> tgt y) ->
  foldM (mpair fs t) w L = Ok w' ->
  wkeep w w' /\ w_oq w' = w_oq w /\ w_dq w' = w_dq w /\ N_keep w w' /\
  (forall x, In x L -> 0 <= num x <= count_if (goes w (tgt x)) (l_fin (w_link w (src x)))) /\
  (forall l, link_like (w_link w l) (w_link w' l)) /\
  (forall l, l_in (w_link w' l) = l_in (w_link w l) ++ concat (map (taken w) (filter (fun x => tgt x =? l) L))) /\
  (forall l, subseq (l_fin (w_link w' l)) (l_fin (w_link w l)) /\
     (forall v, cnt v (l_fin (w_link w l)) =
        (cnt v (concat (map (taken w) (filter (fun x => Z.eqb (src x) l) L))) + cnt v (l_fin (w_link w' l)))%nat) /\
     (forall b, filter (goes w b) (l_fin (w_link w' l)) =
        skipn (Z.to_nat (match find (fun x => (src x =? l) && (tgt x =? b)) L with Some x => num x | None => 0 end))
              (filter (goes w b) (l_fin (w_link w l))))) /\
  (forall v, v_cur (w_veh w' v) =
     if memb v (concat (map (taken w) L)) then v_next (w_veh w v) else v_cur (w_veh w v)).
Proof.
  induction L as [|[[a b] k] L IH]; intros w w' ND DJ H.
  - simpl in H. apply Ok_inj in H as <-. simpl. repeat split; auto; try contradiction; intros.
    + now rewrite app_nil_r.
    + apply subseq_refl.
  - simpl in H. apply bind_ok in H as (w1 & H1 & H2).
    assert (Hab : a <> b) by (apply (DJ (a, b, k) (a, b, k)); now left).
    destruct (move_pair_ok _ _ _ _ _ _ _ Hab H1) as (Hk & W1 & O1 & D1 & N1 & (rest & Fr & Fa & Fb & Fo & Fs & Fc) & Ib & Ot & Cu).
    simpl in ND. apply NoDup_cons_iff in ND as [NI ND'].
    destruct (IH _ _ ND' (fun x y Hx Hy => DJ x y (or_intror Hx) (or_intror Hy)) H2)
      as (W2 & O2 & D2 & N2 & K2 & LL2 & I2 & F2 & C2).
    (* queues of the remaining pairs are as in w *)
    assert (Hsrc : forall x, In x L -> src x <> b).
    { intros x Hx. apply (DJ x (a, b, k)); [now right|now left]. }
    assert (Htgt : forall x, In x L -> tgt x <> a).
    { intros x Hx E. apply (DJ (a, b, k) x); [now left|now right|]. now rewrite E. }
    assert (Hq : forall x, In x L -> filter (goes w1 (tgt x)) (l_fin (w_link w1 (src x))) = filter (goes w (tgt x)) (l_fin (w_link w (src x)))).
    { intros x Hx. rewrite (filter_goes_keep w w1) by exact W1. destruct (Z.eq_dec (src x) a) as [E|E].
      - rewrite E. rewrite Fr in *. apply Fo. intros E'. apply NI. apply in_map_iff. exists x. split; [|exact Hx].
        destruct x as [[a' b'] k']. unfold src, tgt in *. simpl in *. congruence.
      - rewrite Ot; [reflexivity|exact E|apply Hsrc, Hx]. }
    assert (Htk : forall x, In x L -> taken w1 x = taken w x).
    { intros x Hx. unfold taken. now rewrite Hq. }
    assert (Htks : forall f, map (taken w1) (filter f L) = map (taken w) (filter f L)).
    { intros f. apply map_ext_in. intros x Hx. apply filter_In in Hx as [Hx _]. auto. }
    split; [eapply wkeep_trans; eauto|]. split; [congruence|]. split; [congruence|].
    split; [destruct N1, N2; split; congruence|].
    split.
    { intros x [<-|Hx]; [exact Hk|]. specialize (K2 x Hx). unfold count_if in *. now rewrite Hq in K2. }
    split.
    { intros l. destruct (LL2 l) as [P2 B2]. destruct (Z.eq_dec l a) as [->|]; [|destruct (Z.eq_dec l b) as [->|]].
      - split; [rewrite P2, Fa|rewrite B2, Fa]; reflexivity.
      - split; [rewrite P2, Ib|rewrite B2, Ib]; reflexivity.
      - rewrite Ot in P2, B2 by assumption. now split. }
    split.
    { intros l. rewrite I2, Htks. cbn [filter]. change (tgt (a, b, k)) with b.
      destruct (Z.eqb_spec b l) as [->|Nb].
      - rewrite Ib. simpl. rewrite <- app_assoc. reflexivity.
      - destruct (Z.eq_dec l a) as [->|]; [rewrite Fa; reflexivity|]. rewrite Ot by congruence. reflexivity. }
    split.
    { intros l. destruct (F2 l) as (S2 & M2 & G2). rewrite Htks in M2. cbn [filter find]. change (src (a, b, k)) with a. change (tgt (a, b, k)) with b.
      destruct (Z.eqb_spec a l) as [<-|Na].
      - rewrite Fr in *. split; [eapply subseq_trans; eauto|]. split.
        + intros v. rewrite Fc. cbn [map concat]. rewrite cnt_app. rewrite M2. change (taken w (a, b, k)) with (firstn (Z.to_nat k) (filter (goes w b) (l_fin (w_link w a)))). lia.
        + intros c. rewrite <- (filter_goes_keep w w1) by exact W1. rewrite G2. rewrite (filter_goes_keep w w1) by exact W1.
          destruct (Z.eqb_spec a a) as [_|]; [|congruence]. cbn [andb]. destruct (Z.eqb_spec b c) as [<-|Nc].
          * replace (find (fun x => (src x =? a) && (tgt x =? b)) L) with (@None (Z * Z * Z)).
            { simpl. exact Fb. }
            symmetry. destruct (find _ L) as [[[a' b'] k']|] eqn:E; [|reflexivity]. exfalso. apply find_some in E as [E1 E2].
            apply andb_true_iff in E2 as [X Y]. apply Z.eqb_eq in X, Y. unfold src, tgt in X, Y. simpl in X, Y. subst.
            apply NI. apply in_map_iff. exists (a, b, k'). auto.
          * rewrite Fo by congruence. reflexivity.
      - assert (El : l_fin (w_link w1 l) = l_fin (w_link w l)).
        { destruct (Z.eq_dec l b) as [->|]; [rewrite Ib; reflexivity|]. rewrite Ot by congruence. reflexivity. }
        rewrite El in *. split; [exact S2|]. split; [exact M2|]. intros c.
        rewrite <- (filter_goes_keep w w1) by exact W1. rewrite G2.
        cbn [andb]. rewrite (filter_goes_keep w w1) by exact W1. reflexivity. }
    intros v. rewrite C2. rewrite Cu. simpl.
    replace (map (taken w1) L) with (map (taken w) L) by (apply map_ext_in; intros; symmetry; auto).
    destruct W1 as (_ & _ & _ & Kv). destruct (Kv v) as (_&_&_&_&_&_&En&_). rewrite En.
    unfold memb at 3. rewrite existsb_app. fold (memb v (taken w (a, b, k))). fold (memb v (concat (map (taken w) L))).
    destruct (memb v (concat (map (taken w) L))) eqn:M.
    + rewrite orb_true_r. reflexivity.
    + rewrite orb_false_r. unfold taken, src, tgt, num. cbn [fst snd].
      match goal with |- context [memb v ?l] => destruct (memb v l) eqn:M1 end; [|reflexivity].
      apply memb_In in M1. assert (I : In v (filter (goes w b) (l_fin (w_link w a)))).
      { rewrite <- (firstn_skipn (Z.to_nat k)). apply in_or_app. now left. }
      apply filter_In in I as [_ I]. apply goes_next in I. now symmetry.
Qed.
