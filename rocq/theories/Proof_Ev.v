(** Charging stations: one interval. *)
From Verif Require Import Base Base_lemmas Model_Num Model_CC Spec_CC Proof_CC Model_Path Model_Link Spec_Link Proof_Link Proof_Link3 Proof_Link4 Model_World Model_Node Proof_Node
  Proof_Node2 Model_Ev Spec_Ev.
Local Open Scope Z_scope.

(** ** queues *)
Lemma min_at_spec p : forall best len i p0, nth_error p0 best <> None -> length p0 = i ->
  (forall q, nth_error p0 best = Some q -> length q = len) -> (forall q, In q p0 -> (len <= length q)%nat) ->
  let r := min_at best len i p in
  exists q, nth_error (p0 ++ p) r = Some q /\ forall q', In q' (p0 ++ p) -> (length q <= length q')%nat.
Proof.
  induction p as [|q p IH]; intros best len i p0 H0 H1 H2 H3; cbn [min_at].
  - rewrite app_nil_r. destruct (nth_error p0 best) as [q|] eqn:E; [|congruence]. exists q. split; [reflexivity|]. rewrite (H2 q eq_refl). exact H3.
  - change (q :: p) with ([q] ++ p). rewrite app_assoc. destruct (Nat.ltb_spec (length q) len) as [L|L].
    + apply IH.
      * rewrite nth_error_app2 by lia. rewrite <- H1, Nat.sub_diag. discriminate.
      * rewrite app_length. cbn. lia.
      * intros q'. rewrite nth_error_app2 by lia. rewrite <- H1, Nat.sub_diag. cbn. now intros [= <-].
      * intros q' Hq. apply in_app_or in Hq as [Hq|[<-|[]]]; [|lia]. specialize (H3 _ Hq). lia.
    + assert (B : (best < length p0)%nat) by (apply nth_error_Some; exact H0). apply IH.
      * rewrite nth_error_app1 by exact B. exact H0.
      * rewrite app_length. cbn. lia.
      * intros q'. rewrite nth_error_app1 by exact B. apply H2.
      * intros q' Hq. apply in_app_or in Hq as [Hq|[<-|[]]]; [|lia]. now apply H3.
Qed.
Lemma shortest_spec p : p <> [] -> exists q, nth_error p (shortest p) = Some q /\ forall q', In q' p -> (length q <= length q')%nat.
Proof.
  destruct p as [|q p]; [congruence|]. intros _. cbn [shortest]. apply (min_at_spec p O (length q) 1%nat [q]).
  - discriminate.
  - reflexivity.
  - cbn. now intros q' [= <-].
  - intros q' [<-|[]]. lia.
Qed.
Lemma shortest_nil : nth_error (@nil (list Z)) (shortest []) = None. Proof. reflexivity. Qed.

(** the pool after some vehicles have joined: every queue is extended at its end *)
Definition extended (p p' : list (list Z)) (vs : list Z) : Prop :=
  length p' = length p /\ Permutation (concat p') (concat p ++ vs) /\
  forall i q, nth_error p i = Some q -> exists n, nth_error p' i = Some (q ++ n) /\ (forall v, In v n -> In v vs).
Lemma extended_refl p : extended p p [].
Proof. split; [reflexivity|]. split; [now rewrite app_nil_r|]. intros i q H. exists []. rewrite app_nil_r. split; [exact H|contradiction]. Qed.
Lemma extended_trans p p1 p2 vs1 vs2 : extended p p1 vs1 -> extended p1 p2 vs2 -> extended p p2 (vs1 ++ vs2).
Proof.
  intros (A & B & C) (A' & B' & C'). split; [congruence|]. split.
  - rewrite B', B, app_assoc. reflexivity.
  - intros i q H. destruct (C i q H) as (n & Hn & In1). destruct (C' i _ Hn) as (m & Hm & In2). exists (n ++ m). rewrite app_assoc. split; [exact Hm|].
    intros v Hv. apply in_or_app. apply in_app_or in Hv as [Hv|Hv]; auto.
Qed.
Lemma nth_error_split3 {A} (p : list A) i q : nth_error p i = Some q -> p = firstn i p ++ [q] ++ skipn (S i) p /\ length (firstn i p) = i.
Proof.
  revert i. induction p as [|x p IH]; intros i H; [now destruct i|]. destruct i as [|i]; cbn in H.
  - injection H as ->. split; reflexivity.
  - destruct (IH i H) as [E L]. cbn [firstn skipn]. split; [cbn [app]; now rewrite E at 1|]. cbn. now rewrite L.
Qed.
Lemma join_ok v p p' : join v p = Ok p' -> exists i q, i = shortest p /\ nth_error p i = Some q /\ nth_error p' i = Some (q ++ [v]) /\
  (forall k, k <> i -> nth_error p' k = nth_error p k) /\ extended p p' [v].
Proof.
  unfold join. destruct (nth_error p (shortest p)) as [q|] eqn:E; [|discriminate]. intros H. apply Ok_inj in H as <-.
  set (i := shortest p) in *. destruct (nth_error_split3 p i q E) as [SP L]. exists i, q. split; [reflexivity|]. split; [exact E|].
  assert (X : nth_error (firstn i p ++ [q ++ [v]] ++ skipn (S i) p) i = Some (q ++ [v])).
  { rewrite nth_error_app2 by lia. rewrite L, Nat.sub_diag. reflexivity. }
  assert (Y : forall k, k <> i -> nth_error (firstn i p ++ [q ++ [v]] ++ skipn (S i) p) k = nth_error p k).
  { intros k Hk. transitivity (nth_error (firstn i p ++ [q] ++ skipn (S i) p) k); [|now rewrite <- SP]. destruct (Nat.lt_ge_cases k i) as [K|K].
    - rewrite !(nth_error_app1 (firstn i p)) by lia. reflexivity.
    - rewrite !(nth_error_app2 (firstn i p)) by lia. rewrite L. destruct (k - i)%nat as [|m] eqn:M; [lia|]. reflexivity. }
  split; [exact X|]. split; [exact Y|]. split; [|split].
  - transitivity (length (firstn i p ++ [q] ++ skipn (S i) p)); [|now rewrite <- SP]. rewrite !app_length. reflexivity.
  - transitivity (concat (firstn i p ++ [q] ++ skipn (S i) p) ++ [v]); [|now rewrite <- SP]. rewrite !concat_app. cbn [concat]. rewrite !app_nil_r, <- !app_assoc. apply Permutation_app_head. apply Permutation_app_head. apply Permutation_app_comm.
  - intros k q' Hk. destruct (Nat.eq_dec k i) as [->|N].
    + rewrite E in Hk. injection Hk as <-. exists [v]. split; [exact X|now intros u].
    + exists []. rewrite app_nil_r, Y by exact N. split; [exact Hk|contradiction].
Qed.
Lemma joins_ok vs : forall p p', foldM (fun p v => join v p) p vs = Ok p' -> extended p p' vs.
Proof.
  induction vs as [|v vs IH]; intros p p' H; cbn [foldM] in H.
  - apply Ok_inj in H as <-. apply extended_refl.
  - apply bind_ok in H as (p1 & H1 & H2). apply join_ok in H1 as (_ & _ & _ & _ & _ & _ & H1). apply (extended_trans _ _ _ [v] vs H1 (IH _ _ H2)).
Qed.

(** ** collecting the vehicles *)
Definition admitted (outs : list Z) (x : sworld) (v : Z) : Prop :=
  (exists b, v_next (w_veh (sw_w x) v) = Some b /\ In b outs) /\ v_adapt (w_veh (sw_w x) v) = true /\
  exists e, sw_ev x v = Some e /\ e_at e = Some (s_node (sw_st x)).
Lemma collect_veh_ok outs x v x' : collect_veh outs x v = Ok x' ->
  admitted outs x v /\ exists p, join v (s_pool (sw_st x)) = Ok p /\ x' = sset_st x (set_pool (sw_st x) p).
Proof.
  unfold collect_veh. destruct (v_next (w_veh (sw_w x) v)) as [b|] eqn:E; [|discriminate]. intros H. apply bind_ok in H as (u & G & H). apply guard_ok in G.
  destruct (sw_ev x v) as [e|] eqn:EV; [|discriminate]. apply bind_ok in H as (u2 & G2 & H). apply guard_ok in G2. apply andb_true_iff in G2 as [G2 G3].
  apply bind_ok in H as (p & J & H). apply Ok_inj in H as <-. split.
  - split; [|split; [exact G2|]].
    + exists b. split; [exact E|]. now apply memb_In.
    + exists e. split; [exact EV|]. destruct (e_at e) as [s|]; [|discriminate]. apply Z.eqb_eq in G3. now subst.
  - exists p. split; [exact J|reflexivity].
Qed.
Lemma collect_vehs_ok outs vs : forall x x', foldM (collect_veh outs) x vs = Ok x' ->
  Forall (admitted outs x) vs /\ exists p, foldM (fun p v => join v p) (s_pool (sw_st x)) vs = Ok p /\ x' = sset_st x (set_pool (sw_st x) p).
Proof.
  induction vs as [|v vs IH]; intros x x' H; cbn [foldM] in H.
  - apply Ok_inj in H as <-. split; [constructor|]. exists (s_pool (sw_st x)). split; [reflexivity|]. now destruct x as [w e []].
  - apply bind_ok in H as (x1 & H1 & H2). apply collect_veh_ok in H1 as (A & p & J & ->). apply IH in H2 as (F & p2 & J2 & ->). split.
    + constructor; [exact A|]. exact F.
    + exists p2. split; [|reflexivity]. cbn [foldM]. rewrite J. exact J2.
Qed.

(** effect of emptying the links [order] *)
Record collected (order : list Z) (x x' : sworld) (p : list (list Z)) : Prop := {
  cl_ev : sw_ev x' = sw_ev x;
  cl_st : sw_st x' = set_pool (sw_st x) p;
  cl_veh : w_veh (sw_w x') = w_veh (sw_w x);
  cl_cc : w_cc (sw_w x') = w_cc (sw_w x);
  cl_rest : w_oq (sw_w x') = w_oq (sw_w x) /\ w_dq (sw_w x') = w_dq (sw_w x) /\ w_fac (sw_w x') = w_fac (sw_w x) /\
            w_trk (sw_w x') = w_trk (sw_w x) /\ w_pt (sw_w x') = w_pt (sw_w x);
  cl_in : forall l, l_in (w_link (sw_w x') l) = l_in (w_link (sw_w x) l);
  cl_like : forall l, link_like (w_link (sw_w x) l) (w_link (sw_w x') l);
  cl_fin : forall l, l_fin (w_link (sw_w x') l) = if in_dec Z.eq_dec l order then [] else l_fin (w_link (sw_w x) l) }.
Lemma collect_links_ok outs order : NoDup order -> forall x x', foldM (collect_link outs) x order = Ok x' ->
  Forall (admitted outs x) (arriving order x) /\
  exists p, foldM (fun p v => join v p) (s_pool (sw_st x)) (arriving order x) = Ok p /\ collected order x x' p.
Proof.
  induction order as [|a order IH]; intros ND x x' H; cbn [foldM] in H.
  - apply Ok_inj in H as <-. split; [constructor|]. exists (s_pool (sw_st x)). split; [reflexivity|]. constructor; try reflexivity; try (intros l; reflexivity).
    + now destruct x as [w e []].
    + repeat split.
    + intros l. split; reflexivity.
  - apply NoDup_cons_iff in ND as [NI ND]. apply bind_ok in H as (x1 & H1 & H2). unfold collect_link in H1. apply bind_ok in H1 as (x0 & H0 & H1). apply Ok_inj in H1 as <-.
    apply collect_vehs_ok in H0 as (F & p1 & J1 & ->). apply IH in H2 as (F2 & p & J2 & C); [|exact ND].
    set (x1 := sset_w _ _) in *.
    assert (AR : arriving order x1 = arriving order x).
    { unfold arriving. f_equal. apply map_ext_in. intros l Hl. unfold x1. cbn. rewrite upd_other; [reflexivity|]. intros ->. contradiction. }
    rewrite AR in F2, J2. unfold arriving. cbn [map concat]. fold (arriving order x). split.
    + apply Forall_app. split; [exact F|]. exact F2.
    + exists p. split; [rewrite foldM_app, J1; exact J2|]. destruct C as [C1 C2 C3 C4 C5 C6 C7 C8]. constructor.
      * rewrite C1. reflexivity.
      * rewrite C2. reflexivity.
      * rewrite C3. reflexivity.
      * rewrite C4. reflexivity.
      * destruct C5 as (D1 & D2 & D3 & D4 & D5). rewrite D1, D2, D3, D4, D5. repeat split.
      * intros l. rewrite C6. unfold x1. cbn. unfold upd. destruct (Z.eqb_spec l a) as [->|]; reflexivity.
      * intros l. destruct (C7 l) as [E1 E2]. unfold link_like. rewrite E1, E2. unfold x1. cbn. unfold upd. destruct (Z.eqb_spec l a) as [->|]; split; reflexivity.
      * intros l. rewrite C8. unfold x1. cbn [sw_w sset_w]. cbn [w_link set_link]. unfold upd. destruct (in_dec Z.eq_dec l order) as [I|N]; destruct (in_dec Z.eq_dec l (a :: order)) as [I'|N']; try reflexivity.
        -- exfalso. apply N'. now right.
        -- destruct I' as [->|I']; [|contradiction]. rewrite Z.eqb_refl. reflexivity.
        -- destruct (Z.eqb_spec l a) as [->|]; [exfalso; apply N'; now left|]. reflexivity.
Qed.

(** ** vehicles leaving the station *)
Definition comes (w : world) (l v : Z) : bool := match v_cur (w_veh w v) with Some k => k =? l | None => false end.
Definition grown (fs : Q) (k : Z) (c c' : option curve) : Prop :=
  match c, c' with
  | Some c, Some c' => (last_value c' == last_value c + inject_Z k * (1 / fs))%Q
  | None, None => True
  | _, _ => False
  end.
Lemma grown_refl fs c : grown fs 0 c c.
Proof. destruct c as [c|]; cbn [grown]; [|trivial]. change (inject_Z 0) with 0%Q. ring. Qed.
Lemma grown_trans fs j k c1 c2 c3 : grown fs j c1 c2 -> grown fs k c2 c3 -> grown fs (j + k) c1 c3.
Proof. destruct c1, c2, c3; cbn [grown]; try contradiction; [|trivial]. intros A B. rewrite inject_Z_plus, B, A. ring. Qed.

Record moved (fs : Q) (gone : list Z) (w w' : world) : Prop := {
  mo_rest : w_oq w' = w_oq w /\ w_dq w' = w_dq w /\ w_fac w' = w_fac w /\ w_trk w' = w_trk w /\ w_pt w' = w_pt w;
  mo_in : forall l, l_in (w_link w' l) = l_in (w_link w l) ++ filter (goes w l) gone;
  mo_fin : forall l, l_fin (w_link w' l) = l_fin (w_link w l);
  mo_like : forall l, link_like (w_link w l) (w_link w' l);
  mo_veh : forall v, w_veh w' v = if in_dec Z.eq_dec v gone then set_cur (v_next (w_veh w v)) (w_veh w v) else w_veh w v;
  mo_next : forall v, In v gone -> v_cur (w_veh w v) <> None /\ v_next (w_veh w v) <> None;
  mo_Nin : forall l, grown fs (Zlen (filter (goes w l) gone)) (cc_Nin (w_cc w) l) (cc_Nin (w_cc w') l);
  mo_Nout : forall l, grown fs (Zlen (filter (comes w l) gone)) (cc_Nout (w_cc w) l) (cc_Nout (w_cc w') l) }.

Lemma moved_nil fs w : moved fs [] w w.
Proof.
  constructor; try (intros l; cbn; try rewrite app_nil_r; reflexivity).
  - repeat split.
  - intros l. split; reflexivity.
  - intros v [].
  - intros l. apply grown_refl.
  - intros l. apply grown_refl.
Qed.
Lemma moved_trans fs g1 g2 w w1 w2 : (forall v, In v g2 -> ~ In v g1) -> moved fs g1 w w1 -> moved fs g2 w1 w2 -> moved fs (g1 ++ g2) w w2.
Proof.
  intros DJ [A1 A2 A3 A4 A5 A6 A7 A8] [B1 B2 B3 B4 B5 B6 B7 B8].
  assert (G : forall l, filter (goes w1 l) g2 = filter (goes w l) g2).
  { intros l. apply filter_ext. intros v. unfold goes. rewrite A5. destruct (in_dec Z.eq_dec v g1); reflexivity. }
  assert (C : forall l, filter (comes w1 l) g2 = filter (comes w l) g2).
  { intros l. apply filter_ext_in. intros v Hv. unfold comes. rewrite A5. destruct (in_dec Z.eq_dec v g1) as [I|]; [|reflexivity]. now apply DJ in Hv. }
  constructor.
  - destruct A1 as (a1 & a2 & a3 & a4 & a5), B1 as (b1 & b2 & b3 & b4 & b5). repeat split; congruence.
  - intros l. rewrite B2, A2, G, filter_app, app_assoc. reflexivity.
  - intros l. rewrite B3, A3. reflexivity.
  - intros l. destruct (A4 l) as [a b], (B4 l) as [c d]. split; congruence.
  - intros v. rewrite B5, A5. destruct (in_dec Z.eq_dec v (g1 ++ g2)) as [I|N].
    + apply in_app_or in I. destruct (in_dec Z.eq_dec v g1) as [I1|N1]; destruct (in_dec Z.eq_dec v g2) as [I2|N2]; try reflexivity.
      destruct I; contradiction.
    + destruct (in_dec Z.eq_dec v g1) as [I1|N1]; [exfalso; apply N, in_or_app; now left|]. destruct (in_dec Z.eq_dec v g2) as [I2|N2]; [exfalso; apply N, in_or_app; now right|]. reflexivity.
  - intros v Hv. apply in_app_or in Hv as [Hv|Hv]; [now apply A6|]. specialize (B6 _ Hv). rewrite A5 in B6. destruct (in_dec Z.eq_dec v g1) as [I1|N1]; [now apply DJ in Hv|exact B6].
  - intros l. rewrite filter_app, Zlen_app, <- (G l). eapply grown_trans; eauto.
  - intros l. rewrite filter_app, Zlen_app, <- (C l). eapply grown_trans; eauto.
Qed.
Lemma grown_one fs c c' t : add_increment c (inject_Z t, 1 / fs)%Q = Ok c' -> grown fs 1 (Some c) (Some c').
Proof. intros H. apply add_increment_last in H. cbn [grown snd] in *. change (inject_Z 1) with 1%Q. rewrite H. ring. Qed.
Lemma move_out_moved fs t w v w' : move_out fs t w v = Ok w' -> moved fs [v] w w'.
Proof.
  unfold move_out. destruct (v_cur (w_veh w v)) as [a|] eqn:EA; [|discriminate]. destruct (v_next (w_veh w v)) as [b|] eqn:EB; [|discriminate].
  cbv zeta. set (w2 := set_vehs _ _). intros H. apply bind_ok in H as (w3 & H3 & H). apply bind_ok in H as (w4 & H4 & H). apply tree_inc_keep in H as [K5 [N5 O5]].
  assert (K3 : cc_keep w2 w3 /\ cc_Nin (w_cc w3) = cc_Nin (w_cc w2) /\ forall l, grown fs (if a =? l then 1 else 0) (cc_Nout (w_cc w2) l) (cc_Nout (w_cc w3) l)).
  { destruct (cc_Nout (w_cc w2) a) as [c|] eqn:E.
    - apply inc_out_ok in H3 as (K & N & _ & _ & Q & c1 & c2 & E1 & E2 & AI). split; [exact K|]. split; [exact N|]. intros l. destruct (Z.eqb_spec a l) as [<-|NE].
      + rewrite E1, E2. eapply grown_one, AI.
      + rewrite Q by congruence. apply grown_refl.
    - apply Ok_inj in H3 as <-. split; [apply cc_keep_refl|]. split; [reflexivity|]. intros l. destruct (Z.eqb_spec a l) as [<-|NE]; [rewrite E; exact I|apply grown_refl]. }
  assert (K4 : cc_keep w3 w4 /\ cc_Nout (w_cc w4) = cc_Nout (w_cc w3) /\ forall l, grown fs (if b =? l then 1 else 0) (cc_Nin (w_cc w3) l) (cc_Nin (w_cc w4) l)).
  { destruct (cc_Nin (w_cc w3) b) as [c|] eqn:E.
    - apply inc_in_ok in H4 as (K & N & _ & _ & Q & c1 & c2 & E1 & E2 & AI). split; [exact K|]. split; [exact N|]. intros l. destruct (Z.eqb_spec b l) as [<-|NE].
      + rewrite E1, E2. eapply grown_one, AI.
      + rewrite Q by congruence. apply grown_refl.
    - apply Ok_inj in H4 as <-. split; [apply cc_keep_refl|]. split; [reflexivity|]. intros l. destruct (Z.eqb_spec b l) as [<-|NE]; [rewrite E; exact I|apply grown_refl]. }
  destruct K3 as (K3 & NI3 & G3), K4 as (K4 & NO4 & G4).
  pose proof (cc_keep_trans _ _ _ K3 (cc_keep_trans _ _ _ K4 K5)) as (V & L & OQ & DQ & F & TR & PT).
  assert (LK : forall l, w_link w2 l = if l =? b then set_in (w_link w b) (l_in (w_link w b) ++ [v]) else w_link w l) by reflexivity.
  assert (GO : forall l, goes w l v = (b =? l)) by (intros l; unfold goes; now rewrite EB).
  constructor.
  - rewrite OQ, DQ, F, TR, PT. repeat split.
  - intros l. rewrite L, LK. cbn [filter]. rewrite GO. destruct (Z.eqb_spec l b) as [->|NE].
    + rewrite Z.eqb_refl. reflexivity.
    + destruct (Z.eqb_spec b l); [congruence|]. now rewrite app_nil_r.
  - intros l. rewrite L, LK. destruct (Z.eqb_spec l b) as [->|NE]; reflexivity.
  - intros l. unfold link_like. rewrite L, LK. destruct (Z.eqb_spec l b) as [->|NE]; split; reflexivity.
  - intros u. rewrite V. unfold w2. cbn [w_veh set_vehs set_link]. unfold upd. destruct (Z.eqb_spec u v) as [->|NE].
    + destruct (in_dec Z.eq_dec v [v]) as [_|N]; [now rewrite EB|exfalso; apply N; now left].
    + destruct (in_dec Z.eq_dec u [v]) as [[->|[]]|_]; [congruence|reflexivity].
  - intros u [<-|[]]. rewrite EA, EB. split; discriminate.
  - intros l. rewrite N5. cbn [filter]. rewrite GO. specialize (G4 l). rewrite NI3 in G4. destruct (b =? l); exact G4.
  - intros l. rewrite O5, NO4. unfold comes. cbn [filter]. rewrite EA. specialize (G3 l). destruct (a =? l); exact G3.
Qed.

(** ** serving the queues *)
Definition full_timer (x : sworld) (v : Z) : bool := s_charge (sw_st x) <=? charging_since x v.
Definition gone_q (x : sworld) (q : list Z) : list Z := match q with [] => [] | v :: _ => if full_timer x v then [v] else [] end.
Definition kept_q (x : sworld) (q : list Z) : list Z := match q with [] => [] | v :: r => if full_timer x v then r else q end.
Definition head_q (q : list Z) : list Z := match q with [] => [] | v :: _ => [v] end.

Lemma gone_kept x q : gone_q x q ++ kept_q x q = q.
Proof. destruct q as [|v r]; [reflexivity|]. cbn. destruct (full_timer x v); reflexivity. Qed.
Lemma gone_in_q x q v : In v (gone_q x q) -> In v q.
Proof. destruct q as [|u r]; [contradiction|]. cbn. destruct (full_timer x u); [|contradiction]. intros [->|[]]. now left. Qed.

(** the record of an electric vehicle after an interval in which it stood at the head *)
Definition served_ev (x : sworld) (v : Z) (e : ev) : ev :=
  if full_timer x v then charge e else set_timer (charging_since x v + 1) e.

Record served (t : Z) (qs : list (list Z)) (x y : sworld) : Prop := {
  se_w : moved (s_fs (sw_st x)) (concat (map (gone_q x) qs)) (sw_w x) (sw_w y);
  se_ev : forall v, sw_ev y v = if in_dec Z.eq_dec v (concat (map head_q qs)) then option_map (served_ev x v) (sw_ev x v) else sw_ev x v;
  se_some : forall v, In v (concat (map head_q qs)) -> sw_ev x v <> None;
  se_st : exists c, sw_st y = set_scc (sw_st x) c /\ grown (s_fs (sw_st x)) (Zlen (concat (map (gone_q x) qs))) (Some (s_cc (sw_st x))) (Some c) }.

Lemma gone_ext x x1 q : s_charge (sw_st x1) = s_charge (sw_st x) -> (forall v, In v q -> sw_ev x1 v = sw_ev x v) -> gone_q x1 q = gone_q x q /\ kept_q x1 q = kept_q x q.
Proof.
  intros C H. destruct q as [|v r]; [split; reflexivity|]. cbn. assert (E : full_timer x1 v = full_timer x v).
  { unfold full_timer, charging_since. rewrite C, H by now left. reflexivity. }
  rewrite E. split; reflexivity.
Qed.
Lemma head_in_q q v : In v (head_q q) -> In v q.
Proof. destruct q; [contradiction|]. intros [->|[]]. now left. Qed.
Lemma heads_in qs v : In v (concat (map head_q qs)) -> In v (concat qs).
Proof.
  intros H. apply in_concat in H as (q & Hq & Hv). apply in_map_iff in Hq as (q0 & <- & Hq). apply in_concat. exists q0. split; [exact Hq|]. now apply head_in_q.
Qed.
Lemma gones_in x qs v : In v (concat (map (gone_q x) qs)) -> In v (concat qs).
Proof.
  intros H. apply in_concat in H as (q & Hq & Hv). apply in_map_iff in Hq as (q0 & <- & Hq). apply in_concat. exists q0. split; [exact Hq|]. now apply gone_in_q in Hv.
Qed.

Lemma one_ev (m : Z -> option ev) v e e' (f : Z -> ev -> ev) : m v = Some e -> e' = f v e -> forall u,
  upd m v (Some e') u = if in_dec Z.eq_dec u [v] then option_map (f u) (m u) else m u.
Proof.
  intros E -> u. unfold upd. destruct (Z.eqb_spec u v) as [->|NE]; destruct (in_dec Z.eq_dec _ [v]) as [I|N].
  - now rewrite E.
  - exfalso. apply N. now left.
  - destruct I as [->|[]]. congruence.
  - reflexivity.
Qed.
Lemma serve_queue_ok t x p q y p' : serve_queue t (x, p) q = Ok (y, p') -> p' = p ++ [kept_q x q] /\ served t [q] x y.
Proof.
  unfold serve_queue. destruct q as [|v r].
  - intros H. injection H as <- <-. split; [reflexivity|]. constructor.
    + apply moved_nil.
    + intros v. reflexivity.
    + intros v [].
    + exists (s_cc (sw_st x)). split; [now destruct x as [? ? []]|apply grown_refl].
  - destruct (sw_ev x v) as [e|] eqn:EV; [|discriminate]. cbv zeta.
    assert (TM : e_timer (if e_timer e <? 0 then set_timer 0 e else e) = charging_since x v).
    { unfold charging_since. rewrite EV. destruct (Z.ltb_spec (e_timer e) 0); cbn; lia. }
    rewrite TM. fold (full_timer x v). cbn [kept_q]. destruct (full_timer x v) eqn:FT.
    + intros H. apply bind_ok in H as (w & MO & H). apply bind_ok in H as (c & AI & H). injection H as <- <-. split; [reflexivity|]. apply move_out_moved in MO. cbn [sw_w sset_ev sw_st] in MO, AI.
      constructor; cbn [map gone_q head_q concat app]; rewrite ?FT; cbn [app].
      * exact MO.
      * intros u. cbn [sw_ev sset_ev sset_st sset_w]. apply one_ev with e; [exact EV|]. unfold served_ev. rewrite FT. destruct (e_timer e <? 0); reflexivity.
      * intros u [<-|[]]. congruence.
      * exists c. split; [reflexivity|]. cbn [app Zlen length]. apply (grown_one _ _ _ (t + 1)). exact AI.
    + intros H. injection H as <- <-. split; [reflexivity|]. constructor; cbn [map gone_q head_q concat app]; rewrite ?FT; cbn [app].
      * apply moved_nil.
      * intros u. cbn [sw_ev sset_ev sset_st sset_w]. apply one_ev with e; [exact EV|]. unfold served_ev. rewrite FT. destruct (e_timer e <? 0); reflexivity.
      * intros u [<-|[]]. congruence.
      * exists (s_cc (sw_st x)). split; [now destruct x as [? ? []]|apply grown_refl].
Qed.

Lemma serve_ok t qs : NoDup (concat qs) -> forall x p y p', foldM (serve_queue t) (x, p) qs = Ok (y, p') -> p' = p ++ map (kept_q x) qs /\ served t qs x y.
Proof.
  induction qs as [|q qs IH]; intros ND x p y p' H; cbn [foldM] in H.
  - injection H as <- <-. cbn [map]. rewrite app_nil_r. split; [reflexivity|]. constructor.
    + apply moved_nil.
    + intros v. reflexivity.
    + intros v [].
    + exists (s_cc (sw_st x)). split; [now destruct x as [? ? []]|apply grown_refl].
  - apply bind_ok in H as ([x1 p1] & H1 & H2). apply serve_queue_ok in H1 as [-> S1]. cbn [concat] in ND. apply NoDup_app_inv in ND as (N1 & N2 & DJ). apply IH in H2 as [-> S2]; [|exact N2].
    destruct S1 as [A1 A2 A3 (c1 & A4 & A5)], S2 as [B1 B2 B3 (c2 & B4 & B5)].
    assert (CH : s_charge (sw_st x1) = s_charge (sw_st x)) by (rewrite A4; reflexivity).
    assert (FS : s_fs (sw_st x1) = s_fs (sw_st x)) by (rewrite A4; reflexivity).
    assert (EVs : forall v, In v (concat qs) -> sw_ev x1 v = sw_ev x v).
    { intros v Hv. rewrite A2. destruct (in_dec Z.eq_dec v (concat (map head_q [q]))) as [I|]; [|reflexivity]. exfalso. apply heads_in in I. cbn in I. rewrite app_nil_r in I. eapply DJ; eauto. }
    assert (EX : forall q', In q' qs -> gone_q x1 q' = gone_q x q' /\ kept_q x1 q' = kept_q x q').
    { intros q' Hq. apply gone_ext; [exact CH|]. intros v Hv. apply EVs. apply in_concat. exists q'. split; assumption. }
    assert (EG : map (gone_q x1) qs = map (gone_q x) qs) by (apply map_ext_in; intros q' Hq; apply EX, Hq).
    assert (EK : map (kept_q x1) qs = map (kept_q x) qs) by (apply map_ext_in; intros q' Hq; apply EX, Hq).
    split; [rewrite EK, <- app_assoc; reflexivity|]. constructor; cbn [map concat].
    + rewrite FS, EG in B1. cbn [map concat] in A1. rewrite app_nil_r in A1. apply (moved_trans _ _ _ _ (sw_w x1)); auto.
      intros v Hv Hq. apply gones_in in Hv. apply gone_in_q in Hq. eapply DJ; eauto.
    + intros v. rewrite B2, A2. cbn [map concat]. rewrite app_nil_r. destruct (in_dec Z.eq_dec v (head_q q ++ concat (map head_q qs))) as [I|N].
      * destruct (in_dec Z.eq_dec v (concat (map head_q qs))) as [I2|N2'].
        -- destruct (in_dec Z.eq_dec v (head_q q)) as [I1|N1']; [exfalso; apply head_in_q in I1; apply heads_in in I2; eapply DJ; eauto|].
           destruct (sw_ev x v) as [e|] eqn:EV; cbn; [|reflexivity]. f_equal. unfold served_ev, full_timer, charging_since. rewrite CH, EVs by (now apply heads_in). reflexivity.
        -- destruct (in_dec Z.eq_dec v (head_q q)) as [I1|N1']; [reflexivity|]. apply in_app_or in I as [I|I]; contradiction.
      * destruct (in_dec Z.eq_dec v (concat (map head_q qs))) as [I2|N2']; [exfalso; apply N, in_or_app; now right|].
        destruct (in_dec Z.eq_dec v (head_q q)) as [I1|N1']; [exfalso; apply N, in_or_app; now left|reflexivity].
    + intros v Hv. apply in_app_or in Hv as [Hv|Hv].
      * apply A3. cbn. now rewrite app_nil_r.
      * specialize (B3 _ Hv). rewrite EVs in B3 by (now apply heads_in). exact B3.
    + exists c2. split; [rewrite B4, A4; reflexivity|]. rewrite Zlen_app. rewrite FS, EG in B5. rewrite A4 in B5. cbn [map concat] in A5. rewrite app_nil_r in A5. eapply grown_trans; eauto.
Qed.

(** ** one interval *)
Lemma concat_perm {A} (f g : A -> list Z) (qs : list A) : Permutation (concat (map f qs) ++ concat (map g qs)) (concat (map (fun q => f q ++ g q) qs)).
Proof.
  induction qs as [|q qs IH]; [constructor|]. cbn [map concat]. rewrite <- IH, <- !app_assoc. apply Permutation_app_head. rewrite !app_assoc. apply Permutation_app_tail. apply Permutation_app_comm.
Qed.
Lemma gone_kept_perm x qs : Permutation (concat (map (gone_q x) qs) ++ concat (map (kept_q x) qs)) (concat qs).
Proof. rewrite concat_perm. erewrite map_ext; [|intros q; apply gone_kept]. now rewrite map_id. Qed.

Record stepped (order outs : list Z) (t : Z) (x y : sworld) (p : list (list Z)) : Prop := {
  sp_adm : Forall (admitted outs x) (arriving order x);
  sp_join : foldM (fun p v => join v p) (s_pool (sw_st x)) (arriving order x) = Ok p;
  sp_pool : s_pool (sw_st y) = map (kept_q x) p;
  sp_par : s_node (sw_st y) = s_node (sw_st x) /\ s_fs (sw_st y) = s_fs (sw_st x) /\ s_unit (sw_st y) = s_unit (sw_st x) /\ s_charge (sw_st y) = s_charge (sw_st x) /\ s_price (sw_st y) = s_price (sw_st x);
  sp_ev : forall v, sw_ev y v = if in_dec Z.eq_dec v (concat (map head_q p)) then option_map (served_ev x v) (sw_ev x v) else sw_ev x v;
  sp_some : forall v, In v (concat (map head_q p)) -> sw_ev x v <> None;
  sp_cc : grown (s_fs (sw_st x)) (Zlen (concat (map (gone_q x) p))) (Some (s_cc (sw_st x))) (Some (s_cc (sw_st y)));
  sp_rec : exists k, estimate (sw_st y) = Ok k /\ s_rec (sw_st y) = rec_insert (t + 1) k (s_rec (sw_st x));
  sp_move : exists w1, moved (s_fs (sw_st x)) (concat (map (gone_q x) p)) w1 (sw_w y) /\
    w_veh w1 = w_veh (sw_w x) /\ w_cc w1 = w_cc (sw_w x) /\ w_oq w1 = w_oq (sw_w x) /\ w_dq w1 = w_dq (sw_w x) /\ w_fac w1 = w_fac (sw_w x) /\
    (forall l, l_in (w_link w1 l) = l_in (w_link (sw_w x) l)) /\
    (forall l, link_like (w_link (sw_w x) l) (w_link w1 l)) /\
    (forall l, l_fin (w_link w1 l) = if in_dec Z.eq_dec l order then [] else l_fin (w_link (sw_w x) l)) }.

Lemma evolve_stepped order outs t x y : NoDup order -> NoDup (at_station x ++ arriving order x) -> station_evolve order outs t x = Ok y -> exists p, stepped order outs t x y p.
Proof.
  intros NO ND H. unfold station_evolve in H. apply bind_ok in H as (x1 & H1 & H). apply bind_ok in H as ([x2 p2] & H2 & H). apply bind_ok in H as (k & H3 & H). apply Ok_inj in H as <-.
  apply collect_links_ok in H1 as (F & p & J & C); [|exact NO]. exists p. destruct C as [C1 C2 C3 C4 C5 C6 C7 C8].
  pose proof (joins_ok _ _ _ J) as (L & P & E). assert (SP : s_pool (sw_st x1) = p) by (rewrite C2; reflexivity). rewrite SP in H2.
  assert (NP : NoDup (concat p)) by (apply (Permutation_NoDup (Permutation_sym P)); exact ND).
  apply serve_ok in H2 as [E2 S]; [|exact NP]. cbn [app] in E2. cbn [fst snd] in H3 |- *. destruct S as [S1 S2 S3 (c & S4 & S5)].
  assert (EX : forall q, gone_q x1 q = gone_q x q /\ kept_q x1 q = kept_q x q) by (intros q; apply gone_ext; [rewrite C2; reflexivity|intros; now rewrite C1]).
  assert (EG : map (gone_q x1) p = map (gone_q x) p) by (apply map_ext; intros q; apply EX).
  assert (EK : map (kept_q x1) p = map (kept_q x) p) by (apply map_ext; intros q; apply EX).
  rewrite EG in *. rewrite EK in *. assert (FS : s_fs (sw_st x1) = s_fs (sw_st x)) by (rewrite C2; reflexivity). rewrite FS in *. subst p2.
  constructor.
  - exact F.
  - exact J.
  - reflexivity.
  - cbn. rewrite S4, C2. cbn. repeat split.
  - intros v. cbn. rewrite S2, C1. destruct (in_dec Z.eq_dec v (concat (map head_q p))); [|reflexivity]. destruct (sw_ev x v) as [e|] eqn:EV; [|reflexivity]. cbn. f_equal.
    unfold served_ev, full_timer, charging_since. rewrite C1, C2. reflexivity.
  - intros v Hv. rewrite <- C1. now apply S3.
  - cbn. rewrite S4. cbn. rewrite C2 in S5. exact S5.
  - exists k. split; [|cbn; rewrite S4, C2; reflexivity]. unfold estimate in *. cbn in *. exact H3.
  - exists (sw_w x1). cbn. destruct C5 as (D1 & D2 & D3 & D4 & D5). split; [exact S1|]. repeat (split; [assumption|]). exact C8.
Qed.
