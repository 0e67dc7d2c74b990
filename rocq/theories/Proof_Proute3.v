(** Shares in force, and who gets which path. *)
From Coq Require Import Lqa.
From Verif Require Import Base Base_lemmas Model_Num Model_Node Model_Path Model_Proute Spec_Path Spec_Choice Spec_Proute Proof_Link4 Proof_Node4 Proof_PreRouting Proof_Choice Proof_Proute Proof_Proute2 Prop_Path.
Local Open Scope Z_scope.

Section S.
Context {A : Type}.
Implicit Types t : shares_of A.
Definition kept (e : share A) := (s_path e, s_buf e).
Definition col_flow (col : Z) (e : share A) : Q := nth (Z.to_nat col) (s_buf e) 0%Q.
(** [y] has the paths and flows of [x] and the shares of column [col] *)
Definition with_col (col : Z) (x y : (Z * Z) * list (share A)) : Prop :=
  fst y = fst x /\ map kept (snd y) = map kept (snd x) /\ Forall2 Qeq (map s_p (snd y)) (shares (map (col_flow col) (snd x))) /\
  (forall e, In e (snd y) -> 0 <= s_p e)%Q /\ (snd x <> [] -> sumQ (map s_p (snd y)) == 1)%Q.

Lemma put_facts : forall (es : list (share A)) ps, length ps = length es -> map s_p (put_shares es ps) = ps /\ map kept (put_shares es ps) = map kept es.
Proof.
  unfold put_shares. induction es as [|e es IH]; intros [|p ps] H; try discriminate; [split; reflexivity|]. cbn [combine map fst snd s_p s_path s_buf].
  injection H as H. destruct (IH ps H) as [a b]. rewrite a, b. split; reflexivity.
Qed.
Lemma copy_facts col (es es' : list (share A)) : mapM (copy_share col) es = Ok es' -> map s_p es' = map (col_flow col) es /\ map kept es' = map kept es.
Proof.
  intros H. apply mapM_Forall2 in H. induction H as [|e e' es es' H F [I1 I2]]; [split; reflexivity|]. unfold copy_share in H. apply bind_ok in H as (x & _ & H).
  apply Ok_inj in H. subst e'. cbn [map s_p]. rewrite I1, I2. split; reflexivity.
Qed.
Lemma col_kept col (es es' : list (share A)) : map kept es' = map kept es -> map (col_flow col) es' = map (col_flow col) es.
Proof.
  revert es'. induction es as [|e es IH]; intros [|e' es'] H; try discriminate; [reflexivity|]. cbn [map] in H |- *. injection H as H1 H2 H3.
  unfold col_flow at 1 3. rewrite H2, (IH es' H3). reflexivity.
Qed.
Lemma portions_col col t t' : portions col t = Ok t' -> Forall2 (with_col col) t t'.
Proof.
  unfold portions. intros H. apply bind_ok in H as (t1 & H1 & H2). apply mapM_Forall2 in H1, H2. revert t' H2.
  induction H1 as [|[k es] [k1 es1] t t1 H1 F IH]; intros t' H2; inversion H2 as [|a b c d H3 H4]; subst; constructor; [|now apply IH].
  cbn [fst snd] in *. apply bind_ok in H1 as (es' & C & E). apply Ok_inj in E. injection E as <- <-.
  apply bind_ok in H3 as (ps & N & E). apply Ok_inj in E. subst b. destruct (copy_facts _ _ _ C) as [C1 C2].
  assert (L : length ps = length es') by (rewrite (normalize_len _ _ N), map_length; reflexivity).
  destruct (put_facts es' ps L) as [P1 P2]. destruct (normalize_shares _ _ N) as [S1 S2]. unfold with_col. cbn [fst snd]. rewrite P1, P2, <- C1.
  repeat split; auto.
  - intros e He. apply S2. rewrite <- P1. now apply in_map.
  - intros Ne. assert (Nn : map s_p es' <> []).
    { intros K. apply map_eq_nil in K. subst es'. destruct es; [congruence|discriminate]. }
    destruct (C28_normalised_shares (map s_p es') Nn (normalize_nonneg _ _ N)) as (qs & Eq & _ & _ & K & _). assert (qs = ps) by congruence. now subst.
Qed.
Lemma with_col_again col col' t t1 t2 : Forall2 (with_col col) t t1 -> Forall2 (with_col col') t1 t2 -> Forall2 (with_col col') t t2.
Proof.
  intros H. revert t2. induction H as [|x y t t1 (A1 & A2 & A3 & A4 & A5) F IH]; intros t2 H2; inversion H2 as [|a b c d (B1 & B2 & B3 & B4 & B5) G]; subst; constructor; [|now apply IH].
  unfold with_col. rewrite B1, A1, B2, A2. split; [reflexivity|]. split; [reflexivity|]. rewrite (col_kept col' _ _ A2) in B3. split; [exact B3|]. split; [exact B4|].
  intros Ne. apply B5. intros K. apply Ne. rewrite K in A2. cbn [map] in A2. symmetry in A2. now apply map_eq_nil in A2.
Qed.

Fixpoint rounds (freq len : Z) (k : nat) t : res (shares_of A) :=
  match k with
  | O => refresh true freq len 0 t
  | S k => do t1 <- rounds freq len k t; refresh true freq len (Z.of_nat (S k)) t1
  end.
Lemma rounds_seq freq len k t : foldM (fun t n => refresh true freq len (Z.of_nat n) t) t (seq 0 (S k)) = rounds freq len k t.
Proof.
  induction k as [|k IH].
  - cbn [seq foldM rounds Z.of_nat]. destruct (refresh true freq len 0 t); reflexivity.
  - rewrite seq_S, foldM_app. cbn [plus]. rewrite IH. cbn [rounds]. destruct (rounds freq len k t); [|reflexivity]. cbn [bind foldM].
    destruct (refresh true freq len (Z.of_nat (S k)) _); reflexivity.
Qed.
Lemma rounds_col freq len t : 0 < freq -> 0 < len -> forall k t', rounds freq len k t = Ok t' -> Forall2 (with_col (interval_at freq len (Z.of_nat k))) t t'.
Proof.
  intros Hf Hl k. assert (F0 : (freq =? 0) = false) by (apply Z.eqb_neq; lia). induction k as [|k IH]; intros t' H; cbn [rounds] in H.
  - unfold refresh in H. rewrite F0 in H. cbn [negb guard bind] in H. rewrite Z.eqb_refl, orb_true_r in H. rewrite Z.quot_0_l in H by lia.
    apply Z.ltb_lt in Hl as Hl'. rewrite Hl' in H. unfold interval_at. cbn [Z.of_nat]. rewrite Z.div_0_l by lia. rewrite Z.min_l by lia. now apply portions_col.
  - apply bind_ok in H as (t1 & H1 & H2). specialize (IH t1 H1). unfold refresh in H2. rewrite F0 in H2. cbn [negb guard bind] in H2.
    set (n := Z.of_nat k) in *. assert (En : Z.of_nat (S k) = n + 1) by (unfold n; lia). rewrite En in *. assert (Hn : 0 <= n) by (unfold n; lia).
    replace (n + 1 =? 0) with false in H2 by (symmetry; apply Z.eqb_neq; lia). rewrite orb_false_r in H2.
    rewrite Z.rem_mod_nonneg, Z.quot_div_nonneg in H2 by lia.
    pose proof (Z.div_mod (n + 1) freq ltac:(lia)) as D1. pose proof (Z.mod_pos_bound (n + 1) freq ltac:(lia)) as B1.
    pose proof (Z.div_mod n freq ltac:(lia)) as D2. pose proof (Z.mod_pos_bound n freq ltac:(lia)) as B2.
    destruct ((n + 1) mod freq =? 0) eqn:Em.
    + apply Z.eqb_eq in Em. cbv zeta in H2. destruct ((n + 1) / freq <? len) eqn:El.
      * apply Z.ltb_lt in El. apply portions_col in H2. unfold interval_at. rewrite Z.min_l by lia. exact (with_col_again _ _ _ _ _ IH H2).
      * apply Z.ltb_ge in El. apply Ok_inj in H2. subst t1.
        assert (Eq : n / freq = (n + 1) / freq - 1) by (symmetry; apply Z.div_unique with (r := freq - 1); [left; lia|nia]).
        unfold interval_at in *. rewrite Z.min_r in IH by lia. rewrite Z.min_r by lia. exact IH.
    + apply Z.eqb_neq in Em. apply Ok_inj in H2. subst t1.
      assert (Eq : n / freq = (n + 1) / freq) by (symmetry; apply Z.div_unique with (r := (n + 1) mod freq - 1); [left; lia|lia] || (apply Z.div_unique with (r := (n + 1) mod freq - 1); [left; lia|lia])).
      unfold interval_at in *. rewrite <- Eq. exact IH.
Qed.

Lemma col_paths col t t' : Forall2 (with_col col) t t' -> paths_of t' = paths_of t.
Proof.
  intros H. induction H as [|x y t t' (A1 & A2 & _) F IH]; [reflexivity|]. unfold paths_of in *. cbn [map]. rewrite IH, A1. f_equal. f_equal.
  assert (K : map fst (map kept (snd y)) = map fst (map kept (snd x))) by now rewrite A2. rewrite !map_map in K. exact K.
Qed.
Lemma col_fair col t t' : Forall2 (with_col col) t t' -> (forall k es, In (k, es) t -> es <> []) -> fair t'.
Proof.
  intros H Ne o d es Hin. revert Ne. induction H as [|x y t t' (A1 & A2 & A3 & A4 & A5) F IH]; intros Ne; [destruct Hin|]. destruct Hin as [K|K].
  - subst y. cbn [fst snd] in *. assert (Nx : snd x <> []) by (destruct x as [kx ex]; apply (Ne kx); now left).
    repeat split; [|exact A4|now apply A5]. intros ->. cbn [map] in A2. symmetry in A2. now apply map_eq_nil in A2.
  - apply IH; [exact K|]. intros k' es' K'. apply (Ne k'). now right.
Qed.
Lemma col_draw col t t' o d r a : Forall2 (with_col col) t t' -> (0 <= r <= 1)%Q -> draw_path t' o d r = Ok a ->
  exists es e i, In ((o, d), es) t /\ nth_error es i = Some e /\ s_path e = a /\ in_slice (shares (map (col_flow col) es)) r i.
Proof.
  intros F Hr. unfold draw_path. induction F as [|x y t t' (A1 & A2 & A3 & A4 & _) F IH]; cbn [find_set]; [discriminate|].
  destruct y as [[o' d'] es']. cbn [fst snd] in *. destruct ((o' =? o) && (d' =? d)) eqn:E.
  - apply andb_true_iff in E as [E1 E2]. apply Z.eqb_eq in E1, E2. subst o' d'. intros H. apply bind_ok in H as (i & D & H).
    destruct (nth_error es' i) as [e'|] eqn:En; [|discriminate]. apply Ok_inj in H. destruct x as [kx es]. cbn [fst snd] in *. subst kx.
    assert (K : nth_error (map kept es) i = Some (kept e')) by (rewrite <- A2; now apply map_nth_error).
    rewrite nth_error_map in K. destruct (nth_error es i) as [e|] eqn:Ee; [|discriminate]. cbn [option_map] in K. injection K as K1 K2.
    exists es, e, i. split; [now left|]. split; [exact Ee|]. split; [congruence|]. apply (slice_ext _ _ r i A3). apply draw_slice; [|exact Hr|exact D].
    intros p Hp. apply in_map_iff in Hp as (x & <- & Hx). now apply A4.
  - intros H. destruct (IH H) as (es & e & i & K1 & K2). exists es, e, i. split; [now right|exact K2].
Qed.
End S.

(** ** what a round does to one traveller *)
Section One.
Context {A : Type}.
Lemma fold_rel_one (P : trip A -> trip A -> Prop) (f : trip A -> Z -> res (trip A)) :
  (forall s, P s s) -> (forall a b c, P a b -> P b c -> P a c) -> (forall s v s', f s v = Ok s' -> P s s') -> forall vs s s', foldM f s vs = Ok s' -> P s s'.
Proof.
  intros R T H vs. induction vs as [|v vs IH]; intros s s' E; cbn [foldM] in E; [apply Ok_inj in E; subst; apply R|].
  apply bind_ok in E as (s1 & E1 & E2). eapply T; [eapply H; exact E1|eapply IH; exact E2].
Qed.
Lemma fold_rel_two {K} (P : trip A -> trip A -> Prop) (f : K -> trip A -> Z -> res (trip A)) :
  (forall s, P s s) -> (forall a b c, P a b -> P b c -> P a c) -> (forall k s v s', f k s v = Ok s' -> P s s') ->
  forall (xs : list (K * list Z)) s s', foldM (fun s x => foldM (f (fst x)) s (snd x)) s xs = Ok s' -> P s s'.
Proof.
  intros R T H xs. induction xs as [|[k vs] xs IH]; intros s s' E; cbn [foldM] in E; [apply Ok_inj in E; subst; apply R|].
  apply bind_ok in E as (s1 & E1 & E2). eapply T; [eapply (fold_rel_one P (f k)); [exact R|exact T|apply H|exact E1]|eapply IH; exact E2].
Qed.
End One.

(** a passenger: how its path can change in a round *)
Definition path_step (t : shares_of (list Z)) (I : Z -> who) (R : Z -> Q) (v : Z) (s s' : trip (list Z)) : Prop :=
  (i_static (I v) = true -> k_que s v <> None -> k_que s' v <> None /\ k_path s' v = k_path s v) /\
  (i_static (I v) = false -> k_que s' v = k_que s v /\ k_nxt s' v = k_nxt s v /\ (k_path s v <> None -> k_path s' v = k_path s v)) /\
  (i_pnr (I v) = true -> k_path s' v = k_path s v) /\
  (i_pnr (I v) = false -> k_que s v = None -> (k_path s' v = k_path s v /\ k_que s' v = None) \/ exists a, k_path s' v = Some a /\ draw_path t (i_from (I v)) (i_to (I v)) (R v) = Ok a).

Lemma path_step_refl t I R v s : path_step t I R v s s.
Proof. unfold path_step. auto 10. Qed.
Lemma path_step_trans t I R v a b c : path_step t I R v a b -> path_step t I R v b c -> path_step t I R v a c.
Proof.
  intros (A1 & A2 & A3 & A4) (B1 & B2 & B3 & B4). split; [|split; [|split]].
  - intros B K. destruct (A1 B K) as [K1 K2]. destruct (B1 B K1) as [K3 K4]. split; [exact K3|congruence].
  - intros K. destruct (A2 K) as (K1 & K2 & K3). destruct (B2 K) as (K4 & K5 & K6). split; [congruence|]. split; [congruence|].
    intros N. rewrite K6; [auto|]. rewrite K3; auto.
  - intros K. rewrite B3; auto.
  - intros K N. destruct (A4 K N) as [[P1 Q1]|(x & P1 & D)].
    + rewrite <- P1. now apply B4.
    + destruct (k_que b v) as [q|] eqn:Qb.
      * destruct (i_static (I v)) eqn:B; [|destruct (A2 eq_refl) as (K5 & _); congruence].
        destruct (B1 eq_refl ltac:(discriminate)) as [_ K4]. right. exists x. split; [congruence|exact D].
      * destruct (B4 K eq_refl) as [[P2 _]|(y & P2 & D2)]; right; [exists x; split; [congruence|exact D]|exists y; auto].
Qed.
Lemma path_same t I R v (s s' : trip (list Z)) w : (forall u, k_path s' u = k_path s u) -> (forall u, k_que s' u = k_que s u \/ (u = w /\ k_que s w <> None /\ k_que s' w <> None)) ->
  (forall u, u <> w -> k_nxt s' u = k_nxt s u) -> i_static (I w) = true -> path_step t I R v s s'.
Proof.
  intros Pp Qq Nn B. unfold path_step. rewrite Pp. destruct (Qq v) as [E|(-> & E1 & E2)].
  - rewrite E. split; [auto|]. split; [|split; [auto|intros _ K; left; auto]]. intros K. split; [reflexivity|]. split; [|auto]. apply Nn. intros ->. congruence.
  - split; [auto|]. split; [congruence|]. split; [auto|]. intros _ K. congruence.
Qed.
Lemma upd_que (s s' : trip (list Z)) w q : (forall u, k_que s' u = upd (k_que s) w (Some q) u) -> k_que s w <> None ->
  forall u, k_que s' u = k_que s u \/ (u = w /\ k_que s w <> None /\ k_que s' w <> None).
Proof.
  intros H K u. destruct (Z.eq_dec u w) as [->|N]; [right|left; rewrite H; now rewrite upd_other by congruence].
  split; [reflexivity|]. split; [exact K|]. rewrite H, upd_same. discriminate.
Qed.

Section PasOne.
Context (t : shares_of (list Z)) (known : Z -> bool) (to : Z -> Z) (kind : Z -> tlink) (I : Z -> who) (R : Z -> Q).
Lemma enter_step v w (s s' : trip (list Z)) a : k_que s w = None -> i_static (I w) = true -> register_passenger t I R s w = Ok a ->
  take_next known (enrol s w a a) w = Ok s' -> path_step t I R v s s'.
Proof.
  intros Eq B D H. apply take_ok in H as (l & q & E & _ & E1 & E2 & E3 & E4). cbn [enrol k_que k_cur k_nxt k_path] in *.
  unfold path_step. rewrite E1, E3, E4. destruct (Z.eq_dec v w) as [->|N].
  - rewrite !upd_same. split; [congruence|]. split; [congruence|]. unfold register_passenger in D. split.
    + intros K. rewrite K in D. destruct (k_path s w); [|discriminate]. apply Ok_inj in D. now subst.
    + intros K _. rewrite K in D. right. exists a. auto.
  - rewrite !upd_other by congruence. auto 10.
Qed.
Lemma adv_step v w (s s' : trip (list Z)) : i_static (I w) = true -> take_next known s w = Ok s' -> path_step t I R v s s'.
Proof.
  intros B H. apply take_ok in H as (l & q & E & _ & E1 & E2 & E3 & E4). apply (path_same t I R v s s' w E4); [|intros u N; rewrite E3; now rewrite upd_other by congruence|exact B].
  apply (upd_que s s' w q E1). congruence.
Qed.
Lemma origin_step v s w s' : pas_origin t known I R s w = Ok s' -> path_step t I R v s s'.
Proof.
  unfold pas_origin. destruct (i_static (I w)) eqn:B.
  - destruct (k_que s w) as [q|] eqn:Eq; [intros H; apply Ok_inj in H; subst; apply path_step_refl|]. intros H. apply bind_ok in H as (a & D & H). now apply (enter_step v w s s' a).
  - destruct (k_path s w) as [b|] eqn:Ep; [intros H; apply Ok_inj in H; subst; apply path_step_refl|]. intros H. apply bind_ok in H as (a & D & H). apply Ok_inj in H. subst s'.
    unfold path_step. cbn [nominal k_que k_nxt k_path]. destruct (Z.eq_dec v w) as [->|N].
    + rewrite !upd_same. unfold register_passenger in D. destruct (i_pnr (I w)) eqn:Pn; [rewrite Ep in D; discriminate|]. rewrite Ep.
      split; [|split; [|split; [congruence|]]].
      * congruence.
      * intros _. split; [reflexivity|]. split; [reflexivity|congruence].
      * intros _ _. right. exists a. auto.
    + rewrite !upd_other by congruence. auto 10.
Qed.
Lemma lot_step v s w s' : pas_lot t known I R s w = Ok s' -> path_step t I R v s s'.
Proof.
  unfold pas_lot. destruct (i_static (I w)) eqn:B; [|intros H; apply Ok_inj in H; subst; apply path_step_refl].
  destruct (k_que s w) as [q|] eqn:Eq; [destruct (k_nxt s w); [|discriminate]; intros H; apply Ok_inj in H; subst; apply path_step_refl|].
  intros H. apply bind_ok in H as (x & _ & H). apply bind_ok in H as (a & D & H). now apply (enter_step v w s s' a).
Qed.
Lemma link_step v l s w s' : pas_link known to kind I l s w = Ok s' -> path_step t I R v s s'.
Proof.
  unfold pas_link. destruct (i_static (I w)) eqn:B; [|intros H; apply Ok_inj in H; subst; apply path_step_refl].
  assert (Adv : forall x, (do m <- moved_on s w; if m then take_checked known s w else Ok s) = Ok x -> path_step t I R v s x).
  { intros x H. apply bind_ok in H as (m & _ & H). destruct m; [|apply Ok_inj in H; subst; apply path_step_refl]. apply (adv_step v w); [exact B|now apply checked_ok]. }
  destruct (kind l) as [e|b e]; (destruct (i_to (I w) =? to l); intros H; [try discriminate|]).
  - apply bind_ok in H as (x & _ & H). destruct (k_que s w) as [[|y q]|]; try discriminate. apply Ok_inj in H. subst s'.
    apply (path_same t I R v s _ w); cbn [halt k_que k_path k_nxt]; auto. intros u N. now rewrite upd_other by congruence.
  - destruct (k_que s w) as [q|]; [|discriminate]. apply bind_ok in H as (x & _ & H). now apply Adv.
  - destruct (k_que s w) as [q|]; [|discriminate]. apply bind_ok in H as (x & _ & H). now apply Adv.
Qed.
Lemma stop_step v inl s w s' : pas_stop known I inl s w = Ok s' -> path_step t I R v s s'.
Proof.
  unfold pas_stop. destruct (i_static (I w)) eqn:B; [|intros H; apply Ok_inj in H; subst; apply path_step_refl].
  destruct (k_que s w) as [q|]; [|discriminate]. intros H. apply bind_ok in H as (m & _ & H).
  match type of H with (if ?c then _ else _) = _ => destruct c end; [|apply Ok_inj in H; subst; apply path_step_refl]. now apply (adv_step v w).
Qed.
Lemma pas_pass_step v origins lots ends stops s s' : pas_pass t known to kind I R origins lots ends stops s = Ok s' -> path_step t I R v s s'.
Proof.
  unfold pas_pass. intros H. apply bind_ok in H as (s1 & H1 & H). apply bind_ok in H as (s2 & H2 & H). apply bind_ok in H as (s3 & H3 & H4).
  pose proof (path_step_refl t I R v) as Rf. pose proof (path_step_trans t I R v) as Tr.
  eapply Tr; [exact (fold_rel_one (path_step t I R v) _ Rf Tr (origin_step v) _ _ _ H1)|].
  eapply Tr; [exact (fold_rel_one (path_step t I R v) _ Rf Tr (lot_step v) _ _ _ H2)|].
  eapply Tr; [exact (fold_rel_two (path_step t I R v) (fun l => pas_link known to kind I l) Rf Tr (link_step v) _ _ _ H3)|].
  exact (fold_rel_two (path_step t I R v) (fun l => pas_stop known I l) Rf Tr (stop_step v) _ _ _ H4).
Qed.
End PasOne.

(** a park-and-ride car *)
Definition car_step (t : shares_of pnr) (I : Z -> who) (R : Z -> Q) (v : Z) (s s' : trip pnr) : Prop :=
  (is_pnr_car true (I v) = true -> k_que s v <> None -> k_que s' v <> None /\ k_path s' v = k_path s v) /\
  (is_pnr_car true (I v) = false -> k_que s' v = k_que s v /\ k_nxt s' v = k_nxt s v /\ (k_path s v <> None -> k_path s' v = k_path s v)) /\
  (k_que s v = None -> (k_path s' v = k_path s v /\ k_que s' v = None) \/ exists a, k_path s' v = Some a /\ draw_path t (i_from (I v)) (i_to (I v)) (R v) = Ok a).
Lemma car_step_refl t I R v s : car_step t I R v s s.
Proof. unfold car_step. auto 10. Qed.
Lemma car_step_trans t I R v a b c : car_step t I R v a b -> car_step t I R v b c -> car_step t I R v a c.
Proof.
  intros (A1 & A2 & A4) (B1 & B2 & B4). split; [|split].
  - intros B K. destruct (A1 B K) as [K1 K2]. destruct (B1 B K1) as [K3 K4]. split; [exact K3|congruence].
  - intros K. destruct (A2 K) as (K1 & K2 & K3). destruct (B2 K) as (K4 & K5 & K6). split; [congruence|]. split; [congruence|].
    intros N. rewrite K6; [auto|]. rewrite K3; auto.
  - intros N. destruct (A4 N) as [[P1 Q1]|(x & P1 & D)].
    + rewrite <- P1. now apply B4.
    + destruct (k_que b v) as [q|] eqn:Qb.
      * destruct (is_pnr_car true (I v)) eqn:B; [|destruct (A2 eq_refl) as (K5 & _); congruence].
        destruct (B1 eq_refl ltac:(discriminate)) as [_ K4]. right. exists x. split; [congruence|exact D].
      * destruct (B4 eq_refl) as [[P2 _]|(y & P2 & D2)]; right; [exists x; split; [congruence|exact D]|exists y; auto].
Qed.
Section PnrOne.
Context (t : shares_of pnr) (known : Z -> bool) (to : Z -> Z) (I : Z -> who) (R : Z -> Q).
Lemma car_origin_step v s w s' : pnr_origin t known I R s w = Ok s' -> car_step t I R v s s'.
Proof.
  unfold pnr_origin. destruct (is_pnr_car true (I w)) eqn:B.
  - destruct (k_que s w) as [q|] eqn:Eq; [intros H; apply Ok_inj in H; subst; apply car_step_refl|]. intros H. apply bind_ok in H as (a & D & H).
    apply take_ok in H as (l & q & E & _ & E1 & E2 & E3 & E4). cbn [enrol k_que k_cur k_nxt k_path] in *.
    unfold car_step. rewrite E1, E3, E4. destruct (Z.eq_dec v w) as [->|N].
    + rewrite !upd_same. split; [congruence|]. split; [congruence|]. intros _. right. exists a. auto.
    + rewrite !upd_other by congruence. auto 10.
  - destruct (is_pnr_car false (I w)); [|intros H; apply Ok_inj in H; subst; apply car_step_refl].
    destruct (k_path s w) as [b|] eqn:Ep; [intros H; apply Ok_inj in H; subst; apply car_step_refl|]. intros H. apply bind_ok in H as (a & D & H). apply Ok_inj in H. subst s'.
    unfold car_step. cbn [nominal k_que k_nxt k_path]. destruct (Z.eq_dec v w) as [->|N].
    + rewrite !upd_same, Ep. split; [congruence|]. split; [intros _; split; [reflexivity|]; split; [reflexivity|congruence]|]. intros _. right. exists a. auto.
    + rewrite !upd_other by congruence. auto 10.
Qed.
Lemma car_link_step v l s w s' : pnr_link known to I l s w = Ok s' -> car_step t I R v s s'.
Proof.
  unfold pnr_link. destruct (is_pnr_car true (I w)) eqn:B; [|intros H; apply Ok_inj in H; subst; apply car_step_refl].
  destruct (k_path s w) as [a|] eqn:Ep; [|discriminate]. intros H. apply bind_ok in H as (x & _ & H). destruct (r_mid a =? to l).
  - destruct (k_que s w) as [[|y q]|] eqn:Eq; try discriminate. apply Ok_inj in H. subst s'. unfold car_step. cbn [halt k_que k_path k_nxt].
    destruct (Z.eq_dec v w) as [->|N]; [|rewrite upd_other by congruence; auto 10]. split; [auto|]. split; [congruence|]. intros K. congruence.
  - destruct (k_que s w) as [q|] eqn:Eq; [|discriminate]. destruct (same _ _); [|apply Ok_inj in H; subst; apply car_step_refl].
    apply checked_ok, take_ok in H as (l' & q' & E & _ & E1 & E2 & E3 & E4). unfold car_step. rewrite E1, E3, E4. destruct (Z.eq_dec v w) as [->|N]; [|rewrite !upd_other by congruence; auto 10].
    rewrite !upd_same. split; [intros _ _; split; [discriminate|reflexivity]|]. split; [congruence|]. intros K. congruence.
Qed.
Lemma pnr_pass_step v origins ends s s' : pnr_pass t known to I R origins ends s = Ok s' -> car_step t I R v s s'.
Proof.
  unfold pnr_pass. intros H. apply bind_ok in H as (s1 & H1 & H2). pose proof (car_step_refl t I R v) as Rf. pose proof (car_step_trans t I R v) as Tr.
  eapply Tr; [exact (fold_rel_one (car_step t I R v) _ Rf Tr (car_origin_step v) _ _ _ H1)|].
  exact (fold_rel_two (car_step t I R v) (fun l => pnr_link known to I l) Rf Tr (car_link_step v) _ _ _ H2).
Qed.
End PnrOne.
