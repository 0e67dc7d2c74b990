(** The overall effect of one node update. *)
From Verif Require Import Base Base_lemmas Model_Num Proof_Num Spec_Path Proof_Path Model_CC Spec_CC Proof_CC Model_Path Model_Link Spec_Link Spec_Node
  Proof_Link Proof_Link3 Proof_Link4 Model_World Model_Node Proof_Node Proof_Node2.
Local Open Scope Z_scope.

(** ** curves *)
(** from [c] to [c']: nothing, or one increment of [x] at time t+1 *)
Definition bump (t : Z) (c c' : option curve) (x : Q) : Prop :=
  match c, c' with
  | None, None => True
  | Some a, Some b => (b = a /\ (x == 0)%Q) \/ add_increment a (inject_Z (t + 1), x) = Ok b
  | _, _ => False
  end.
Lemma bump_same t c x : (x == 0)%Q -> bump t c c x.
Proof. intros H. destruct c; simpl; auto. Qed.
Lemma bump_last t c c' x : bump t (Some c) c' x -> exists d, c' = Some d /\ (last_value d == last_value c + x)%Q.
Proof.
  destruct c' as [d|]; simpl; [|contradiction]. intros [[E0 E]|E]; exists d; split; auto; [subst; lra|].
  apply add_increment_last in E. exact E.
Qed.
Lemma bump_none t c x : bump t None c x -> c = None.
Proof. destruct c; simpl; [contradiction|reflexivity]. Qed.

Definition colsum (m : tomove) (l : Z) : Z := sumZ (map (fun bc => sumZ (snd bc)) (filter (fun bc => fst bc =? l) m)).

Lemma zero_div fs : (inject_Z 0 / fs == 0)%Q.
Proof. change (inject_Z 0) with 0%Q. unfold Qdiv. lra. Qed.

Lemma colsum_cons bc m l : colsum (bc :: m) l = (if fst bc =? l then sumZ (snd bc) else 0) + colsum m l.
Proof. unfold colsum. simpl. destruct (fst bc =? l); simpl; lia. Qed.
Lemma colsum_none m l : ~ In l (map fst m) -> colsum m l = 0.
Proof.
  intros N. unfold colsum. rewrite filter_all_false; [reflexivity|]. intros x Hx. apply Z.eqb_neq. intros <-. apply N. now apply in_map.
Qed.

Lemma rec_outs fs t : forall m w w1, NoDup (map fst m) -> (forall bc, In bc m -> 0 <= sumZ (snd bc)) ->
  (forall l, In l (map fst m) -> cc_Nin (w_cc w) l = None <-> cc_Nout (w_cc w) l = None) ->
  foldM (record_out fs t) w m = Ok w1 ->
  cc_keep w w1 /\ cc_Nout (w_cc w1) = cc_Nout (w_cc w) /\ cc_Tin (w_cc w1) = cc_Tin (w_cc w) /\ cc_Tout (w_cc w1) = cc_Tout (w_cc w) /\
  forall l, bump t (cc_Nin (w_cc w) l) (cc_Nin (w_cc w1) l) (inject_Z (colsum m l) / fs).
Proof.
  induction m as [|[b col] m IH]; intros w w1 ND P Pr H.
  - simpl in H. apply Ok_inj in H as <-. repeat split. intros l. apply bump_same. apply zero_div.
  - simpl in H, ND. apply NoDup_cons_iff in ND as [Nb ND]. apply bind_ok in H as (w2 & H1 & H2).
    assert (X : cc_keep w w2 /\ cc_Nout (w_cc w2) = cc_Nout (w_cc w) /\ cc_Tin (w_cc w2) = cc_Tin (w_cc w) /\ cc_Tout (w_cc w2) = cc_Tout (w_cc w) /\
                (forall l, l <> b -> cc_Nin (w_cc w2) l = cc_Nin (w_cc w) l) /\
                bump t (cc_Nin (w_cc w) b) (cc_Nin (w_cc w2) b) (inject_Z (sumZ col) / fs)).
    { unfold record_out in H1. simpl in H1. pose proof (P (b, col) (or_introl eq_refl)) as P0. simpl in P0.
      specialize (Pr b (or_introl eq_refl)).
      destruct (cc_Nout (w_cc w) b) as [co|] eqn:Eo.
      - destruct (Z.ltb_spec 0 (sumZ col)) as [L|L].
        + apply inc_in_ok in H1 as (K & O & T1 & T2 & I & c & c' & E & E' & A). repeat (split; [assumption|]).
          rewrite E, E'. simpl. auto.
        + apply Ok_inj in H1 as <-. repeat split; auto. apply bump_same. replace (sumZ col) with 0 by lia. apply zero_div.
      - apply Ok_inj in H1 as <-. repeat split; auto. rewrite (proj2 Pr eq_refl). exact I. }
    destruct X as (K & O & T1 & T2 & I & B).
    destruct (IH w2 w1 ND) as (K' & O' & T1' & T2' & B'); [intros; apply P; now right| |exact H2|].
    { intros l Hl. rewrite O, I by (intros ->; contradiction). apply Pr. now right. }
    split; [eapply cc_keep_trans; eauto|]. split; [congruence|]. split; [congruence|]. split; [congruence|].
    intros l. specialize (B' l). rewrite colsum_cons. simpl fst. simpl snd. destruct (Z.eqb_spec b l) as [->|Ne].
    + rewrite colsum_none in B' |- * by exact Nb. replace (sumZ col + 0) with (sumZ col) by lia.
      destruct (cc_Nin (w_cc w2) l) as [c2|] eqn:E2.
      * destruct (cc_Nin (w_cc w1) l) as [c1|] eqn:E1; simpl in B'; [|contradiction].
        assert (c1 = c2); [|subst; exact B].
        (* the tail of the fold does not touch l *)
        clear - H2 Nb E1 E2. assert (cc_Nin (w_cc w1) l = cc_Nin (w_cc w2) l); [|congruence].
        clear E1 E2. revert w2 H2. induction m as [|[b' c'] m IHm]; intros w2 H2; simpl in H2.
        { apply Ok_inj in H2 as <-. reflexivity. }
        apply bind_ok in H2 as (w3 & H3 & H2). rewrite (IHm (fun C => Nb (or_intror C)) w3 H2).
        unfold record_out in H3. simpl in H3. destruct (cc_Nout (w_cc w2) b'); [|apply Ok_inj in H3 as <-; reflexivity].
        destruct (0 <? sumZ c'); [|apply Ok_inj in H3 as <-; reflexivity].
        apply inc_in_ok in H3 as (_ & _ & _ & _ & I & _). apply I. intros ->. apply Nb. now left.
      * destruct (cc_Nin (w_cc w1) l); simpl in B'; [contradiction|exact B].
    + rewrite I in B' by congruence. exact B'.
Qed.

Lemma rec_ins fs t ins m : forall is w w1, NoDup is -> (forall a, In a is -> 0 <= sumZ (map (fun bc => mv ins (snd bc) a) m)) ->
  (forall l, In l is -> cc_Nin (w_cc w) l = None <-> cc_Nout (w_cc w) l = None) ->
  foldM (record_in fs t ins m) w is = Ok w1 ->
  cc_keep w w1 /\ cc_Nin (w_cc w1) = cc_Nin (w_cc w) /\ cc_Tin (w_cc w1) = cc_Tin (w_cc w) /\ cc_Tout (w_cc w1) = cc_Tout (w_cc w) /\
  (forall l, In l is -> bump t (cc_Nout (w_cc w) l) (cc_Nout (w_cc w1) l) (inject_Z (sumZ (map (fun bc => mv ins (snd bc) l) m)) / fs)) /\
  (forall l, ~ In l is -> cc_Nout (w_cc w1) l = cc_Nout (w_cc w) l).
Proof.
  induction is as [|a is IH]; intros w w1 ND P Pr H.
  - simpl in H. apply Ok_inj in H as <-. repeat split; auto. intros l [].
  - simpl in H. apply NoDup_cons_iff in ND as [Na ND]. apply bind_ok in H as (w2 & H1 & H2).
    set (s := fun a => sumZ (map (fun bc => mv ins (snd bc) a) m)) in *.
    assert (X : cc_keep w w2 /\ cc_Nin (w_cc w2) = cc_Nin (w_cc w) /\ cc_Tin (w_cc w2) = cc_Tin (w_cc w) /\ cc_Tout (w_cc w2) = cc_Tout (w_cc w) /\
                (forall l, l <> a -> cc_Nout (w_cc w2) l = cc_Nout (w_cc w) l) /\
                bump t (cc_Nout (w_cc w) a) (cc_Nout (w_cc w2) a) (inject_Z (s a) / fs)).
    { unfold record_in in H1. fold (s a) in H1. pose proof (P a (or_introl eq_refl)) as P0. fold (s a) in P0.
      specialize (Pr a (or_introl eq_refl)).
      destruct (cc_Nin (w_cc w) a) as [co|] eqn:Eo.
      - destruct (Z.ltb_spec 0 (s a)) as [L|L].
        + apply inc_out_ok in H1 as (K & O & T1 & T2 & I & c & c' & E & E' & A). repeat (split; [congruence || assumption|]).
          rewrite E, E'. simpl. auto.
        + apply Ok_inj in H1 as <-. repeat split; auto. apply bump_same. replace (s a) with 0 by lia. apply zero_div.
      - apply Ok_inj in H1 as <-. repeat split; auto. rewrite (proj1 Pr eq_refl). exact I. }
    destruct X as (K & O & T1 & T2 & I & B).
    destruct (IH w2 w1 ND) as (K' & O' & T1' & T2' & B' & U'); [intros; apply P; now right| |exact H2|].
    { intros l Hl. rewrite O, I by (intros ->; contradiction). apply Pr. now right. }
    split; [eapply cc_keep_trans; eauto|]. split; [congruence|]. split; [congruence|]. split; [congruence|]. split.
    + intros l [<-|Hl].
      * rewrite (U' a Na). exact B.
      * specialize (B' l Hl). rewrite I in B' by (intros ->; contradiction). exact B'.
    + intros l Hl. rewrite U' by (intros C; apply Hl; now right). apply I. intros ->. apply Hl. now left.
Qed.

Lemma subseq_same_length {A} (l l' : list A) : subseq l l' -> length l = length l' -> l = l'.
Proof.
  induction 1 as [l|x l l' S IH|x l l' S IH]; intros E; simpl in *.
  - destruct l; [reflexivity|discriminate].
  - f_equal. apply IH. lia.
  - apply subseq_length in S. lia.
Qed.
Lemma cnt_length l l' : (forall v, cnt v l = cnt v l') -> length l = length l'.
Proof. intros H. apply Permutation_length, perm_cnt, H. Qed.

(** ** junction *)
Record jeff (fs : Q) (t : Z) (ins outs : list Z) (shuf : Z -> list Z -> list Z) (m : tomove) (w w' : world) : Prop := {
  je_keep : wkeep w w'; je_oq : w_oq w' = w_oq w; je_dq : w_dq w' = w_dq w;
  je_like : forall l, link_like (w_link w l) (w_link w' l);
  je_num : forall b col a, In (b, col) m -> In a ins ->
    0 <= mv ins col a <= count_if (goes w b) (l_fin (w_link w a));
  je_in : forall b col, In (b, col) m -> l_in (w_link w' b) = l_in (w_link w b) ++
    concat (map (fun a => firstn (Z.to_nat (mv ins col a)) (filter (goes w b) (l_fin (w_link w a)))) (shuf b ins));
  je_in_other : forall l, ~ In l outs -> l_in (w_link w' l) = l_in (w_link w l);
  je_fin : forall a, In a ins -> subseq (l_fin (w_link w' a)) (l_fin (w_link w a));
  je_fin_part : forall b col a, In (b, col) m -> In a ins ->
    filter (goes w b) (l_fin (w_link w' a)) = skipn (Z.to_nat (mv ins col a)) (filter (goes w b) (l_fin (w_link w a)));
  je_fin_cnt : forall a v, In a ins -> cnt v (l_fin (w_link w a)) =
    (cnt v (concat (map (fun bc => firstn (Z.to_nat (mv ins (snd bc) a)) (filter (goes w (fst bc)) (l_fin (w_link w a)))) m))
     + cnt v (l_fin (w_link w' a)))%nat;
  je_fin_other : forall l, ~ In l ins -> l_fin (w_link w' l) = l_fin (w_link w l);
  je_cur : forall v, (v_cur (w_veh w' v) = v_cur (w_veh w v) /\
                      ~ (exists b col a, In (b, col) m /\ In a ins /\
                         In v (firstn (Z.to_nat (mv ins col a)) (filter (goes w b) (l_fin (w_link w a)))))) \/
                     (exists b col a, In (b, col) m /\ In a ins /\ v_cur (w_veh w' v) = Some b /\
                         In v (firstn (Z.to_nat (mv ins col a)) (filter (goes w b) (l_fin (w_link w a)))));
  je_Nin : forall l, bump t (cc_Nin (w_cc w) l) (cc_Nin (w_cc w') l) (inject_Z (colsum m l) / fs);
  je_Nout : forall l, In l ins -> bump t (cc_Nout (w_cc w) l) (cc_Nout (w_cc w') l) (inject_Z (sumZ (map (fun bc => mv ins (snd bc) l) m)) / fs);
  je_Nout_other : forall l, ~ In l ins -> cc_Nout (w_cc w') l = cc_Nout (w_cc w) l }.

Lemma cc_keep_wkeep w w' : cc_keep w w' -> wkeep w w'.
Proof. intros (A & B & C & D & E & F & G). repeat split; try congruence; try (now rewrite A). Qed.

Lemma cnt_concat_map {A} (f : A -> list Z) l v : cnt v (concat (map f l)) = list_sum (map (fun x => cnt v (f x)) l).
Proof. induction l; simpl; [reflexivity|]. rewrite cnt_app. congruence. Qed.

Lemma moves_jeff fs t ins outs shuf m w w1 w' :
  NoDup ins -> NoDup outs -> (forall l, In l ins -> ~ In l outs) -> (forall b, Permutation (shuf b ins) ins) ->
  paired (w_cc w) -> map fst m = outs -> (forall b col, In (b, col) m -> length col = length ins) ->
  record_curves fs t ins m w = Ok w1 -> move_vehicles fs t ins shuf m w1 = Ok w' ->
  (forall b col a, In (b, col) m -> In a ins -> 0 <= mv ins col a) ->
  jeff fs t ins outs shuf m w w'.
Proof.
  intros NI NO DJ P Pr Em Lc HR HM Hnn.
  assert (NM : NoDup (map fst m)) by congruence.
  unfold record_curves in HR. apply bind_ok in HR as (w0 & H0 & H1).
  assert (Hcol : forall bc, In bc m -> 0 <= sumZ (snd bc)).
  { intros [b col] Hb. simpl. rewrite <- (mv_list ins col NI) by (eapply Lc; eauto).
    assert (forall a, In a ins -> 0 <= mv ins col a) by (intros; eapply Hnn; eauto). clear - H. generalize dependent (mv ins col).
    intros f H. induction ins as [|x l IH]; simpl; [lia|]. pose proof (H x (or_introl eq_refl)).
    specialize (IH (fun a Ha => H a (or_intror Ha))). lia. }
  apply rec_outs in H0 as (K0 & O0 & T0 & T0' & B0); [|exact NM|exact Hcol|intros; apply Pr].
  assert (Hrow : forall a, In a ins -> 0 <= sumZ (map (fun bc => mv ins (snd bc) a) m)).
  { intros a Ha. assert (forall bc, In bc m -> 0 <= mv ins (snd bc) a) by (intros [b col] Hb; eapply Hnn; eauto). clear - H.
    induction m as [|x l IH]; simpl; [lia|]. pose proof (H x (or_introl eq_refl)).
    specialize (IH (fun a Ha => H a (or_intror Ha))). lia. }
  apply rec_ins in H1 as (K1 & N1 & T1 & T1' & B1 & U1); [|exact NI|exact Hrow|].
  2:{ intros l Hl. rewrite O0. specialize (B0 l). rewrite <- (Pr l).
      destruct (cc_Nin (w_cc w) l), (cc_Nin (w_cc w0) l); simpl in B0; try contradiction; split; congruence. }
  assert (K : cc_keep w w1) by (eapply cc_keep_trans; eauto).
  pose proof K as (Kv & Kl & Ko & Kd & Kf & Kt & Kp).
  rewrite move_vehicles_flat in HM.
  assert (Hsrc : forall x, In x (flat ins shuf m) -> In (src x) ins).
  { intros x Hx. apply in_flat in Hx as (c & _ & Hs & _). eapply Permutation_in; [apply P|exact Hs]. }
  assert (Htgt : forall x, In x (flat ins shuf m) -> In (tgt x) outs).
  { intros x Hx. apply in_flat in Hx as (c & Hm & _). rewrite <- Em. apply in_map_iff. exists (tgt x, c). auto. }
  apply moves_ok in HM as (W & Oq & Dq & [Ni No] & Nu & LL & In' & Fi & Cu).
  2:{ apply flat_NoDup; assumption. }
  2:{ intros x y Hx Hy E. apply (DJ (src x)); [auto|]. rewrite E. auto. }
  assert (Hg : forall b l, filter (goes w1 b) l = filter (goes w b) l).
  { intros. apply filter_goes_keep. apply cc_keep_wkeep, K. }
  assert (Htk : forall a b col, taken w1 (a, b, mv ins col a) = firstn (Z.to_nat (mv ins col a)) (filter (goes w b) (l_fin (w_link w a)))).
  { intros. unfold taken, src, tgt, num. cbn [fst snd]. rewrite Hg, Kl. reflexivity. }
  assert (Hfl : forall a b col, In (b, col) m -> In a ins -> In (a, b, mv ins col a) (flat ins shuf m)).
  { intros. apply in_flat. exists col. unfold src, tgt, num. cbn [fst snd]. repeat split; auto. eapply Permutation_in; [symmetry; apply P|assumption]. }
  constructor.
  - eapply wkeep_trans; [apply cc_keep_wkeep, K|exact W].
  - congruence.
  - congruence.
  - intros l. specialize (LL l). rewrite Kl in LL. exact LL.
  - intros b col a Hm Ha. specialize (Nu (a, b, mv ins col a) (Hfl _ _ _ Hm Ha)).
    unfold count_if, src, tgt, num in *. cbn [fst snd] in Nu. rewrite Hg, Kl in Nu. exact Nu.
  - intros b col Hm. rewrite In', Kl. f_equal. rewrite (flat_tgt _ _ _ _ col NM Hm), map_map. f_equal. apply map_ext. intros a. apply Htk.
  - intros l Hl. rewrite In', Kl, flat_tgt_none by (rewrite Em; exact Hl). simpl. apply app_nil_r.
  - intros a Ha. rewrite <- Kl. apply Fi.
  - intros b col a Hm Ha. destruct (Fi a) as (_ & _ & G). specialize (G b). rewrite (find_flat _ _ _ _ _ col NI P NM Hm Ha) in G.
    rewrite !Hg, Kl in G. exact G.
  - intros a v Ha. destruct (Fi a) as (_ & C & _). specialize (C v). rewrite (flat_src _ _ _ _ NI P Ha), map_map in C.
    rewrite Kl in C. rewrite C. f_equal. f_equal. f_equal. apply map_ext. intros [b col]. apply Htk.
  - intros l Hl. destruct (Fi l) as (Sb & C & _). rewrite (flat_src_none _ _ _ _ P Hl) in C. simpl in C. rewrite Kl in *.
    apply subseq_same_length; [exact Sb|]. apply cnt_length. intros v. specialize (C v). lia.
  - intros v. rewrite Cu. destruct (memb v (concat (map (taken w1) (flat ins shuf m)))) eqn:M.
    + right. apply memb_In in M. apply in_concat in M as (l & Hl & Hv). apply in_map_iff in Hl as (x & <- & Hx).
      pose proof Hx as Hx'. apply in_flat in Hx' as (col & Hm & Hs & Hn). exists (tgt x), col, (src x).
      split; [exact Hm|]. split; [auto|]. unfold taken in Hv. rewrite Hg, Kl in Hv. split.
      * assert (I : In v (filter (goes w (tgt x)) (l_fin (w_link w (src x))))).
        { rewrite <- (firstn_skipn (Z.to_nat (num x))). apply in_or_app. now left. }
        apply filter_In in I as [_ I]. apply goes_next in I. rewrite Kv. exact I.
      * rewrite <- Hn. exact Hv.
    + left. apply memb_false in M. split; [now rewrite Kv|]. intros (b & col & a & Hm & Ha & Hv). apply M.
      apply in_concat. exists (taken w1 (a, b, mv ins col a)). split; [apply in_map; auto|]. now rewrite Htk.
  - intros l. rewrite Ni, N1. apply B0.
  - intros l Hl. rewrite No. rewrite <- O0. apply B1, Hl.
  - intros l Hl. rewrite No, U1 by exact Hl. now rewrite O0.
Qed.

Lemma find_keyed {B} (sup : list (Z * B)) b s : NoDup (map fst sup) -> In (b, s) sup -> find (fun x => fst x =? b) sup = Some (b, s).
Proof.
  induction sup as [|[b' s'] sup IH]; intros ND I; [contradiction|]. simpl in ND. apply NoDup_cons_iff in ND as [Nb ND]. simpl.
  destruct I as [E|I].
  - injection E as -> ->. now rewrite Z.eqb_refl.
  - destruct (Z.eqb_spec b' b) as [->|]; [exfalso; apply Nb; apply in_map_iff; exists (b, s); auto|apply IH; auto].
Qed.

Lemma columns_ok fs ins outs flow D n w m : NoDup outs -> junction_columns fs ins outs flow D n w = Ok m ->
  right_node w ins outs = true /\ map fst m = outs /\
  exists supply, (forall b, In b outs -> link_supply (w_link w b) = Ok (supply b)) /\
    (forall b col, In (b, col) m -> length col = length ins /\
       round_column fs (fun a => d_node D n a b) (d_fuel D) (d_pick D n b) (fun a => flow supply a b) (supply b) ins = Ok col).
Proof.
  intros NO H. unfold junction_columns in H. apply bind_ok in H as (u & Hg & H). apply guard_ok in Hg.
  apply bind_ok in H as (sup & Hs & H). cbv zeta in H. apply mapM_keyed in Hs as [Es Hs]. apply mapM_keyed in H as [Em Hm].
  split; [exact Hg|]. split; [exact Em|]. exists (fun b => match find (fun x => fst x =? b) sup with Some x => snd x | None => 0%Q end).
  split.
  - intros b Hb. rewrite <- Es in Hb. apply in_map_iff in Hb as ([b' s] & <- & Hb). simpl.
    rewrite (find_keyed sup b' s) by (rewrite ?Es; assumption). apply Hs, Hb.
  - intros b col Hb. specialize (Hm _ _ Hb). split; [|exact Hm]. unfold round_column in Hm. apply trim_ok in Hm as (L & _). now rewrite L, map_length.
Qed.

Lemma junction_ok fs ins outs flow D t n w w' : NoDup ins -> NoDup outs -> (forall l, In l ins -> ~ In l outs) ->
  (forall b, Permutation (d_inshuf D n b ins) ins) -> paired (w_cc w) ->
  junction_evolve fs ins outs flow D t n w = Ok w' ->
  exists m, junction_columns fs ins outs flow D n w = Ok m /\ jeff fs t ins outs (d_inshuf D n) m w w'.
Proof.
  intros NI NO DJ P Pr H. unfold junction_evolve in H. apply bind_ok in H as (m & Hm & H). apply bind_ok in H as (w1 & H1 & H2).
  exists m. split; [exact Hm|]. destruct (columns_ok _ _ _ _ _ _ _ _ NO Hm) as (_ & Em & supply & _ & Hc).
  eapply moves_jeff; eauto.
  - intros b col Hb. apply (Hc _ _ Hb).
  - intros b col a Hb Ha. rewrite move_vehicles_flat in H2. apply moves_ok in H2 as (_ & _ & _ & _ & Nu & _).
    + specialize (Nu (a, b, mv ins col a)). apply Nu. apply in_flat. exists col. unfold src, tgt, num. cbn [fst snd].
      repeat split; auto. eapply Permutation_in; [symmetry; apply P|assumption].
    + apply flat_NoDup; congruence || auto.
    + intros x y Hx Hy E. apply in_flat in Hx as (c & _ & Hs & _). apply in_flat in Hy as (c' & Hm' & _).
      apply (DJ (src x)); [eapply Permutation_in; [apply P|exact Hs]|]. rewrite E, <- Em. apply in_map_iff. exists (tgt y, c'). auto.
Qed.

(** ** origin *)
Record oeff (fs : Q) (t n : Z) (ks : list (Z * Z)) (w w' : world) : Prop := {
  oe_keep : wkeep w w'; oe_dq : w_dq w' = w_dq w;
  oe_oq_other : forall n', n' <> n -> w_oq w' n' = w_oq w n';
  oe_oq : subseq (w_oq w' n) (w_oq w n);
  oe_oq_part : forall b k, In (b, k) ks -> filter (goes w b) (w_oq w' n) = skipn (Z.to_nat k) (filter (goes w b) (w_oq w n));
  oe_oq_part_other : forall b, ~ In b (map fst ks) -> filter (goes w b) (w_oq w' n) = filter (goes w b) (w_oq w n);
  oe_oq_cnt : forall v, cnt v (w_oq w n) =
    (cnt v (concat (map (fun bk => firstn (Z.to_nat (snd bk)) (filter (goes w (fst bk)) (w_oq w n))) ks)) + cnt v (w_oq w' n))%nat;
  oe_link : forall b k, In (b, k) ks ->
    w_link w' b = set_in (w_link w b) (l_in (w_link w b) ++ firstn (Z.to_nat k) (filter (goes w b) (w_oq w n)));
  oe_link_other : forall l, ~ In l (map fst ks) -> w_link w' l = w_link w l;
  oe_cur : forall v, v_cur (w_veh w' v) =
    if memb v (concat (map (fun bk => firstn (Z.to_nat (snd bk)) (filter (goes w (fst bk)) (w_oq w n))) ks))
    then v_next (w_veh w v) else v_cur (w_veh w v);
  oe_Nout : cc_Nout (w_cc w') = cc_Nout (w_cc w); oe_Tin : cc_Tin (w_cc w') = cc_Tin (w_cc w); oe_Tout : cc_Tout (w_cc w') = cc_Tout (w_cc w);
  oe_Nin : forall b k, In (b, k) ks -> bump t (cc_Nin (w_cc w) b) (cc_Nin (w_cc w') b) (inject_Z (Z.max 0 k) / fs);
  oe_Nin_other : forall l, ~ In l (map fst ks) -> cc_Nin (w_cc w') l = cc_Nin (w_cc w) l }.

(** the extraction loop with any count, also a negative one *)
Lemma pull_any f q n t r m : pull f n q = (t, r, m) ->
  t = firstn (Z.to_nat n) (filter f q) /\ filter f r = skipn (Z.to_nat n) (filter f q) /\
  (forall g, (forall v, f v = true -> g v = false) -> filter g r = filter g q) /\
  subseq r q /\ (forall v, cnt v q = (cnt v t + cnt v r)%nat).
Proof.
  intros E. destruct (Z.leb_spec 0 n) as [L|L].
  - destruct (pull_spec _ _ _ _ _ _ L E) as (A & _ & B). auto.
  - assert (X : pull f n q = ([], q, n)) by (destruct q; simpl; [reflexivity|]; destruct (Z.ltb_spec 0 n); [lia|reflexivity]).
    rewrite X in E. injection E as <- <- <-. replace (Z.to_nat n) with 0%nat by lia. simpl. repeat split; auto. apply subseq_refl.
Qed.

Lemma origin_move_ok fs t n b k w w' : origin_move fs t n w (b, k) = Ok w' -> oeff fs t n [(b, k)] w w'.
Proof.
  intros H. unfold origin_move in H. apply bind_ok in H as (w1 & H1 & H).
  assert (X : cc_keep w w1 /\ cc_Nout (w_cc w1) = cc_Nout (w_cc w) /\ cc_Tin (w_cc w1) = cc_Tin (w_cc w) /\ cc_Tout (w_cc w1) = cc_Tout (w_cc w) /\
              (forall l, l <> b -> cc_Nin (w_cc w1) l = cc_Nin (w_cc w) l) /\
              bump t (cc_Nin (w_cc w) b) (cc_Nin (w_cc w1) b) (inject_Z (Z.max 0 k) / fs)).
  { destruct (cc_Nin (w_cc w) b) as [c|] eqn:Ec.
    - destruct (Z.ltb_spec 0 k).
      + apply inc_in_ok in H1 as (K & O & T1 & T2 & I & c0 & c' & E & E' & A). repeat (split; [assumption|]).
        rewrite E', Z.max_r by lia. simpl. right. congruence.
      + apply Ok_inj in H1 as <-. repeat split; auto. rewrite Ec, Z.max_l by lia. simpl. left. split; [reflexivity|]. apply zero_div.
    - apply Ok_inj in H1 as <-. repeat split; auto. now rewrite Ec. }
  destruct X as (K & NO & T1 & T2 & NI & B). pose proof K as (Kv & Kl & Ko & Kd & Kf & Kt & Kp).
  destruct (pull (goes w1 b) k (w_oq w1 n)) as [[vs rest] lft] eqn:E. apply Ok_inj in H.
  destruct (pull_any _ _ _ _ _ _ E) as (Hv & Hr & Hg & Hs & Hc).
  assert (G : forall b v, goes w1 b v = goes w b v) by (intros; apply goes_keep, cc_keep_wkeep, K).
  assert (Gf : forall b l, filter (goes w1 b) l = filter (goes w b) l) by (intros; apply filter_ext; intros; apply G).
  rewrite !Gf in *. rewrite Ko in *. subst w'.
  constructor; cbn [set_vehs set_link set_oq w_veh w_link w_oq w_dq w_cc w_fac w_trk w_pt map concat fst snd app]; rewrite ?app_nil_r, <- ?Hv; auto.
  - repeat split; cbn [set_vehs set_link set_oq w_veh w_link w_oq w_dq w_cc w_fac w_trk w_pt]; try congruence;
    rewrite <- Kv; apply (on_vehs_keep _ vs); intros x; repeat split.
  - intros n' Hn. now rewrite upd_other, Ko.
  - now rewrite upd_same.
  - intros b' k' [E'|[]]. injection E' as <- <-. now rewrite upd_same.
  - intros b' Hb'. rewrite upd_same, <- !Gf. apply Hg. intros v Gv. eapply goes_one; [|exact Gv]. intros ->. apply Hb'. now left.
  - intros v. now rewrite upd_same.
  - intros b' k' [E'|[]]. injection E' as <- <-. rewrite upd_same, Kl, Hv. reflexivity.
  - intros l Hl. rewrite upd_other by (intros ->; apply Hl; now left). now rewrite Kl.
  - intros v. destruct (memb v vs) eqn:M.
    + apply memb_In in M. rewrite (on_vehs_const v_cur (Some b)) by (reflexivity || exact M).
      assert (I : In v (filter (goes w b) (w_oq w n))) by (rewrite <- (firstn_skipn (Z.to_nat k)), <- Hv; apply in_or_app; now left).
      apply filter_In in I as [_ I]. apply goes_next in I. now symmetry.
    + apply memb_false in M. now rewrite on_vehs_out, Kv by exact M.
  - intros b' k' [E'|[]]. injection E' as <- <-. exact B.
  - intros l Hl. apply NI. intros ->. apply Hl. now left.
Qed.

Lemma cnt_zero_notin v l : ~ In v l -> cnt v l = 0%nat.
Proof. intros H. destruct (cnt v l) eqn:E; [reflexivity|]. exfalso. apply H. apply cnt_In. lia. Qed.

Lemma origin_moves_ok fs t n : forall ks w w', NoDup (map fst ks) ->
  foldM (origin_move fs t n) w ks = Ok w' -> oeff fs t n ks w w'.
Proof.
  induction ks as [|[b k] ks IH]; intros w w' ND H.
  - simpl in H. apply Ok_inj in H as <-. constructor; auto using wkeep_refl, subseq_refl; try (intros ? ? []); try (intros; reflexivity).
  - simpl in H. apply bind_ok in H as (w1 & H1 & H2). simpl in ND. apply NoDup_cons_iff in ND as [Nb ND].
    apply origin_move_ok in H1.
    apply IH in H2; [|exact ND].
    destruct H1 as [W1 D1 O1 S1 P1 Q1 C1 L1 M1 U1 A1 A2 A3 B1 B1'], H2 as [W2 D2 O2 S2 P2 Q2 C2 L2 M2 U2 A4 A5 A6 B2 B2'].
    assert (G : forall b l, filter (goes w1 b) l = filter (goes w b) l) by (intros; now apply filter_goes_keep).
    assert (FF : forall b', b' <> b -> filter (goes w b') (w_oq w1 n) = filter (goes w b') (w_oq w n)).
    { intros b' Hb'. apply Q1. simpl. intros [->|[]]. congruence. }
    assert (FT : map (fun bk => firstn (Z.to_nat (snd bk)) (filter (goes w1 (fst bk)) (w_oq w1 n))) ks =
                 map (fun bk => firstn (Z.to_nat (snd bk)) (filter (goes w (fst bk)) (w_oq w n))) ks).
    { apply map_ext_in. intros [b' k'] I. cbn [fst snd]. rewrite G, FF; [reflexivity|]. intros ->. apply Nb. apply in_map_iff. exists (b, k'). auto. }
    rewrite FT in *. cbn [map concat fst snd app] in *. rewrite ?app_nil_r in *.
    constructor; cbn [map concat fst snd].
    + eapply wkeep_trans; eauto.
    + congruence.
    + intros n' Hn. rewrite O2, O1 by exact Hn. reflexivity.
    + eapply subseq_trans; eauto.
    + intros b' k' [E|I].
      * injection E as <- <-. rewrite <- G, (Q2 b Nb), G. apply P1. now left.
      * assert (b' <> b) by (intros ->; apply Nb; apply in_map_iff; exists (b, k'); auto).
        rewrite <- (FF b') by assumption. rewrite <- !G. apply P2, I.
    + intros b' Hb'. rewrite <- G, Q2, G by (intros C; apply Hb'; now right). apply FF. intros ->. apply Hb'. now left.
    + intros v. rewrite C1, C2, cnt_app. lia.
    + intros b' k' [E|I].
      * injection E as <- <-. rewrite (M2 b Nb). apply L1. now left.
      * assert (b' <> b) by (intros ->; apply Nb; apply in_map_iff; exists (b, k'); auto).
        rewrite (L2 _ _ I), G, FF by assumption. rewrite (M1 b') by (simpl; intros [->|[]]; congruence). reflexivity.
    + intros l Hl. simpl in Hl. rewrite M2, M1; [reflexivity| |]; simpl; tauto.
    + intros v. rewrite U2, U1. destruct W1 as (_ & _ & _ & W1). destruct (W1 v) as (_&_&_&_&_&_&Ev&_). rewrite Ev.
      assert (MA : forall a c, memb v (a ++ c) = memb v a || memb v c).
      { intros a c. unfold memb. apply existsb_app. }
      rewrite MA. destruct (memb v (firstn _ _)), (memb v (concat _)); reflexivity.
    + congruence.
    + congruence.
    + congruence.
    + intros b' k' [E|I].
      * injection E as <- <-. rewrite (B2' b Nb). apply B1. now left.
      * assert (b' <> b) by (intros ->; apply Nb; apply in_map_iff; exists (b, k'); auto).
        rewrite <- (B1' b') by (simpl; intros [->|[]]; congruence). apply B2, I.
    + intros l Hl. simpl in Hl. rewrite B2', B1'; [reflexivity| |]; simpl; tauto.
Qed.

Lemma origin_volume_ok fs r w n b k : (0 < fs)%Q -> (0 <= r)%Q -> origin_volume fs r w n b = Ok k ->
  exists s, link_supply (w_link w b) = Ok s /\
    ((0 <= s)%Q -> 0 <= k) /\ k <= count_if (goes w b) (w_oq w n) /\ ((0 <= s)%Q -> inject_Z k < s * fs + 1)%Q /\
    ((inject_Z (count_if (goes w b) (w_oq w n)) <= s * fs)%Q -> k = count_if (goes w b) (w_oq w n)).
Proof.
  intros Hf Hr H. unfold origin_volume in H. apply bind_ok in H as (s & Hs & H). exists s. split; [exact Hs|].
  cbv zeta in H. apply Ok_inj in H. set (c := count_if _ _) in *.
  assert (Hc : 0 <= c) by (unfold c, count_if, Zlen; lia).
  destruct (Qltb_spec (s * fs) (inject_Z c)) as [L|L].
  - assert (HX : (0 <= s -> 0 <= s * fs)%Q) by (intros; apply Qmult_le_0_compat; lra).
    rewrite <- H. clear H. set (x := (s * fs)%Q) in *. clearbody x c.
    split; [intros; apply rround_nonneg; auto|]. split; [|split; [|intros; lra]].
    + destruct (Qlt_le_dec x 0) as [N|P].
      * assert (trunc x <= 0) by (unfold trunc; unfold Qlt in N; simpl in N; destruct x as [p q]; simpl in *;
          pose proof (Z.quot_opp_l (- p) (Z.pos q) ltac:(lia)) as Q1; rewrite Z.opp_involutive in Q1; rewrite Q1;
          pose proof (Z.quot_pos (-p) (Z.pos q) ltac:(lia) ltac:(lia)); lia).
        destruct (rround_cases r x) as [->| E]; [lia|]. pose proof E as E'. apply rround_up in E'.
        assert (trunc x < 0); [|lia].
        destruct (Z.eq_dec (trunc x) 0) as [Z0|]; [|lia]. rewrite Z0 in E'. change (inject_Z 0) with 0%Q in E'. lra.
      * assert (inject_Z (rround r x) < inject_Z (c + 1))%Q; [|rewrite <- Zlt_Qlt in H; lia].
        rewrite inject_Z_plus. change (inject_Z 1) with 1%Q. pose proof (rround_lt r x P Hr). lra.
    + intros P. apply rround_lt; auto.
  - rewrite <- H. split; [auto|]. split; [lia|]. split; [intros; lra|reflexivity].
Qed.

Lemma origin_ok fs outs r t n w w' : (0 < fs)%Q -> (forall b, (0 <= r b)%Q) -> NoDup outs ->
  origin_evolve fs outs r t n w = Ok w' ->
  (forall v, In v (w_oq w n) -> exists b, In b outs /\ goes w b v = true) /\
  exists ks, map fst ks = outs /\ (forall b k, In (b, k) ks -> origin_volume fs (r b) w n b = Ok k /\ k <= count_if (goes w b) (w_oq w n)) /\
    oeff fs t n ks w w'.
Proof.
  intros Hf Hr NO H. unfold origin_evolve in H. apply bind_ok in H as (u & Hg & H). apply guard_ok in Hg.
  apply bind_ok in H as (ks & Hk & H). split.
  { intros v Hv. rewrite forallb_forall in Hg. specialize (Hg v Hv). apply existsb_exists in Hg. exact Hg. }
  exists ks. apply mapM_keyed in Hk as [Ek Hk]. split; [exact Ek|].
  split.
  { intros b k I. specialize (Hk _ _ I). split; [exact Hk|]. apply origin_volume_ok in Hk as (s & E & A & B & _); auto. }
  apply origin_moves_ok; [congruence|exact H].
Qed.

(** ** destination *)
Record deff (fs : Q) (t n : Z) (ins : list Z) (w w' : world) : Prop := {
  de_keep : wkeep w w'; de_oq : w_oq w' = w_oq w;
  de_dq_other : forall n', n' <> n -> w_dq w' n' = w_dq w n';
  de_dq : w_dq w' n = w_dq w n ++ concat (map (fun a => l_fin (w_link w a)) ins);
  de_next : forall a v, In a ins -> In v (l_fin (w_link w a)) -> v_next (w_veh w v) = None;
  de_link : forall a, In a ins -> w_link w' a = set_fin (w_link w a) [];
  de_link_other : forall l, ~ In l ins -> w_link w' l = w_link w l;
  de_cur : forall v, v_cur (w_veh w' v) = if memb v (concat (map (fun a => l_fin (w_link w a)) ins)) then None else v_cur (w_veh w v);
  de_Nin : cc_Nin (w_cc w') = cc_Nin (w_cc w); de_Tin : cc_Tin (w_cc w') = cc_Tin (w_cc w); de_Tout : cc_Tout (w_cc w') = cc_Tout (w_cc w);
  de_Nout : forall a, In a ins -> bump t (cc_Nout (w_cc w) a) (cc_Nout (w_cc w') a) (inject_Z (Zlen (l_fin (w_link w a))) / fs);
  de_Nout_other : forall l, ~ In l ins -> cc_Nout (w_cc w') l = cc_Nout (w_cc w) l }.

Lemma dest_step_ok fs t n a w w' : dest_step fs t n w a = Ok w' -> deff fs t n [a] w w'.
Proof.
  intros H. unfold dest_step in H. apply bind_ok in H as (w1 & H1 & H). apply bind_ok in H as (u & Hg & H). apply guard_ok in Hg.
  set (fin := l_fin (w_link w a)) in *.
  assert (X : cc_keep w w1 /\ cc_Nin (w_cc w1) = cc_Nin (w_cc w) /\ cc_Tin (w_cc w1) = cc_Tin (w_cc w) /\ cc_Tout (w_cc w1) = cc_Tout (w_cc w) /\
              (forall l, l <> a -> cc_Nout (w_cc w1) l = cc_Nout (w_cc w) l) /\
              bump t (cc_Nout (w_cc w) a) (cc_Nout (w_cc w1) a) (inject_Z (Zlen fin) / fs)).
  { destruct (cc_Nout (w_cc w) a) as [c|] eqn:Ec.
    - destruct (Z.ltb_spec 0 (Zlen fin)).
      + apply inc_out_ok in H1 as (K & O & T1 & T2 & I & c0 & c' & E & E' & A). repeat (split; [assumption|]).
        rewrite E'. simpl. right. congruence.
      + apply Ok_inj in H1 as <-. repeat split; auto. rewrite Ec. simpl. left. split; [reflexivity|].
        replace (Zlen fin) with 0 by (unfold Zlen in *; lia). apply zero_div.
    - apply Ok_inj in H1 as <-. repeat split; auto. now rewrite Ec. }
  destruct X as (K & NO & T1 & T2 & NI & B). pose proof K as (Kv & Kl & Ko & Kd & Kf & Kt & Kp).
  apply Ok_inj in H. subst w'. rewrite forallb_forall in Hg.
  constructor; cbn [set_vehs set_link set_dq w_veh w_link w_oq w_dq w_cc w_fac w_trk w_pt map concat app]; rewrite ?app_nil_r; auto.
  - repeat split; cbn [set_vehs set_link set_dq w_veh w_link w_oq w_dq w_cc w_fac w_trk w_pt]; try congruence;
    rewrite <- Kv; apply (on_vehs_keep _ fin); intros x; repeat split.
  - intros n' Hn. now rewrite upd_other, Kd.
  - now rewrite upd_same, Kd.
  - intros a' v [<-|[]] Hv. specialize (Hg v Hv). rewrite Kv in Hg. destruct (v_next (w_veh w v)); [discriminate|reflexivity].
  - intros a' [<-|[]]. now rewrite upd_same, Kl.
  - intros l Hl. rewrite upd_other by (intros ->; apply Hl; now left). now rewrite Kl.
  - intros v. fold fin. destruct (memb v fin) eqn:M.
    + apply memb_In in M. apply (on_vehs_const v_cur None); [reflexivity|exact M].
    + apply memb_false in M. now rewrite on_vehs_out, Kv by exact M.
  - intros a' [<-|[]]. exact B.
  - intros l Hl. apply NI. intros ->. apply Hl. now left.
Qed.

Lemma dest_ok fs t n : forall ins w w', NoDup ins -> dest_evolve fs ins t n w = Ok w' -> deff fs t n ins w w'.
Proof.
  unfold dest_evolve. induction ins as [|a ins IH]; intros w w' ND H.
  - simpl in H. apply Ok_inj in H as <-. constructor; auto using wkeep_refl; try (intros ? []); try (intros ? ? []).
    all: simpl; now rewrite ?app_nil_r.
  - simpl in H. apply bind_ok in H as (w1 & H1 & H2). apply NoDup_cons_iff in ND as [Na ND].
    apply dest_step_ok in H1. apply IH in H2; [|exact ND].
    destruct H1 as [W1 O1 D1 E1 X1 L1 M1 U1 A1 A2 A3 B1 B1'], H2 as [W2 O2 D2 E2 X2 L2 M2 U2 A4 A5 A6 B2 B2'].
    assert (FT : map (fun a => l_fin (w_link w1 a)) ins = map (fun a => l_fin (w_link w a)) ins).
    { apply map_ext_in. intros a' I. rewrite M1; [reflexivity|]. simpl. intros [->|[]]. contradiction. }
    rewrite FT in *. cbn [map concat app] in *. rewrite ?app_nil_r in *.
    assert (NE : forall a', In a' ins -> ~ In a' [a]) by (intros a' I [->|[]]; contradiction).
    constructor; cbn [map concat].
    + eapply wkeep_trans; eauto.
    + congruence.
    + intros n' Hn. now rewrite D2, D1 by exact Hn.
    + now rewrite E2, E1, app_assoc.
    + intros a' v [<-|I] Hv; [apply (X1 a v); [now left|exact Hv]|].
      destruct W1 as (_ & _ & _ & W1). destruct (W1 v) as (_&_&_&_&_&_&Ev&_). rewrite <- Ev.
      apply (X2 a' v I). rewrite M1 by auto. exact Hv.
    + intros a' [<-|I]; [rewrite M2 by exact Na; apply L1; now left|]. rewrite (L2 _ I), M1 by auto. reflexivity.
    + intros l Hl. simpl in Hl. rewrite M2, M1; [reflexivity| |]; simpl; tauto.
    + intros v. rewrite U2, U1.
      assert (MA : forall a c, memb v (a ++ c) = memb v a || memb v c) by (intros; unfold memb; apply existsb_app).
      rewrite MA. destruct (memb v (l_fin (w_link w a))), (memb v (concat _)); reflexivity.
    + congruence.
    + congruence.
    + congruence.
    + intros a' [<-|I]; [rewrite B2' by exact Na; apply B1; now left|]. specialize (B2 a' I). rewrite M1, B1' in B2 by auto. exact B2.
    + intros l Hl. simpl in Hl. rewrite B2', B1'; [reflexivity| |]; simpl; tauto.
Qed.
