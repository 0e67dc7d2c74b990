(** Rounding, trimming and curve recording of junctions. *)
From Verif Require Import Base Base_lemmas Model_Num Proof_Num Spec_Path Proof_Path Model_CC Spec_CC Proof_CC Model_Path Model_Link Spec_Link
  Proof_Link Proof_Link3 Proof_Link4 Model_World Model_Node Proof_Node.
Local Open Scope Z_scope.

(** ** mapM *)
Lemma mapM_keyed {B} (g : Z -> res B) l : forall bs, mapM (fun a => do k <- g a; Ok (a, k)) l = Ok bs ->
  map fst bs = l /\ (forall a k, In (a, k) bs -> g a = Ok k).
Proof.
  induction l as [|a l IH]; intros bs H; simpl in H.
  - apply Ok_inj in H as <-. split; [reflexivity|intros ? ? []].
  - apply bind_ok in H as (b & H1 & H). apply bind_ok in H as (bs' & H2 & H). apply Ok_inj in H as <-.
    apply bind_ok in H1 as (k & Hk & H1). apply Ok_inj in H1 as <-. destruct (IH _ H2) as (A & B').
    simpl. rewrite A. split; [reflexivity|]. intros a' k' [E|I]; [injection E as <- <-; exact Hk|eauto].
Qed.
Lemma mapM_keyed_total {B} (g : Z -> res B) l : (forall a, In a l -> exists k, g a = Ok k) ->
  exists bs, mapM (fun a => do k <- g a; Ok (a, k)) l = Ok bs.
Proof.
  induction l as [|a l IH]; intros H; simpl; [eauto|].
  destruct (H a) as (k & E); [now left|]. rewrite E. simpl.
  destruct IH as (bs & Eb); [intros; apply H; now right|]. rewrite Eb. simpl. eauto.
Qed.
(** the first failure decides *)
Lemma mapM_keyed_err {B} (g : Z -> res B) e l : mapM (fun a => do k <- g a; Ok (a, k)) l = Err e ->
  exists a, In a l /\ g a = Err e.
Proof.
  induction l as [|a l IH]; simpl; [discriminate|]. destruct (g a) eqn:G; simpl.
  - destruct (mapM _ l) eqn:M; simpl; [discriminate|]. intros E. injection E as <-.
    destruct IH as (a' & I & E'); [reflexivity|]. eauto.
  - intros [= <-]. eauto.
Qed.

(** ** trim *)
Lemma sumZ_upd i x : forall col, (i < length col)%nat -> nth i col 0 = x ->
  sumZ (firstn i col ++ [x - 1] ++ skipn (S i) col) = sumZ col - 1.
Proof.
  induction i as [|i IH]; intros [|y col] L E; simpl in *; try lia.
  specialize (IH col ltac:(lia) E). rewrite sumZ_app in *. simpl in *. lia.
Qed.
Lemma nth_upd i x : forall col j, (i < length col)%nat -> nth i col 0 = x ->
  nth j (firstn i col ++ [x - 1] ++ skipn (S i) col) 0 = if (j =? i)%nat then x - 1 else nth j col 0.
Proof.
  induction i as [|i IH]; intros [|y col] j L E; simpl in L; try lia.
  - simpl in *. destruct j; [reflexivity|]. reflexivity.
  - destruct j as [|j]; [reflexivity|]. simpl in E. simpl firstn. simpl skipn. cbn [app nth].
    rewrite IH; [|lia|exact E]. reflexivity.
Qed.
Lemma length_upd i (x : Z) : forall col, (i < length col)%nat ->
  length (firstn i col ++ [x - 1] ++ skipn (S i) col) = length col.
Proof. intros col L. rewrite !app_length, firstn_length, skipn_length. simpl length. lia. Qed.

Lemma trim_ok picks lim : forall fuel k col col', trim fuel picks k lim col = Ok col' ->
  length col' = length col /\ ~ (lim < inject_Z (sumZ col'))%Q /\
  (forall j, nth j col' 0 <= nth j col 0 /\ (0 <= nth j col 0 -> 0 <= nth j col' 0)).
Proof.
  induction fuel as [|fuel IH]; intros k col col' H; simpl in H; destruct (Qltb_spec lim (inject_Z (sumZ col))) as [L|L]; simpl in H.
  - discriminate.
  - apply Ok_inj in H as <-. repeat split; auto; lia.
  - destruct (length col =? 0)%nat eqn:E0; [discriminate|]. apply Nat.eqb_neq in E0.
    set (i := (picks k mod length col)%nat) in *.
    assert (Hi : (i < length col)%nat) by (apply Nat.mod_upper_bound; lia).
    destruct (Z.leb_spec 1 (nth i col 0)) as [G|G].
    + apply IH in H as (A & B & C). split; [|split; [exact B|]].
      { rewrite A. apply (length_upd i (nth i col 0) col Hi). }
      intros j. specialize (C j). rewrite (nth_upd i (nth i col 0)) in C by auto.
      destruct (Nat.eqb_spec j i) as [Ej|]; [rewrite Ej in *; split; lia|exact C].
    + apply IH in H. exact H.
  - apply Ok_inj in H as <-. repeat split; auto; lia.
Qed.
Lemma trim_err picks lim e : forall fuel k col, trim fuel picks k lim col = Err e ->
  e = EFuel \/ (e = EUB /\ col = [] /\ (lim < 0)%Q).
Proof.
  induction fuel as [|fuel IH]; intros k col H; simpl in H; destruct (Qltb_spec lim (inject_Z (sumZ col))) as [L|L]; simpl in H; try discriminate.
  - injection H as <-. auto.
  - destruct (length col =? 0)%nat eqn:E0.
    + injection H as <-. apply Nat.eqb_eq in E0. destruct col; [|discriminate]. right. repeat split; auto.
    + apply IH in H as [|(? & E & ?)]; [auto|]. right. exfalso.
      apply Nat.eqb_neq in E0. destruct (1 <=? nth (picks k mod length col) col 0); [|subst; simpl in E0; lia].
      apply app_eq_nil in E as [_ E]. discriminate.
Qed.
(** enough fuel exists when every in link is picked again and again *)
Lemma trim_terminates picks lim : (0 <= lim)%Q -> forall col k,
  (forall j, 0 <= nth j col 0) ->
  (forall k i, (i < length col)%nat -> exists k', (k <= k')%nat /\ (picks k' mod length col)%nat = i) ->
  exists fuel col', trim fuel picks k lim col = Ok col'.
Proof.
  intros H0 col. remember (Z.to_nat (sumZ col)) as s eqn:Es. revert col Es.
  induction s as [s IHs] using lt_wf_ind. intros col Es k Hp Hf.
  destruct (Qltb_spec lim (inject_Z (sumZ col))) as [L|L].
  2:{ exists 0%nat, col. simpl. destruct (Qltb_spec lim (inject_Z (sumZ col))); [contradiction|reflexivity]. }
  assert (Hs : 0 < sumZ col). { assert (inject_Z 0 < inject_Z (sumZ col))%Q by (change (inject_Z 0) with 0%Q; lra). now rewrite injZ_lt in H. }
  (* some entry is positive *)
  assert (Hi : exists i, (i < length col)%nat /\ 1 <= nth i col 0).
  { clear - Hs Hp. induction col as [|x col IH]; simpl in Hs; [lia|]. destruct (Z.lt_ge_cases 0 x).
    - exists 0%nat. simpl. lia.
    - destruct IH as (i & Li & Hi); [intros j; apply (Hp (S j))|specialize (Hp 0%nat); simpl in Hp; lia|].
      exists (S i). simpl. lia. }
  destruct Hi as (i & Li & Hi). destruct (Hf k i Li) as (k' & Hk & Ek).
  (* from k on, until k', either a decrement happens or not *)
  assert (M : forall d k, (k + d = k')%nat -> exists fuel col', trim fuel picks k lim col = Ok col').
  { induction d as [|d IHd]; intros k1 Hd.
    - assert (k1 = k') by lia. subst k1.
      destruct (IHs (Z.to_nat (sumZ col - 1)) ltac:(lia) (firstn i col ++ [nth i col 0 - 1] ++ skipn (S i) col)) with (k := S k') as (f & c & E).
      + rewrite sumZ_upd by auto. reflexivity.
      + intros j. rewrite (nth_upd i (nth i col 0)) by auto. destruct (Nat.eqb_spec j i); [lia|apply Hp].
      + intros k2 i2. rewrite length_upd by exact Li. apply Hf.
      + exists (S f), c. simpl. destruct (Qltb_spec lim (inject_Z (sumZ col))); [|contradiction]. simpl.
        destruct (Nat.eqb_spec (length col) 0); [lia|]. rewrite Ek. destruct (Z.leb_spec 1 (nth i col 0)); [|lia]. exact E.
    - set (i1 := (picks k1 mod length col)%nat). assert (Li1 : (i1 < length col)%nat) by (apply Nat.mod_upper_bound; lia).
      destruct (Z.leb_spec 1 (nth i1 col 0)) as [G|G].
      + destruct (IHs (Z.to_nat (sumZ col - 1)) ltac:(lia) (firstn i1 col ++ [nth i1 col 0 - 1] ++ skipn (S i1) col)) with (k := S k1) as (f & c & E).
        * rewrite sumZ_upd by auto. reflexivity.
        * intros j. rewrite (nth_upd i1 (nth i1 col 0)) by auto. destruct (Nat.eqb_spec j i1); [lia|apply Hp].
        * intros k2 i2. rewrite length_upd by exact Li1. apply Hf.
        * exists (S f), c. simpl. destruct (Qltb_spec lim (inject_Z (sumZ col))); [|contradiction]. simpl.
          destruct (Nat.eqb_spec (length col) 0); [lia|]. fold i1. destruct (Z.leb_spec 1 (nth i1 col 0)); [|lia]. exact E.
      + destruct (IHd (S k1) ltac:(lia)) as (f & c & E). exists (S f), c. simpl.
        destruct (Qltb_spec lim (inject_Z (sumZ col))); [|contradiction]. simpl.
        destruct (Nat.eqb_spec (length col) 0); [lia|]. fold i1. destruct (Z.leb_spec 1 (nth i1 col 0)); [lia|]. exact E. }
  apply (M (k' - k)%nat k). lia.
Qed.

(** ** mv *)
Lemma mv_nth ins col i a : NoDup ins -> length col = length ins -> nth_error ins i = Some a -> mv ins col a = nth i col 0.
Proof.
  unfold mv. revert col i. induction ins as [|x ins IH]; intros [|c col] i ND L E; try (destruct i; discriminate).
  apply NoDup_cons_iff in ND as [NI ND]. simpl. destruct i as [|i]; simpl in E.
  - injection E as ->. rewrite Z.eqb_refl. reflexivity.
  - destruct (Z.eqb_spec x a) as [->|]; [exfalso; apply NI; eapply nth_error_In; eauto|]. apply IH; auto.
Qed.
Lemma mv_list ins : forall col, NoDup ins -> length col = length ins -> map (mv ins col) ins = col.
Proof.
  induction ins as [|x ins IH]; intros [|c col] ND L; try discriminate; [reflexivity|].
  apply NoDup_cons_iff in ND as [NI ND]. simpl. unfold mv at 1. simpl. rewrite Z.eqb_refl. f_equal.
  rewrite <- (IH col) at 2; [|exact ND|simpl in L; lia]. apply map_ext_in. intros a Ha. unfold mv. simpl.
  destruct (Z.eqb_spec x a) as [->|]; [contradiction|reflexivity].
Qed.
Lemma sumZ_perm l l' : Permutation l l' -> sumZ l = sumZ l'.
Proof. induction 1; simpl; lia. Qed.

(** ** flat *)
Lemma in_flat ins shuf m x : In x (flat ins shuf m) <->
  exists col, In (tgt x, col) m /\ In (src x) (shuf (tgt x) ins) /\ num x = mv ins col (src x).
Proof.
  unfold flat. rewrite in_concat. split.
  - intros (l & Hl & Hx). apply in_map_iff in Hl as ([b col] & <- & Hb). apply in_map_iff in Hx as (a & <- & Ha).
    exists col. simpl in *. auto.
  - intros (col & Hm & Hs & Hn). exists (map (fun a => (a, tgt x, mv ins col a)) (shuf (tgt x) ins)). split.
    + apply in_map_iff. exists (tgt x, col). auto.
    + apply in_map_iff. exists (src x). split; [|exact Hs]. destruct x as [[a b] k]. unfold src, tgt, num in *. simpl in *. congruence.
Qed.
Lemma flat_cons ins shuf b col m : flat ins shuf ((b, col) :: m) =
  map (fun a => (a, b, mv ins col a)) (shuf b ins) ++ flat ins shuf m.
Proof. reflexivity. Qed.
Lemma flat_NoDup ins shuf m : NoDup ins -> (forall b, Permutation (shuf b ins) ins) -> NoDup (map fst m) ->
  NoDup (map fst (flat ins shuf m)).
Proof.
  intros NI P. induction m as [|[b col] m IH]; intros ND; [constructor|].
  rewrite flat_cons, map_app, map_map. simpl in *. apply NoDup_cons_iff in ND as [Nb ND].
  assert (N1 : NoDup (shuf b ins)) by (eapply Permutation_NoDup; [symmetry; apply P|exact NI]).
  assert (D1 : forall y, In y (map (fun a : Z => (a, b)) (shuf b ins)) -> ~ In y (map fst (flat ins shuf m))).
  { intros y Hy Hz. apply in_map_iff in Hy as (a & <- & _). apply in_map_iff in Hz as (z & Ez & Hz).
    apply in_flat in Hz as (c & Hm & _). apply Nb. apply in_map_iff. exists (tgt z, c). split; [|exact Hm].
    unfold tgt. rewrite Ez. reflexivity. }
  clear - N1 D1 IH ND. specialize (IH ND). set (L := map fst (flat ins shuf m)) in *. clearbody L.
  induction (shuf b ins) as [|a l IHl]; simpl; [exact IH|]. apply NoDup_cons_iff in N1 as [Na N1]. constructor.
  - rewrite in_app_iff. intros [H|H].
    + apply in_map_iff in H as (a' & E & Ha'). injection E as ->. contradiction.
    + apply (D1 (a, b)); [now left|exact H].
  - apply IHl; auto. intros y Hy. apply D1. now right.
Qed.

(** sums over the pairs of one source or one target *)
Lemma filter_map_all {A B} (g : A -> B) f l : (forall a, f (g a) = true) -> filter f (map g l) = map g l.
Proof. intros H. induction l; simpl; [reflexivity|]. rewrite H. congruence. Qed.
Lemma filter_map_none {A B} (g : A -> B) f l : (forall a, f (g a) = false) -> filter f (map g l) = [].
Proof. intros H. induction l; simpl; [reflexivity|]. rewrite H. congruence. Qed.

Lemma flat_tgt ins shuf m b col : NoDup (map fst m) -> In (b, col) m ->
  filter (fun x => tgt x =? b) (flat ins shuf m) = map (fun a => (a, b, mv ins col a)) (shuf b ins).
Proof.
  induction m as [|[b' c'] m IH]; intros ND I; [contradiction|]. rewrite flat_cons, filter_app.
  simpl in ND. apply NoDup_cons_iff in ND as [Nb ND]. destruct I as [E|I].
  - injection E as -> ->. rewrite filter_map_all by (intros a; unfold tgt; simpl; apply Z.eqb_refl).
    rewrite (filter_all_false _ (flat ins shuf m)); [apply app_nil_r|]. intros x Hx. apply in_flat in Hx as (c & Hm & _).
    apply Z.eqb_neq. intros E. apply Nb. apply in_map_iff. exists (tgt x, c). auto.
  - rewrite filter_map_none; [apply IH; auto|]. intros a. unfold tgt; simpl. apply Z.eqb_neq. intros ->. apply Nb.
    apply in_map_iff. exists (b, col). auto.
Qed.
Lemma flat_tgt_none ins shuf m b : ~ In b (map fst m) -> filter (fun x => tgt x =? b) (flat ins shuf m) = [].
Proof.
  intros N. apply filter_all_false. intros x Hx. apply in_flat in Hx as (c & Hm & _).
  apply Z.eqb_neq. intros <-. apply N. apply in_map_iff. exists (tgt x, c). auto.
Qed.
Lemma flat_src ins shuf m a : NoDup ins -> (forall b, Permutation (shuf b ins) ins) -> In a ins ->
  filter (fun x => src x =? a) (flat ins shuf m) = map (fun bc => (a, fst bc, mv ins (snd bc) a)) m.
Proof.
  intros ND P Ia. induction m as [|[b c] m IH]; [reflexivity|]. rewrite flat_cons, filter_app, IH. simpl.
  assert (N1 : NoDup (shuf b ins)) by (eapply Permutation_NoDup; [symmetry; apply P|exact ND]).
  assert (I1 : In a (shuf b ins)) by (eapply Permutation_in; [symmetry; apply P|exact Ia]).
  clear - N1 I1. induction (shuf b ins) as [|x l IHl]; [contradiction|]. apply NoDup_cons_iff in N1 as [Nx N1].
  simpl. unfold src at 1. cbn [fst]. destruct (Z.eqb_spec x a) as [->|Ne].
  - rewrite (filter_all_false _ (map _ l)); [reflexivity|]. intros y Hy. apply in_map_iff in Hy as (z & <- & Hz).
    unfold src. cbn [fst]. apply Z.eqb_neq. intros ->. contradiction.
  - destruct I1 as [|I1]; [congruence|]. apply IHl; auto.
Qed.
Lemma flat_src_none ins shuf m a : (forall b, Permutation (shuf b ins) ins) -> ~ In a ins ->
  filter (fun x => src x =? a) (flat ins shuf m) = [].
Proof.
  intros P N. apply filter_all_false. intros x Hx. apply in_flat in Hx as (c & _ & Hs & _).
  apply Z.eqb_neq. intros <-. apply N. eapply Permutation_in; [apply P|exact Hs].
Qed.
Lemma find_flat ins shuf m a b col : NoDup ins -> (forall b, Permutation (shuf b ins) ins) -> NoDup (map fst m) ->
  In (b, col) m -> In a ins ->
  find (fun x => (src x =? a) && (tgt x =? b)) (flat ins shuf m) = Some (a, b, mv ins col a).
Proof.
  intros ND P NM Hm Ha. destruct (find _ _) as [x|] eqn:E.
  - apply find_some in E as [Hx E]. apply andb_true_iff in E as [E1 E2]. apply Z.eqb_eq in E1, E2.
    assert (I : In x (filter (fun x => tgt x =? b) (flat ins shuf m))) by (apply filter_In; split; [exact Hx|now apply Z.eqb_eq]).
    rewrite (flat_tgt _ _ _ _ col NM Hm) in I. apply in_map_iff in I as (a' & <- & _). unfold src in E1. simpl in E1. now subst.
  - exfalso. pose proof (find_none _ _ E (a, b, mv ins col a)) as F. unfold src, tgt in F. simpl in F.
    rewrite !Z.eqb_refl in F. simpl in F. assert (true = false); [|discriminate]. apply F. apply in_flat.
    exists col. repeat split; auto. eapply Permutation_in; [symmetry; apply P|exact Ha].
Qed.

(** ** recorded curves *)
Definition lastv (c : option curve) : Q := match c with Some c => last_value c | None => 0%Q end.

Lemma inc_in_ok w l t x w' : inc_in w l t x = Ok w' ->
  cc_keep w w' /\ cc_Nout (w_cc w') = cc_Nout (w_cc w) /\ cc_Tin (w_cc w') = cc_Tin (w_cc w) /\ cc_Tout (w_cc w') = cc_Tout (w_cc w) /\
  (forall l', l' <> l -> cc_Nin (w_cc w') l' = cc_Nin (w_cc w) l') /\
  exists c c', cc_Nin (w_cc w) l = Some c /\ cc_Nin (w_cc w') l = Some c' /\ add_increment c (inject_Z (t + 1), x) = Ok c'.
Proof.
  unfold inc_in. destruct (cc_Nin (w_cc w) l) as [c|] eqn:E; [|discriminate]. intros H.
  apply bind_ok in H as (c' & H1 & H). apply Ok_inj in H as <-. cbn. repeat split; auto.
  - intros l' N. now rewrite upd_other.
  - exists c, c'. rewrite upd_same. auto.
Qed.
Lemma inc_out_ok w l t x w' : inc_out w l t x = Ok w' ->
  cc_keep w w' /\ cc_Nin (w_cc w') = cc_Nin (w_cc w) /\ cc_Tin (w_cc w') = cc_Tin (w_cc w) /\ cc_Tout (w_cc w') = cc_Tout (w_cc w) /\
  (forall l', l' <> l -> cc_Nout (w_cc w') l' = cc_Nout (w_cc w) l') /\
  exists c c', cc_Nout (w_cc w) l = Some c /\ cc_Nout (w_cc w') l = Some c' /\ add_increment c (inject_Z (t + 1), x) = Ok c'.
Proof.
  unfold inc_out. destruct (cc_Nout (w_cc w) l) as [c|] eqn:E; [|discriminate]. intros H.
  apply bind_ok in H as (c' & H1 & H). apply Ok_inj in H as <-. cbn. repeat split; auto.
  - intros l' N. now rewrite upd_other.
  - exists c, c'. rewrite upd_same. auto.
Qed.
