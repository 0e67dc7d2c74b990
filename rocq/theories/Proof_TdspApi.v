(** Reading tables, the result table, and agreement of ways over equal tables. *)
From Verif Require Import Base Base_lemmas Model_Num Proof_Num Model_Graph Spec_Graph Proof_Graph Proof_Graph2 Model_SP Spec_SP Proof_SP
  Model_TDSP Spec_TDSP Proof_TDSP Model_TdspApi Spec_TdspApi.

Section Rows.
Context {A : Type} (d : A) (M : Z).
Definition rstep (t : Z -> option (tab A)) (r : Q * list A) : res (Z -> option (tab A)) :=
  do a <- write_row d M (t (trunc (fst r))) (snd r); Ok (upd t (trunc (fst r)) (Some a)).
Definition wide (t : Z -> option (tab A)) : Prop := forall l a, t l = Some a -> M <= tb_len a.

Lemma given_snoc rows r l : given d (rows ++ [r]) l =
  if trunc (fst r) =? l then Some (fun t => nth (Z.to_nat t) (snd r) d) else given d rows l.
Proof. unfold given. rewrite rev_app_distr. cbn [rev app find]. destruct (trunc (fst r) =? l); reflexivity. Qed.

Lemma rstep_ok t r : wide t -> exists a, rstep t r = Ok (upd t (trunc (fst r)) (Some a)) /\ M <= tb_len a /\
  (forall j, 0 <= j < M -> tb_val a j = nth (Z.to_nat j) (snd r) d) /\
  (forall j, ~ (0 <= j < M) -> tb_val a j = match t (trunc (fst r)) with Some b => tb_val b j | None => d end).
Proof.
  intros W. unfold rstep, write_row. destruct (t (trunc (fst r))) as [b|] eqn:E.
  - pose proof (W _ _ E). unfold guard. destruct (Z.leb_spec M (tb_len b)); [|lia]. cbn [bind]. eexists. split; [reflexivity|].
    cbn [tb_len tb_val]. split; [assumption|]. split; intros j Hj; destruct (Z.leb_spec 0 j), (Z.ltb_spec j M); cbn [andb]; reflexivity || lia.
  - unfold guard. cbn [tb_len]. destruct (Z.leb_spec M M); [|lia]. cbn [bind]. eexists. split; [reflexivity|].
    cbn [tb_len tb_val]. split; [lia|]. split; intros j Hj; destruct (Z.leb_spec 0 j), (Z.ltb_spec j M); cbn [andb]; reflexivity || lia.
Qed.

Lemma rows_ok t : wide t -> forall rows, exists t', foldM rstep t rows = Ok t' /\ wide t' /\
  forall l, match given d rows l with
            | Some f => exists a, t' l = Some a /\ M <= tb_len a /\ (forall j, 0 <= j < M -> tb_val a j = f j)
            | None => t' l = t l
            end.
Proof.
  intros W rows. induction rows as [|r rows IH] using rev_ind.
  - exists t. split; [reflexivity|]. split; [exact W|]. intros l. reflexivity.
  - destruct IH as (t1 & E & W1 & H). rewrite foldM_app, E. cbn [bind foldM].
    destruct (rstep_ok t1 r W1) as (a & Ea & Hl & Hv & _). rewrite Ea. cbn [bind]. eexists. split; [reflexivity|]. split.
    + intros l b. unfold upd. destruct (Z.eqb_spec l (trunc (fst r))) as [->|N]; [injection 1 as <-; exact Hl|apply W1].
    + intros l. rewrite given_snoc. unfold upd. destruct (Z.eqb_spec (trunc (fst r)) l) as [->|N].
      * rewrite Z.eqb_refl. exists a. auto.
      * destruct (Z.eqb_spec l (trunc (fst r))) as [->|_]; [congruence|]. apply H.
Qed.

Lemma read_links_ok nl t rows : wide t -> shaped nl M rows -> exists t', read_links d M nl t rows = Ok t' /\ wide t' /\
  forall l, match given d rows l with
            | Some f => exists a, t' l = Some a /\ M <= tb_len a /\ (forall j, 0 <= j < M -> tb_val a j = f j)
            | None => t' l = t l
            end.
Proof.
  intros W [Hn Hr]. unfold read_links, guard. rewrite Hn, Z.eqb_refl. cbn [andb].
  assert (F : forallb (fun r => Z.of_nat (length (snd r)) =? M) rows = true).
  { apply forallb_forall. intros r Hin. rewrite (Hr r Hin). apply Z.eqb_refl. }
  rewrite F. cbn [bind]. apply (rows_ok t W rows).
Qed.

Lemma read_links_shape nl t rows t' : read_links d M nl t rows = Ok t' -> shaped nl M rows.
Proof.
  unfold read_links. intros H. apply bind_ok in H as (u & G & _). unfold guard in G.
  destruct (_ && _) eqn:E in G; [|discriminate]. apply andb_prop in E as [E1 E2]. split; [lia|].
  rewrite forallb_forall in E2. intros r Hr. specialize (E2 r Hr). cbn in E2. lia.
Qed.
End Rows.

(** ways only look at intervals of the horizon *)
Section Ext.
Variables (g : graph) (M : Z) (c1 c2 : Z -> Z -> option Q) (w1 w2 : Z -> Z -> Q).
Hypothesis HM : 1 <= M.
Hypothesis Hc : forall l e t, get_endpoints g l = Ok e -> 0 <= t < M -> c1 l t = c2 l t.
Hypothesis Hw : forall l e t, get_endpoints g l = Ok e -> 0 <= t < M -> w1 l t = w2 l t.
Lemma way_ext u t ls v c x : td_way g c1 w1 M u t ls v c x -> 0 <= t < M -> td_way g c2 w2 M u t ls v c x.
Proof.
  induction 1 as [|u t l w t' ls v k c x He Hk Hn Hd IH]; intros Ht; [constructor|].
  rewrite (Hw l _ t He Ht) in *. econstructor; eauto.
  - rewrite <- (Hc l _ t He Ht). exact Hk.
  - apply IH. destruct Hn as (n & En & ->). destruct (round_up_time_total (w2 l t) tol) as (m & Em & Hm). assert (n = m) by congruence. lia.
Qed.
End Ext.
Lemma least_ext g M c1 c2 w1 w2 u t v d : 1 <= M ->
  (forall l e t, get_endpoints g l = Ok e -> 0 <= t < M -> c1 l t = c2 l t) ->
  (forall l e t, get_endpoints g l = Ok e -> 0 <= t < M -> w1 l t = w2 l t) ->
  0 <= t < M -> td_least g c1 w1 M u t v d -> td_least g c2 w2 M u t v d.
Proof.
  intros HM Hc Hw Ht. destruct d as [d|]; cbn.
  - intros [(ls & c & x & W & E) H]. split.
    + exists ls, c, x. split; [|exact E]. now apply (way_ext g M c1 c2 w1 w2 HM Hc Hw).
    + intros ls2 c2' x2 W2. apply (H ls2 c2' x2).
      apply (way_ext g M c2 c1 w2 w1); auto; intros; symmetry; eauto.
  - intros H ls c x W. apply (H ls c x). apply (way_ext g M c2 c1 w2 w1); auto; intros; symmetry; eauto.
Qed.

(** the result table *)
Lemma out_rows_ok : forall ls ns c x, length ns = S (length ls) -> exists rows, out_rows ns ls c x = Ok rows /\ displays rows ns ls c x.
Proof.
  induction ls as [|l ls IH]; intros ns c x Hl.
  - destruct ns as [|n [|]]; try discriminate. eexists. split; [reflexivity|]. repeat split.
  - destruct ns as [|n [|n2 ns]]; try discriminate. cbn [length] in Hl.
    destruct (IH (n2 :: ns) (Some (-1)%Q) (-1)%Q ltac:(cbn [length]; lia)) as (rows & E & D1 & D2 & D3 & D4).
    cbn [out_rows] in E |- *. rewrite E. cbn [bind]. eexists. split; [reflexivity|].
    unfold displays. cbn [map app length repeat fst snd]. rewrite D1, D2, D3, D4. repeat split.
Qed.
