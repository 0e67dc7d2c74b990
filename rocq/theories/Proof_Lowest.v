(** Proofs about lowest-cost path queries. *)
From Verif Require Import Base Base_lemmas Model_Num Proof_Num Model_Graph Spec_Graph Proof_Graph Proof_Graph2 Model_SP Spec_SP Proof_SP
  Model_TDSP Spec_TDSP Proof_TDSP Prop_TDSP Model_Path Spec_Path Proof_Path Prop_Path Model_Due Proof_Due Model_Lowest Spec_Lowest.

Open Scope Z_scope.

Lemma tt_positive g cost tt M u t ls v c x : takes_time g M tt -> td_way g cost tt M u t ls v c x -> 0 <= t < M ->
  (0 <= x)%Q /\ (ls <> [] -> (0 < x)%Q).
Proof.
  intros HP. induction 1 as [|u t l w t' ls v k c x He Hk Hn Hw IH]; intros Ht; [split; [lra|congruence]|].
  pose proof (HP l _ t He Ht).
  assert (Ht' : 0 <= t' < M).
  { destruct Hn as (n & E & ->). destruct (round_up_time_total (tt l t) tol) as (m & E' & Hm). assert (n = m) by congruence. lia. }
  destruct (IH Ht'). split; intros; lra.
Qed.

Section L.
Variables (ops : list gop) (lids : list Z) (ai mx len : Z) (cost : td_cost) (tt : td_tt) (dests : list Z).
Let g := gbuild ops.
Let M := ai * mx.
Hypothesis Hds : forall d, In d dests -> In d (g_nids g).
Hypothesis Hneg : ~ In (-1) (g_lids g).
Hypothesis HP : Permutation lids (g_lids g).
Hypothesis HM : 1 <= M.
Hypothesis HL : M <= len.
Hypothesis HT : td_tables_ok g M cost tt.

Definition good (d : Z) (s : tdtree) : Prop :=
  (forall n t, In n (g_nids g) -> 0 <= t < M -> td_least g (cost_at cost) (tt_at tt) M n t d (td_dist s n t)) /\
  forall n time fuel', In n (g_nids g) -> 0 <= time -> (Z.to_nat M + length (g_nids g) <= fuel')%nat ->
  let t := Z.min time (M - 1) in
  (exists ls ns c x x', get_tdsp fuel' g d M tt s n time = Ok (x', (ns, ls)) /\ (x' == x)%Q /\ visits g n ls ns /\
     td_way g (cost_at cost) (tt_at tt) M n t ls d c x /\
     td_least g (cost_at cost) (tt_at tt) M n t d (Some c)) \/
  (get_tdsp fuel' g d M tt s n time = Ok ((-1)%Q, ([n], [])) /\
     td_least g (cost_at cost) (tt_at tt) M n t d None).

Lemma tree_good d : In d (g_nids g) -> exists N, forall fuel, (N <= fuel)%nat -> exists s, lc_tree fuel g lids M len cost tt d = Ok s /\ good d s.
Proof.
  intros Hd. destruct (C23_tdsp_optimal ops lids d M cost tt Hd Hneg HP HM HT) as (N1 & H1).
  destruct (C24_tdsp_extraction ops lids d M cost tt Hd Hneg HP HM HT) as (N2 & H2). exists (Nat.max N1 N2). intros fuel Hf.
  destruct (H1 fuel ltac:(lia)) as (s & E1 & G1). destruct (H2 fuel ltac:(lia)) as (s' & E2 & G2).
  exists s. unfold lc_tree. replace (M <=? len) with true by (symmetry; apply Z.leb_le; lia). cbn [orb guard bind].
  split; [exact E1|]. rewrite E1 in E2. injection E2 as <-. split; [exact G1|exact G2].
Qed.

Lemma update_good : exists N, forall fuel, (N <= fuel)%nat -> exists trees, lc_update fuel g lids ai mx len cost tt dests = Ok trees /\
  forall d, In d dests -> exists s, trees d = Some s /\ good d s.
Proof.
  assert (H : forall ds, (forall d, In d ds -> In d (g_nids g)) -> exists N, forall fuel, (N <= fuel)%nat -> forall m0,
    (forall d s, m0 d = Some s -> good d s) ->
    exists m, foldM (fun m d => do s <- lc_tree fuel g lids M len cost tt d; Ok (lc_insert m d s)) m0 ds = Ok m /\
      (forall d s, m d = Some s -> good d s) /\ (forall d, m0 d <> None -> m d <> None) /\ (forall d, In d ds -> m d <> None)).
  { induction ds as [|d ds IH]; intros Hin.
    - exists 0%nat. intros fuel _ m0 H0. exists m0. cbn. split; [reflexivity|]. split; [exact H0|]. split; [auto|intros ? []].
    - destruct IH as (N1 & IH); [intros; apply Hin; now right|]. destruct (tree_good d (Hin d (or_introl eq_refl))) as (N2 & Hg).
      exists (Nat.max N1 N2). intros fuel Hf m0 H0. destruct (Hg fuel ltac:(lia)) as (s & E & G). cbn [foldM]. rewrite E. cbn [bind].
      assert (Hi : forall d' s', lc_insert m0 d s d' = Some s' -> good d' s').
      { intros d' s'. unfold lc_insert. destruct (m0 d) eqn:Ed; [apply H0|]. destruct (Z.eq_dec d' d) as [->|Hn].
        - rewrite upd_same. intros [= <-]. exact G.
        - rewrite upd_other by auto. apply H0. }
      assert (Hd : lc_insert m0 d s d <> None /\ forall d', m0 d' <> None -> lc_insert m0 d s d' <> None).
      { unfold lc_insert. destruct (m0 d) eqn:Ed; [split; [congruence|auto]|]. split; [rewrite upd_same; congruence|].
        intros d' Hd'. destruct (Z.eq_dec d' d) as [->|Hn]; [rewrite upd_same; congruence|rewrite upd_other by auto; auto]. }
      destruct (IH fuel ltac:(lia) _ Hi) as (m & Em & A1 & A2 & A3). exists m. split; [exact Em|]. split; [exact A1|].
      destruct Hd as [D1 D2]. split; [intros d' Hd'; apply A2, D2; exact Hd'|]. intros d' [<-|Hd']; [apply A2; exact D1|apply A3; exact Hd']. }
  destruct (H dests Hds) as (N & HN). exists N. intros fuel Hf. destruct (HN fuel Hf (fun _ => None)) as (m & E & A1 & _ & A3); [discriminate|].
  exists m. split; [exact E|]. intros d Hd. specialize (A3 d Hd). destruct (m d) as [s|] eqn:Em; [|congruence]. exists s. auto.
Qed.

Lemma shows_rows b c ns ls : length ns = S (length ls) -> shows (lc_rows b c ns ls) (if b then 1 else 0) c ns ls.
Proof.
  intros Hl. unfold lc_rows, shows. do 2 eexists. split; [reflexivity|]. cbn [hd_error tl length]. rewrite repeat_length.
  repeat split; try lia. intros x Hx. apply in_app_or in Hx. destruct Hx as [Hx|Hx]; now apply repeat_spec in Hx.
Qed.
Lemma whole_trunc c : (0 <= c)%Q -> whole c (trunc c).
Proof. intros H. split; [now apply trunc_lo|]. pose proof (trunc_hi c H). rewrite inject_Z_plus. exact H0. Qed.
Lemma whole_fun c a b : whole c a -> whole c b -> a = b.
Proof.
  intros [H1 H2] [H3 H4]. assert (inject_Z a < inject_Z (b + 1))%Q by lra. assert (inject_Z b < inject_Z (a + 1))%Q by lra.
  rewrite <- Zlt_Qlt in *. lia.
Qed.

Lemma get_cases d s : good d s -> takes_time g M (tt_at tt) -> forall trees (ps : Z -> Z -> option (list dpath)) pset start o fuel',
  trees d = Some s -> ps o d = Some pset -> In o (g_nids g) -> 1 <= ai -> 0 <= start -> start + ai <= M ->
  (Z.to_nat M + length (g_nids g) <= fuel')%nat ->
  (o = d /\ lc_get fuel' g ai mx tt trees ps start o d = Err EAssert) \/
  (o <> d /\ exists ls0 ns0 c x z b ns ls rows, lc_get fuel' g ai mx tt trees ps start o d = Ok rows /\ shows rows b z ns ls /\
     td_way g (cost_at cost) (tt_at tt) M o start ls0 d c x /\ td_least g (cost_at cost) (tt_at tt) M o start d (Some c) /\ whole c z /\
     visits g o ls0 ns0 /\ visits g o ls ns /\ route g o ls d /\ NoDup ns /\ subseq ls ls0 /\ (NoDup ns0 -> ls = ls0) /\
     (b = 1 /\ listed pset ls \/ b = 0 /\ ~ listed pset ls)) \/
  (o <> d /\ lc_get fuel' g ai mx tt trees ps start o d = Err EAssert /\ td_least g (cost_at cost) (tt_at tt) M o start d None).
Proof.
  intros [G1 G2] HPos trees ps pset start o fuel' Et Ep Ho Hai H0 Hs Hf. unfold lc_get. fold M.
  replace (start + ai <=? M) with true by (symmetry; apply Z.leb_le; lia). cbn [guard bind]. rewrite Ep, Et.
  pose proof (G2 o start fuel' Ho H0 Hf) as C. cbv zeta in C. replace (Z.min start (M - 1)) with start in C by lia.
  destruct (Z.eq_dec o d) as [->|Hod].
  { left. split; [reflexivity|]. unfold get_tdsp. replace (0 <=? start) with true by (symmetry; apply Z.leb_le; lia). cbn [guard bind].
    replace (start <? M) with true by (symmetry; apply Z.ltb_lt; lia). destruct fuel'; cbn [td_follow]; rewrite Z.eqb_refl; reflexivity. }
  right. destruct C as [(ls & ns & c & x & x' & E & Ex & V & W & L)|[E L]].
  - left. split; [exact Hod|]. rewrite E. cbn [bind fst snd].
    assert (Hx : (0 < x)%Q).
    { apply (tt_positive _ _ _ _ _ _ _ _ _ _ HPos W); [lia|]. intros ->. inversion W; subst; congruence. }
    replace (Qltb 0 x') with true by (symmetry; destruct (Qltb_spec 0 x'); [reflexivity|lra]). cbn [guard bind].
    destruct (C27_eliminate_cycles g o ns ls V) as (ns' & ls' & Ee & V' & ND & Hlast & S1 & S2 & HR & Hid). rewrite Ee. cbn [bind fst snd].
    replace (start <? M) with true by (symmetry; apply Z.ltb_lt; lia).
    pose proof (G1 o start Ho ltac:(lia)) as Hd. destruct (td_dist s o start) as [c'|]; [|exfalso; exact (Hd _ _ _ W)].
    assert (Hcc : (c' == c)%Q).
    { destruct Hd as [(l1 & c1 & x1 & W1 & E1) M1], L as [(l2 & c2 & x2 & W2 & E2) M2].
      pose proof (M1 _ _ _ W2). pose proof (M2 _ _ _ W1). lra. }
    assert (Hc : (0 <= c)%Q).
    { eapply way_nonneg; [exact HT|exact W|lia]. }
    exists ls, ns, c, x, (trunc c'), (if is_in pset ls' then 1 else 0), ns', ls', (lc_rows (is_in pset ls') (trunc c') ns' ls').
    split; [reflexivity|]. split; [apply shows_rows; exact (visits_len _ _ _ _ V')|]. split; [exact W|]. split; [exact L|].
    split; [rewrite (trunc_comp _ _ Hcc); now apply whole_trunc|]. split; [exact V|]. split; [exact V'|]. split.
    { apply HR. clear - W. induction W; econstructor; eauto. }
    split; [exact ND|]. split; [exact S2|]. split; [intros Hn; apply Hid; exact Hn|].
    destruct (is_in pset ls') eqn:Ei.
    + left. split; [reflexivity|]. apply is_in_iff, in_map_iff in Ei. destruct Ei as (p & A & B). exists p. auto.
    + right. split; [reflexivity|]. intros (p & A & B). assert (is_in pset ls' = true) by (apply is_in_iff, in_map_iff; exists p; auto). congruence.
  - right. split; [exact Hod|]. rewrite E. cbn [bind fst snd]. split; [reflexivity|exact L].
Qed.
End L.
