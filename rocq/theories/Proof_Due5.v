(** Lemmas for Prop_Due.v: initial flows, demand, path by path changes. *)
From Verif Require Import Base Base_lemmas Model_Num Model_Graph Model_SP Model_TDSP Model_GRJ Model_Due Spec_Graph Spec_TDSP Spec_Due
  Proof_Num Proof_Path Proof_GRJ Proof_Link4 Proof_Due Proof_Due2 Proof_Due3 Proof_Due4.
Local Open Scope Q_scope.

Definition dmd_of (a : option (Z -> Q)) (c : Z) : Q := match a with None => 0 | Some a => a c end.
Lemma spread_ok n a ps : ps <> [] -> exists ps', spread n a ps = Ok ps' /\ map dp_links ps' = map dp_links ps /\
  forall p c, In p ps' -> interval n c -> dp_buf p c == dmd_of a c / inject_Z (Z.of_nat (length ps)).
Proof.
  intros N. unfold spread. set (m := inject_Z (Z.of_nat (length ps))).
  assert (1 <= m) as M. { unfold m. change 1 with (inject_Z 1). rewrite <- Zle_Qle. destruct ps; [congruence|]. cbn [length]. lia. }
  assert (Qle_bool 1 m = true) as -> by now apply Qle_bool_iff. cbn [guard bind]. eexists. split; [reflexivity|]. split; [now rewrite map_map|].
  intros p c P C. apply in_map_iff in P. destruct P as (q & <- & _). cbn [set_buf dp_buf].
  rewrite (fold_upd (fun c => 1 / m * match a with None => 0 | Some a => a c end)). rewrite memb_cols by auto. fold (dmd_of a c). field. lra.
Qed.
Lemma spread_err n a : spread n a [] = Err EAssert.
Proof. reflexivity. Qed.
Lemma flow_const ps c x : (forall p, In p ps -> dp_buf p c == x) -> flow ps c == inject_Z (Z.of_nat (length ps)) * x.
Proof. intros H. unfold flow. rewrite <- sumQ_const. now apply sumQ_eq. Qed.

Lemma init_rel n dm pairs : forall t, (forall o d ps, In (o, d) pairs -> t o d = Some ps -> ps <> []) ->
  exists t', init_path_flow n pairs dm t = Ok t' /\
   (forall o d, ~ In (o, d) pairs -> t' o d = t o d) /\
   (forall o d, In (o, d) pairs -> match t o d, t' o d with
      | Some ps, Some ps' => map dp_links ps' = map dp_links ps /\
          forall p c, In p ps' -> interval n c -> dp_buf p c == dmd_of (dm o d) c / inject_Z (Z.of_nat (length ps))
      | None, None => True | _, _ => False end).
Proof.
  unfold init_path_flow. induction pairs as [|[o d] pairs IH] using rev_ind; intros t N.
  - exists t. split; [reflexivity|]. split; [auto|intros o d []].
  - destruct (IH t) as (t1 & E1 & A1 & B1). { intros. eapply N; eauto. apply in_app_iff. auto. }
    rewrite foldM_app, E1. cbn [bind foldM fst snd].
    assert (match t o d, t1 o d with Some ps, Some ps' => map dp_links ps' = map dp_links ps | None, None => True | _, _ => False end) as L.
    { destruct (in_dec (fun a b : Z * Z => ltac:(decide equality; apply Z.eq_dec)) (o, d) pairs) as [I|I].
      - specialize (B1 o d I). destruct (t o d), (t1 o d); auto. apply B1.
      - rewrite (A1 o d I). destruct (t o d); auto. }
    destruct (t1 o d) as [qs|] eqn:T1.
    + destruct (t o d) as [ps|] eqn:T; [|contradiction].
      assert (length qs = length ps) as LL by (rewrite <- (map_length dp_links qs), L; apply map_length).
      assert (qs <> []) as NE. { assert (ps <> []) by (eapply N; eauto; apply in_app_iff; right; left; auto). destruct qs, ps; cbn in LL; congruence. }
      destruct (spread_ok n (dm o d) qs NE) as (qs' & E2 & L2 & F2). rewrite E2. cbn [bind]. eexists. split; [reflexivity|]. split.
      * intros o' d' I. rewrite set_pair_other by (intros [= -> ->]; apply I; apply in_app_iff; right; left; auto).
        apply A1. intros J. apply I. apply in_app_iff. auto.
      * intros o' d' I. destruct (Z.eq_dec o' o) as [->|Do]; [destruct (Z.eq_dec d' d) as [->|Dd]|].
        -- rewrite set_pair_same, T. split; [congruence|]. intros p c P C. rewrite <- LL. now apply F2.
        -- rewrite set_pair_other by congruence. apply B1. apply in_app_iff in I. destruct I as [I|[J|[]]]; [exact I|congruence].
        -- rewrite set_pair_other by congruence. apply B1. apply in_app_iff in I. destruct I as [I|[J|[]]]; [exact I|congruence].
    + destruct (t o d) as [ps|] eqn:T; [contradiction|]. exists t1. split; [reflexivity|]. split.
      * intros o' d' I. apply A1. intros J. apply I. apply in_app_iff. auto.
      * intros o' d' I. apply in_app_iff in I. destruct I as [I|[[= <- <-]|[]]]; [now apply B1|]. now rewrite T, T1.
Qed.

Lemma demand_rel n pairs t : forall dm, (forall o d ps, In (o, d) pairs -> t o d = Some ps -> exists a, dm o d = Some a) ->
  exists dm', update_demand n pairs t dm = Ok dm' /\
    (forall o d, (~ In (o, d) pairs \/ t o d = None) -> dm' o d = dm o d) /\
    (forall o d ps, In (o, d) pairs -> t o d = Some ps -> exists a, dm' o d = Some a /\ forall c, interval n c -> a c == flow ps c).
Proof.
  unfold update_demand. induction pairs as [|[o d] pairs IH] using rev_ind; intros dm N.
  - exists dm. split; [reflexivity|]. split; [auto|intros o d ps []].
  - destruct (IH dm) as (d1 & E1 & A1 & B1). { intros. eapply N; eauto. apply in_app_iff. auto. }
    rewrite foldM_app, E1. cbn [bind foldM fst snd]. destruct (t o d) as [ps|] eqn:T.
    + assert (exists a, d1 o d = Some a) as (a & Ea).
      { destruct (in_dec (fun a b : Z * Z => ltac:(decide equality; apply Z.eq_dec)) (o, d) pairs) as [I|I].
        - destruct (B1 o d ps I T) as (a & Ea & _). eauto.
        - rewrite A1 by auto. eapply N; eauto. apply in_app_iff. right. left. auto. }
      rewrite Ea. eexists. split; [reflexivity|]. split.
      * intros o' d' I. rewrite set_pair_other.
        -- apply A1. destruct I as [I|I]; auto. left. intros J. apply I. apply in_app_iff. auto.
        -- intros [= -> ->]. destruct I as [I|I]; [apply I; apply in_app_iff; right; left; auto|congruence].
      * intros o' d' ps' I T'. destruct (Z.eq_dec o' o) as [->|Do]; [destruct (Z.eq_dec d' d) as [->|Dd]|].
        -- rewrite set_pair_same. rewrite T in T'. injection T' as <-. eexists. split; [reflexivity|]. intros c C.
           rewrite (fold_upd (path_sum ps)), memb_cols by auto. apply path_sum_flow.
        -- rewrite set_pair_other by congruence. apply B1; auto. apply in_app_iff in I. destruct I as [I|[J|[]]]; [exact I|congruence].
        -- rewrite set_pair_other by congruence. apply B1; auto. apply in_app_iff in I. destruct I as [I|[J|[]]]; [exact I|congruence].
    + exists d1. split; [reflexivity|]. split.
      * intros o' d' I. apply A1. destruct I as [I|I]; auto. left. intros J. apply I. apply in_app_iff. auto.
      * intros o' d' ps' I T'. apply in_app_iff in I. destruct I as [I|[J|[]]]; [now apply B1|congruence].
Qed.

(** path by path *)
Lemma add_last_nth ps best c x ps' i p : add_last ps best c x = Ok ps' -> nth_error ps i = Some p ->
  exists p', nth_error ps' i = Some p' /\ dp_links p' = dp_links p /\ (forall k, k <> c \/ dp_links p <> best -> dp_buf p' k = dp_buf p k) /\
    (0 <= x -> forall k, dp_buf p k <= dp_buf p' k).
Proof.
  intros H E. apply add_last_split in H. destruct H as (a & q & b & -> & L & ->).
  destruct (lt_eq_lt_dec i (length a)) as [[I|I]|I].
  - rewrite nth_error_app1 in * by auto. exists p. split; auto. split; auto. split; [auto|intros; lra].
  - subst i. rewrite nth_error_app2, Nat.sub_diag in * by auto. cbn in *. injection E as <-. eexists. split; [reflexivity|]. split; [reflexivity|]. split.
    + intros k [K|K]; [|congruence]. cbn. unfold upd. apply Z.eqb_neq in K. now rewrite K.
    + intros X k. cbn. unfold upd. destruct (k =? c)%Z eqn:Ek; [|lra]. apply Z.eqb_eq in Ek. subst. lra.
  - rewrite nth_error_app2 in * by lia. destruct (i - length a)%nat as [|j] eqn:J; [lia|]. cbn in *. exists p. split; auto. split; auto. split; [auto|intros; lra].
Qed.
Lemma with_best_nth dis ps best i p : nth_error ps i = Some p -> nth_error (with_best dis ps best) i = Some p.
Proof. intros E. unfold with_best. destruct (is_in ps best); auto. rewrite nth_error_app1; auto. apply nth_error_Some. congruence. Qed.
Lemma fixed_each n step root best c ps ps' i p : 0 <= step <= root -> 0 < root -> interval n c -> no_negative_flow n ps ->
  fixed_col step root best c ps = Ok ps' -> nth_error ps i = Some p ->
  exists p', nth_error ps' i = Some p' /\ dp_links p' = dp_links p /\ (forall k, k <> c -> dp_buf p' k = dp_buf p k) /\
    (dp_links p <> best -> dp_buf p' c == (1 - step / root) * dp_buf p c) /\ (dp_links p = best -> dp_buf p c <= dp_buf p' c).
Proof.
  intros S R C N H E. destruct (fixed_shape _ _ _ _ _ _ H) as (g & x & A & L & G & G' & X).
  apply (with_best_nth []  ps best) in E.
  assert (nth_error (map g (with_best [] ps best)) i = Some (g p)) as E' by (apply map_nth_error; auto).
  destruct (add_last_nth _ _ _ _ _ _ _ A E') as (p' & P1 & P2 & P3 & P4). exists p'. split; [auto|]. split; [rewrite P2; apply L|]. split; [|split].
  - intros k K. rewrite P3 by auto. now apply G'.
  - intros D. rewrite P3 by (right; rewrite L; auto). rewrite G. unfold fixed_lost. destruct (same_links (dp_links p) best) eqn:SL; [apply same_links_iff in SL; congruence|].
    field. lra.
  - intros D. assert (0 <= x) as X0. { rewrite X. apply sumQ_pos. intros q Q. apply fixed_lost_bounds; auto. apply (with_best_nonneg n [] ps best N q c Q C). }
    specialize (P4 X0 c). rewrite G in P4. unfold fixed_lost in P4. assert (same_links (dp_links p) best = true) as SL by (apply same_links_iff; auto). rewrite SL in P4. lra.
Qed.
Lemma msa_each n step iter dem best c ps ps' i p : In best (map dp_links ps) -> 0 <= dem * step / inject_Z (iter + 1) -> no_negative_flow n ps ->
  msa_pair n step iter dem best c ps = Ok ps' -> nth_error ps i = Some p ->
  exists p', nth_error ps' i = Some p' /\ dp_links p' = dp_links p /\
    (forall k, interval n k -> k <> c \/ dp_links p <> best -> dp_buf p' k == Qmax 0 (dp_buf p k - dem * step / inject_Z (iter + 1))) /\
    (interval n c -> dp_links p = best -> dp_buf p c <= dp_buf p' c).
Proof.
  intros B Hl N H E. apply is_in_iff in B. destruct (msa_in_shape _ _ _ _ _ _ _ _ B H) as (g & x & A & L & G & X). set (lim := dem * step / inject_Z (iter + 1)) in *.
  assert (nth_error (map g ps) i = Some (g p)) as E' by (apply map_nth_error; auto).
  destruct (add_last_nth _ _ _ _ _ _ _ A E') as (p' & P1 & P2 & P3 & P4). exists p'. split; [auto|]. split; [rewrite P2; apply L|]. split.
  - intros k K D. rewrite P3 by (rewrite L; auto). rewrite G by auto. unfold msa_lost.
    destruct (same_links (dp_links p) best && (k =? c)%Z) eqn:SB.
    + apply andb_true_iff in SB. destruct SB as [SB1 SB2]. apply same_links_iff in SB1. apply Z.eqb_eq in SB2. destruct D; congruence.
    + pose proof (N p k (nth_error_In _ _ E) K). pose proof (qmin_l (dp_buf p k) lim). pose proof (qmin_r (dp_buf p k) lim).
      destruct (qmin_or (dp_buf p k) lim) as [Q|Q]; rewrite Q in *.
      * rewrite Q.max_l; lra.
      * rewrite Q.max_r; lra.
  - intros C D. assert (0 <= x) as X0.
    { rewrite X. apply sumQ_pos. intros q Q. apply sumQ_pos. intros k K. apply in_cols in K. unfold msa_lost. destruct (same_links _ _ && _); [lra|]. apply qmin_pos; auto. }
    specialize (P4 X0 c). rewrite G in P4 by auto. unfold msa_lost in P4. assert (same_links (dp_links p) best = true) as SL by (apply same_links_iff; auto).
    rewrite SL, Z.eqb_refl in P4. cbn [andb] in P4. lra.
Qed.
Lemma gp_each n step cost best c ps ps' i p : 0 <= step -> interval n c -> no_negative_flow n ps ->
  gp_col step cost best c ps = Ok ps' -> nth_error ps i = Some p ->
  let qs := with_best (cost best) ps best in
  exists p', nth_error ps' i = Some p' /\ dp_links p' = dp_links p /\ (forall k, k <> c -> dp_buf p' k = dp_buf p k) /\
    ((forall q x y, In q qs -> active best c q = true -> has_dis q c x -> has_dis p c y -> x <= y) -> dp_buf p' c <= dp_buf p c) /\
    (active best c p = true -> (forall q x y, In q qs -> active best c q = true -> has_dis q c x -> has_dis p c y -> y <= x) -> dp_buf p c <= dp_buf p' c).
Proof.
  intros S C N H E qs. pose proof (with_best_nth (cost best) ps best i p E) as E'. fold qs in E'. pose proof (nth_error_In _ _ E') as Ip.
  pose proof (with_best_nonneg n (cost best) ps best N p c Ip C) as B0.
  destruct (gp_shape _ _ _ _ _ _ S H) as (D & CN & [(-> & _)|(f & tau & avg & g & AV & F0 & F1 & F2 & T0 & T1 & T2 & -> & L & G & G')]).
  { exists p. split; [auto|]. split; [auto|]. split; [auto|]. split; intros; lra. }
  fold qs in D, CN, AV, F1, F2, T1, T2 |- *.
  exists (g p). split; [now apply map_nth_error|]. split; [auto|]. split; [auto|].
  pose proof (sumA_dev best c qs avg CN AV) as Z0.
  assert (forall q, In q qs -> active best c q = true -> has_dis q c (dd c q)) as D' by (intros q Q Aq; apply dis_at_iff; auto).
  split.
  - intros X. rewrite G. unfold gp_lost. destruct (active best c p) eqn:Ap; [|lra]. enough (0 <= qmin (dp_buf p c) (tau * (dd c p - avg))) by lra.
    apply qmin_pos; auto. enough (avg <= dd c p) by nra. destruct (Qlt_le_dec (dd c p) avg) as [LT|LE]; auto. exfalso.
    assert (forall q, In q qs -> 0 <= (if active best c q then avg - dd c q else 0)) as NP.
    { intros q Q. destruct (active best c q) eqn:Aq; [|lra]. pose proof (X q _ _ Q Aq (D' q Q Aq) (D' p Ip Ap)). lra. }
    pose proof (sumQ_term _ qs p NP Ip) as Y. cbn beta in Y. rewrite Ap in Y.
    assert (sumQ (map (fun p => if active best c p then avg - dd c p else 0) qs) == (-1#1) * sumQ (map (fun p => if active best c p then dd c p - avg else 0) qs)) as EE.
    { rewrite <- sumQ_scale. apply sumQ_eq. intros q Q. destruct (active best c q); ring. }
    rewrite EE, Z0 in Y. lra.
  - intros Ap X. rewrite G. unfold gp_lost. rewrite Ap. enough (qmin (dp_buf p c) (tau * (dd c p - avg)) <= 0) by lra.
    apply Qle_trans with (tau * (dd c p - avg)); [apply qmin_r|]. enough (dd c p <= avg) by nra. destruct (Qlt_le_dec avg (dd c p)) as [LT|LE]; auto. exfalso.
    assert (forall q, In q qs -> 0 <= (if active best c q then dd c q - avg else 0)) as NP.
    { intros q Q. destruct (active best c q) eqn:Aq; [|lra]. pose proof (X q _ _ Q Aq (D' q Q Aq) (D' p Ip Ap)). lra. }
    pose proof (sumQ_term _ qs p NP Ip) as Y. cbn beta in Y. rewrite Ap in Y. lra.
Qed.
