(** Lemmas for Prop_Due.v: fixed departure times, gradient projection, tables. *)
From Verif Require Import Base Base_lemmas Model_Num Model_Graph Model_Due Spec_Due Proof_Num Proof_Path Proof_GRJ Proof_Link4 Proof_Due.
Local Open Scope Q_scope.

Definition with_best (dis : list Q) (ps : list dpath) (best : list Z) : list dpath :=
  if is_in ps best then ps else (ps ++ [new_path best dis])%list.
Lemma with_best_in dis ps best : is_in (with_best dis ps best) best = true.
Proof. unfold with_best. destruct (is_in ps best) eqn:E; auto. apply is_in_iff. rewrite map_app. apply in_app_iff. right. left. reflexivity. Qed.
Lemma with_best_flow dis ps best c : flow (with_best dis ps best) c == flow ps c.
Proof. unfold with_best. destruct (is_in ps best); [lra|]. rewrite flow_app, flow_cons. cbn. unfold flow. cbn. lra. Qed.
Lemma with_best_nonneg n dis ps best : no_negative_flow n ps -> no_negative_flow n (with_best dis ps best).
Proof.
  intros N p c P C. unfold with_best in P. destruct (is_in ps best); [now apply N|]. apply in_app_iff in P. destruct P as [P|[<-|[]]]; [now apply N|].
  cbn. lra.
Qed.
Lemma with_best_keeps dis ps best : keeps_routes ps (with_best dis ps best).
Proof. intros ls H. unfold with_best. destruct (is_in ps best); auto. rewrite map_app. apply in_app_iff. auto. Qed.

Definition fixed_lost (step root : Q) (best : list Z) (c : Z) (p : dpath) : Q :=
  if same_links (dp_links p) best then 0 else dp_buf p c * step / root.
Lemma fixed_shape step root best c ps ps' : fixed_col step root best c ps = Ok ps' ->
  exists (g : dpath -> dpath) x, add_last (map g (with_best [] ps best)) best c x = Ok ps' /\
    (forall p, dp_links (g p) = dp_links p) /\
    (forall p, dp_buf (g p) c == dp_buf p c - fixed_lost step root best c p) /\
    (forall p k, k <> c -> dp_buf (g p) k = dp_buf p k) /\
    x == sumQ (map (fixed_lost step root best c) (with_best [] ps best)).
Proof.
  unfold fixed_col. fold (with_best [] ps best). intros H.
  set (F := fun (p : dpath) (x : Q) => if same_links (dp_links p) best then (p, x) else
     (set_buf p (upd (dp_buf p) c (dp_buf p c - dp_buf p c * step / root)), x + dp_buf p c * step / root)).
  set (g := fun p => if same_links (dp_links p) best then p else set_buf p (upd (dp_buf p) c (dp_buf p c - dp_buf p c * step / root))).
  destruct (fold_paths F g (fixed_lost step root best c) (with_best [] ps best)) with (acc := @nil dpath) (x := 0) as [A B].
  { intros p x. unfold F, g. destruct (same_links (dp_links p) best); reflexivity. }
  { intros p x. unfold F, fixed_lost. destruct (same_links (dp_links p) best); cbn; lra. }
  assert (forall l s, fold_left (fun (s : list dpath * Q) p =>
             if same_links (dp_links p) best then ((fst s ++ [p])%list, snd s)
             else let x := (dp_buf p c * step / root)%Q in
                  ((fst s ++ [set_buf p (upd (dp_buf p) c (dp_buf p c - x)%Q)])%list, (snd s + x)%Q)) l s =
     fold_left (fun s p => ((fst s ++ [fst (F p (snd s))])%list, snd (F p (snd s)))) l s) as E.
  { induction l as [|p l IH]; intros s; [reflexivity|]. cbn [fold_left]. rewrite IH. f_equal. unfold F.
    destruct (same_links (dp_links p) best); reflexivity. }
  cbn zeta in H. cbn zeta in E. rewrite E in H. rewrite A in H. cbn [app] in H. eexists g, _. split; [exact H|].
  split; [intros p; unfold g; destruct (same_links (dp_links p) best); auto|].
  split; [intros p; unfold g, fixed_lost; destruct (same_links (dp_links p) best); cbn; unfold upd; rewrite ?Z.eqb_refl; lra|].
  split; [intros p k K; unfold g; destruct (same_links (dp_links p) best); auto; cbn; unfold upd; apply Z.eqb_neq in K; now rewrite K|].
  rewrite B. lra.
Qed.
Lemma fixed_flow step root best c ps ps' k : fixed_col step root best c ps = Ok ps' -> flow ps' k == flow ps k.
Proof.
  intros H. destruct (fixed_shape _ _ _ _ _ _ H) as (g & x & A & L & G & G' & X).
  rewrite (add_last_flow _ _ _ _ _ k A). destruct (k =? c)%Z eqn:E.
  - apply Z.eqb_eq in E. subst k. rewrite (flow_map g (fixed_lost step root best c)) by (intros; apply G).
    rewrite with_best_flow, X. lra.
  - apply Z.eqb_neq in E. rewrite (flow_map g (fun _ => 0)) by (intros; rewrite G' by auto; lra). rewrite sumQ_0, with_best_flow. lra.
Qed.
Lemma fixed_ok step root best c ps : exists ps', fixed_col step root best c ps = Ok ps'.
Proof.
  unfold fixed_col. fold (with_best [] ps best). apply add_last_ok. apply is_in_iff.
  match goal with |- In _ (map _ (fst ?r)) => assert (map dp_links (fst r) = map dp_links (with_best [] ps best)) as E end.
  { assert (forall l acc (x : Q), map dp_links (fst (fold_left (fun (s : list dpath * Q) p =>
             if same_links (dp_links p) best then ((fst s ++ [p])%list, snd s)
             else let x := (dp_buf p c * step / root)%Q in
                  ((fst s ++ [set_buf p (upd (dp_buf p) c (dp_buf p c - x)%Q)])%list, (snd s + x)%Q)) l (acc, x))) = (map dp_links acc ++ map dp_links l)%list) as G.
    { induction l as [|p l IH]; intros; cbn [fold_left]; [now rewrite app_nil_r|].
      destruct (same_links (dp_links p) best); cbn [fst snd]; rewrite IH, map_app, <- app_assoc; reflexivity. }
    apply (G _ [] 0). }
  rewrite E. apply is_in_iff, with_best_in.
Qed.
Lemma fixed_lost_bounds step root best c p : 0 <= step <= root -> 0 < root -> 0 <= dp_buf p c ->
  0 <= fixed_lost step root best c p <= dp_buf p c.
Proof.
  intros S R B. unfold fixed_lost. destruct (same_links (dp_links p) best); [lra|]. split.
  - apply Qle_shift_div_l; [auto|]. nra.
  - apply Qle_shift_div_r; [auto|]. nra.
Qed.
Lemma fixed_nonneg n step root best c ps ps' : 0 <= step <= root -> 0 < root -> interval n c ->
  no_negative_flow n ps -> fixed_col step root best c ps = Ok ps' -> no_negative_flow n ps'.
Proof.
  intros S R C N H. destruct (fixed_shape _ _ _ _ _ _ H) as (g & x & A & L & G & G' & X).
  pose proof (with_best_nonneg n [] ps best N) as N'.
  apply (add_last_nonneg n (map g (with_best [] ps best)) best c x); auto.
  - rewrite X. apply sumQ_pos. intros p P. apply fixed_lost_bounds; auto.
  - intros q k Q K. apply in_map_iff in Q. destruct Q as (p & <- & P). destruct (Z.eq_dec k c) as [->|D].
    + rewrite G. pose proof (fixed_lost_bounds step root best c p S R (N' p c P C)). lra.
    + rewrite G' by auto. now apply N'.
Qed.
Lemma fixed_keeps step root best c ps ps' : fixed_col step root best c ps = Ok ps' -> keeps_routes ps ps' /\ In best (map dp_links ps').
Proof.
  intros H. destruct (fixed_shape _ _ _ _ _ _ H) as (g & x & A & L & _).
  assert (map dp_links ps' = map dp_links (with_best [] ps best)) as E.
  { rewrite (add_last_links _ _ _ _ _ A), map_map. apply map_ext. auto. }
  split.
  - intros ls K. rewrite E. now apply with_best_keeps.
  - rewrite E. apply is_in_iff, with_best_in.
Qed.

(** tables *)
Lemma set_pair_same {A} (t : Z -> Z -> option A) o d x : set_pair t o d x o d = Some x.
Proof. unfold set_pair, upd. now rewrite !Z.eqb_refl. Qed.
Lemma set_pair_other {A} (t : Z -> Z -> option A) o d x o' d' : (o', d') <> (o, d) -> set_pair t o d x o' d' = t o' d'.
Proof.
  intros H. unfold set_pair, upd. destruct (o' =? o)%Z eqn:E; auto. destruct (d' =? d)%Z eqn:F; auto.
  - apply Z.eqb_eq in E, F. subst. congruence.
  - apply Z.eqb_eq in E. now subst.
Qed.
Lemma set_pair_pairwise (R : list dpath -> list dpath -> Prop) t o d ps ps' : (forall x, R x x) -> t o d = Some ps -> R ps ps' ->
  pairwise R t (set_pair t o d ps').
Proof.
  intros Rr E H o' d'. destruct (Z.eq_dec o' o) as [->|No]; [destruct (Z.eq_dec d' d) as [->|Nd]|].
  - rewrite set_pair_same, E. auto.
  - rewrite set_pair_other by congruence. destruct (t o d'); auto.
  - rewrite set_pair_other by congruence. destruct (t o' d'); auto.
Qed.
Lemma pairwise_trans (R : list dpath -> list dpath -> Prop) : (forall x y z, R x y -> R y z -> R x z) ->
  forall t1 t2 t3, pairwise R t1 t2 -> pairwise R t2 t3 -> pairwise R t1 t3.
Proof. intros T t1 t2 t3 A B o d. specialize (A o d). specialize (B o d). destruct (t1 o d), (t2 o d), (t3 o d); try contradiction; eauto. Qed.
Lemma pairwise_refl (R : list dpath -> list dpath -> Prop) : (forall x, R x x) -> forall t, pairwise R t t.
Proof. intros H t o d. destruct (t o d); auto. Qed.

Section Tables.
  Variables (R : list dpath -> list dpath -> Prop).
  Hypothesis Rr : forall x, R x x.
  Hypothesis Rt : forall x y z, R x y -> R y z -> R x z.
  Lemma foldM_pairwise {A} (f : ptable -> A -> res ptable) l : (forall t a t', In a l -> f t a = Ok t' -> pairwise R t t') ->
    forall t t', foldM f t l = Ok t' -> pairwise R t t'.
  Proof.
    induction l as [|a l IH]; cbn; intros H t t' E.
    - apply Ok_inj in E. subst. now apply pairwise_refl.
    - apply bind_ok in E. destruct E as (t1 & E1 & E2). apply (pairwise_trans R Rt t t1 t'); [apply (H t a); auto|].
      apply IH; auto. intros. eapply H; eauto.
  Qed.
  Lemma foldM_R {A} (f : list dpath -> A -> res (list dpath)) l : (forall t a t', In a l -> f t a = Ok t' -> R t t') ->
    forall t t', foldM f t l = Ok t' -> R t t'.
  Proof.
    induction l as [|a l IH]; cbn; intros H t t' E.
    - apply Ok_inj in E. now subst.
    - apply bind_ok in E. destruct E as (t1 & E1 & E2). apply (Rt t t1 t'); [apply (H t a); auto|].
      apply IH; auto. intros. eapply H; eauto.
  Qed.
  Lemma cols_table_R n frq route dm one pairs :
    (forall best c ps ps', interval n c -> one best c ps = Ok ps' -> R ps ps') ->
    forall t t', cols_table n frq route dm one pairs t = Ok t' -> pairwise R t t'.
  Proof.
    intros H. apply foldM_pairwise. intros t [o d] t' _ E. cbn in E. destruct (dm o d); [|apply Ok_inj in E; subst; now apply pairwise_refl].
    destruct (t o d) as [ps|] eqn:T; [|discriminate]. apply bind_ok in E. destruct E as (ps' & E1 & E2). apply Ok_inj in E2. subst t'.
    apply (set_pair_pairwise R t o d ps ps' Rr T). revert E1. apply foldM_R. intros a c a' C E. apply bind_ok in E. destruct E as (best & _ & E).
    apply in_cols in C. eauto.
  Qed.
  Lemma msa_table_R n frq step iter route dm pairs :
    (forall o d a best time c ps ps', dm o d = Some a -> In (o, d) pairs -> route o d = Ok (best, time) -> assign_col (Z.of_nat n) frq time = Ok c ->
       msa_pair n step iter (total_demand n a) best c ps = Ok ps' -> R ps ps') ->
    forall t t', msa_table n frq step iter route dm pairs t = Ok t' -> pairwise R t t'.
  Proof.
    intros H. apply foldM_pairwise. intros t [o d] t' I E. cbn in E. destruct (dm o d) as [a|] eqn:Ea; [|apply Ok_inj in E; subst; now apply pairwise_refl].
    apply bind_ok in E. destruct E as ([best time] & Er & E). apply bind_ok in E. destruct E as (c & Ec & E). cbn in Ec.
    destruct (t o d) as [ps|] eqn:T; [|discriminate]. apply bind_ok in E. destruct E as (ps' & E1 & E2). apply Ok_inj in E2. subst t'.
    apply (set_pair_pairwise R t o d ps ps' Rr T). eapply H; eauto.
  Qed.
End Tables.
