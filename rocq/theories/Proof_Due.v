(** Lemmas for Prop_Due.v: path flows. *)
From Verif Require Import Base Base_lemmas Model_Num Model_Graph Model_Due Spec_Due Proof_Num Proof_Path Proof_GRJ Proof_Link4.
Local Open Scope Q_scope.

Lemma fold_sum {A} (f : A -> Q) l : forall x, fold_left (fun s a => s + f a) l x == x + sumQ (map f l).
Proof. induction l as [|a l IH]; intros x; cbn [fold_left]; sq; [lra|]. rewrite IH. lra. Qed.
Lemma path_sum_flow ps c : path_sum ps c == flow ps c.
Proof. unfold path_sum. rewrite fold_sum. unfold flow. lra. Qed.
Lemma in_cols n c : In c (cols n) <-> interval n c.
Proof.
  unfold cols, interval. rewrite in_map_iff. split.
  - intros (k & <- & K). apply in_seq in K. lia.
  - intros K. exists (Z.to_nat c). rewrite Z2Nat.id by lia. split; auto. apply in_seq. lia.
Qed.
Lemma nodup_cols n : NoDup (cols n).
Proof. unfold cols. apply FinFun.Injective_map_NoDup; [intros x y; lia|apply seq_NoDup]. Qed.
Lemma flow_all_cols n ps : flow_all n ps = sumQ (map (flow ps) (cols n)).
Proof. unfold flow_all, cols. now rewrite map_map. Qed.
Lemma fold_upd {A} (f : Z -> A) l : forall b k, fold_left (fun b c => upd b c (f c)) l b k = if memb k l then f k else b k.
Proof.
  induction l as [|c l IH]; intros b k; cbn [fold_left]; [reflexivity|]. rewrite IH. unfold memb. cbn [existsb].
  destruct (existsb (Z.eqb k) l); [now rewrite orb_true_r|]. unfold upd. rewrite orb_false_r. destruct (k =? c)%Z eqn:E; auto.
  apply Z.eqb_eq in E. now subst.
Qed.
Lemma memb_cols n c : interval n c -> memb c (cols n) = true.
Proof. intros H. apply memb_In. now apply in_cols. Qed.

Lemma qmin_l a b : qmin a b <= a.
Proof. unfold qmin. destruct (Qltb b a) eqn:E; [apply qltb_t in E|]; lra. Qed.
Lemma qmin_r a b : qmin a b <= b.
Proof. unfold qmin. destruct (Qltb b a) eqn:E; [|apply qltb_f in E]; lra. Qed.
Lemma qmin_or a b : qmin a b = a \/ qmin a b = b.
Proof. unfold qmin. destruct (Qltb b a); auto. Qed.
Lemma qmin_pos a b : 0 <= a -> 0 <= b -> 0 <= qmin a b.
Proof. destruct (qmin_or a b) as [-> | ->]; auto. Qed.
Lemma qmin_le a b : b <= a -> qmin a b == b.
Proof. intros H. pose proof (qmin_l a b). pose proof (qmin_r a b). destruct (qmin_or a b) as [E|E]; rewrite E in *; lra. Qed.

Lemma same_links_iff a : forall b, same_links a b = true <-> a = b.
Proof.
  induction a as [|x a IH]; intros [|y b]; cbn [same_links]; try (split; congruence).
  rewrite andb_true_iff, IH, Z.eqb_eq. split; [intros [-> ->]; auto|intros [= -> ->]; auto].
Qed.
Lemma same_links_refl a : same_links a a = true.
Proof. now apply same_links_iff. Qed.
Lemma is_in_iff ps best : is_in ps best = true <-> In best (map dp_links ps).
Proof.
  unfold is_in. rewrite existsb_exists, in_map_iff. split; intros (p & A & B).
  - apply same_links_iff in B. eauto.
  - exists p. rewrite same_links_iff. auto.
Qed.

(** drain *)
Lemma drain_gen lim (stay : Z -> bool) l : forall b tot, NoDup l ->
  let r := fold_left (fun (s : (Z -> Q) * Q) c => if stay c then s else
    let x := qmin (fst s c) lim in (upd (fst s) c (fst s c - x)%Q, (snd s + x)%Q)) l (b, tot) in
  (forall k, fst r k = if memb k l && negb (stay k) then b k - qmin (b k) lim else b k) /\
  snd r == tot + sumQ (map (fun k => if stay k then 0 else qmin (b k) lim) l).
Proof.
  induction l as [|c l IH]; intros b tot N; [cbn; split; [auto|lra]|].
  inversion N as [|? ? Nc Nl]; subst. cbn [fold_left fst snd]. destruct (stay c) eqn:Sc.
  - destruct (IH b tot Nl) as [P R]. split.
    + intros k. rewrite P. unfold memb. cbn [existsb]. destruct (k =? c)%Z eqn:E; auto. apply Z.eqb_eq in E. subst.
      rewrite Sc, !andb_false_r. auto.
    + rewrite R. sq. rewrite Sc. lra.
  - destruct (IH (upd b c (b c - qmin (b c) lim)) (tot + qmin (b c) lim) Nl) as [P R]. split.
    + intros k. rewrite P. unfold memb. cbn [existsb]. unfold upd. destruct (k =? c)%Z eqn:E; auto. apply Z.eqb_eq in E. subst.
      rewrite Sc. cbn [orb negb andb]. fold (memb c l). apply memb_false in Nc. rewrite Nc. auto.
    + rewrite R. sq. rewrite Sc.
      enough (sumQ (map (fun k => if stay k then 0 else qmin (upd b c (b c - qmin (b c) lim) k) lim) l) == sumQ (map (fun k => if stay k then 0 else qmin (b k) lim) l)) by lra.
      apply sumQ_eq. intros k K. unfold upd. destruct (k =? c)%Z eqn:E; [apply Z.eqb_eq in E; subst; contradiction|lra].
Qed.
Lemma drain_at n lim stay b tot k : interval n k ->
  fst (drain n lim stay b tot) k = if stay k then b k else b k - qmin (b k) lim.
Proof. intros K. unfold drain. destruct (drain_gen lim stay (cols n) b tot (nodup_cols n)) as [P _]. rewrite P, memb_cols by auto.
  destruct (stay k); auto. Qed.
Lemma drain_tot n lim stay b tot : snd (drain n lim stay b tot) == tot + sumQ (map (fun k => if stay k then 0 else qmin (b k) lim) (cols n)).
Proof. apply drain_gen. apply nodup_cols. Qed.
Lemma drain_fst n lim stay b tot tot' : fst (drain n lim stay b tot) = fst (drain n lim stay b tot').
Proof.
  unfold drain. generalize (cols n). intros l. revert b tot tot'. induction l as [|c l IH]; intros; cbn [fold_left]; auto.
  cbn [fst snd]. destruct (stay c); apply IH.
Qed.

(** adding to the best path *)
Lemma add_last_ok ps best c x : is_in ps best = true -> exists ps', add_last ps best c x = Ok ps'.
Proof.
  induction ps as [|p ps IH]; cbn; [discriminate|]. intros H. destruct (is_in ps best) eqn:E.
  - destruct (IH eq_refl) as (r & ->). cbn. eauto.
  - rewrite orb_false_iff in * || idtac. fold (is_in ps best) in H. rewrite E, orb_false_r in H. rewrite H. eauto.
Qed.
Lemma add_last_split ps best c x ps' : add_last ps best c x = Ok ps' ->
  exists a p b, ps = (a ++ p :: b)%list /\ dp_links p = best /\ ps' = (a ++ set_buf p (upd (dp_buf p) c (dp_buf p c + x)) :: b)%list.
Proof.
  revert ps'. induction ps as [|p ps IH]; intros ps'; cbn; [discriminate|]. destruct (is_in ps best).
  - destruct (add_last ps best c x) as [r|] eqn:E; cbn; [|discriminate]. intros H. apply Ok_inj in H. subst.
    destruct (IH r eq_refl) as (a & q & b & -> & L & ->). exists (p :: a), q, b. auto.
  - destruct (same_links (dp_links p) best) eqn:E; [|discriminate]. intros H. apply Ok_inj in H. subst. apply same_links_iff in E.
    exists [], p, ps. auto.
Qed.
Lemma flow_app a b c : flow (a ++ b) c == flow a c + flow b c.
Proof. unfold flow. rewrite map_app. apply sumQ_app. Qed.
Lemma flow_cons p b c : flow (p :: b) c == dp_buf p c + flow b c.
Proof. unfold flow. sq. lra. Qed.
Lemma add_last_flow ps best c x ps' k : add_last ps best c x = Ok ps' ->
  flow ps' k == flow ps k + (if (k =? c)%Z then x else 0).
Proof.
  intros H. apply add_last_split in H. destruct H as (a & p & b & -> & _ & ->). rewrite !flow_app, !flow_cons. cbn [set_buf dp_buf].
  unfold upd. destruct (k =? c)%Z eqn:E; [apply Z.eqb_eq in E; subst|]; lra.
Qed.
Lemma add_last_links ps best c x ps' : add_last ps best c x = Ok ps' -> map dp_links ps' = map dp_links ps.
Proof. intros H. apply add_last_split in H. destruct H as (a & p & b & -> & _ & ->). rewrite !map_app. reflexivity. Qed.
Lemma add_last_nonneg n ps best c x ps' : 0 <= x -> no_negative_flow n ps -> add_last ps best c x = Ok ps' -> no_negative_flow n ps'.
Proof.
  intros X N H. apply add_last_split in H. destruct H as (a & p & b & -> & _ & ->). intros q k I K. apply in_app_iff in I.
  assert (0 <= dp_buf p k) as P by (apply N; auto; apply in_app_iff; right; left; auto).
  destruct I as [I|[<-|I]]; [apply N; auto; apply in_app_iff; auto| |apply N; auto; apply in_app_iff; right; right; auto].
  cbn. unfold upd. destruct (k =? c)%Z eqn:E; auto. apply Z.eqb_eq in E. subst. lra.
Qed.

(** fold over the paths = map plus sum *)
Lemma fold_paths (F : dpath -> Q -> dpath * Q) (g : dpath -> dpath) (h : dpath -> Q) ps :
  (forall p x, fst (F p x) = g p) -> (forall p x, snd (F p x) == x + h p) ->
  forall acc x, let r := fold_left (fun s p => ((fst s ++ [fst (F p (snd s))])%list, snd (F p (snd s)))) ps (acc, x) in
  fst r = (acc ++ map g ps)%list /\ snd r == x + sumQ (map h ps).
Proof.
  intros Fg Fh. induction ps as [|p ps IH]; intros acc x; [cbn; rewrite app_nil_r; split; [auto|lra]|].
  cbn [fold_left fst snd]. destruct (IH (acc ++ [fst (F p x)])%list (snd (F p x))) as [A B]. split.
  - rewrite A, Fg, <- app_assoc. reflexivity.
  - rewrite B, Fh. sq. lra.
Qed.

Lemma flow_map (g : dpath -> dpath) (h : dpath -> Q) ps c : (forall p, In p ps -> dp_buf (g p) c == dp_buf p c - h p) ->
  flow (map g ps) c == flow ps c - sumQ (map h ps).
Proof.
  intros H. unfold flow. rewrite map_map. induction ps as [|p ps IH]; sq; [lra|].
  pose proof (H p (or_introl eq_refl)). assert (forall q, In q ps -> dp_buf (g q) c == dp_buf q c - h q) as G by (intros; apply H; right; auto).
  specialize (IH G). lra.
Qed.

Lemma sum_swap {A B} (f : A -> B -> Q) la lb :
  sumQ (map (fun a => sumQ (map (f a) lb)) la) == sumQ (map (fun b => sumQ (map (fun a => f a b) la)) lb).
Proof.
  induction la as [|a la IH]; sq; [symmetry; apply sumQ_0|]. rewrite IH. rewrite <- sumQ_plus. apply sumQ_eq. intros. sq. lra.
Qed.
Lemma sum_one (x : Q) c l : NoDup l -> In c l -> sumQ (map (fun k => if (k =? c)%Z then x else 0) l) == x.
Proof.
  induction l as [|k l IH]; intros N []; inversion N as [|? ? Nk Nl]; subst; sq.
  - rewrite Z.eqb_refl. enough (sumQ (map (fun k => if (k =? c)%Z then x else 0) l) == 0) by lra.
    rewrite <- (sumQ_0 l). apply sumQ_eq. intros k K. destruct (k =? c)%Z eqn:E; [apply Z.eqb_eq in E; subst; contradiction|lra].
  - destruct (k =? c)%Z eqn:E; [apply Z.eqb_eq in E; subst; contradiction|]. rewrite IH; auto. lra.
Qed.

(** method of successive averages, best route known *)
Definition msa_lost (best : list Z) (c : Z) (lim : Q) (p : dpath) (k : Z) : Q :=
  if same_links (dp_links p) best && (k =? c)%Z then 0 else qmin (dp_buf p k) lim.
Lemma msa_in_shape n step iter dem best c ps ps' : is_in ps best = true -> msa_pair n step iter dem best c ps = Ok ps' ->
  let lim := dem * step / inject_Z (iter + 1) in
  exists (g : dpath -> dpath) x, add_last (map g ps) best c x = Ok ps' /\
    (forall p, dp_links (g p) = dp_links p) /\
    (forall p k, interval n k -> dp_buf (g p) k == dp_buf p k - msa_lost best c lim p k) /\
    x == sumQ (map (fun p => sumQ (map (msa_lost best c lim p) (cols n))) ps).
Proof.
  intros I H lim. unfold msa_pair in H. rewrite I in H. fold lim in H.
  set (st := fun p k => same_links (dp_links p) best && (k =? c)%Z) in *.
  set (F := fun (p : dpath) (x : Q) => (set_buf p (fst (drain n lim (st p) (dp_buf p) x)), snd (drain n lim (st p) (dp_buf p) x))).
  set (g := fun p => set_buf p (fst (drain n lim (st p) (dp_buf p) 0))).
  destruct (fold_paths F g (fun p => sumQ (map (msa_lost best c lim p) (cols n))) ps) with (acc := @nil dpath) (x := 0) as [A B].
  { intros p x. unfold F, g. cbn [fst]. f_equal. apply drain_fst. }
  { intros p x. unfold F. cbn [snd]. rewrite drain_tot. reflexivity. }
  cbn zeta in H. change (fold_left _ ps ([], 0)) with (fold_left (fun s p => ((fst s ++ [fst (F p (snd s))])%list, snd (F p (snd s)))) ps ([], 0)) in H.
  rewrite A in H. cbn [app] in H. eexists g, _. split; [exact H|]. split; [reflexivity|]. split.
  - intros p k K. unfold g. cbn [set_buf dp_buf]. rewrite drain_at by auto. unfold st, msa_lost.
    destruct (same_links (dp_links p) best && (k =? c)%Z); lra.
  - rewrite B. lra.
Qed.

Lemma msa_in_total n step iter dem best c ps ps' : is_in ps best = true -> interval n c ->
  msa_pair n step iter dem best c ps = Ok ps' -> same_total_flow n ps ps'.
Proof.
  intros I C H. destruct (msa_in_shape _ _ _ _ _ _ _ _ I H) as (g & x & A & L & G & X). set (lim := dem * step / inject_Z (iter + 1)) in *.
  unfold same_total_flow. rewrite !flow_all_cols.
  assert (sumQ (map (flow ps') (cols n)) ==
    sumQ (map (fun k => (flow ps k + - sumQ (map (fun p => msa_lost best c lim p k) ps)) + (if (k =? c)%Z then x else 0)) (cols n))) as E.
  { apply sumQ_eq. intros k K. apply in_cols in K. rewrite (add_last_flow _ _ _ _ _ k A).
    rewrite (flow_map g (fun p => msa_lost best c lim p k)) by (intros; apply G; auto). lra. }
  rewrite E, !sumQ_plus, sum_one by (apply nodup_cols || now apply in_cols).
  rewrite X, sum_swap.
  assert (sumQ (map (fun k => - sumQ (map (fun p => msa_lost best c lim p k) ps)) (cols n)) ==
          (-1 # 1) * sumQ (map (fun k => sumQ (map (fun p => msa_lost best c lim p k) ps)) (cols n))) as M.
  { rewrite <- sumQ_scale. apply sumQ_eq. intros. ring. }
  rewrite M. ring.
Qed.
Lemma msa_in_nonneg n step iter dem best c ps ps' : is_in ps best = true ->
  0 <= dem * step / inject_Z (iter + 1) -> no_negative_flow n ps ->
  msa_pair n step iter dem best c ps = Ok ps' -> no_negative_flow n ps'.
Proof.
  intros I Hl N H. destruct (msa_in_shape _ _ _ _ _ _ _ _ I H) as (g & x & A & L & G & X). set (lim := dem * step / inject_Z (iter + 1)) in *.
  assert (forall p k, In p ps -> interval n k -> 0 <= msa_lost best c lim p k <= dp_buf p k) as B.
  { intros p k P K. unfold msa_lost. specialize (N p k P K). destruct (same_links _ _ && _); [lra|].
    pose proof (qmin_l (dp_buf p k) lim). pose proof (qmin_pos _ _ N Hl). lra. }
  apply (add_last_nonneg n (map g ps) best c x); auto.
  - rewrite X. apply sumQ_pos. intros p P. apply sumQ_pos. intros k K. apply in_cols in K. now apply B.
  - intros q k Q K. apply in_map_iff in Q. destruct Q as (p & <- & P). rewrite G by auto. pose proof (B p k P K). lra.
Qed.
Lemma msa_in_ok n step iter dem best c ps : is_in ps best = true -> exists ps', msa_pair n step iter dem best c ps = Ok ps'.
Proof.
  intros I. unfold msa_pair. rewrite I.
  match goal with |- exists _, add_last (fst ?r) _ _ _ = _ => assert (map dp_links (fst r) = map dp_links ps) as E end.
  { generalize (dem * step / inject_Z (iter + 1)). intros lim.
    assert (forall l acc x, map dp_links (fst (fold_left (fun (s : list dpath * Q) p =>
       let q := drain n lim (fun k => same_links (dp_links p) best && (k =? c)%Z) (dp_buf p) (snd s) in
       ((fst s ++ [set_buf p (fst q)])%list, snd q)) l (acc, x))) = (map dp_links acc ++ map dp_links l)%list) as G.
    { induction l as [|p l IH]; intros; cbn [fold_left]; [now rewrite app_nil_r|]. cbn [fst snd]. rewrite IH, map_app, <- app_assoc. reflexivity. }
    apply (G ps [] 0). }
  apply add_last_ok. apply is_in_iff. rewrite E. now apply is_in_iff.
Qed.
Lemma msa_links n step iter dem best c ps ps' : msa_pair n step iter dem best c ps = Ok ps' ->
  map dp_links ps' = if is_in ps best then map dp_links ps else (map dp_links ps ++ [best])%list.
Proof.
  intros H. destruct (is_in ps best) eqn:I.
  - destruct (msa_in_shape _ _ _ _ _ _ _ _ I H) as (g & x & A & L & _). rewrite (add_last_links _ _ _ _ _ A), map_map. apply map_ext. auto.
  - unfold msa_pair in H. rewrite I in H. apply Ok_inj in H. subst ps'. rewrite map_app, map_map. reflexivity.
Qed.
(** a new route *)
Lemma msa_new_flow n step iter dem best c ps ps' k : is_in ps best = false -> ps <> [] ->
  msa_pair n step iter dem best c ps = Ok ps' -> flow ps' k == flow ps k.
Proof.
  intros I N H. unfold msa_pair in H. rewrite I in H. apply Ok_inj in H. subst ps'. rewrite flow_app, flow_cons.
  set (s := step / inject_Z (iter + 1)). set (m := inject_Z (Z.of_nat (length ps))).
  rewrite (flow_map _ (fun _ => if (k =? c)%Z then s / m else 0)).
  2:{ intros p _. cbn. unfold upd. destruct (k =? c)%Z eqn:E; [apply Z.eqb_eq in E; subst; reflexivity|lra]. }
  rewrite sumQ_const. fold m. cbn [set_buf dp_buf new_path]. unfold upd, flow. cbn [map]. rewrite sumQ_n.
  assert (0 < m). { unfold m. change 0 with (inject_Z 0). rewrite <- Zlt_Qlt. destruct ps; [congruence|]. cbn. lia. }
  destruct (k =? c)%Z; [|ring]. unfold m in *. field. lra.
Qed.
