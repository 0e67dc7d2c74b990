(** Proofs about configuration files. *)
From Coq Require Import Ascii String.
From Verif Require Import Base Base_lemmas Model_Num Proof_Num Model_Text Proof_Text Model_Conf Spec_Conf.
Local Close Scope string_scope.
Local Open Scope list_scope.

Lemma delim_iff c : delim c = true <-> is_blank c.
Proof.
  unfold delim, is_blank. rewrite !Bool.orb_true_iff, !Nat.eqb_eq. cbn [In]. intuition lia.
Qed.
Lemma delim_false c : delim c = false <-> ~ is_blank c.
Proof. rewrite <- delim_iff. destruct (delim c); split; congruence. Qed.

Lemma cltrim_app w s : blanks w -> cltrim (w ++ s) = cltrim s.
Proof. induction 1 as [|c w H F IH]; [reflexivity|]. cbn [app cltrim]. now rewrite (proj2 (delim_iff c) H). Qed.
Lemma cltrim_blanks w : blanks w -> cltrim w = [].
Proof. intros H. rewrite <- (app_nil_r w), cltrim_app by exact H. reflexivity. Qed.
Lemma cltrim_id s : (forall c r, s = c :: r -> ~ is_blank c) -> cltrim s = s.
Proof. destruct s as [|c s]; intros H; [reflexivity|]. cbn [cltrim]. now rewrite (proj2 (delim_false c) (H c s eq_refl)). Qed.
Lemma cltrim_spec s : exists a, s = a ++ cltrim s /\ blanks a /\ (forall c r, cltrim s = c :: r -> ~ is_blank c).
Proof.
  induction s as [|c s IH]; [exists []; cbn; repeat split; [constructor|discriminate]|]. cbn [cltrim]. destruct (delim c) eqn:E.
  - destruct IH as (a & E1 & F & N). exists (c :: a). cbn. rewrite <- E1. split; [reflexivity|]. split; [|exact N].
    constructor; [now apply delim_iff|exact F].
  - exists []. split; [reflexivity|]. split; [constructor|]. intros c' r [= <- <-]. now apply delim_false.
Qed.
Lemma crtrim_spec s : exists b, s = crtrim s ++ b /\ blanks b /\ (forall c r, crtrim s = r ++ [c] -> ~ is_blank c).
Proof.
  unfold crtrim. destruct (cltrim_spec (rev s)) as (a & E & F & N). exists (rev a). split; [|split].
  - rewrite <- rev_app_distr, <- E. symmetry. apply rev_involutive.
  - apply Forall_rev. exact F.
  - intros c r H. apply (N c (rev r)). rewrite <- (rev_involutive (cltrim (rev s))), H, rev_app_distr. reflexivity.
Qed.
Lemma ctrim_spec s : exists a b, s = a ++ ctrim s ++ b /\ blanks a /\ blanks b /\ tight (ctrim s).
Proof.
  unfold ctrim. destruct (crtrim_spec s) as (b & E & Fb & Nb). destruct (cltrim_spec (crtrim s)) as (a & E2 & Fa & Na).
  exists a, b. split; [rewrite app_assoc, <- E2; exact E|]. split; [exact Fa|]. split; [exact Fb|]. split; [exact Na|].
  intros c r' H. apply (Nb c (a ++ r')). rewrite E2, H, app_assoc. reflexivity.
Qed.
Lemma cltrim_mid A x B : ~ is_blank x -> cltrim (A ++ x :: B) = cltrim A ++ x :: B.
Proof.
  intros Hx. induction A as [|c A IH]; cbn [app cltrim]; [now rewrite (proj2 (delim_false x) Hx)|].
  destruct (delim c); [exact IH|reflexivity].
Qed.
Lemma crtrim_mid A x B : ~ is_blank x -> crtrim (A ++ x :: B) = A ++ x :: crtrim B.
Proof.
  intros Hx. unfold crtrim. rewrite rev_app_distr. cbn [rev]. rewrite <- app_assoc. cbn [app]. rewrite cltrim_mid by exact Hx.
  rewrite rev_app_distr. cbn [rev]. rewrite rev_involutive, <- app_assoc. reflexivity.
Qed.
Lemma ctrim_mid A x B : ~ is_blank x -> ctrim (A ++ x :: B) = cltrim A ++ x :: crtrim B.
Proof. intros Hx. unfold ctrim. now rewrite crtrim_mid, cltrim_mid. Qed.
Lemma crtrim_app s w : blanks w -> crtrim (s ++ w) = crtrim s.
Proof. intros H. unfold crtrim. rewrite rev_app_distr, cltrim_app by (apply Forall_rev; exact H). reflexivity. Qed.
Lemma ctrim_intro a t b : blanks a -> blanks b -> tight t -> ctrim (a ++ t ++ b) = t.
Proof.
  intros Ha Hb [T1 T2]. unfold ctrim. rewrite app_assoc, crtrim_app by exact Hb. destruct t as [|c t].
  - rewrite app_nil_r. unfold crtrim. rewrite (cltrim_blanks (rev a)) by (apply Forall_rev; exact Ha). reflexivity.
  - destruct (exists_last (l := c :: t)) as (r & x & E); [discriminate|]. rewrite E in *.
    rewrite app_assoc. pose proof (T2 x r eq_refl) as Hx. rewrite (crtrim_mid (a ++ r) x []) by exact Hx. cbn. rewrite <- app_assoc.
    rewrite cltrim_app by exact Ha. apply cltrim_id. exact T1.
Qed.
Lemma cltrim_form a t b : blanks a -> blanks b -> tight t -> cltrim (a ++ t ++ b) = match t with [] => [] | _ => t ++ b end.
Proof.
  intros Ha Hb [T1 _]. rewrite cltrim_app by exact Ha. destruct t as [|c t]; [apply cltrim_blanks; exact Hb|].
  apply cltrim_id. intros c' r [= <- _]. exact (T1 c t eq_refl).
Qed.
Lemma ctrim_cltrim s : ctrim (cltrim s) = ctrim s.
Proof.
  destruct (ctrim_spec s) as (a & b & E & Ha & Hb & T). remember (ctrim s) as t. subst s. rewrite cltrim_form by auto.
  destruct t as [|c t]; [reflexivity|]. apply (ctrim_intro [] (c :: t) b); [constructor|exact Hb|exact T].
Qed.
Lemma crtrim_crtrim s : crtrim (crtrim s) = crtrim s.
Proof.
  unfold crtrim. rewrite rev_involutive. f_equal. destruct (cltrim_spec (rev s)) as (a & _ & _ & N). now apply cltrim_id.
Qed.
Lemma ctrim_crtrim s : ctrim (crtrim s) = ctrim s.
Proof. unfold ctrim. now rewrite crtrim_crtrim. Qed.
Lemma cltrim_in s c : In c (cltrim s) -> In c s.
Proof. destruct (cltrim_spec s) as (a & E & _). intros H. rewrite E. apply in_or_app. now right. Qed.

Lemma blank_not c : is_blank c -> c <> ch_equal /\ c <> ch_close /\ c <> ch_open /\ c <> ch_hash /\ c <> ch_semicolon.
Proof. intros H. unfold is_blank in H. repeat split; intros ->; cbn in H; intuition discriminate. Qed.
Lemma blanks_not w x : blanks w -> ~ is_blank x -> ~ In x w.
Proof. intros H N Hi. apply N. eapply (proj1 (Forall_forall _ _) H); exact Hi. Qed.
Lemma nb_equal : ~ is_blank ch_equal. Proof. apply delim_false. reflexivity. Qed.
Lemma nb_open : ~ is_blank ch_open. Proof. apply delim_false. reflexivity. Qed.
Lemma nb_close : ~ is_blank ch_close. Proof. apply delim_false. reflexivity. Qed.

(** what the reader makes of a line *)
Definition apply_item (st : cstate) (i : item) : cstate :=
  match i with
  | Nothing => st
  | Section s => (s, snd st)
  | Setting k v => (fst st, (fst st ++ ch_slash :: k, v) :: snd st)
  end.

Lemma eqb_no (a b : ascii) : a <> b -> Ascii.eqb a b = false.
Proof. apply Ascii.eqb_neq. Qed.

Lemma conf_line_item st l i : line_says l i -> conf_line st l = apply_item st i.
Proof.
  intros H. destruct H as [w Hw|w c t Hw Hc|w1 w2 s w3 t H1 H2 H3 Ts Ns|w1 k w2 w3 v w4 H1 H2 H3 H4 Tk Tv Nk Fk].
  - unfold conf_line. assert (E : ctrim w = []).
    { apply (ctrim_intro [] [] w); [constructor|exact Hw|]. split; intros c r H; [discriminate|destruct r; discriminate]. }
    rewrite E. reflexivity.
  - unfold conf_line. assert (Hb : ~ is_blank c) by (destruct Hc as [-> | ->]; apply delim_false; reflexivity).
    rewrite ctrim_mid, cltrim_blanks by auto. cbn [app]. destruct Hc as [-> | ->]; reflexivity.
  - unfold conf_line. rewrite ctrim_mid by exact nb_open. rewrite cltrim_blanks by exact H1. cbn [app].
    change (Ascii.eqb ch_open ch_hash || Ascii.eqb ch_open ch_semicolon) with false. change (Ascii.eqb ch_open ch_open) with true. cbv iota.
    rewrite (app_assoc s), (app_assoc w2), crtrim_mid by exact nb_close.
    rewrite (proj2 (cut_some ch_close _ (w2 ++ s ++ w3) (crtrim t))).
    + rewrite ctrim_intro by assumption. reflexivity.
    + split; [reflexivity|]. intros Hi. apply in_app_or in Hi. destruct Hi as [Hi|Hi]; [exact (blanks_not _ _ H2 nb_close Hi)|].
      apply in_app_or in Hi. destruct Hi as [Hi|Hi]; [exact (Ns Hi)|exact (blanks_not _ _ H3 nb_close Hi)].
  - set (A := w1 ++ k ++ w2). set (B := w3 ++ v ++ w4).
    replace (w1 ++ k ++ w2 ++ chr "=" :: B) with (A ++ ch_equal :: B) by (unfold A; rewrite <- !app_assoc; reflexivity).
    unfold conf_line. rewrite ctrim_mid by exact nb_equal.
    assert (EA : cltrim A = match k with [] => [] | _ => k ++ w2 end) by (apply cltrim_form; auto).
    assert (C : cut ch_equal (cltrim A ++ ch_equal :: crtrim B) = Some (cltrim A, crtrim B)).
    { apply cut_some. split; [reflexivity|]. intros Hi. apply cltrim_in in Hi. unfold A in Hi. apply in_app_or in Hi.
      destruct Hi as [Hi|Hi]; [exact (blanks_not _ _ H1 nb_equal Hi)|]. apply in_app_or in Hi.
      destruct Hi as [Hi|Hi]; [exact (Nk Hi)|exact (blanks_not _ _ H2 nb_equal Hi)]. }
    assert (K : ctrim (cltrim A) = k) by (rewrite ctrim_cltrim; unfold A; now apply ctrim_intro).
    assert (V : ctrim (crtrim B) = v) by (rewrite ctrim_crtrim; unfold B; now apply ctrim_intro).
    rewrite C, K, V. destruct (cltrim A ++ ch_equal :: crtrim B) as [|c r] eqn:E; [destruct (cltrim A); discriminate|].
    assert (F : c <> ch_hash /\ c <> ch_semicolon /\ c <> ch_open).
    { rewrite EA in E. destruct k as [|c' k].
      - cbn in E. injection E as <- _. repeat split; discriminate.
      - cbn in E. injection E as <- _. exact (Fk c' k eq_refl). }
    destruct F as (F1 & F2 & F3). rewrite (eqb_no _ _ F1), (eqb_no _ _ F2), (eqb_no _ _ F3). reflexivity.
Qed.

Definition entry_of (x : text * text * text) : text * text := (fst (fst x) ++ ch_slash :: snd (fst x), snd x).
Lemma conf_fold ls items : Forall2 line_says ls items -> forall st,
  snd (fold_left conf_line ls st) = rev (map entry_of (settings (fst st) items)) ++ snd st.
Proof.
  induction 1 as [|l i ls items H F IH]; intros st; [reflexivity|]. cbn [fold_left]. rewrite (conf_line_item st l i H), IH.
  destruct i as [|s|k v]; cbn [apply_item fst snd settings map rev]; [reflexivity|reflexivity|].
  rewrite <- app_assoc. reflexivity.
Qed.
Lemma file_of_lines ls t : file_of ls t -> file_lines t = ls.
Proof.
  assert (G : forall l t, ~ In ch_newline l -> file_lines (l ++ ch_newline :: t) = l :: file_lines t).
  { induction l as [|c l IH]; intros u N; [reflexivity|]. cbn [app file_lines]. rewrite eqb_no by (intros ->; apply N; now left).
    rewrite IH by (intros H; apply N; now right). reflexivity. }
  induction 1 as [|l Hl N|l ls t N F IH]; [reflexivity| |now rewrite G, IH].
  induction l as [|c l IH]; [congruence|]. cbn [file_lines]. rewrite eqb_no by (intros ->; apply N; now left).
  destruct l as [|c' l]; [reflexivity|]. rewrite IH by (try discriminate; intros H; apply N; now right). reflexivity.
Qed.

Lemma same_text_iff a : forall b, same_text a b = true <-> a = b.
Proof.
  induction a as [|x a IH]; intros [|y b]; cbn [same_text]; try (split; congruence).
  rewrite Bool.andb_true_iff, IH, Ascii.eqb_eq. split; [intros [-> ->]; auto|intros [= -> ->]; auto].
Qed.
Lemma key_inj s k s' k' : no_slash s -> no_slash s' -> s ++ ch_slash :: k = s' ++ ch_slash :: k' -> s = s' /\ k = k'.
Proof.
  intros N N' E. pose proof (proj2 (cut_some ch_slash (s ++ ch_slash :: k) s k) (conj eq_refl N)) as C.
  rewrite (proj2 (cut_some ch_slash (s ++ ch_slash :: k) s' k') (conj E N')) in C. injection C as -> ->. auto.
Qed.
Lemma settings_no_slash items : (forall s', In (Section s') items -> no_slash s') -> forall s0, no_slash s0 ->
  forall s k v, In (s, k, v) (settings s0 items) -> no_slash s.
Proof.
  induction items as [|i items IH]; intros H s0 H0 s k v Hi; [destruct Hi|]. destruct i as [|s1|k1 v1]; cbn [settings] in Hi.
  - eapply IH; eauto. intros. apply H. now right.
  - eapply (IH ltac:(intros; apply H; now right) s1); eauto. apply H. now left.
  - destruct Hi as [[= <- <- <-]|Hi]; [exact H0|]. eapply IH; eauto. intros. apply H. now right.
Qed.

Lemma find_rev_last (L : list (text * text * text)) s k v : (forall s' k' v', In (s', k', v') L -> no_slash s') -> no_slash s ->
  last_setting L s k v -> find (fun kv => same_text (fst kv) (s ++ ch_slash :: k)) (rev (map entry_of L)) = Some (s ++ ch_slash :: k, v).
Proof.
  intros H Hs (a & b & -> & N). rewrite map_app, rev_app_distr. cbn [map rev].
  assert (X : forall b, (forall v', ~ In (s, k, v') b) -> (forall s' k' v', In (s', k', v') b -> no_slash s') -> forall r,
    find (fun kv => same_text (fst kv) (s ++ ch_slash :: k)) (rev (map entry_of b) ++ r) = find (fun kv => same_text (fst kv) (s ++ ch_slash :: k)) r).
  { clear - Hs. induction b as [|x b IH]; intros N H r; [reflexivity|]. cbn [map rev]. rewrite <- app_assoc.
    rewrite IH; [|intros v' Hv; apply (N v'); now right|intros; eapply H; right; eauto]. cbn [app find].
    destruct x as [[s1 k1] v1]. destruct (same_text (fst (entry_of (s1, k1, v1))) (s ++ ch_slash :: k)) eqn:E; [|reflexivity].
    apply same_text_iff in E. cbn in E. destruct (key_inj s1 k1 s k) as [-> ->]; [eapply H; left; reflexivity|exact Hs|exact E|].
    exfalso. apply (N v1). now left. }
  rewrite <- app_assoc. rewrite X; [|exact N|intros s' k' v' Hi; apply (H s' k' v'); apply in_or_app; right; now right].
  cbn [app find entry_of fst snd]. now rewrite (proj2 (same_text_iff _ _) eq_refl).
Qed.
Lemma find_rev_none (L : list (text * text * text)) s k : (forall s' k' v', In (s', k', v') L -> no_slash s') -> no_slash s ->
  (forall v, ~ In (s, k, v) L) -> find (fun kv => same_text (fst kv) (s ++ ch_slash :: k)) (rev (map entry_of L)) = None.
Proof.
  intros H Hs N. destruct (find _ _) as [kv|] eqn:E; [|reflexivity]. exfalso. apply find_some in E. destruct E as [Hi E].
  apply in_rev, in_map_iff in Hi. destruct Hi as (x & <- & Hi). destruct x as [[s1 k1] v1]. apply same_text_iff in E. cbn in E.
  destruct (key_inj s1 k1 s k) as [-> ->]; [eapply H; eauto|exact Hs|exact E|]. exact (N v1 Hi).
Qed.
Lemma text_dec (a b : text) : {a = b} + {a <> b}.
Proof. apply list_eq_dec, ascii_dec. Qed.
Lemma last_or_none (L : list (text * text * text)) s k : (exists v, last_setting L s k v) \/ (forall v, ~ In (s, k, v) L).
Proof.
  induction L as [|[[s1 k1] v1] L IH]; [right; intros v []|]. destruct IH as [(v & a & b & -> & N)|N].
  - left. exists v, ((s1, k1, v1) :: a), b. auto.
  - destruct (text_dec s1 s) as [->|Hs]; [destruct (text_dec k1 k) as [->|Hk]|].
    + left. exists v1, [], L. auto.
    + right. intros v [[= <- _]|Hi]; [congruence|exact (N v Hi)].
    + right. intros v [[= <- _ _]|Hi]; [congruence|exact (N v Hi)].
Qed.
