(** Proofs about Model_Split: the connectivity table and its file. *)
From Verif Require Import Base Base_lemmas Model_Num Model_SP Model_Node Model_Split Spec_Split Proof_Link4 Proof_Split Proof_Node2.
Local Open Scope Z_scope.

Lemma key_eqb (k k' : Z * Z) : ((fst k =? fst k') && (snd k =? snd k'))%Z = true <-> k = k'.
Proof. rewrite andb_true_iff, !Z.eqb_eq. destruct k, k'. cbn. split; [intros [-> ->]; reflexivity|intros E; injection E as -> ->; auto]. Qed.
Lemma find_pair_none k t : ~ In k (map fst t) -> find_pair k t = None.
Proof.
  induction t as [|[k' c] t IH]; [reflexivity|]. cbn [map fst In find_pair]. intros H. destruct (_ && _) eqn:E; [apply key_eqb in E; exfalso; apply H; left; congruence|]. apply IH. tauto.
Qed.
Lemma set_pair_new k c t : ~ In k (map fst t) -> set_pair k c t = t ++ [(k, c)].
Proof.
  induction t as [|[k' c'] t IH]; [reflexivity|]. cbn [map fst In set_pair app]. intros H. destruct (_ && _) eqn:E; [apply key_eqb in E; exfalso; apply H; left; congruence|]. rewrite IH; [reflexivity|tauto].
Qed.

(** raising the flags of a fresh entry *)
Definition fresh (ms : mode -> bool) : conn := with_modes ms (fun _ => None).
Definition three (f : mode -> bool) : list (mode * bool) := [(Driving, f Driving); (Transit, f Transit); (Pnr, f Pnr)].
Lemma raise_ok c m b : (b = true -> c m <> None) -> exists c', raise c (m, b) = Ok c' /\ forall m', c' m' = if b && mode_eqb m m' then Some true else c m'.
Proof.
  intros H. unfold raise. cbn [fst snd]. destruct b; [|exists c; split; reflexivity]. destruct (c m); [|now elim (H eq_refl)]. eexists. split; [reflexivity|]. reflexivity.
Qed.
Lemma raise_three ms f : (forall m, f m = true -> ms m = true) ->
  exists c, foldM raise (fresh ms) (three f) = Ok c /\ forall m, c m = if ms m then Some (f m) else None.
Proof.
  intros H. unfold three. cbn [foldM].
  destruct (raise_ok (fresh ms) Driving (f Driving)) as (c1 & E1 & H1). { intros E. unfold fresh, with_modes. rewrite (H _ E). discriminate. }
  rewrite E1. cbn [bind]. destruct (raise_ok c1 Transit (f Transit)) as (c2 & E2 & H2). { intros E. rewrite H1, andb_false_r. unfold fresh, with_modes. rewrite (H _ E). discriminate. }
  rewrite E2. cbn [bind]. destruct (raise_ok c2 Pnr (f Pnr)) as (c3 & E3 & H3). { intros E. rewrite H2, H1, !andb_false_r. unfold fresh, with_modes. rewrite (H _ E). discriminate. }
  rewrite E3. cbn [bind]. exists c3. split; [reflexivity|]. intros m. rewrite H3, H2, H1. unfold fresh, with_modes. assert (X := H m). destruct m; cbn [mode_eqb]; rewrite ?andb_true_r, ?andb_false_r.
  - destruct (f Driving); [now rewrite X|reflexivity].
  - destruct (f Transit); [now rewrite X|reflexivity].
  - destruct (f Pnr); [now rewrite X|reflexivity].
Qed.
Lemma raise_none c x c' m : raise c x = Ok c' -> c m = None -> c' m = None.
Proof.
  unfold raise. destruct (snd x); [|now intros E; injection E as <-]. destruct (c (fst x)) eqn:E; [|discriminate]. intros H. injection H as <-. intros N. destruct (mode_eqb (fst x) m) eqn:Q; [apply mode_eqb_eq in Q; congruence|assumption].
Qed.
Lemma raise_err c x e : raise c x = Err e -> e = EUB.
Proof. unfold raise. destruct (snd x); [|discriminate]. destruct (c (fst x)); congruence. Qed.
Lemma raises_ub : forall l c m, c m = None -> In (m, true) l -> foldM raise c l = Err EUB.
Proof.
  induction l as [|x l IH]; intros c m N I; [destruct I|]. cbn [foldM]. destruct (raise c x) as [c'|e] eqn:E; cbn [bind]; [|now rewrite (raise_err _ _ _ E)].
  destruct I as [->|I]; [unfold raise in E; cbn in E; now rewrite N in E|]. apply (IH c' m); [eapply raise_none; eassumption|assumption].
Qed.
Lemma raise_three_ub ms f m : f m = true -> ms m = false -> foldM raise (fresh ms) (three f) = Err EUB.
Proof. intros F M. apply (raises_ub _ _ m); [unfold fresh, with_modes; now rewrite M|]. unfold three. rewrite <- F. destruct m; cbn; auto. Qed.

Definition full (c : conn) : Prop := forall m, c m <> None.
Definition bit (c : conn) (m : mode) : bool := match c m with Some b => b | None => false end.
Lemma save_line_ok (e : (Z * Z) * conn) : full (snd e) -> save_line e = Ok [fst (fst e); snd (fst e); flag (bit (snd e) Driving); flag (bit (snd e) Transit); flag (bit (snd e) Pnr)].
Proof.
  intros H. unfold save_line, bit. assert (A := H Driving). assert (B := H Transit). assert (C := H Pnr).
  destruct (snd e Driving); [|congruence]. destruct (snd e Transit); [|congruence]. destruct (snd e Pnr); [|congruence]. reflexivity.
Qed.
Lemma save_line_ub (e : (Z * Z) * conn) m : snd e m = None -> save_line e = Err EUB.
Proof. intros H. unfold save_line. destruct m; rewrite H; destruct (snd e Driving), (snd e Transit), (snd e Pnr); reflexivity. Qed.
Lemma save_line_err e x : save_line e = Err x -> x = EUB.
Proof. unfold save_line. destruct (snd e Driving), (snd e Transit), (snd e Pnr); congruence. Qed.
Definition line_of (e : (Z * Z) * conn) : list Z := [fst (fst e); snd (fst e); flag (bit (snd e) Driving); flag (bit (snd e) Transit); flag (bit (snd e) Pnr)].
Lemma save_conn_ok t : (forall k c, In (k, c) t -> full c) -> save_conn t = Ok (map line_of t).
Proof.
  induction t as [|e t IH]; intros H; [reflexivity|]. unfold save_conn in *. cbn [mapM map]. rewrite save_line_ok by (destruct e as [k c]; eapply H; now left). cbn [bind]. rewrite IH; [reflexivity|]. intros k c I. apply (H k). now right.
Qed.
Lemma save_conn_inv t f : save_conn t = Ok f -> (forall k c, In (k, c) t -> full c) /\ f = map line_of t.
Proof.
  intros H. assert (F : forall k c, In (k, c) t -> full c).
  { intros k c I m E. revert f H. unfold save_conn. induction t as [|e t IH]; [destruct I|]. intros f H. cbn [mapM] in H. destruct I as [->|I].
    - rewrite (save_line_ub (k, c) m E) in H. discriminate.
    - destruct (save_line e); [|discriminate]. cbn [bind] in H. destruct (mapM save_line t) as [f'|] eqn:Ef; [|discriminate]. now apply (IH I f'). }
  split; [exact F|]. rewrite (save_conn_ok t F) in H. now injection H as <-.
Qed.
Lemma save_conn_ub t k c m : In (k, c) t -> c m = None -> save_conn t = Err EUB.
Proof.
  intros I E. unfold save_conn. induction t as [|e t IH]; [destruct I|]. cbn [mapM]. destruct I as [->|I].
  - now rewrite (save_line_ub (k, c) m).
  - destruct (save_line e) as [l|e0] eqn:El; [cbn [bind]; now rewrite IH|]. cbn [bind]. now rewrite (save_line_err _ _ El).
Qed.
Lemma flag_eqb b : (flag b =? 1) = b.
Proof. now destruct b. Qed.
(** an entry as read with the modes [ms] *)
Definition reads (ms : mode -> bool) (e e' : (Z * Z) * conn) : Prop := fst e' = fst e /\ forall m, snd e' m = if ms m then snd e m else None.
Lemma load_lines_ok ms : forall t acc, (forall k c, In (k, c) t -> full c) -> (forall k c m, In (k, c) t -> c m = Some true -> ms m = true) ->
  NoDup (map fst acc ++ map fst t) -> exists t', foldM (load_line ms) acc (map line_of t) = Ok (acc ++ t') /\ Forall2 (reads ms) t t'.
Proof.
  induction t as [|[[o d] c] t IH]; intros acc HF HM N; cbn [map foldM].
  - exists []. rewrite app_nil_r. split; [reflexivity|constructor].
  - cbn [map fst] in N. assert (NA : ~ In (o, d) (map fst acc)). { intros C. apply NoDup_remove_2 in N. apply N. apply in_or_app. now left. }
    unfold line_of at 1, load_line at 1. cbn [fst snd]. rewrite (find_pair_none _ _ NA). rewrite !flag_eqb.
    destruct (raise_three ms (bit c)) as (c' & Ec & Hc). { intros m B. apply (HM (o, d) c m); [now left|]. unfold bit in B. destruct (c m); congruence. }
    unfold three, fresh in Ec. rewrite Ec. cbn [bind]. rewrite (set_pair_new _ _ _ NA).
    destruct (IH (acc ++ [((o, d), c')])) as (t' & Et & F).
    { intros k c0 I. apply (HF k). now right. } { intros k c0 m I. apply (HM k). now right. } { rewrite map_app, <- app_assoc. exact N. }
    exists (((o, d), c') :: t'). rewrite Et, <- app_assoc. split; [reflexivity|]. constructor; [|assumption]. split; [reflexivity|]. intros m. cbn [snd]. rewrite Hc. destruct (ms m); [|reflexivity].
    unfold bit. assert (X := HF (o, d) c (or_introl eq_refl) m). destruct (c m); [reflexivity|congruence].
Qed.
Lemma load_saved ms t f : save_conn t = Ok f -> NoDup (map fst t) -> (forall k c m, In (k, c) t -> c m = Some true -> ms m = true) ->
  exists t', load_conn ms (length t) f = Ok t' /\ Forall2 (reads ms) t t'.
Proof.
  intros H N HM. apply save_conn_inv in H. destruct H as (HF & ->). unfold load_conn. rewrite map_length, Nat.sub_diag. cbn [repeat]. rewrite app_nil_r.
  replace (length t) with (length (map line_of t)) by apply map_length. rewrite firstn_all.
  destruct (load_lines_ok ms t [] HF HM N) as (t' & E & F). exists t'. split; assumption.
Qed.
Lemma load_lines_ub ms : forall t acc k c m, (forall k c, In (k, c) t -> full c) -> In (k, c) t -> c m = Some true -> ms m = false ->
  NoDup (map fst acc ++ map fst t) -> foldM (load_line ms) acc (map line_of t) = Err EUB.
Proof.
  induction t as [|[[o d] c0] t IH]; intros acc k c m HF I E M N; [destruct I|]. cbn [map foldM]. cbn [map fst] in N.
  assert (NA : ~ In (o, d) (map fst acc)). { intros C. apply NoDup_remove_2 in N. apply N. apply in_or_app. now left. }
  unfold line_of at 1, load_line at 1. cbn [fst snd]. rewrite (find_pair_none _ _ NA). rewrite !flag_eqb.
  change (foldM raise (with_modes ms (fun _ : mode => None)) [(Driving, bit c0 Driving); (Transit, bit c0 Transit); (Pnr, bit c0 Pnr)]) with (foldM raise (fresh ms) (three (bit c0))).
  assert (D : (exists m', bit c0 m' = true /\ ms m' = false) \/ forall m', bit c0 m' = true -> ms m' = true).
  { clear. destruct (bit c0 Driving && negb (ms Driving)) eqn:A; [left; exists Driving; apply andb_true_iff in A; destruct A as [A B]; apply negb_true_iff in B; auto|].
    destruct (bit c0 Transit && negb (ms Transit)) eqn:B; [left; exists Transit; apply andb_true_iff in B; destruct B as [B C]; apply negb_true_iff in C; auto|].
    destruct (bit c0 Pnr && negb (ms Pnr)) eqn:C; [left; exists Pnr; apply andb_true_iff in C; destruct C as [C D]; apply negb_true_iff in D; auto|].
    right. intros [| |] E; [rewrite E in A; now apply negb_false_iff in A|rewrite E in B; now apply negb_false_iff in B|rewrite E in C; now apply negb_false_iff in C]. }
  destruct D as [(m' & B & M')|D].
  - now rewrite (raise_three_ub ms (bit c0) m').
  - destruct (raise_three ms (bit c0) D) as (c' & Ec & Hc). rewrite Ec. cbn [bind]. rewrite (set_pair_new _ _ _ NA). destruct I as [Ei|I].
    + injection Ei as <- <-. assert (ms m = true) by (apply D; unfold bit; now rewrite E). congruence.
    + apply (IH _ k c m); try assumption; [intros k0 c1 J; apply (HF k0); now right|]. rewrite map_app, <- app_assoc. exact N.
Qed.
Lemma load_saved_ub ms t f k c m : save_conn t = Ok f -> NoDup (map fst t) -> In (k, c) t -> c m = Some true -> ms m = false -> load_conn ms (length t) f = Err EUB.
Proof.
  intros H N I E M. apply save_conn_inv in H. destruct H as (HF & ->). unfold load_conn. rewrite map_length, Nat.sub_diag. cbn [repeat]. rewrite app_nil_r.
  replace (length t) with (length (map line_of t)) by apply map_length. rewrite firstn_all. now apply (load_lines_ub ms t [] k c m).
Qed.

(* computing the table *)
Definition computed (ms : mode -> bool) (reach : (Z * Z) -> mode -> bool) (k : Z * Z) (e : (Z * Z) * conn) : Prop :=
  fst e = k /\ forall m, snd e m = if ms m then Some (reach k m) else None.
Lemma compute_ok ms reach : forall pairs acc, (forall k, In k pairs -> exists m, ms m = true /\ reach k m = true) -> NoDup (map fst acc ++ pairs) ->
  exists t, foldM (compute_pair ms reach) acc pairs = Ok (acc ++ t) /\ Forall2 (computed ms reach) pairs t.
Proof.
  induction pairs as [|k pairs IH]; intros acc HR N; cbn [foldM].
  - exists []. rewrite app_nil_r. split; [reflexivity|constructor].
  - assert (NA : ~ In k (map fst acc)). { intros C. apply NoDup_remove_2 in N. apply N. apply in_or_app. now left. }
    unfold compute_pair at 1. rewrite (find_pair_none _ _ NA).
    destruct (raise_three ms (fun m => ms m && reach k m)) as (c & Ec & Hc); [intros m E; now apply andb_true_iff in E|].
    unfold three, fresh in Ec. cbv beta zeta in Ec |- *. rewrite Ec. cbn [bind].
    replace (existsb _ all_modes) with true.
    2:{ symmetry. apply existsb_exists. destruct (HR k (or_introl eq_refl)) as (m & A & B). exists m. rewrite A, B. split; [destruct m; cbn; tauto|reflexivity]. }
    cbn [guard bind]. rewrite (set_pair_new _ _ _ NA).
    destruct (IH (acc ++ [(k, c)])) as (t & Et & F); [intros; apply HR; now right|rewrite map_app, <- app_assoc; exact N|].
    exists ((k, c) :: t). rewrite Et, <- app_assoc. split; [reflexivity|]. constructor; [|assumption]. split; [reflexivity|]. intros m. cbn [snd]. rewrite Hc. now destruct (ms m).
Qed.
Lemma forall2_in {A B} (R : A -> B -> Prop) l l' : Forall2 R l l' -> (forall x, In x l -> exists y, In y l' /\ R x y) /\ (forall y, In y l' -> exists x, In x l /\ R x y).
Proof.
  induction 1 as [|a b l l' H F (I1 & I2)]; [split; intros ? []|]. split.
  - intros x [<-|I]; [exists b; cbn; auto|]. destruct (I1 x I) as (y & J & K). exists y. cbn; auto.
  - intros y [<-|I]; [exists a; cbn; auto|]. destruct (I2 y I) as (x & J & K). exists x. cbn; auto.
Qed.
Lemma forall2_keys {A} (R : A -> ((Z * Z) * conn) -> Prop) (key : A -> Z * Z) l t : (forall x e, R x e -> fst e = key x) -> Forall2 R l t -> map fst t = map key l.
Proof. intros H. induction 1 as [|a b l t E F IH]; [reflexivity|]. cbn. rewrite IH. f_equal. now apply H. Qed.
