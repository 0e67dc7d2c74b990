(** Loading path tables with shares. *)
From Coq Require Import Ascii String Qabs Lqa.
From Verif Require Import Base Base_lemmas Model_Num Model_Graph Spec_Graph Proof_Graph Proof_Graph2 Proof_Link4 Model_Text Model_Io Spec_Conf Spec_Io Proof_Text Proof_Io Proof_Io2 Proof_Io3 Model_Buf Spec_Buf Proof_Buf.
Local Open Scope Z_scope.
Local Open Scope list_scope.

(** the lines taken from the buffer file *)
Fixpoint seen (n : nat) (s : stream) (bl : text) : list text :=
  match n with
  | O => []
  | S n => let '(s', l) := getline s bl in trim l :: seen n s' (trim l)
  end.
Definition numbers (stof : text -> res Q) (l : text) : res (list Q) := mapR (fun w => stof (trim w)) (split l ch_space).

Lemma buf_row_ok stof g T L s bl l T' s' bl' qs : getline s bl = (s', bl') -> path_row g T l = Ok T' -> (2 <= length (split l ch_space))%nat -> numbers stof (trim bl') = Ok qs ->
  exists L', buf_row stof g (T, L, (s, bl)) l = Ok (T', L', (s', trim bl')) /\ (L (lt_count T) = [] -> forall i, L' i = upd L (lt_count T) qs i).
Proof.
  intros G P W N. unfold buf_row. rewrite G, P. cbn [bind]. apply Nat.leb_le in W. rewrite W. unfold numbers in N. destruct (split (trim bl') ch_space) as [|w ws] eqn:E.
  - cbn [mapR] in N. injection N as <-. exists L. split; [reflexivity|]. intros H i. destruct (Z.eq_dec i (lt_count T)) as [-> |Ni]; [now rewrite upd_same|now rewrite upd_other by congruence].
  - rewrite N. cbn [bind]. eexists. split; [reflexivity|]. reflexivity.
Qed.
Lemma says_len l ns : says_nodes l ns -> (2 <= length ns)%nat -> (2 <= length (split l ch_space))%nat.
Proof. intros (ws & W & F) H. apply split_words in W. rewrite W. assert (E : length ws = length ns) by (clear -F; induction F; cbn; congruence). lia. Qed.

Lemma buf_rows_ok stof g a : Rep g a -> forall rs nss, Forall2 says_nodes rs nss -> (forall ns, In ns nss -> (2 <= length ns)%nat /\ exists ls, along g ns ls) ->
  forall qss s bl T ps L, Forall2 (fun l qs => numbers stof l = Ok qs) (seen (length rs) s bl) qss -> holds T ps -> (forall i, lt_count T <= i -> L i = []) ->
  exists T' ps' L' sb, foldM (buf_row stof g) (T, L, sb) [] = Ok (T, L, sb) /\
    foldM (buf_row stof g) (T, L, (s, bl)) rs = Ok (T', L', sb) /\ foldM (path_row g) T rs = Ok T' /\ holds T' (ps ++ ps') /\
    Forall2 (fun ns p => lp_nodes p = ns /\ along g ns (lp_links p)) nss ps' /\ map (fun p => L' (lp_id p)) ps' = qss /\ (forall i, i < lt_count T -> L' i = L i) /\
    (forall i, lt_count T' <= i -> L' i = []).
Proof.
  intros R rs nss F. induction F as [|l ns rs nss Sl F IH]; intros Hn qss s bl T ps L Q HT HL.
  - cbn [length seen] in Q. inversion Q; subst. exists T, [], L, (s, bl). rewrite app_nil_r. repeat split; auto; apply HT.
  - cbn [length seen] in Q. destruct (getline s bl) as [s' bl'] eqn:G. inversion Q as [|? qs ? qss' N0 Q0]; subst.
    destruct (Hn ns (or_introl eq_refl)) as (Ln & ls0 & A0). destruct (path_row_ok g a T ps l ns ls0 R HT Sl Ln A0) as (T1 & p & E1 & H1 & N1 & A1).
    destruct (buf_row_ok stof g T L s bl l T1 s' bl' qs G E1 (says_len l ns Sl Ln) N0) as (L1 & B1 & U1). specialize (U1 (HL _ (Z.le_refl _))).
    assert (C1 : lt_count T1 = lt_count T + 1). { destruct HT as (_ & C & _), H1 as (_ & C' & _). rewrite C', C, app_length. cbn. lia. }
    destruct (IH ltac:(intros x Hx; apply Hn; right; exact Hx) qss' s' (trim bl') T1 (ps ++ [p]) L1 Q0 H1) as (T2 & ps2 & L2 & sb & _ & F2 & P2 & H2 & A2 & M2 & K2 & Z2).
    { intros i Hi. rewrite U1. rewrite C1 in Hi. rewrite upd_other by lia. apply HL. lia. }
    exists T2, (p :: ps2), L2, sb. split; [reflexivity|]. split; [cbn [foldM]; rewrite B1; exact F2|]. split; [cbn [foldM]; rewrite E1; exact P2|].
    split; [now rewrite <- app_assoc in H2|]. split; [constructor; auto|]. split; [|split; [|exact Z2]].
    + cbn [map]. f_equal; [|exact M2]. assert (I : lp_id p = lt_count T).
      { destruct HT as (_ & C & HI), H1 as (_ & _ & HI'). rewrite map_app, app_length, seq_app, map_app, HI in HI'. apply app_inv_head in HI'. cbn [map seq length Nat.add] in HI'. injection HI' as ->. now rewrite C. }
      rewrite I. rewrite K2 by lia. rewrite U1. apply upd_same.
    + intros i Hi. rewrite K2 by lia. rewrite U1. apply upd_other. lia.
Qed.

(** the lines taken *)
Lemma seen_left n : forall s bl bls, left_over s bls -> (n <= length bls)%nat -> seen n s bl = map trim (firstn n bls).
Proof.
  induction n as [|n IH]; intros s bl bls LO H; [reflexivity|]. destruct bls as [|b bls]; [cbn in H; lia|]. cbn [seen].
  destruct (getline_next s b bls bl LO) as (s' & E & LO'). rewrite E. cbn [firstn map]. f_equal. apply IH; [exact LO'|cbn in H; lia].
Qed.
Lemma seen_dead n : forall s bl, dead s -> trim bl = bl -> seen n s bl = repeat bl n.
Proof.
  induction n as [|n IH]; intros s bl D T; [reflexivity|]. cbn [seen repeat]. destruct (dead_getline s bl D) as (s' & E & D'). rewrite E, T. f_equal. now apply IH.
Qed.
Lemma seen_missing n : seen n (open_file None) [] = repeat [] n.
Proof. apply seen_dead; [right; reflexivity|reflexivity]. Qed.
Lemma seen_term bls : forall n s bl, st_eof s = false -> st_fail s = false -> terminated (st_rest s) bls -> seen (length bls + n) s bl = map trim bls ++ repeat [] n.
Proof.
  induction bls as [|b bls IH]; intros n s bl E1 E2 [Et Sl].
  - destruct n as [|n]; [reflexivity|]. cbn [length Nat.add seen map app repeat]. unfold getline. rewrite E1, E2. cbn [orb]. rewrite Et. cbn [unlines map concat cut].
    f_equal. apply seen_dead; [left; reflexivity|reflexivity].
  - inversion Sl as [|? ? Nb Sl']; subst. cbn [length Nat.add seen map app]. unfold getline. rewrite E1, E2. cbn [orb]. rewrite Et. unfold unlines. cbn [map concat]. rewrite <- app_assoc. cbn [app].
    rewrite cut_line by exact Nb. f_equal. apply IH; [reflexivity|reflexivity|]. split; [reflexivity|exact Sl'].
Qed.
Lemma seen_unterm bls : forall n s bl la, st_eof s = false -> st_fail s = false -> unterminated (st_rest s) bls la -> seen (length bls + S n) s bl = map trim bls ++ repeat (trim la) (S n).
Proof.
  induction bls as [|b bls IH]; intros n s bl la E1 E2 (Et & Sl & Nl & Ne).
  - cbn [length Nat.add seen map app repeat]. unfold getline. rewrite E1, E2. cbn [orb]. rewrite Et. cbn [unlines map concat app].
    rewrite (proj2 (cut_none _ _) Nl). destruct la as [|c la]; [contradiction|]. f_equal. apply seen_dead; [left; reflexivity|apply trim_trim].
  - inversion Sl as [|? ? Nb Sl']; subst. cbn [length Nat.add]. cbn [seen]. unfold getline. rewrite E1, E2. cbn [orb]. rewrite Et. unfold unlines. cbn [map concat]. rewrite <- !app_assoc. cbn [app].
    rewrite cut_line by exact Nb. cbn [map app]. f_equal. apply IH; [reflexivity|reflexivity|]. split; [reflexivity|auto].
Qed.

Lemma line_numbers_ok stof l qs : line_numbers stof l qs -> numbers stof (trim l) = Ok qs.
Proof.
  intros (r & ws & S & W & F). rewrite (stripped_trim _ _ S). unfold numbers. apply split_words in W. rewrite W. apply mapR_Forall2. clear W. induction F as [|w q ws qs (w' & S' & E) F IH]; constructor; auto.
  now rewrite (stripped_trim _ _ S').
Qed.

(** the whole reader *)
Lemma load_ok stof g a fuel n content ls rs nss bfile qss : Rep g a -> file_lines content ls -> rows_of ls rs -> 0 < n -> (Z.to_nat n <= length rs)%nat -> (length ls <= fuel)%nat ->
  Forall2 says_nodes (firstn (Z.to_nat n) rs) nss -> (forall ns, In ns nss -> (2 <= length ns)%nat /\ exists ls, along g ns ls) ->
  Forall2 (fun l qs => numbers stof l = Ok qs) (seen (Z.to_nat n) (open_file bfile) []) qss ->
  exists T ps L, load_buffered stof fuel g n (Some content) bfile = Ok (Some (T, L)) /\ load_path_table fuel g n (Some content) = Ok (Some T) /\ table_of T ps /\
    map lp_id ps = map Z.of_nat (seq 0 (length ps)) /\ Forall2 (fun ns p => lp_nodes p = ns /\ along g ns (lp_links p)) nss ps /\ map (fun p => L (lp_id p)) ps = qss.
Proof.
  intros R FL RO Hn Hr Hf F HN Q. assert (Len : length (firstn (Z.to_nat n) rs) = Z.to_nat n) by (rewrite firstn_length; lia).
  rewrite <- Len in Q.
  destruct (buf_rows_ok stof g a R _ _ F HN qss (open_file bfile) [] no_paths [] (fun _ => []) Q holds_none ltac:(auto)) as (T & ps & L & sb & _ & FB & FP & H & A & M & _).
  exists (lt_table T), ps, L. unfold load_buffered. assert (B : (n <=? 0) = false) by lia. rewrite B.
  split.
  - destruct (read_rows_left (buf_row stof g) ls rs (Z.to_nat n) fuel (open_file (Some content)) [] (no_paths, fun _ => [], (open_file bfile, [])) RO (open_left _ _ FL) Hr Hf) as
      [(e & E & _)|(a' & s' & line' & ls' & rs' & E & E' & _)]; [discriminate (eq_trans (eq_sym FB) E)|]. pose proof (eq_trans (eq_sym FB) E) as X. injection X as <-. unfold bstate in *. rewrite E'. reflexivity.
  - split; [rewrite (load_rows fuel g n content ls rs FL RO Hn Hr Hf), FP; reflexivity|]. destruct H as (H1 & _ & H2). cbn [app] in *. auto.
Qed.
(** a word of the buffer file that is no number *)
Lemma buf_rows_fail stof g a : Rep g a -> forall rs nss, Forall2 says_nodes rs nss -> (forall ns, In ns nss -> (2 <= length ns)%nat /\ exists ls, along g ns ls) ->
  forall k qss s bl T ps L w ws, (k < length rs)%nat -> Forall2 (fun l qs => numbers stof l = Ok qs) (firstn k (seen (length rs) s bl)) qss -> holds T ps ->
  split (nth k (seen (length rs) s bl) []) ch_space = w :: ws -> stof (trim w) = Err EThrow ->
  foldM (buf_row stof g) (T, L, (s, bl)) rs = Err EThrow.
Proof.
  intros R rs nss F. induction F as [|l ns rs nss Sl F IH]; intros Hn k qss s bl T ps L w ws Hk Q HT W St; [cbn in Hk; lia|].
  destruct (Hn ns (or_introl eq_refl)) as (Ln & ls0 & A0). destruct (path_row_ok g a T ps l ns ls0 R HT Sl Ln A0) as (T1 & p & E1 & H1 & _ & _).
  cbn [length seen] in Q, W. destruct (getline s bl) as [s' bl'] eqn:G. cbn [foldM]. destruct k as [|k].
  - cbn [nth] in W. unfold buf_row at 1. rewrite G, E1. cbn [bind]. pose proof (says_len l ns Sl Ln) as X. apply Nat.leb_le in X. rewrite X, W. cbn [mapR]. rewrite St. reflexivity.
  - cbn [firstn nth] in Q, W. inversion Q as [|? qs ? qss' N0 Q0]; subst.
    destruct (buf_row_ok stof g T L s bl l T1 s' bl' qs G E1 (says_len l ns Sl Ln) N0) as (L1 & B1 & _). rewrite B1. cbn [bind].
    eapply (IH ltac:(intros x Hx; apply Hn; right; exact Hx) k qss' s' (trim bl') T1 (ps ++ [p]) L1 w ws); eauto. cbn in Hk. lia.
Qed.
Lemma load_fail stof g a fuel n content ls rs nss bfile k qss w ws : Rep g a -> file_lines content ls -> rows_of ls rs -> (Z.to_nat n <= length rs)%nat -> (length ls <= fuel)%nat ->
  Forall2 says_nodes (firstn (Z.to_nat n) rs) nss -> (forall ns, In ns nss -> (2 <= length ns)%nat /\ exists ls, along g ns ls) -> (k < Z.to_nat n)%nat ->
  Forall2 (fun l qs => numbers stof l = Ok qs) (firstn k (seen (Z.to_nat n) (open_file bfile) [])) qss ->
  split (nth k (seen (Z.to_nat n) (open_file bfile) []) []) ch_space = w :: ws -> stof (trim w) = Err EThrow ->
  load_buffered stof fuel g n (Some content) bfile = Err EThrow.
Proof.
  intros R FL RO Hr Hf F HN Hk Q W St. assert (Len : length (firstn (Z.to_nat n) rs) = Z.to_nat n) by (rewrite firstn_length; lia).
  rewrite <- Len in Q, W, Hk. pose proof (buf_rows_fail stof g a R _ _ F HN k qss (open_file bfile) [] no_paths [] (fun _ => []) w ws Hk Q holds_none W St) as FB.
  unfold load_buffered. assert (B : (n <=? 0) = false) by lia. rewrite B.
  destruct (read_rows_left (buf_row stof g) ls rs (Z.to_nat n) fuel (open_file (Some content)) [] (no_paths, fun _ => [], (open_file bfile, [])) RO (open_left _ _ FL) Hr Hf) as
    [(e & E & E')|(a' & s' & line' & ls' & rs' & E & E' & _)]; [|discriminate (eq_trans (eq_sym FB) E)]. pose proof (eq_trans (eq_sym FB) E) as X. injection X as <-. unfold bstate in *. rewrite E'. reflexivity.
Qed.
