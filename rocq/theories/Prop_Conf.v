(** Property theorems: configuration files (C178 - C183). *)
From Coq Require Import Ascii String.
From Verif Require Import Base Base_lemmas Model_Num Proof_Num Model_Text Model_Conf Spec_Conf Proof_Conf Proof_Conf2.
Local Close Scope string_scope.
Local Open Scope list_scope.

(** C178: the last setting of an entry in its section counts; an entry that is
    not set is reported. *)
Theorem C178_settings_read : forall file ls items s k, file_of ls file -> Forall2 line_says ls items ->
  no_slash s -> (forall s', In (Section s') items -> no_slash s') ->
  (forall v, last_setting (settings [] items) s k v -> conf_string (conf_read (Some file)) s k = Ok v) /\
  ((forall v, ~ In (s, k, v) (settings [] items)) -> conf_string (conf_read (Some file)) s k = Err EThrow) /\
  ((exists v, last_setting (settings [] items) s k v) \/ (forall v, ~ In (s, k, v) (settings [] items))).
Proof.
  intros file ls items s k F L Ns Nss. unfold conf_string, conf_value, conf_find, conf_read. rewrite (file_of_lines ls file F), (conf_fold ls items L). cbn [fst snd].
  rewrite app_nil_r.
  assert (H : forall s' k' v', In (s', k', v') (settings [] items) -> no_slash s') by (apply settings_no_slash; [exact Nss|intros []]).
  split; [|split].
  - intros v Hv. now rewrite (find_rev_last _ s k v H Ns Hv).
  - intros Hn. now rewrite (find_rev_none _ s k H Ns Hn).
  - apply last_or_none.
Qed.
Print Assumptions C178_settings_read.

Ltac lit := repeat match goal with |- Forall _ _ => constructor | |- blanks _ => unfold blanks | |- is_blank _ => cbn; tauto end.
Lemma tight_lit (t : text) : match t with [] => True | c :: _ => delim c = false end -> match rev t with [] => True | c :: _ => delim c = false end -> tight t.
Proof.
  intros H1 H2. split; intros c r E; apply delim_false.
  - now rewrite E in H1.
  - rewrite E, rev_app_distr in H2. exact H2.
Qed.
Ltac notin := let H := fresh in intros H; cbn in H; repeat (destruct H as [H|H]; [discriminate|]); exact H.
(** [DTA], unit_time = 5 twice with different blanks, a comment, another section *)
Definition C178_lines : list text := [txt "[DTA]"; txt "unit_time=5"; txt "  # unit_time = 7"; txt ""; txt "unit_time = 6 "; txt " [ STAT ] x"; txt "rec=a=b"].
Definition C178_items := [Section (txt "DTA"); Setting (txt "unit_time") (txt "5"); Nothing; Nothing; Setting (txt "unit_time") (txt "6"); Section (txt "STAT"); Setting (txt "rec") (txt "a=b")].
Definition C178_file : text := concat (map (fun l => l ++ [ch_newline]) C178_lines).
Example C178_case : file_of C178_lines C178_file /\ Forall2 line_says C178_lines C178_items /\
  (forall s', In (Section s') C178_items -> no_slash s') /\
  last_setting (settings [] C178_items) (txt "DTA") (txt "unit_time") (txt "6") /\
  conf_string (conf_read (Some C178_file)) (txt "DTA") (txt "unit_time") = Ok (txt "6") /\
  conf_string (conf_read (Some C178_file)) (txt "STAT") (txt "rec") = Ok (txt "a=b") /\
  conf_string (conf_read (Some C178_file)) (txt "STAT") (txt "unit_time") = Err EThrow.
Proof.
  assert (Hf : forall ls, Forall (fun l => ~ In ch_newline l) ls -> file_of ls (concat (map (fun l => l ++ [ch_newline]) ls))).
  { induction 1; [constructor|]. cbn [map concat]. rewrite <- app_assoc. now constructor. }
  split; [apply Hf; repeat constructor; notin|]. split.
  { unfold C178_lines, C178_items. constructor.
    { apply (says_section [] [] (txt "DTA") [] []); lit; [apply tight_lit; reflexivity|notin]. }
    constructor.
    { apply (says_setting [] (txt "unit_time") [] [] (txt "5") []); lit; try (apply tight_lit; reflexivity); [notin|].
      intros c r E. injection E as <- _. repeat split; discriminate. }
    constructor; [apply (says_comment (txt "  ") (chr "#") (txt " unit_time = 7")); [lit|now left]|].
    constructor; [constructor; lit|]. constructor.
    { apply (says_setting [] (txt "unit_time") (txt " ") (txt " ") (txt "6") (txt " ")); lit; try (apply tight_lit; reflexivity); [notin|].
      intros c r E. injection E as <- _. repeat split; discriminate. }
    constructor.
    { apply (says_section (txt " ") (txt " ") (txt "STAT") (txt " ") (txt " x")); lit; [apply tight_lit; reflexivity|notin]. }
    constructor; [|constructor].
    apply (says_setting [] (txt "rec") [] [] (txt "a=b") []); lit; try (apply tight_lit; reflexivity); [notin|].
    intros c r E. injection E as <- _. repeat split; discriminate. }
  split.
  { intros s' H. cbn in H. repeat (destruct H as [H|H]; [try discriminate; injection H as <-; notin|]). destruct H. }
  split.
  { exists [(txt "DTA", txt "unit_time", txt "5")], [(txt "STAT", txt "rec", txt "a=b")]. split; [reflexivity|].
    intros v' [H|[]]. discriminate H. }
  repeat split; vm_compute; reflexivity.
Qed.

(** C179: a slash in a section name; two different entries share one value *)
Theorem C179_slash_refuted : forall s a k v v', tight s -> tight a -> tight k -> tight v -> tight v' ->
  s <> [] -> a <> [] -> ~ In (chr "]") s -> ~ In (chr "]") a -> ~ In (chr "=") a -> ~ In (chr "=") k -> ~ In ch_newline (s ++ a ++ k ++ v ++ v') ->
  (forall c r, k = c :: r -> c <> chr "#" /\ c <> chr ";" /\ c <> chr "[") -> (forall c r, a = c :: r -> c <> chr "#" /\ c <> chr ";" /\ c <> chr "[") ->
  exists file items, file_of [[chr "["] ++ s ++ [chr "/"] ++ a ++ [chr "]"]; k ++ [chr "="] ++ v; [chr "["] ++ s ++ [chr "]"]; (a ++ [chr "/"] ++ k) ++ [chr "="] ++ v'] file /\
    Forall2 line_says [[chr "["] ++ s ++ [chr "/"] ++ a ++ [chr "]"]; k ++ [chr "="] ++ v; [chr "["] ++ s ++ [chr "]"]; (a ++ [chr "/"] ++ k) ++ [chr "="] ++ v'] items /\
    settings [] items = [(s ++ [chr "/"] ++ a, k, v); (s, a ++ [chr "/"] ++ k, v')] /\
    conf_string (conf_read (Some file)) (s ++ [chr "/"] ++ a) k = Ok v'.
Proof.
  intros s a k v v' Ts Ta Tk Tv Tv' Hs Ha Cs Ca Ea Ek Nl Fk Fa.
  set (ls := [_; _; _; _]).
  assert (NN : forall t, (exists p q, s ++ a ++ k ++ v ++ v' = p ++ t ++ q) -> ~ In ch_newline t).
  { intros t (p & q & E) H. apply Nl. rewrite E. apply in_or_app. right. apply in_or_app. now left. }
  assert (N1 : ~ In ch_newline s) by (apply NN; exists [], (a ++ k ++ v ++ v'); reflexivity).
  assert (N2 : ~ In ch_newline a) by (apply NN; exists s, (k ++ v ++ v'); reflexivity).
  assert (N3 : ~ In ch_newline k) by (apply NN; exists (s ++ a), (v ++ v'); now rewrite <- app_assoc).
  assert (N4 : ~ In ch_newline v) by (apply NN; exists (s ++ a ++ k), v'; now rewrite <- !app_assoc).
  assert (N5 : ~ In ch_newline v') by (apply NN; exists (s ++ a ++ k ++ v), []; now rewrite app_nil_r, <- !app_assoc).
  assert (Hf : forall ls, Forall (fun l => ~ In ch_newline l) ls -> file_of ls (concat (map (fun l => l ++ [ch_newline]) ls))).
  { induction 1; [constructor|]. cbn [map concat]. rewrite <- app_assoc. now constructor. }
  assert (Tsa : tight (s ++ [chr "/"] ++ a)).
  { destruct Ts as [T1 _], Ta as [_ T2]. split.
    - intros c r E. destruct s as [|x s]; [congruence|]. injection E as <- _. exact (T1 x s eq_refl).
    - intros c r E. destruct (exists_last Ha) as (a' & x & ->). rewrite !app_assoc in E. apply app_inj_tail in E. destruct E as [_ <-]. exact (T2 x a' eq_refl). }
  assert (Tak : tight (a ++ [chr "/"] ++ k)).
  { destruct Ta as [T1 _], Tk as [_ T2]. split.
    - intros c r E. destruct a as [|x a]; [congruence|]. injection E as <- _. exact (T1 x a eq_refl).
    - intros c r E. destruct k as [|y k0] eqn:Ekk.
      + rewrite app_nil_r in E. apply app_inj_tail in E. destruct E as [_ <-]. apply delim_false. reflexivity.
      + rewrite <- Ekk in *. assert (Hk : k <> []) by (rewrite Ekk; discriminate). destruct (exists_last Hk) as (k' & x & Ek').
        rewrite Ek' in E. rewrite !app_assoc in E. apply app_inj_tail in E. destruct E as [_ <-]. exact (T2 x k' Ek'). }
  set (items := [Section (s ++ [chr "/"] ++ a); Setting k v; Section s; Setting (a ++ [chr "/"] ++ k) v']).
  assert (L : Forall2 line_says ls items).
  { unfold ls, items. constructor.
    { replace ([chr "["] ++ s ++ [chr "/"] ++ a ++ [chr "]"]) with ([] ++ chr "[" :: [] ++ (s ++ [chr "/"] ++ a) ++ [] ++ chr "]" :: []) by (cbn; now rewrite <- app_assoc).
      apply says_section; lit; [exact Tsa|]. intros H. apply in_app_or in H as [H|[H|H]]; [exact (Cs H)|discriminate H|exact (Ca H)]. }
    constructor.
    { replace (k ++ [chr "="] ++ v) with ([] ++ k ++ [] ++ chr "=" :: [] ++ v ++ []) by (cbn; now rewrite app_nil_r). apply says_setting; lit; assumption. }
    constructor.
    { apply (says_section [] [] s [] []); lit; assumption. }
    constructor; [|constructor].
    replace ((a ++ [chr "/"] ++ k) ++ [chr "="] ++ v') with ([] ++ (a ++ [chr "/"] ++ k) ++ [] ++ chr "=" :: [] ++ v' ++ []) by (cbn; now rewrite app_nil_r).
    apply says_setting; lit; try assumption.
    - intros H. apply in_app_or in H as [H|[H|H]]; [exact (Ea H)|discriminate H|exact (Ek H)].
    - intros c r E. destruct a as [|x a]; [congruence|]. injection E as <- _. exact (Fa x a eq_refl). }
  exists (concat (map (fun l => l ++ [ch_newline]) ls)), items.
  assert (F : file_of ls (concat (map (fun l => l ++ [ch_newline]) ls))).
  { apply Hf. unfold ls. repeat constructor; intros H; repeat (apply in_app_or in H as [H|H]); cbn in H; try contradiction;
      repeat (destruct H as [H|H]; [discriminate H|]); try contradiction. }
  split; [exact F|]. split; [exact L|]. split; [reflexivity|].
  unfold conf_string, conf_value, conf_find, conf_read. rewrite (file_of_lines ls _ F), (conf_fold ls items L). cbn [fst snd settings items map rev entry_of app find].
  replace (same_text _ _) with true; [reflexivity|]. symmetry. apply same_text_iff. rewrite <- !app_assoc. reflexivity.
Qed.
Print Assumptions C179_slash_refuted.
Example C179_case : forall nl, nl = [ch_newline] ->
  conf_string (conf_read (Some (txt "[a/b]" ++ nl ++ txt "c=1" ++ nl ++ txt "[a]" ++ nl ++ txt "b/c=2"))) (txt "a/b") (txt "c") = Ok (txt "2").
Proof. intros nl ->. vm_compute. reflexivity. Qed.

(** C180: numbers; [r] is what follows them, as in "5 # seconds" *)
Theorem C180_numbers_read : forall file ls items s k t q r, file_of ls file -> Forall2 line_says ls items ->
  no_slash s -> (forall s', In (Section s') items -> no_slash s') ->
  numeral t q -> no_more r -> last_setting (settings [] items) s k (t ++ r) ->
  (exists x, conf_float (conf_read (Some file)) s k = Ok x /\ (x == q)%Q) /\
  (int_min <= trunc q <= int_max -> conf_int (conf_read (Some file)) s k = Ok (trunc q)).
Proof.
  intros file ls items s k t q r F L Ns Nss Hq Hr Hl.
  destruct (C178_settings_read file ls items s k F L Ns Nss) as [H _]. specialize (H _ Hl). unfold conf_string in H.
  pose proof (atof_numeral t q r Hq Hr) as E. unfold conf_float, conf_int. rewrite H. cbn [bind]. split; [eexists; split; [reflexivity|exact E]|].
  rewrite (trunc_comp _ _ E). intros B. replace ((int_min <=? trunc q) && (trunc q <=? int_max)) with true; [reflexivity|].
  symmetry. apply andb_true_iff. rewrite !Z.leb_le. exact B.
Qed.
Print Assumptions C180_numbers_read.
Example C180_case : numeral (txt "-12.50") (signed true (12 + 50 / 100)) /\ no_more (txt " # x") /\
  Qred (atof (txt "-12.50 # x")) = (-25 # 2)%Q /\ trunc (atof (txt "-12.50 # x")) = -12.
Proof.
  assert (D : forall n, In n [0; 1; 2; 3; 4; 5; 6; 7; 8; 9]%nat -> is_digit (ascii_of_nat (48 + n))) by (intros n H; exists n; auto).
  split.
  { apply (numeral_decimal true (txt "12") (txt "50")); [discriminate| |]; repeat constructor;
      [apply (D 1%nat)|apply (D 2%nat)|apply (D 5%nat)|apply (D 0%nat)]; cbn; tauto. }
  split; [|split; reflexivity]. intros c r E. injection E as <- _. split; [|repeat split; discriminate].
  intros (n & Hn & Ec). cbn [In] in Hn. repeat match type of Hn with _ \/ _ => destruct Hn as [<-|Hn] end; try discriminate Ec; contradiction.
Qed.

(** C181: a missing file is an empty configuration, a line without '=' is an
    entry with its text as name and value, and other values count as 0 *)
Theorem C181_missing_file_refuted : conf_read None = conf_read (Some []) /\
  forall s k, conf_string (conf_read None) s k = Err EThrow.
Proof. split; reflexivity. Qed.
Print Assumptions C181_missing_file_refuted.
Theorem C181_no_equal_refuted : forall file s, file <> [] -> tight file -> ~ In ch_newline file -> ~ In (chr "=") file ->
  (forall c r, file = c :: r -> c <> chr "#" /\ c <> chr ";" /\ c <> chr "[") ->
  s = [] -> conf_string (conf_read (Some file)) s file = Ok file.
Proof.
  intros file s Hf T Nn Ne Fk ->. unfold conf_string, conf_value, conf_find, conf_read. rewrite (file_of_lines [file] file) by now constructor.
  cbn [fold_left]. unfold conf_line. assert (E : ctrim file = file).
  { pose proof (ctrim_intro [] file [] ltac:(constructor) ltac:(constructor) T) as E. now rewrite app_nil_r in E. }
  rewrite E. destruct file as [|c r] eqn:Ef; [congruence|]. destruct (Fk c r eq_refl) as (F1 & F2 & F3).
  rewrite (eqb_no c ch_hash) by exact F1. rewrite (eqb_no c ch_semicolon) by exact F2. rewrite (eqb_no c ch_open) by exact F3.
  rewrite (proj2 (Proof_Text.cut_none ch_equal (c :: r))) by exact Ne. cbv iota. rewrite E. cbn [orb fst snd find app].
  assert (X : same_text (ch_slash :: c :: r) (ch_slash :: c :: r) = true) by now apply same_text_iff. unfold fst. rewrite X. reflexivity.
Qed.
Print Assumptions C181_no_equal_refuted.
Theorem C181_not_a_number_refuted : forall file ls items s k v, file_of ls file -> Forall2 line_says ls items ->
  no_slash s -> (forall s', In (Section s') items -> no_slash s') -> tight v -> not_numeric v -> last_setting (settings [] items) s k v ->
  conf_float (conf_read (Some file)) s k = Ok 0%Q /\ conf_int (conf_read (Some file)) s k = Ok 0.
Proof.
  intros file ls items s k v F L Ns Nss T Hn Hl. destruct (C178_settings_read file ls items s k F L Ns Nss) as [H _].
  specialize (H _ Hl). unfold conf_string in H. unfold conf_float, conf_int. rewrite H. cbn [bind].
  rewrite (atof_not_numeric v T Hn). split; reflexivity.
Qed.
Print Assumptions C181_not_a_number_refuted.
Example C181_case : conf_string (conf_read (Some (txt "routing_type"))) [] (txt "routing_type") = Ok (txt "routing_type") /\
  conf_int (conf_read (Some (txt "max_interval = ten"))) [] (txt "max_interval") = Ok 0 /\
  conf_int (conf_read (Some (txt "max_interval = 1O"))) [] (txt "max_interval") = Ok 1.
Proof. repeat split; vm_compute; reflexivity. Qed.

(** C182: a remark after a value is part of the value *)
Theorem C182_remark_refuted : forall file ls items s k v r, file_of ls file -> Forall2 line_says ls items ->
  no_slash s -> (forall s', In (Section s') items -> no_slash s') -> last_setting (settings [] items) s k (v ++ txt " # " ++ r) ->
  conf_string (conf_read (Some file)) s k = Ok (v ++ txt " # " ++ r).
Proof. intros file ls items s k v r F L Ns Nss Hl. now apply (C178_settings_read file ls items s k F L Ns Nss). Qed.
Print Assumptions C182_remark_refuted.
Example C182_case : conf_string (conf_read (Some (txt "routing_type = Fixed # or Hybrid"))) [] (txt "routing_type") = Ok (txt "Fixed # or Hybrid").
Proof. vm_compute. reflexivity. Qed.

(** C183: a default is never used; the entry is reported as missing instead *)
Theorem C183_default_refuted : forall file ls items s k d, file_of ls file -> Forall2 line_says ls items ->
  no_slash s -> (forall s', In (Section s') items -> no_slash s') -> (forall v, ~ In (s, k, v) (settings [] items)) ->
  conf_value_default (conf_read (Some file)) s k d = Err EThrow.
Proof.
  intros file ls items s k d F L Ns Nss Hn. destruct (C178_settings_read file ls items s k F L Ns Nss) as (_ & H & _). specialize (H Hn).
  unfold conf_string, conf_value in H. unfold conf_value_default. destruct (conf_find _ s k) as [v|[|]] eqn:E; [discriminate|reflexivity|].
  unfold conf_find in E. destruct (find _ _); discriminate.
Qed.
Print Assumptions C183_default_refuted.
Example C183_case : conf_value_default (conf_read (Some (txt "a = 1"))) [] (txt "b") (txt "2") = Err EThrow.
Proof. vm_compute. reflexivity. Qed.
