From Coq Require Import Ascii String.
From Verif Require Import Base Base_lemmas Model_Num Model_Graph Spec_Graph Proof_Graph Proof_Graph2 Proof_Link Proof_Link4 Model_Text Model_Io Spec_Io Proof_Text.
Local Open Scope list_scope.

(** ** numbers *)
Lemma digit_iff c : digit c <-> pdigit c.
Proof.
  unfold digit, pdigit, code. split.
  - intros H. exists (nat_of_ascii c). split; [lia|]. symmetry. apply ascii_nat_embedding.
  - intros (n & H & ->). rewrite nat_ascii_embedding by lia. lia.
Qed.
Ltac ten H := let n := fresh "n" in let L := fresh "L" in apply digit_iff in H as (n & L & ->);
  assert (n = 48 \/ n = 49 \/ n = 50 \/ n = 51 \/ n = 52 \/ n = 53 \/ n = 54 \/ n = 55 \/ n = 56 \/ n = 57)%nat as
    [->|[->|[->|[->|[->|[->|[->|[->|[->| ->]]]]]]]]] by lia; clear L.
Lemma digit_uint_none c : ~ digit c -> digit_uint c = None.
Proof.
  intros H. destruct c as [[] [] [] [] [] [] [] []]; try reflexivity; exfalso; apply H; unfold digit; vm_compute; split; discriminate.
Qed.
Lemma read_digits_none rest : (forall c r, rest = c :: r -> ~ digit c) -> read_digits rest = Decimal.Nil.
Proof. intros H. destruct rest as [|c r]; [reflexivity|]. cbn [read_digits]. rewrite digit_uint_none; [reflexivity|]. eapply H. reflexivity. Qed.
Lemma read_digits_acc rest : (forall c r, rest = c :: r -> ~ digit c) -> forall ds, Forall digit ds -> forall p,
  Z.pos (Pos.of_uint_acc (read_digits (ds ++ rest)) p) = fold_left (fun v c => 10 * v + (code c - 48)) ds (Z.pos p).
Proof.
  intros N. induction 1 as [|c ds D F IH]; intros p.
  - cbn [app]. rewrite read_digits_none by exact N. reflexivity.
  - cbn [app fold_left].
    ten D; match goal with |- context [code ?c] => let v := eval vm_compute in (code c) in change (code c) with v end;
      match goal with |- context [read_digits (?c :: ?r)] => change (read_digits (c :: r)) with (match digit_uint c with Some f => f (read_digits r) | None => Decimal.Nil end);
        let v := eval vm_compute in (digit_uint c) in change (digit_uint c) with v end; cbv iota beta; cbn [Pos.of_uint_acc]; rewrite IH; f_equal; lia.
Qed.
Lemma read_digits_value ds rest : (forall c r, rest = c :: r -> ~ digit c) -> Forall digit ds ->
  Z.of_N (N.of_uint (read_digits (ds ++ rest))) = digits_value ds.
Proof.
  intros N. unfold digits_value. induction 1 as [|c ds D F IH].
  - cbn [app]. rewrite read_digits_none by exact N. reflexivity.
  - cbn [app fold_left].
    ten D; match goal with |- context [code ?c] => let v := eval vm_compute in (code c) in change (code c) with v end;
      match goal with |- context [read_digits (?c :: ?r)] => change (read_digits (c :: r)) with (match digit_uint c with Some f => f (read_digits r) | None => Decimal.Nil end);
        let v := eval vm_compute in (digit_uint c) in change (digit_uint c) with v end; cbv iota beta; cbn [N.of_uint Pos.of_uint];
      first [exact IH | cbn [Z.of_N]; rewrite read_digits_acc by assumption; reflexivity].
Qed.
Lemma read_digits_nil ds rest : Forall digit ds -> ds <> [] -> read_digits (ds ++ rest) <> Decimal.Nil.
Proof. intros F N. destruct ds as [|c ds]; [contradiction|]. inversion F as [|? ? D]; subst. cbn [app]. ten D; cbn; discriminate. Qed.
Lemma digits_split s : exists ds rest, s = ds ++ rest /\ Forall digit ds /\ (forall c r, rest = c :: r -> ~ digit c).
Proof.
  induction s as [|c s (ds & rest & -> & F & N)].
  - exists [], []. repeat split; auto. discriminate.
  - destruct (Z_le_dec 48 (code c)) as [L|L]; [destruct (Z_le_dec (code c) 57) as [L2|L2]|].
    + exists (c :: ds), rest. repeat split; auto. constructor; [split; assumption|exact F].
    + exists [], (c :: ds ++ rest). repeat split; auto. intros c' r [= <- _] [_ H]. contradiction.
    + exists [], (c :: ds ++ rest). repeat split; auto. intros c' r [= <- _] [H _]. contradiction.
Qed.
Lemma sign_cases s : (exists r, s = ch_minus :: r /\ sign s = (true, r)) \/
  exists sg r, (sg = [] \/ sg = [ch_plus]) /\ s = sg ++ r /\ sign s = (false, r).
Proof.
  destruct s as [|c s]; [right; exists [], []; auto|]. unfold sign. destruct (Ascii.eqb_spec c (ascii_of_nat 45)) as [->|N].
  - left. exists s. auto.
  - right. destruct (Ascii.eqb_spec c (ascii_of_nat 43)) as [->|N2]; [exists [ch_plus], s; auto|exists [], (c :: s); auto].
Qed.
Lemma minus_not_digit : ~ digit ch_minus. Proof. unfold digit; vm_compute; intros [H _]; apply H; reflexivity. Qed.
Lemma plus_not_digit : ~ digit ch_plus. Proof. unfold digit; vm_compute; intros [H _]; apply H; reflexivity. Qed.
Lemma stoi_reads w z : stoi w = Ok z <-> reads_as w z.
Proof.
  rewrite stoi_conclude. split.
  - intros H. destruct (ltrim_spec w) as (sp & E & Fs & _).
    assert (K : forall neg r, conclude neg (read_digits r) = Ok z -> exists ds rest, r = ds ++ rest /\ ds <> [] /\ Forall digit ds /\ (forall c r, rest = c :: r -> ~ digit c) /\
      z = (if neg then - digits_value ds else digits_value ds) /\ int_min <= z <= int_max).
    { intros neg r C. destruct (digits_split r) as (ds & rest & -> & F & N). exists ds, rest.
      assert (ds <> []) by (intros ->; cbn [app] in C; rewrite read_digits_none in C by exact N; discriminate).
      assert (V := read_digits_value ds rest N F). assert (NN := read_digits_nil ds rest F H0).
      remember (read_digits (ds ++ rest)) as u eqn:Eu. clear Eu.
      rewrite (conclude_some neg u NN) in C. rename C into C'. cbv zeta in C'. rewrite V in C'. destruct ((int_min <=? _) && (_ <=? int_max))%Z eqn:B in C'; [|discriminate]. injection C' as C'.
      repeat split; auto; rewrite <- C'; destruct neg; unfold int_min, int_max in *; lia. }
    destruct (sign_cases (ltrim w)) as [(r & E2 & S2)|(sg & r & Hsg & E2 & S2)]; rewrite S2 in H; apply K in H as (ds & rest & -> & Nd & F & N & V & B).
    + exists sp, [ch_minus], ds, rest. rewrite E, E2. repeat split; auto; unfold int_min, int_max in B; lia.
    + exists sp, sg, ds, rest. rewrite E, E2. repeat split; auto; unfold int_min, int_max in B; lia.
  - intros (sp & sg & ds & rest & -> & Fs & Nd & F & N & Hz & B).
    assert (C : exists c r', ds = c :: r' /\ digit c) by (destruct ds as [|c r']; [contradiction|]; inversion F; subst; eauto).
    destruct C as (c & r' & Ec & Dc).
    assert (Lt : ltrim (sp ++ sg ++ ds ++ rest) = sg ++ ds ++ rest).
    { rewrite ltrim_app by exact Fs. apply ltrim_id. intros x y H.
      assert (x = c \/ x = ch_plus \/ x = ch_minus).
      { subst ds. destruct Hz as [[[->| ->] _]|[-> _]]; cbn in H; injection H as <- _; auto. }
      destruct H0 as [->|[->| ->]]; [|apply isspace_false; reflexivity|apply isspace_false; reflexivity]. apply digit_iff in Dc. apply digit_facts in Dc. apply Dc. }
    rewrite Lt.
    assert (Sg : sign (sg ++ ds ++ rest) = (match sg with [] => false | x :: _ => Ascii.eqb x ch_minus end, ds ++ rest)).
    { destruct Hz as [[[->| ->] _]|[-> _]]; try reflexivity. cbn [app]. subst ds. cbn [app]. unfold sign.
      destruct (Ascii.eqb_spec c (ascii_of_nat 45)) as [->|_]; [elim (minus_not_digit Dc)|]. destruct (Ascii.eqb_spec c (ascii_of_nat 43)) as [->|_]; [elim (plus_not_digit Dc)|]. reflexivity. }
    rewrite Sg. apply conclude_ok; [now apply read_digits_nil| |exact B]. rewrite read_digits_value by assumption.
    destruct Hz as [[[->| ->] ->]|[-> ->]]; reflexivity.
Qed.
Lemma stoi_err w e : stoi w = Err e -> e = EThrow.
Proof.
  rewrite stoi_conclude. destruct (sign (ltrim w)) as [neg r]. unfold conclude. intros H.
  destruct (read_digits r); [now injection H as <-|..]; cbv zeta in H;
    match type of H with (if ?b then _ else _) = _ => destruct b end; try discriminate; now injection H as <-.
Qed.

Lemma text_eqb_iff a b : text_eqb a b = true <-> a = b.
Proof.
  revert b. induction a as [|x a IH]; intros [|y b]; cbn [text_eqb]; try (split; [discriminate|discriminate]); [split; reflexivity|].
  rewrite Bool.andb_true_iff, IH, Ascii.eqb_eq. split; [intros [-> ->]; reflexivity|intros [= -> ->]; auto].
Qed.
Lemma node_kind_iff t k : node_kind t = Some k <-> t = node_name k.
Proof.
  unfold node_kind. split.
  - destruct (text_eqb t (txt "FWJ")) eqn:E1; [apply text_eqb_iff in E1; intros [= <-]; exact E1|].
    destruct (text_eqb t (txt "GRJ")) eqn:E2; [apply text_eqb_iff in E2; intros [= <-]; exact E2|].
    destruct (text_eqb t (txt "DMOND")) eqn:E3; [apply text_eqb_iff in E3; intros [= <-]; exact E3|].
    destruct (text_eqb t (txt "DMDND")) eqn:E4; [apply text_eqb_iff in E4; intros [= <-]; exact E4|]. discriminate.
  - intros ->. destruct k; reflexivity.
Qed.
Lemma link_kind_iff t k : link_kind t = Some k <-> t = link_name k.
Proof.
  unfold link_kind. split.
  - destruct (text_eqb t (txt "PQ")) eqn:E1; [apply text_eqb_iff in E1; intros [= <-]; exact E1|].
    destruct (text_eqb t (txt "CTM")) eqn:E2; [apply text_eqb_iff in E2; intros [= <-]; exact E2|].
    destruct (text_eqb t (txt "LQ")) eqn:E3; [apply text_eqb_iff in E3; intros [= <-]; exact E3|].
    destruct (text_eqb t (txt "LTM")) eqn:E4; [apply text_eqb_iff in E4; intros [= <-]; exact E4|]. discriminate.
  - intros ->. destruct k; reflexivity.
Qed.

(** ** the row loop on a whole file *)
Lemma open_left content ls : file_lines content ls -> left_over (open_file (Some content)) ls.
Proof.
  intros [T|(ls' & la & -> & U)]; [apply lo_term; auto|apply lo_unterm; auto].
Qed.
Lemma read_file_rows {A} (f : A -> text -> res A) content ls rs n a fuel : file_lines content ls -> rows_of ls rs -> (Z.to_nat n <= length rs)%nat -> (length ls <= fuel)%nat ->
  read_file f fuel n (Some content) a = foldM f a (firstn (Z.to_nat n) rs).
Proof.
  intros L R H Hf. unfold read_file.
  destruct (read_rows_left f ls rs (Z.to_nat n) fuel (open_file (Some content)) [] a R (open_left _ _ L) H Hf) as
    [(e & E1 & E2)|(a' & s' & line' & ls' & rs' & E1 & E2 & _)]; rewrite E2, E1; reflexivity.
Qed.
Lemma rows_of_fun ls : forall rs rs', rows_of ls rs -> rows_of ls rs' -> rs = rs'.
Proof.
  induction ls as [|l ls IH]; intros rs rs' R R'; inversion R as [|? r ? ? S0 B R0|? c r ? ? S0 B R0]; inversion R' as [|? r' ? ? S1 B1 R1|? c' r' ? ? S1 B1 R1]; subst; eauto.
  - apply stripped_trim in S0, S1. rewrite S0 in S1. destruct B as [B|(x & B)]; congruence.
  - apply stripped_trim in S0, S1. rewrite S0 in S1. destruct B1 as [B1|(x & B1)]; congruence.
  - apply stripped_trim in S0, S1. rewrite S0 in S1. rewrite S1. f_equal. eauto.
Qed.
Lemma rows_of_app l1 l2 r1 r2 : rows_of l1 r1 -> rows_of l2 r2 -> rows_of (l1 ++ l2) (r1 ++ r2).
Proof. induction 1; intros H2; cbn [app]; [exact H2|eapply ro_skip; eauto|eapply ro_row; eauto]. Qed.
(** a row is already stripped and not blank *)
Lemma rows_data ls rs r : rows_of ls rs -> In r rs -> trim r = r /\ is_data r = true.
Proof.
  induction 1 as [|l r0 ls rs S0 B R IH|l c r0 ls rs S0 B R IH]; intros I; [contradiction|auto|]. destruct I as [<-|I]; [|auto].
  apply stripped_trim in S0. split; [rewrite <- S0; apply trim_trim|]. apply is_data_iff. eauto.
Qed.

Lemma foldM_repeat_app {A B} (f : A -> B -> res A) l1 l2 a : foldM f a (l1 ++ l2) = do a' <- foldM f a l1; foldM f a' l2.
Proof. revert a. induction l1 as [|x l1 IH]; intros a; cbn [foldM app]; [reflexivity|]. destruct (f a x); cbn [bind]; auto. Qed.

(** a file whose last line is a data row without newline: the row is read again and again *)
Lemma last_row_again {A} (f : A -> text -> res A) : forall ls rs s n fuel line a la r, rows_of ls rs -> unterminated (st_rest s) ls la -> st_eof s = false -> st_fail s = false ->
  stripped la r -> is_data r = true -> (length rs < n)%nat -> (length ls + n <= fuel)%nat ->
  exists st, read_rows f fuel n s line a = do a' <- foldM f a (rs ++ repeat r (n - length rs)); Ok (a', st a').
Proof.
  induction ls as [|l ls IH]; intros rs s n fuel line a la r R U E1 E2 S0 D Hn Hf.
  - inversion R; subst. destruct n as [|n]; [cbn in Hn; lia|]. destruct fuel as [|fuel]; [cbn in Hf; lia|]. cbn [read_rows app length].
    assert (L : left_over s ([] ++ [la])) by (apply lo_unterm; assumption). cbn [app] in L.
    destruct (getline_next s la [] line L) as (s' & G & L'). rewrite G.
    assert (De : dead s').
    { unfold getline in G. rewrite E1, E2 in G. cbn [orb] in G. destruct U as (U1 & _ & U2 & U3). cbn [unlines map concat app] in U1. rewrite U1 in G.
      rewrite (proj2 (cut_none ch_newline la) U2) in G. destruct la as [|x la]; [contradiction|]. injection G as <-. left. reflexivity. }
    assert (St := stripped_trim _ _ S0). rewrite St, D. cbn [Nat.sub repeat foldM]. destruct (f a r) as [a1|e]; cbn [bind]; [|exists (fun _ => (s, line)); reflexivity].
    apply dead_repeat; auto; [rewrite <- St; apply trim_trim|cbn in Hf; lia].
  - destruct n as [|n]; [lia|]. destruct fuel as [|fuel]; [cbn in Hf; lia|]. cbn [read_rows]. cbn [length] in Hf.
    destruct U as (U1 & U2 & U3). inversion U2 as [|? ? Nl Fl]; subst.
    unfold getline. rewrite E1, E2, U1. unfold unlines. cbn [orb map concat]. rewrite <- !app_assoc. cbn [app]. rewrite cut_line by exact Nl.
    inversion R as [|l0 r0 ls0 rs0 Q0 B R0|l0 c r0 ls0 rs0 Q0 B R0]; subst; apply stripped_trim in Q0; rewrite Q0.
    + assert (Dn : is_data r0 = false).
      { destruct (is_data r0) eqn:E; [|reflexivity]. apply is_data_iff in E as (c & r' & -> & N). destruct B as [B|(r'' & B)]; [discriminate|injection B as -> _; contradiction]. }
      rewrite Dn. eapply IH; eauto; [split; [reflexivity|auto]|lia].
    + rewrite (proj2 (is_data_iff (c :: r0))) by eauto. cbn [app foldM length] in *. destruct (f a (c :: r0)) as [a1|e]; cbn [bind]; [|exists (fun _ => (s, line)); reflexivity].
      eapply IH; eauto; [split; [reflexivity|auto]|lia|lia].
Qed.
