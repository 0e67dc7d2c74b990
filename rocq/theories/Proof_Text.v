(** Proofs about texts, streams and the row loop. *)
From Coq Require Import Ascii String.
From Coq Require Import DecimalN DecimalPos DecimalFacts.
From Verif Require Import Base Base_lemmas Model_Num Model_Graph Model_Text Model_Io Spec_Io Proof_Link4.
Local Close Scope string_scope.
Local Open Scope list_scope.

Lemma isspace_iff c : isspace c = true <-> space c.
Proof.
  unfold isspace, space. split.
  - intros H. assert (E : c = ascii_of_nat (nat_of_ascii c)) by (symmetry; apply ascii_nat_embedding).
    apply Bool.orb_true_iff in H as [H|H].
    + apply Bool.andb_true_iff in H as [H1 H2]. apply Nat.leb_le in H1. apply Nat.leb_le in H2.
      assert (N : (nat_of_ascii c = 9 \/ nat_of_ascii c = 10 \/ nat_of_ascii c = 11 \/ nat_of_ascii c = 12 \/ nat_of_ascii c = 13)%nat) by lia.
      rewrite E. destruct N as [->|[->|[->|[->| ->]]]]; tauto.
    + apply Nat.eqb_eq in H. rewrite E, H. tauto.
  - intros [->|[->|[->|[->|[->| ->]]]]]; reflexivity.
Qed.
Lemma isspace_false c : isspace c = false <-> ~ space c.
Proof. rewrite <- isspace_iff. destruct (isspace c); split; congruence. Qed.

(** ** trim *)
Lemma ltrim_spec s : exists a, s = a ++ ltrim s /\ Forall space a /\ (forall c r, ltrim s = c :: r -> ~ space c).
Proof.
  induction s as [|c s IH]; [exists []; cbn; repeat split; auto; discriminate|]. cbn [ltrim]. destruct (isspace c) eqn:E.
  - destruct IH as (a & E1 & F & N). exists (c :: a). cbn. rewrite <- E1. split; [reflexivity|]. split; [|exact N].
    constructor; [now apply isspace_iff|exact F].
  - exists []. split; [reflexivity|]. split; [constructor|]. intros c' r [= <- <-]. now apply isspace_false.
Qed.
Lemma ltrim_app a s : Forall space a -> ltrim (a ++ s) = ltrim s.
Proof. induction 1 as [|c a H F IH]; [reflexivity|]. cbn [app ltrim]. now rewrite (proj2 (isspace_iff c) H). Qed.
Lemma ltrim_id s : (forall c r, s = c :: r -> ~ space c) -> ltrim s = s.
Proof. destruct s as [|c s]; intros H; [reflexivity|]. cbn [ltrim]. now rewrite (proj2 (isspace_false c) (H c s eq_refl)). Qed.
Lemma ltrim_spaces a : Forall space a -> ltrim a = [].
Proof. intros F. rewrite <- (app_nil_r a). rewrite ltrim_app by exact F. reflexivity. Qed.

Lemma rtrim_spec s : exists b, s = rtrim s ++ b /\ Forall space b /\ (forall c r, rtrim s = r ++ [c] -> ~ space c).
Proof.
  unfold rtrim. destruct (ltrim_spec (rev s)) as (a & E & F & N). exists (rev a). split; [|split].
  - rewrite <- rev_app_distr, <- E. symmetry. apply rev_involutive.
  - apply Forall_rev. exact F.
  - intros c r H. apply (N c (rev r)). rewrite <- (rev_involutive (ltrim (rev s))), H, rev_app_distr. reflexivity.
Qed.

Lemma trim_stripped l : stripped l (trim l).
Proof.
  unfold trim. destruct (rtrim_spec l) as (b & E & Fb & Nb). destruct (ltrim_spec (rtrim l)) as (a & E2 & Fa & Na).
  exists a, b. split; [rewrite app_assoc, <- E2; exact E|]. split; [exact Fa|]. split; [exact Fb|]. split; [exact Na|].
  intros c r' H. apply (Nb c (a ++ r')). rewrite E2, H, app_assoc. reflexivity.
Qed.

Lemma stripped_trim l r : stripped l r -> trim l = r.
Proof.
  intros (a & b & -> & Fa & Fb & Nl & Nr). unfold trim, rtrim.
  rewrite app_assoc, rev_app_distr. rewrite ltrim_app by (apply Forall_rev; exact Fb).
  destruct r as [|c r].
  - rewrite app_nil_r. rewrite (ltrim_spaces (rev a)) by (apply Forall_rev; exact Fa). reflexivity.
  - destruct (exists_last (l := c :: r)) as (r' & c' & E); [discriminate|]. rewrite E in *.
    rewrite (ltrim_id (rev (a ++ r' ++ [c']))).
    + rewrite rev_involutive. rewrite ltrim_app by exact Fa. apply ltrim_id. intros x y H. eapply Nl. exact H.
    + intros x y H. rewrite !rev_app_distr in H. cbn in H. injection H as <- _. apply (Nr c' r'). reflexivity.
Qed.
Lemma stripped_iff l r : stripped l r <-> trim l = r.
Proof. split; [apply stripped_trim|intros <-; apply trim_stripped]. Qed.

(** ** split *)
Lemma cut_some sep s w r : cut sep s = Some (w, r) <-> s = w ++ sep :: r /\ ~ In sep w.
Proof.
  revert w r. induction s as [|c s IH]; intros w r; cbn [cut].
  - split; [discriminate|]. intros [H _]. destruct w; discriminate.
  - destruct (Ascii.eqb_spec c sep) as [->|N].
    + split.
      * intros [= <- <-]. split; [reflexivity|intros []].
      * intros [H I]. destruct w as [|x w]; [injection H as <-; reflexivity|]. injection H as <- _. exfalso. apply I. left. reflexivity.
    + split.
      * intros H. destruct (cut sep s) as [[a b]|] eqn:E; [|discriminate]. injection H as <- <-.
        destruct (proj1 (IH a b) eq_refl) as [-> I]. split; [reflexivity|]. intros [->|J]; [apply N; reflexivity|exact (I J)].
      * intros [H I]. destruct w as [|x w]; [injection H as -> _; contradiction N; reflexivity|]. injection H as <- H.
        rewrite (proj2 (IH w r)); [reflexivity|]. split; [exact H|]. intros J; apply I; right; exact J.
Qed.
Lemma cut_none sep s : cut sep s = None <-> ~ In sep s.
Proof.
  induction s as [|c s IH]; cbn [cut]; [split; auto|]. destruct (Ascii.eqb_spec c sep) as [->|N].
  - split; [discriminate|]. intros H. exfalso. apply H. left. reflexivity.
  - destruct (cut sep s) as [[a b]|].
    + split; [discriminate|]. intros H. assert (Some (a, b) = None) by (apply IH; intros J; apply H; right; exact J). discriminate.
    + split; [|reflexivity]. intros _ [->|J]; [apply N; reflexivity|]. apply IH in J; auto.
Qed.

Lemma tokens_skip sep s ws : tokens sep (skip_sep sep s) ws -> tokens sep s ws.
Proof.
  induction s as [|c s IH]; cbn [skip_sep]; [auto|]. destruct (Ascii.eqb_spec c sep) as [->|N]; [|auto]. intros H. constructor. auto.
Qed.
Lemma skip_sep_len sep s : (length (skip_sep sep s) <= length s)%nat.
Proof. induction s as [|c s IH]; cbn [skip_sep]; [lia|]. destruct (Ascii.eqb c sep); cbn [length] in *; lia. Qed.
Lemma skip_sep_head sep s c r : skip_sep sep s = c :: r -> c <> sep.
Proof. induction s as [|x s IH]; cbn [skip_sep]; [discriminate|]. destruct (Ascii.eqb_spec x sep) as [->|N]; [exact IH|]. intros [= <- _]. exact N. Qed.

Lemma split_loop_tokens sep fuel : forall s, (length s < fuel)%nat -> (forall c r, s = c :: r -> c <> sep) -> tokens sep s (split_loop fuel sep s).
Proof.
  induction fuel as [|fuel IH]; intros s L H; [lia|]. cbn [split_loop]. destruct (cut sep s) as [[w r]|] eqn:E.
  - apply cut_some in E as [-> I].
    assert (w <> []) by (intros ->; apply (H sep r eq_refl); reflexivity).
    apply tk_word; [assumption|exact I|right; eauto|]. constructor. apply tokens_skip. apply IH.
    + rewrite app_length in L. cbn in L. pose proof (skip_sep_len sep r). lia.
    + intros c r'. apply skip_sep_head.
  - apply cut_none in E. destruct s as [|c s]; [constructor|]. rewrite <- (app_nil_r (c :: s)) at 1.
    apply tk_word; [discriminate|exact E|left; reflexivity|constructor].
Qed.
Lemma split_tokens s sep : tokens sep s (split s sep).
Proof.
  unfold split. apply tokens_skip. apply split_loop_tokens; [pose proof (skip_sep_len sep s); lia|]. intros c r. apply skip_sep_head.
Qed.

Lemma word_unique sep (w : text) s w' s' : ~ In sep w -> ~ In sep w' -> (s = [] \/ exists r, s = sep :: r) -> (s' = [] \/ exists r, s' = sep :: r) ->
  w ++ s = w' ++ s' -> w = w' /\ s = s'.
Proof.
  revert w'. induction w as [|c w IH]; intros w' N N' H H' E; destruct w' as [|c' w'].
  - auto.
  - cbn in E. subst s. destruct H as [H|(r & H)]; [discriminate|]. injection H as -> _. exfalso. apply N'. left. reflexivity.
  - cbn in E. subst s'. destruct H' as [H'|(r & H')]; [discriminate|]. injection H' as -> _. exfalso. apply N. left. reflexivity.
  - injection E as -> E. destruct (IH w') as [-> ->]; auto; intros J; [apply N|apply N']; right; exact J.
Qed.
Lemma tokens_unique sep s ws : tokens sep s ws -> forall ws', tokens sep s ws' -> ws = ws'.
Proof.
  induction 1 as [|s ws T IH|w s ws Nw Ns Hs T IH]; intros ws' T'.
  - inversion T' as [|?? Q|w s ws Nw ? ? ? E]; [reflexivity|]. destruct w; [congruence|discriminate].
  - inversion T' as [|s0 ws0 T0|w s0 ws0 Nw Ns Hs T0 E]; subst; [auto|]. destruct w as [|c w]; [contradiction|]. injection E as -> E.
    exfalso. apply Ns. left. reflexivity.
  - inversion T' as [E|s0 ws0 T0 E|w' s0 ws0 Nw' Ns' Hs' T0 E].
    + destruct w; [congruence|discriminate].
    + destruct w as [|c w]; [contradiction|]. injection E as -> _. exfalso. apply Ns. left. reflexivity.
    + destruct (word_unique sep w' s0 w s Ns' Ns Hs' Hs E) as [-> ->]. f_equal. auto.
Qed.
Lemma tokens_split sep s ws : tokens sep s ws <-> split s sep = ws.
Proof. split; [intros T; eapply tokens_unique; [apply split_tokens|exact T]|intros <-; apply split_tokens]. Qed.

(** ** numbers *)
Lemma digit_not_space_first u c r : print_uint u = c :: r -> ~ space c /\ c <> ascii_of_nat 45 /\ c <> ascii_of_nat 43.
Proof. destruct u; cbn; intros E; try discriminate; injection E as <- _; (split; [apply isspace_false; reflexivity|split; discriminate]). Qed.
Lemma read_print u : read_digits (print_uint u) = u.
Proof. induction u; cbn; try rewrite IHu; reflexivity. Qed.
Lemma to_uint_not_nil n : N.to_uint n <> Decimal.Nil.
Proof.
  destruct n as [|p]; [discriminate|]. cbn. apply DecimalPos.Unsigned.to_uint_nonnil.
Qed.
Lemma sign_print u : sign (print_uint u) = (false, print_uint u).
Proof. destruct u; reflexivity. Qed.
Lemma ltrim_print u : ltrim (print_uint u) = print_uint u.
Proof. destruct u; reflexivity. Qed.
Definition conclude (neg : bool) (u : Decimal.uint) : res Z :=
  match u with
  | Decimal.Nil => Err EThrow
  | u => let v := Z.of_N (N.of_uint u) in
         let v := if (neg : bool) then (- v)%Z else v in
         if ((int_min <=? v) && (v <=? int_max))%Z then Ok v else Err EThrow
  end.
Lemma stoi_conclude s : stoi s = let '(neg, r) := sign (ltrim s) in conclude neg (read_digits r).
Proof. unfold stoi. destruct (sign (ltrim s)) as [neg r]. destruct (read_digits r); reflexivity. Qed.
Lemma conclude_some neg u : u <> Decimal.Nil ->
  conclude neg u = let v := Z.of_N (N.of_uint u) in let v := if (neg : bool) then (- v)%Z else v in if ((int_min <=? v) && (v <=? int_max))%Z then Ok v else Err EThrow.
Proof. intros N. destruct u; [contradiction|..]; reflexivity. Qed.
Lemma conclude_ok neg u z : u <> Decimal.Nil -> (if (neg : bool) then - Z.of_N (N.of_uint u) else Z.of_N (N.of_uint u))%Z = z -> int_min <= z <= int_max ->
  conclude neg u = Ok z.
Proof.
  intros N E H. assert (B : ((int_min <=? z) && (z <=? int_max))%Z = true) by lia.
  rewrite (conclude_some neg u N). cbv zeta. rewrite E, B. reflexivity.
Qed.
Lemma stoi_to_string z : int_min <= z <= int_max -> stoi (to_string z) = Ok z.
Proof.
  intros H. rewrite stoi_conclude. unfold to_string. destruct (Z.ltb_spec z 0) as [L|L].
  - change (ltrim (ascii_of_nat 45 :: print_uint (N.to_uint (Z.to_N (- z))))) with (ascii_of_nat 45 :: print_uint (N.to_uint (Z.to_N (- z)))).
    change (sign (ascii_of_nat 45 :: print_uint (N.to_uint (Z.to_N (- z))))) with (true, print_uint (N.to_uint (Z.to_N (- z)))).
    cbv iota beta. rewrite read_print. apply conclude_ok; auto using to_uint_not_nil.
    rewrite DecimalN.Unsigned.of_to, Z2N.id by lia. lia.
  - rewrite ltrim_print, sign_print, read_print. apply conclude_ok; auto using to_uint_not_nil.
    rewrite DecimalN.Unsigned.of_to, Z2N.id by lia. lia.
Qed.

Definition pdigit (c : ascii) : Prop := exists n, (48 <= n <= 57)%nat /\ c = ascii_of_nat n.
Lemma print_digits u c : In c (print_uint u) -> pdigit c.
Proof.
  induction u; cbn [print_uint]; intros I; try contradiction;
    (destruct I as [<-|I]; [eexists; split; [|reflexivity]; lia|auto]).
Qed.
Lemma digit_facts c : pdigit c -> c <> ch_space /\ c <> ch_newline /\ ~ space c /\ c <> ch_hash.
Proof.
  intros (n & L & ->).
  assert (N : (n = 48 \/ n = 49 \/ n = 50 \/ n = 51 \/ n = 52 \/ n = 53 \/ n = 54 \/ n = 55 \/ n = 56 \/ n = 57)%nat) by lia.
  destruct N as [->|[->|[->|[->|[->|[->|[->|[->|[->| ->]]]]]]]]]; (split; [discriminate|split; [discriminate|split; [apply isspace_false; reflexivity|discriminate]]]).
Qed.
Definition number_char (c : ascii) : Prop := c = ascii_of_nat 45 \/ pdigit c.
Lemma number_facts c : number_char c -> c <> ch_space /\ c <> ch_newline /\ ~ space c /\ c <> ch_hash.
Proof. intros [->|D]; [|now apply digit_facts]. split; [discriminate|split; [discriminate|split; [apply isspace_false; reflexivity|discriminate]]]. Qed.
Lemma to_string_chars z c : In c (to_string z) -> number_char c.
Proof.
  unfold to_string. destruct (z <? 0); intros I.
  - destruct I as [<-|I]; [left; reflexivity|right; eapply print_digits; eauto].
  - right. eapply print_digits; eauto.
Qed.
Lemma to_string_nonempty z : to_string z <> [].
Proof.
  unfold to_string. destruct (z <? 0); [discriminate|]. pose proof (to_uint_not_nil (Z.to_N z)) as H. destruct (N.to_uint (Z.to_N z)); [contradiction|..]; discriminate.
Qed.

(** ** streams *)
(** [s] has exactly the lines [ls] left; [eof]: the last line was read and had no newline *)
Inductive left_over (s : stream) : list text -> Prop :=
| lo_term ls : st_eof s = false -> st_fail s = false -> terminated (st_rest s) ls -> left_over s ls
| lo_unterm ls last : st_eof s = false -> st_fail s = false -> unterminated (st_rest s) ls last -> left_over s (ls ++ [last])
| lo_eof : st_eof s = true -> st_fail s = false -> left_over s [].

Lemma cut_line l r : ~ In ch_newline l -> cut ch_newline (l ++ ch_newline :: r) = Some (l, r).
Proof. intros N. apply cut_some. auto. Qed.

Lemma getline_next s l ls line : left_over s (l :: ls) -> exists s', getline s line = (s', l) /\ left_over s' ls.
Proof.
  intros L. unfold getline. inversion L as [ls0 E1 E2 (E3 & F) Eq|ls0 la E1 E2 (E3 & F & N & Nn) Eq|]; subst.
  - rewrite E1, E2. cbn [orb]. inversion F as [|? ? Nl Fl]; subst. rewrite E3. unfold unlines. cbn [map concat]. rewrite <- app_assoc. cbn [app].
    rewrite cut_line by exact Nl. eexists. split; [reflexivity|]. apply lo_term; try reflexivity. split; [reflexivity|exact Fl].
  - rewrite E1, E2. cbn [orb]. rewrite E3. destruct ls0 as [|l0 ls0].
    + injection Eq as -> <-. unfold unlines. cbn [map concat app]. rewrite (proj2 (cut_none ch_newline l) N).
      destruct l as [|c l]; [contradiction|]. eexists. split; [reflexivity|]. apply lo_eof; reflexivity.
    + injection Eq as -> <-. inversion F as [|? ? Nl Fl]; subst. unfold unlines. cbn [map concat]. rewrite <- !app_assoc. cbn [app].
      rewrite cut_line by exact Nl. eexists. split; [reflexivity|]. apply lo_unterm; try reflexivity. split; [reflexivity|auto].
Qed.

Lemma is_data_iff r : is_data r = true <-> exists c r', r = c :: r' /\ c <> ch_hash.
Proof.
  destruct r as [|c r]; cbn [is_data]; [split; [discriminate|intros (c & r' & E & _); discriminate]|].
  destruct (Ascii.eqb_spec c ch_hash) as [->|N]; cbn [negb]; split.
  - discriminate.
  - intros (c & r' & E & H). injection E as <- _. contradiction.
  - eauto.
  - reflexivity.
Qed.

Section Loop.
Context {A : Type}.
Variable f : A -> text -> res A.

(** while there are rows left *)
Lemma read_rows_left ls : forall rs n fuel s line a, rows_of ls rs -> left_over s ls -> (n <= length rs)%nat -> (length ls <= fuel)%nat ->
  (exists e, foldM f a (firstn n rs) = Err e /\ read_rows f fuel n s line a = Err e) \/
  exists a' s' line' ls' rs', foldM f a (firstn n rs) = Ok a' /\ read_rows f fuel n s line a = Ok (a', (s', line')) /\ left_over s' ls' /\
    rows_of ls' rs' /\ rs' = skipn n rs /\ (length ls' <= length ls)%nat.
Proof.
  induction ls as [|l ls IH]; intros rs n fuel s line a R L Hn Hf.
  - inversion R; subst. destruct n as [|n]; [|cbn in Hn; lia]. right. exists a, s, line, [], []. cbn. destruct fuel; repeat split; auto; constructor.
  - destruct n as [|n].
    { right. exists a, s, line, (l :: ls), rs. cbn [firstn foldM skipn]. destruct fuel; repeat split; auto. }
    destruct fuel as [|fuel]; [cbn in Hf; lia|]. cbn [length] in Hf. cbn [read_rows].
    destruct (getline_next s l ls line L) as (s' & -> & L').
    inversion R as [|l0 r ls0 rs0 S0 B R0|l0 c r ls0 rs0 S0 B R0]; subst.
    + apply stripped_trim in S0. rewrite S0.
      assert (D : is_data r = false).
      { destruct (is_data r) eqn:E; [|reflexivity]. apply is_data_iff in E as (c & r' & -> & N). destruct B as [B|(r'' & B)]; [discriminate|injection B as -> _; contradiction]. }
      rewrite D. destruct (IH rs (S n) fuel s' r a R0 L' Hn ltac:(lia)) as [(e & E1 & E2)|(a' & s'' & line' & ls' & rs' & E1 & E2 & L2 & R2 & E3 & H3)].
      * left. exists e. auto.
      * right. exists a', s'', line', ls', rs'. repeat split; auto. cbn. lia.
    + apply stripped_trim in S0. rewrite S0. rewrite (proj2 (is_data_iff (c :: r))) by eauto. cbn [length] in Hn. cbn [firstn foldM skipn].
      destruct (f a (c :: r)) as [a1|e] eqn:Ef; cbn [bind]; [|left; exists e; auto].
      destruct (IH rs0 n fuel s' (c :: r) a1 R0 L' ltac:(lia) ltac:(lia)) as [(e & E1 & E2)|(a' & s'' & line' & ls' & rs' & E1 & E2 & L2 & R2 & E3 & H3)].
      * left. exists e. auto.
      * right. exists a', s'', line', ls', rs'. repeat split; auto. cbn. lia.
Qed.

(** a stream that can deliver no further line *)
Definition dead (s : stream) : Prop := st_eof s = true \/ st_fail s = true.
Lemma dead_getline s line : dead s -> exists s', getline s line = (s', line) /\ dead s'.
Proof.
  intros D. unfold getline. assert (E : st_eof s || st_fail s = true) by (destruct D as [-> | ->]; [reflexivity|apply Bool.orb_true_r]).
  rewrite E. eexists. split; [reflexivity|]. right. reflexivity.
Qed.
Lemma trim_trim l : trim (trim l) = trim l.
Proof.
  apply stripped_trim. destruct (trim_stripped l) as (a & b & _ & _ & _ & N1 & N2).
  exists [], []. rewrite app_nil_r. repeat split; auto.
Qed.
Lemma dead_loop fuel : forall n s line a, dead s -> is_data (trim line) = false -> read_rows f fuel (S n) s line a = Err EFuel.
Proof.
  induction fuel as [|fuel IH]; intros n s line a D B; [reflexivity|]. cbn [read_rows].
  destruct (dead_getline s line D) as (s' & -> & D'). rewrite B. apply (IH n s' (trim line) a D'). now rewrite trim_trim.
Qed.
Lemma dead_repeat n : forall fuel s line a, dead s -> is_data line = true -> trim line = line -> (n <= fuel)%nat ->
  exists st, read_rows f fuel n s line a = do a' <- foldM f a (repeat line n); Ok (a', (st a')).
Proof.
  induction n as [|n IH]; intros fuel s line a D B T Hf.
  - exists (fun _ => (s, line)). cbn. destruct fuel; reflexivity.
  - destruct fuel as [|fuel]; [lia|]. cbn [read_rows repeat foldM]. destruct (dead_getline s line D) as (s' & -> & D'). rewrite T, B.
    destruct (f a line) as [a1|e]; cbn [bind]; [|exists (fun _ => (s, line)); reflexivity]. apply IH; auto. lia.
Qed.

(** past the last row of a file that ends with a newline *)
Lemma empty_loop s line n a fuel : left_over s [] -> st_eof s = false -> read_rows f fuel (S n) s line a = Err EFuel.
Proof.
  intros L E. destruct fuel as [|fuel]; [reflexivity|]. cbn [read_rows]. inversion L as [? E1 E2 [E3 _]|ls la ? ? ? Eq|]; [|destruct ls; discriminate|congruence].
  unfold getline. rewrite E1, E2. cbn [orb]. rewrite E3. cbn [unlines map concat cut]. change (is_data (trim [])) with false.
  apply dead_loop; [left; reflexivity|reflexivity].
Qed.

Lemma hang_term ls : forall rs n fuel s line a a', rows_of ls rs -> st_eof s = false -> st_fail s = false -> terminated (st_rest s) ls -> (length rs < n)%nat ->
  foldM f a rs = Ok a' -> read_rows f fuel n s line a = Err EFuel.
Proof.
  induction ls as [|l ls IH]; intros rs n fuel s line a a' R E1 E2 T Hn F.
  - destruct n as [|n]; [lia|]. apply empty_loop; [|exact E1]. apply lo_term; auto.
  - destruct n as [|n]; [lia|]. destruct fuel as [|fuel]; [reflexivity|]. cbn [read_rows].
    destruct T as [T1 T2]. inversion T2 as [|? ? Nl Fl]; subst.
    unfold getline. rewrite E1, E2, T1. unfold unlines. cbn [orb map concat]. rewrite <- app_assoc. cbn [app]. rewrite cut_line by exact Nl.
    inversion R as [|l0 r ls0 rs0 S0 B R0|l0 c r ls0 rs0 S0 B R0]; subst; apply stripped_trim in S0; rewrite S0.
    + assert (D : is_data r = false).
      { destruct (is_data r) eqn:E; [|reflexivity]. apply is_data_iff in E as (c & r' & -> & N). destruct B as [B|(r'' & B)]; [discriminate|injection B as -> _; contradiction]. }
      rewrite D. eapply (IH rs); eauto; cbn; try split; auto.
    + rewrite (proj2 (is_data_iff (c :: r))) by eauto. cbn [foldM] in F. apply bind_ok in F as (a1 & Ea & F). rewrite Ea. cbn [bind].
      cbn [length] in Hn. eapply (IH rs0); eauto; cbn; try split; auto; lia.
Qed.
End Loop.
