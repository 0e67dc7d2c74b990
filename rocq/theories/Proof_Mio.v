From Coq Require Import Ascii String Lqa Qround.
From Verif Require Import Base Base_lemmas Model_Num Model_Graph Model_McLink Proof_Link Proof_Link4 Model_Text Model_Io Model_Mio Spec_Io Spec_Mio Proof_Text Proof_Io Proof_Io2.
Local Open Scope list_scope.
Local Open Scope Z_scope.

(** ** loops *)
Section Loops.
Context {A : Type}.
Variable f : A -> text -> res A.

Lemma read_lines_left ls : forall n s line a, left_over s ls -> (n <= length ls)%nat -> read_lines f n s line a = foldM f a (firstn n ls).
Proof.
  induction ls as [|l ls IH]; intros n s line a L H.
  - destruct n; [reflexivity|cbn in H; lia].
  - destruct n as [|n]; [reflexivity|]. cbn [read_lines firstn foldM]. destruct (getline_next s l ls line L) as (s' & -> & L').
    destruct (f a l) as [a'|e]; cbn [bind]; [|reflexivity]. apply IH; [exact L'|cbn in H; lia].
Qed.
Lemma read_lines_dead n : forall s line a, dead s -> read_lines f n s line a = foldM f a (repeat line n).
Proof.
  induction n as [|n IH]; intros s line a D; [reflexivity|]. cbn [read_lines repeat foldM]. destruct (dead_getline s line D) as (s' & -> & D').
  destruct (f a line); cbn [bind]; [now apply IH|reflexivity].
Qed.
(** past the end: the empty line if the last line was terminated, the last line otherwise *)
Lemma read_lines_short_term ls : forall n s line a, st_eof s = false -> st_fail s = false -> terminated (st_rest s) ls -> (length ls <= n)%nat ->
  read_lines f n s line a = foldM f a (ls ++ repeat [] (n - length ls)).
Proof.
  induction ls as [|l ls IH]; intros n s line a E1 E2 T H.
  - cbn [app length]. rewrite Nat.sub_0_r. destruct n as [|n]; [reflexivity|]. cbn [read_lines repeat foldM]. unfold getline. rewrite E1, E2. cbn [orb].
    destruct T as [-> _]. cbn. destruct (f a []); cbn [bind]; [|reflexivity]. apply read_lines_dead. left; reflexivity.
  - destruct n as [|n]; [cbn in H; lia|]. cbn [read_lines app foldM length Nat.sub]. destruct T as [T1 T2]. inversion T2 as [|? ? Nl Fl]; subst.
    unfold getline. rewrite E1, E2, T1. unfold unlines. cbn [orb map concat]. rewrite <- app_assoc. cbn [app]. rewrite cut_line by exact Nl.
    destruct (f a l); cbn [bind]; [|reflexivity]. apply IH; cbn; try split; auto. cbn in H; lia.
Qed.
Lemma read_lines_short_unterm ls la : forall n s line a, st_eof s = false -> st_fail s = false -> unterminated (st_rest s) ls la -> (length ls < n)%nat ->
  read_lines f n s line a = foldM f a (ls ++ repeat la (n - length ls)).
Proof.
  induction ls as [|l ls IH]; intros n s line a E1 E2 (T1 & T2 & T3 & T4) H.
  - cbn [app length]. rewrite Nat.sub_0_r. destruct n as [|n]; [reflexivity|]. cbn [read_lines repeat foldM]. unfold getline. rewrite E1, E2, T1. cbn [orb unlines map concat app].
    rewrite (proj2 (cut_none ch_newline la) T3). destruct la as [|c la]; [contradiction|]. destruct (f a (c :: la)); cbn [bind]; [|reflexivity]. apply read_lines_dead. left; reflexivity.
  - destruct n as [|n]; [cbn in H; lia|]. cbn [read_lines app foldM length Nat.sub]. inversion T2 as [|? ? Nl Fl]; subst.
    unfold getline. rewrite E1, E2, T1. unfold unlines. cbn [orb map concat]. rewrite <- !app_assoc. cbn [app]. rewrite cut_line by exact Nl.
    destruct (f a l); cbn [bind]; [|reflexivity]. apply IH; cbn; auto. { repeat split; auto. } cbn in H; lia.
Qed.
Lemma all_lines_left ls : forall fuel s line a, left_over s ls -> (length ls < fuel)%nat -> all_lines f fuel s line a = foldM f a ls.
Proof.
  induction ls as [|l ls IH]; intros fuel s line a L H; (destruct fuel as [|fuel]; [lia|]); cbn [all_lines foldM].
  - inversion L as [? E1 E2 [E3 _]|ls la ? ? ? Eq|E1 E2]; [|destruct ls; discriminate|].
    + unfold getline. rewrite E1, E2, E3. reflexivity.
    + unfold getline. rewrite E1. reflexivity.
  - destruct (getline_next s l ls line L) as (s' & E & L'). rewrite E.
    assert (F : st_fail s' = false) by (inversion L'; assumption). rewrite F. destruct (f a l); cbn [bind]; [|reflexivity]. apply IH; [exact L'|cbn in H; lia].
Qed.
Lemma skip_left content h ls : file_lines content (h :: ls) -> left_over (fst (skip_line content)) ls /\ snd (skip_line content) = h.
Proof.
  intros L. apply open_left in L. unfold skip_line. destruct (getline_next _ h ls [] L) as (s' & -> & L'). split; [exact L'|reflexivity].
Qed.
Lemma skip_term content h ls : terminated content (h :: ls) -> st_eof (fst (skip_line content)) = false /\ st_fail (fst (skip_line content)) = false /\
  terminated (st_rest (fst (skip_line content))) ls /\ snd (skip_line content) = h.
Proof.
  intros [E F]. inversion F as [|? ? Nl Fl]; subst. unfold skip_line, getline, open_file. cbn [st_eof st_fail orb st_rest]. unfold unlines. cbn [map concat].
  rewrite <- app_assoc. cbn [app]. rewrite cut_line by exact Nl. cbn. repeat split; auto.
Qed.
Lemma skip_unterm content h ls la : unterminated content (h :: ls) la -> st_eof (fst (skip_line content)) = false /\ st_fail (fst (skip_line content)) = false /\
  unterminated (st_rest (fst (skip_line content))) ls la /\ snd (skip_line content) = h.
Proof.
  intros (E & F & N1 & N2). inversion F as [|? ? Nl Fl]; subst. unfold skip_line, getline, open_file. cbn [st_eof st_fail orb st_rest]. unfold unlines. cbn [map concat].
  rewrite <- !app_assoc. cbn [app]. rewrite cut_line by exact Nl. cbn. repeat split; auto.
Qed.
End Loops.

(** ** nodes and links *)
Lemma mnode_kind_iff t k : mnode_kind t = Some k <-> t = mnode_name k.
Proof.
  unfold mnode_kind. split.
  - destruct (text_eqb t (txt "FWJ")) eqn:E1; [apply text_eqb_iff in E1; intros [= <-]; exact E1|].
    destruct (text_eqb t (txt "DMOND")) eqn:E3; [apply text_eqb_iff in E3; intros [= <-]; exact E3|].
    destruct (text_eqb t (txt "DMDND")) eqn:E4; [apply text_eqb_iff in E4; intros [= <-]; exact E4|]. discriminate.
  - intros ->. destruct k; reflexivity.
Qed.
Lemma mlink_kind_iff t k : mlink_kind t = Some k <-> t = mlink_name k.
Proof.
  unfold mlink_kind. split.
  - destruct (text_eqb t (txt "PQ")) eqn:E1; [apply text_eqb_iff in E1; intros [= <-]; exact E1|].
    destruct (text_eqb t (txt "LQ")) eqn:E3; [apply text_eqb_iff in E3; intros [= <-]; exact E3|].
    destruct (text_eqb t (txt "CTM")) eqn:E4; [apply text_eqb_iff in E4; intros [= <-]; exact E4|]. discriminate.
  - intros ->. destruct k; reflexivity.
Qed.
Lemma len3 {A} (ws : list A) : length ws = 3%nat -> exists a b c, ws = [a; b; c].
Proof. destruct ws as [|a [|b [|c [|]]]]; try discriminate. eauto. Qed.
Lemma len2 {A} (ws : list A) : length ws = 2%nat -> exists a b, ws = [a; b].
Proof. destruct ws as [|a [|b [|]]]; try discriminate. eauto. Qed.
Lemma mnode_row_ok stod m l id x : says_mnode stod l id x -> mnode_row stod m l = Ok (insert m id x).
Proof.
  intros (w0 & w1 & w2 & W & R & K & D). apply split_words in W. unfold mnode_row. rewrite W. cbn [length Nat.eqb word nth].
  apply stoi_reads in R. rewrite R. cbn [bind]. rewrite D. cbn [bind]. rewrite (stripped_trim _ _ K), (proj2 (mnode_kind_iff _ _) eq_refl). now destruct x.
Qed.
Lemma mnode_row_inv stod m l m' : mnode_row stod m l = Ok m' -> exists id x, says_mnode stod l id x /\ m' = insert m id x.
Proof.
  unfold mnode_row. destruct (length (split l ch_space) =? 3)%nat eqn:E; [|discriminate]. apply Nat.eqb_eq in E. destruct (len3 _ E) as (w0 & w1 & w2 & W). rewrite W. cbn [word nth]. intros H.
  apply bind_ok in H as (id & R & H). apply bind_ok in H as (pcu & D & H). destruct (mnode_kind (trim w1)) as [k|] eqn:K; [|discriminate]. injection H as <-.
  exists id, (k, pcu). split; [|reflexivity]. exists w0, w1, w2. split; [apply split_words; exact W|]. split; [now apply stoi_reads|]. split; [|exact D].
  apply mnode_kind_iff in K. cbn [fst]. rewrite <- K. apply trim_stripped.
Qed.
Lemma mnode_row_err stod m l e : (forall w e, stod w = Err e -> e = EThrow) -> mnode_row stod m l = Err e -> e = EThrow.
Proof.
  intros Hs. unfold mnode_row. destruct (_ =? 3)%nat; [|now intros [= <-]].
  destruct (stoi _) eqn:N; cbn [bind]; [|apply stoi_err in N; now intros [= <-]].
  destruct (stod _) eqn:S2; cbn [bind]; [|apply Hs in S2; now intros [= <-]].
  destruct (mnode_kind _); [discriminate|now intros [= <-]].
Qed.

Definition of_two (d : two_link) : mprop :=
  in_units (tw_lanes d) (tw_miles d) (tw_mph_c d) (tw_vph_c d) (tw_vpm_c d) (tw_mph_t d) (tw_vph_t d) (tw_vpm_t d).
Lemma of_two_metric d : metric (of_two d) d.
Proof. unfold metric, of_two, in_units. cbn. repeat split; reflexivity. Qed.
Definition margs (x : mlkind * two_link * Q) : mlink_args := {| ma_kind := fst (fst x); ma_prop := of_two (snd (fst x)); ma_pcu := snd x |}.
Lemma len11 {A} (ws : list A) : length ws = 11%nat -> exists a b c d e f g h i j k, ws = [a; b; c; d; e; f; g; h; i; j; k].
Proof. do 11 (destruct ws as [|? ws]; [discriminate|]). destruct ws; [|discriminate]. intros _. repeat eexists. Qed.
Lemma len13 {A} (ws : list A) : length ws = 13%nat -> exists a b c d e f g h i j k l m, ws = [a; b; c; d; e; f; g; h; i; j; k; l; m].
Proof. do 13 (destruct ws as [|? ws]; [discriminate|]). destruct ws; [|discriminate]. intros _. repeat eexists. Qed.
Ltac num_in := match goal with H : reads_as _ _ |- _ => apply stoi_reads in H; rewrite H; clear H; cbn [bind] | H : ?f ?w = Ok _ |- _ => rewrite H; clear H; cbn [bind] end.
Lemma mlink_row_ok stod m l id x : says_mlink stod l id x -> mlink_row stod m l = Ok (insert m id (margs x)).
Proof.
  intros (w0 & w1 & w2 & w3 & w4 & w5 & w6 & w7 & w8 & w9 & w10 & W & R0 & K & H2 & H3 & H4 & H5 & R6 & H7 & H8 & H9 & H10). apply split_words in W. unfold mlink_row. rewrite W. cbn [length Nat.eqb word nth].
  apply stoi_reads in R0, R6. rewrite R0. cbn [bind]. rewrite H2. cbn [bind]. rewrite H3. cbn [bind]. rewrite H4. cbn [bind]. rewrite H5. cbn [bind]. rewrite R6. cbn [bind].
  rewrite H7. cbn [bind]. rewrite H8. cbn [bind]. rewrite H9. cbn [bind]. rewrite H10. cbn [bind].
  rewrite (stripped_trim _ _ K), (proj2 (mlink_kind_iff _ _) eq_refl). reflexivity.
Qed.
Lemma mlink_row_inv stod m l m' : mlink_row stod m l = Ok m' -> exists id x, says_mlink stod l id x /\ m' = insert m id (margs x).
Proof.
  unfold mlink_row. destruct (length (split l ch_space) =? 11)%nat eqn:E; [|discriminate]. apply Nat.eqb_eq in E.
  destruct (len11 _ E) as (w0 & w1 & w2 & w3 & w4 & w5 & w6 & w7 & w8 & w9 & w10 & W). rewrite W. cbn [word nth]. intros H.
  apply bind_ok in H as (id & R0 & H). apply bind_ok in H as (q2 & H2 & H). apply bind_ok in H as (q3 & H3 & H). apply bind_ok in H as (q4 & H4 & H). apply bind_ok in H as (q5 & H5 & H).
  apply bind_ok in H as (q6 & R6 & H). apply bind_ok in H as (q7 & H7 & H). apply bind_ok in H as (q8 & H8 & H). apply bind_ok in H as (q9 & H9 & H). apply bind_ok in H as (q10 & H10 & H).
  destruct (mlink_kind (trim w1)) as [k|] eqn:K; [|discriminate]. injection H as <-.
  exists id, (k, {| tw_miles := q2; tw_lanes := q6; tw_mph_c := q3; tw_vph_c := q4; tw_vpm_c := q5; tw_mph_t := q7; tw_vph_t := q8; tw_vpm_t := q9 |}, q10). split; [|reflexivity].
  exists w0, w1, w2, w3, w4, w5, w6, w7, w8, w9, w10. cbn [fst snd tw_miles tw_lanes tw_mph_c tw_vph_c tw_vpm_c tw_mph_t tw_vph_t tw_vpm_t].
  apply mlink_kind_iff in K. repeat split; auto; try (apply split_words; exact W); try (now apply stoi_reads). rewrite <- K. apply trim_stripped.
Qed.
Lemma mlink_row_err stod m l e : (forall w e, stod w = Err e -> e = EThrow) -> mlink_row stod m l = Err e -> e = EThrow.
Proof.
  intros Hs. unfold mlink_row. destruct (_ =? 11)%nat; [|now intros [= <-]].
  repeat match goal with |- context [stoi ?w] => let N := fresh in destruct (stoi w) eqn:N; cbn [bind]; [|apply stoi_err in N; now intros [= <-]]
    | |- context [stod ?w] => let N := fresh in destruct (stod w) eqn:N; cbn [bind]; [|apply Hs in N; now intros [= <-]] end.
  destruct (mlink_kind _); [discriminate|now intros [= <-]].
Qed.
