From Coq Require Import Ascii String.
From Verif Require Import Base Base_lemmas Model_Num Model_Graph Model_Text Model_Io Model_Mio Spec_Io Spec_Mio Proof_Text Proof_Io Proof_Io2 Proof_Mio Proof_Mio2 Proof_Mio3 Proof_Mio4 Model_TrackIo Spec_TrackIo.
Local Open Scope list_scope.
Local Open Scope Z_scope.

Lemma stoi_fails w : (exists z, stoi w = Ok z) \/ stoi w = Err EThrow.
Proof.
  unfold stoi. repeat match goal with |- context [match ?e with _ => _ end] => destruct e end; eauto.
Qed.
Lemma od_row_cases m l : (exists p, says_od l p /\ track_od_row m l = Ok (m ++ [p])) \/ (~ (exists p, says_od l p) /\ track_od_row m l = Err EThrow).
Proof.
  unfold track_od_row. destruct (split l ch_space) as [|w0 [|w1 [|w2 ws]]] eqn:E; pose proof (proj2 (split_words l _) E) as W; cbn [length Nat.eqb word nth].
  - right. split; [|reflexivity]. intros (p & a & b & W' & _). apply split_words in W'. congruence.
  - right. split; [|reflexivity]. intros (p & a & b & W' & _). apply split_words in W'. congruence.
  - destruct (stoi_fails w0) as [[o A]|A]; [destruct (stoi_fails w1) as [[d B]|B]|]; rewrite A; cbn [bind]; try rewrite B; cbn [bind].
    + left. exists (o, d). split; [|reflexivity]. exists w0, w1. split; [exact W|]. split; now apply stoi_reads.
    + right. split; [|reflexivity]. intros (p & a & b & W' & Ra & Rb). apply split_words in W'. assert (b = w1) by congruence. subst b. apply stoi_reads in Rb. congruence.
    + right. split; [|reflexivity]. intros (p & a & b & W' & Ra & Rb). apply split_words in W'. assert (a = w0) by congruence. subst a. apply stoi_reads in Ra. congruence.
  - right. split; [|reflexivity]. intros (p & a & b & W' & _). apply split_words in W'. congruence.
Qed.
Lemma int_row_cases m l : (exists t, says_interval l t /\ track_int_row m l = Ok (m ++ [t])) \/ (~ (exists t, says_interval l t) /\ track_int_row m l = Err EThrow).
Proof.
  unfold track_int_row. destruct (split l ch_space) as [|w0 [|w1 ws]] eqn:E; pose proof (proj2 (split_words l _) E) as W; cbn [length Nat.eqb word nth].
  - right. split; [|reflexivity]. intros (p & a & W' & _). apply split_words in W'. congruence.
  - destruct (stoi_fails w0) as [[o A]|A]; rewrite A; cbn [bind].
    + left. exists o. split; [|reflexivity]. exists w0. split; [exact W|]. now apply stoi_reads.
    + right. split; [|reflexivity]. intros (p & a & W' & Ra). apply split_words in W'. assert (a = w0) by congruence. subst a. apply stoi_reads in Ra. congruence.
  - right. split; [|reflexivity]. intros (p & a & W' & _). apply split_words in W'. congruence.
Qed.
Lemma od_fun l p q : says_od l p -> says_od l q -> p = q.
Proof.
  intros (a & b & W & A & B) (a' & b' & W' & A' & B'). apply split_words in W, W'. apply stoi_reads in A, B, A', B'. destruct p, q; cbn [fst snd] in *. congruence.
Qed.
Lemma int_fun l p q : says_interval l p -> says_interval l q -> p = q.
Proof. intros (a & W & A) (a' & W' & A'). apply split_words in W, W'. apply stoi_reads in A, A'. congruence. Qed.

Section rows.
Context {A : Type} (row : list A -> text -> res (list A)) (says : text -> A -> Prop).
Hypothesis cases : forall m l, (exists p, says l p /\ row m l = Ok (m ++ [p])) \/ (~ (exists p, says l p) /\ row m l = Err EThrow).
Hypothesis says_fun : forall l p q, says l p -> says l q -> p = q.

Lemma rows_cases ls : forall m, (exists xs, Forall2 says ls xs /\ foldM row m ls = Ok (m ++ xs)) \/
  ((exists l, In l ls /\ forall x, ~ says l x) /\ foldM row m ls = Err EThrow).
Proof.
  induction ls as [|l ls IH]; intros m; cbn [foldM].
  - left. exists []. rewrite app_nil_r. auto.
  - destruct (cases m l) as [(p & S0 & ->)|(N & ->)]; cbn [bind].
    + destruct (IH (m ++ [p])) as [(xs & F & ->)|((l' & I & N) & ->)].
      * left. exists (p :: xs). rewrite <- app_assoc. auto.
      * right. split; [|reflexivity]. exists l'. split; [now right|exact N].
    + right. split; [|reflexivity]. exists l. split; [now left|]. intros x S0. apply N. eauto.
Qed.
Lemma says_all_fun ls : forall xs ys, Forall2 says ls xs -> Forall2 says ls ys -> xs = ys.
Proof.
  induction ls as [|l ls IH]; intros xs ys F G; inversion F; inversion G; subst; [reflexivity|]. f_equal; eauto.
Qed.
Lemma file_cases file ls fuel : below_header file ls -> (length ls < fuel)%nat ->
  (exists xs, Forall2 says ls xs /\ track_file row fuel file = Ok xs) \/ ((exists l, In l ls /\ forall x, ~ says l x) /\ track_file row fuel file = Err EThrow).
Proof.
  intros B L. destruct file as [content|]; cbn [track_file below_header] in *.
  - pose proof (all_lines_headed row content ls fuel [] B L) as E. destruct (skip_line content) as [s line]. cbn [fst snd] in E. rewrite E. apply (rows_cases ls []).
  - subst ls. left. exists []. auto.
Qed.
End rows.
