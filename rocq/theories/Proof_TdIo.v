From Coq Require Import Ascii String.
From Verif Require Import Base Base_lemmas Model_Num Model_Graph Model_Text Model_Io Model_Mio Spec_Io Spec_Mio Proof_Text Proof_Io Proof_Io2 Proof_Mio Proof_Mio2 Proof_Mio3 Proof_Mio4 Model_TdIo Spec_TdIo.
Local Open Scope list_scope.
Local Open Scope Z_scope.

Lemma whole_stoi w z : whole w z -> stoi (trim w) = Ok z.
Proof. intros (r & S0 & R). rewrite (stripped_trim _ _ S0). now apply stoi_reads. Qed.
Lemma numbers_mapR stof ws v : Forall2 (number stof) ws v -> mapR (fun w => stof (trim w)) ws = Ok v.
Proof. intros F. apply mapR_Forall2. induction F as [|w q ws v (r & S0 & R) F IH]; constructor; [|exact IH]. now rewrite (stripped_trim _ _ S0). Qed.
Lemma F2_len {A B} (P : A -> B -> Prop) l r : Forall2 P l r -> length r = length l.
Proof. induction 1; cbn; congruence. Qed.
Lemma lcost_row_ok stof n m l x : says_lcost stof n l x -> lcost_row stof n m l = Ok (put Z.eqb n m (fst x) (snd x)) /\ length (snd x) = n.
Proof.
  intros (w & ws & W & L & Hw & F). apply split_words in W. pose proof (F2_len _ _ _ F) as L'. split; [|lia]. unfold lcost_row. rewrite W. cbn [length word nth skipn].
  assert (B : (S (length ws) =? n + 1)%nat = true) by (apply Nat.eqb_eq; lia). rewrite B, (whole_stoi _ _ Hw). cbn [bind]. now rewrite (numbers_mapR _ _ _ F).
Qed.
Lemma ncost_row_ok stof n m l x : says_ncost stof n l x -> ncost_row stof n m l = Ok (put pair_eqb n m (fst x) (snd x)) /\ length (snd x) = n.
Proof.
  destruct x as [[i o] v]. intros (w & wi & wo & ws & W & L & Hi & Ho & F). cbn [fst snd] in *. apply split_words in W. pose proof (F2_len _ _ _ F) as L'. split; [|lia]. unfold ncost_row. rewrite W. cbn [length word nth skipn].
  assert (B : (S (S (S (length ws))) =? n + 3)%nat = true) by (apply Nat.eqb_eq; lia). rewrite B, (whole_stoi _ _ Hi). cbn [bind]. rewrite (whole_stoi _ _ Ho). cbn [bind]. now rewrite (numbers_mapR _ _ _ F).
Qed.
Lemma lcost_remark stof n m l : remark l -> lcost_row stof n m l = Err EThrow.
Proof.
  unfold lcost_row. intros [F|(r & ->)].
  - rewrite (blank_words l F). cbn [length]. destruct (n + 1)%nat eqn:E; [lia|reflexivity].
  - destruct (hash_words r) as (w & ws & ->). destruct (_ =? _)%nat; [|reflexivity]. cbn [word nth]. destruct (hash_trim w) as (r' & ->). now rewrite hash_stoi.
Qed.
Lemma ncost_blank stof n m : ncost_row stof n m [] = Err EThrow.
Proof. unfold ncost_row. change (split [] ch_space) with (@nil text). cbn [length]. destruct (n + 3)%nat eqn:E; [lia|reflexivity]. Qed.

Section table.
Context {K : Type} (eqb : K -> K -> bool) (n : nat).
Hypothesis eqb_ok : forall a b, eqb a b = true <-> a = b.

Lemma put_spec m k v : Forall (fun x => length (snd x) = n) m -> length v = n ->
  Forall (fun x => length (snd x) = n) (put eqb n m k v) /\ kfind eqb (put eqb n m k v) k = Some v /\ forall k', k' <> k -> kfind eqb (put eqb n m k v) k' = kfind eqb m k'.
Proof.
  intros F L. induction F as [|[k0 old] m H F IH]; cbn [put kfind].
  - assert (E : eqb k k = true) by now apply eqb_ok. rewrite E. split; [constructor; [exact L|constructor]|]. split; [reflexivity|].
    intros k' N. destruct (eqb k k') eqn:E'; [apply eqb_ok in E'; congruence|reflexivity].
  - cbn [snd] in H. destruct (eqb k0 k) eqn:E.
    + cbn [kfind]. rewrite E, skipn_all2, app_nil_r by lia. split; [constructor; [exact L|exact F]|]. split; [reflexivity|]. intros k' N. apply eqb_ok in E. subst k0.
      destruct (eqb k k') eqn:E'; [apply eqb_ok in E'; congruence|reflexivity].
    + cbn [kfind]. rewrite E. destruct IH as (A & B & C). split; [now constructor|]. split; [exact B|]. intros k' N. destruct (eqb k0 k'); [reflexivity|now apply C].
Qed.
Lemma fill_spec (row : ctable K -> text -> res (ctable K)) (says : text -> K * list Q -> Prop) ls xs :
  (forall m l x, says l x -> row m l = Ok (put eqb n m (fst x) (snd x)) /\ length (snd x) = n) -> Forall2 says ls xs ->
  forall m, Forall (fun x => length (snd x) = n) m -> exists m', foldM row m ls = Ok m' /\ Forall (fun x => length (snd x) = n) m' /\
    (forall k v, last_entry xs k v -> kfind eqb m' k = Some v) /\ forall k, ~ In k (map fst xs) -> kfind eqb m' k = kfind eqb m k.
Proof.
  intros R F. induction F as [|l [k v] ls xs S0 F IH]; intros m Hm.
  - exists m. split; [reflexivity|]. split; [exact Hm|]. split; [|reflexivity]. intros k v (a & b & E & _). now destruct a.
  - cbn [foldM]. destruct (R m l _ S0) as [-> L]. cbn [bind fst snd] in *. destruct (put_spec m k v Hm L) as (A & B & C).
    destruct (IH _ A) as (m' & E & Hm' & L1 & L2). exists m'. split; [exact E|]. split; [exact Hm'|]. split.
    + intros k' v' (a & b & Ex & N). destruct a as [|y a].
      * injection Ex as E1 E2 E3. subst k' v' b. rewrite L2; [exact B|]. intros I. apply in_map_iff in I as (y & Ey & Iy). exact (N _ Iy Ey).
      * injection Ex as _ Ex. apply L1. exists a, b. auto.
    + intros k' N. cbn [map fst] in N. rewrite L2 by (intros I; apply N; now right). apply C. intros ->. apply N. now left.
Qed.
Lemma zero_ok m : Forall (fun x => length (snd x) = n) m -> exists m', zero_all n m = Ok m' /\ Forall (fun x : K * list Q => length (snd x) = n) m' /\
  forall k, kfind eqb m' k = option_map (fun _ => repeat 0%Q n) (kfind eqb m k).
Proof.
  intros F. unfold zero_all. assert (B : forallb (fun x : K * list Q => (n <=? length (snd x))%nat) m = true).
  { apply forallb_forall. intros x I. rewrite Forall_forall in F. rewrite (F _ I). apply Nat.leb_refl. }
  rewrite B. eexists. split; [reflexivity|]. induction F as [|[k0 old] m H F IH]; [split; [constructor|reflexivity]|].
  cbn [forallb] in B. apply andb_true_iff in B as [_ B]. destruct (IH B) as [A C]. cbn [map fst snd kfind] in *. rewrite skipn_all2, app_nil_r by lia. split.
  - constructor; [apply repeat_length|exact A].
  - intros k. destruct (eqb k0 k); [reflexivity|apply C].
Qed.
End table.
Lemma pair_eqb_ok a b : pair_eqb a b = true <-> a = b.
Proof.
  destruct a as [a1 a2], b as [b1 b2]. unfold pair_eqb. cbn [fst snd]. rewrite andb_true_iff, !Z.eqb_eq. split; [intros [-> ->]; reflexivity|intros E; injection E; auto].
Qed.
Lemma zero_bad {K} n (m : ctable K) k v : In (k, v) m -> (length v < n)%nat -> zero_all n m = Err EUB.
Proof.
  intros I L. unfold zero_all. destruct (forallb _ m) eqn:B; [|reflexivity]. rewrite forallb_forall in B. specialize (B _ I). cbn [snd] in B. apply Nat.leb_le in B. lia.
Qed.

(** ** rows that say nothing *)
Lemma stoi_throws w e : stoi w = Err e -> e = EThrow.
Proof. unfold stoi. repeat match goal with |- context [match ?x with _ => _ end] => destruct x end; congruence. Qed.
Lemma mapR_throws {A B} (f : A -> res B) l e : (forall w e, f w = Err e -> e = EThrow) -> mapR f l = Err e -> e = EThrow.
Proof.
  intros H. revert e. induction l as [|x l IH]; intros e; cbn [mapR]; [discriminate|]. destruct (f x) as [y|e'] eqn:E; cbn [bind].
  - destruct (mapR f l) as [r|e'] eqn:E'; cbn [bind]; [discriminate|]. intros X. injection X as <-. eauto.
  - intros X. injection X as <-. eauto.
Qed.
Lemma stoi_whole w z : stoi (trim w) = Ok z -> whole w z.
Proof. intros H. exists (trim w). split; [now apply trim_stripped|]. now apply stoi_reads. Qed.
Lemma mapR_numbers stof ws v : mapR (fun w => stof (trim w)) ws = Ok v -> Forall2 (number stof) ws v.
Proof.
  intros H. apply mapR_Forall2 in H. induction H as [|w q ws v R F IH]; constructor; [|exact IH]. exists (trim w). split; [now apply trim_stripped|exact R].
Qed.
Lemma lcost_row_bad stof n m l : (forall w e, stof w = Err e -> e = EThrow) -> (forall x, ~ says_lcost stof n l x) -> lcost_row stof n m l = Err EThrow.
Proof.
  intros HS N. unfold lcost_row. destruct (split l ch_space) as [|w ws] eqn:E; pose proof (proj2 (split_words l _) E) as W; cbn [length word nth skipn].
  { destruct (n + 1)%nat eqn:Q; [lia|reflexivity]. }
  destruct (Nat.eqb_spec (S (length ws)) (n + 1)) as [L|L]; [|reflexivity].
  destruct (stoi (trim w)) as [k|e] eqn:A; cbn [bind]; [|now rewrite (stoi_throws _ _ A)].
  destruct (mapR _ ws) as [v|e] eqn:B; cbn [bind]; [|apply mapR_throws in B; [now subst|intros; eauto]].
  exfalso. apply (N (k, v)). exists w, ws. split; [exact W|]. split; [lia|]. split; [now apply stoi_whole|now apply mapR_numbers].
Qed.
Lemma ncost_row_bad stof n m l : (forall w e, stof w = Err e -> e = EThrow) -> (forall x, ~ says_ncost stof n l x) -> ncost_row stof n m l = Err EThrow.
Proof.
  intros HS N. unfold ncost_row. destruct (split l ch_space) as [|w [|wi [|wo ws]]] eqn:E; pose proof (proj2 (split_words l _) E) as W; cbn [length word nth skipn].
  1-3: destruct (n + 3)%nat as [|[|[|?]]] eqn:Q; solve [lia|reflexivity].
  destruct (Nat.eqb_spec (S (S (S (length ws)))) (n + 3)) as [L|L]; [|reflexivity].
  destruct (stoi (trim wi)) as [i|e] eqn:A; cbn [bind]; [|now rewrite (stoi_throws _ _ A)].
  destruct (stoi (trim wo)) as [o|e] eqn:A'; cbn [bind]; [|now rewrite (stoi_throws _ _ A')].
  destruct (mapR _ ws) as [v|e] eqn:B; cbn [bind]; [|apply mapR_throws in B; [now subst|intros; eauto]].
  exfalso. apply (N ((i, o), v)). exists w, wi, wo, ws. split; [exact W|]. split; [lia|]. split; [now apply stoi_whole|]. split; [now apply stoi_whole|now apply mapR_numbers].
Qed.
Lemma foldM_bad {A B} (f : A -> B -> res A) ls l : In l ls -> (forall a, f a l = Err EThrow) -> (forall a x e, f a x = Err e -> e = EThrow) -> forall a, foldM f a ls = Err EThrow.
Proof.
  intros I H HE. induction ls as [|y ls IH]; [destruct I|]. intros a. cbn [foldM]. destruct I as [->|I]; [now rewrite H|].
  destruct (f a y) as [a'|e] eqn:E; cbn [bind]; [now apply IH|]. now rewrite (HE _ _ _ E).
Qed.
Lemma lcost_throws stof n : (forall w e, stof w = Err e -> e = EThrow) -> forall m l e, lcost_row stof n m l = Err e -> e = EThrow.
Proof.
  intros HS m l e. unfold lcost_row. destruct (_ =? _)%nat; [|congruence]. destruct (stoi _) as [k|e'] eqn:A; cbn [bind]; [|apply stoi_throws in A; congruence].
  destruct (mapR _ _) as [v|e'] eqn:B; cbn [bind]; [discriminate|]. apply mapR_throws in B; [congruence|intros; eauto].
Qed.
Lemma ncost_throws stof n : (forall w e, stof w = Err e -> e = EThrow) -> forall m l e, ncost_row stof n m l = Err e -> e = EThrow.
Proof.
  intros HS m l e. unfold ncost_row. destruct (_ =? _)%nat; [|congruence]. destruct (stoi _) as [k|e'] eqn:A; cbn [bind]; [|apply stoi_throws in A; congruence].
  destruct (stoi (trim (word _ 2))) as [k'|e'] eqn:A'; cbn [bind]; [|apply stoi_throws in A'; congruence].
  destruct (mapR _ _) as [v|e'] eqn:B; cbn [bind]; [discriminate|]. apply mapR_throws in B; [congruence|intros; eauto].
Qed.
