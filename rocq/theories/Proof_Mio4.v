From Coq Require Import Ascii String Lqa Permutation.
From Verif Require Import Base Base_lemmas Model_Num Proof_Num Model_Graph Model_McLink Proof_Link Proof_Link4 Model_Text Model_Io Model_Mio Spec_Io Spec_Mio Proof_Text Proof_Io Proof_Io2 Proof_Mio Proof_Mio2 Proof_Mio3.
Local Open Scope list_scope.
Local Open Scope Z_scope.

Lemma all_lines_headed {A} (f : A -> text -> res A) content ls fuel a : headed content ls -> (length ls < fuel)%nat ->
  all_lines f fuel (fst (skip_line content)) (snd (skip_line content)) a = foldM f a ls.
Proof. intros (h & F) L. destruct (skip_left _ _ _ F) as [K _]. now apply all_lines_left. Qed.
Lemma read_lines_headed {A} (f : A -> text -> res A) content ls n a : headed content ls -> (n <= length ls)%nat ->
  read_lines f n (fst (skip_line content)) (snd (skip_line content)) a = foldM f a (firstn n ls).
Proof. intros (h & F) L. destruct (skip_left _ _ _ F) as [K _]. now apply read_lines_left. Qed.
Lemma foldM_fail {A B} (f : A -> B -> res A) l1 x l2 a a' e : foldM f a l1 = Ok a' -> (forall a, f a x = Err e) -> foldM f a (l1 ++ x :: l2) = Err e.
Proof. intros E H. rewrite foldM_app, E. cbn [bind foldM]. now rewrite H. Qed.
Lemma read_lines_term {A} (f : A -> text -> res A) content h ls n a : terminated content (h :: ls) -> (length ls <= n)%nat ->
  read_lines f n (fst (skip_line content)) (snd (skip_line content)) a = foldM f a (ls ++ repeat [] (n - length ls)).
Proof. intros T L. destruct (skip_term _ _ _ T) as (E & F & K & _). now apply read_lines_short_term. Qed.
Lemma read_lines_unterm {A} (f : A -> text -> res A) content h ls la n a : unterminated content (h :: ls) la -> (length ls < n)%nat ->
  read_lines f n (fst (skip_line content)) (snd (skip_line content)) a = foldM f a (ls ++ repeat la (n - length ls)).
Proof. intros T L. destruct (skip_unterm _ _ _ _ T) as (E & F & K & _). now apply read_lines_short_unterm. Qed.
Lemma F2_repeat {A B} (P : A -> B -> Prop) x y k : P x y -> Forall2 P (repeat x k) (repeat y k).
Proof. intros H. induction k; cbn [repeat]; constructor; assumption. Qed.
Lemma F2_firstn {A B} (P : A -> B -> Prop) l r : Forall2 P l r -> forall n, Forall2 P (firstn n l) (firstn n r).
Proof. induction 1; intros [|n]; cbn [firstn]; constructor; auto. Qed.
Lemma last_of_repeat {V} (xs : list (Z * V)) y k j : last_of (xs ++ repeat y (S j)) k = last_of (xs ++ [y]) k.
Proof.
  unfold last_of. assert (R : forall j, rev (repeat y j) = repeat y j).
  { clear. induction j as [|j IH]; [reflexivity|]. cbn [repeat rev]. rewrite IH. clear IH. induction j as [|j IH]; [reflexivity|]. cbn [repeat app]. now rewrite IH. }
  rewrite !rev_app_distr, R. cbn [rev app repeat]. unfold first_of. cbn [find]. destruct (fst y =? k)%Z eqn:B; [reflexivity|]. induction j as [|j IH]; cbn [repeat app find]; [reflexivity|]. rewrite B. exact IH.
Qed.

(** ** long intervals *)
Lemma nth_concat (ls : list (list Q)) n : (0 < n)%nat -> Forall (fun l => length l = n) ls -> forall t, nth t (concat ls) 0%Q = nth (t mod n) (nth (t / n) ls []) 0%Q.
Proof.
  intros P F. induction F as [|l ls L F IH]; intros t; cbn [concat].
  - destruct t; destruct (_ / n)%nat; cbn [nth]; destruct (_ mod n)%nat; reflexivity.
  - destruct (Nat.ltb_spec t n) as [B|B].
    + rewrite Nat.div_small, Nat.mod_small by lia. cbn [nth]. apply app_nth1. lia.
    + rewrite app_nth2 by lia. rewrite L, IH. replace t with (t - n + 1 * n)%nat at 3 4 by lia.
      rewrite Nat.div_add, Nat.mod_add by lia. rewrite (Nat.add_comm _ 1). reflexivity.
Qed.
Lemma nth_firstn_lt {A} (l : list A) d : forall n t, (t < n)%nat -> nth t (firstn n l) d = nth t l d.
Proof. induction l as [|x l IH]; intros [|n] [|t] H; cbn [firstn nth]; try reflexivity; try lia. apply IH. lia. Qed.
Lemma nth_zeros t n : nth t (repeat 0%Q n) 0%Q = 0%Q.
Proof. revert t. induction n as [|n IH]; intros [|t]; cbn [repeat nth]; auto. Qed.
Lemma stored_nth fs nm v t : (0 < nm)%nat -> (t < length v * 15)%nat ->
  nth t (stored 0 fs nm v) 0%Q = if (t mod nm =? 0)%nat then nth (t / nm) v 0%Q else 0%Q.
Proof.
  intros P H. unfold stored. rewrite nth_firstn_lt by exact H.
  assert (F : Forall (fun l => length l = nm) (map (msplit 0 fs nm) v)) by (apply Forall_forall; intros l I; apply in_map_iff in I as (q & <- & _); apply msplit_len; lia).
  rewrite (nth_concat _ nm P F). destruct (Nat.ltb_spec (t / nm) (length v)) as [B|B].
  - rewrite (nth_indep _ [] (msplit 0 fs nm 0%Q)) by (rewrite map_length; exact B). rewrite map_nth. unfold msplit. cbn [Z.eqb]. destruct nm as [|k]; [lia|].
    destruct (t mod S k)%nat as [|m] eqn:E; cbn [Nat.eqb]; [reflexivity|]. cbn [Nat.pred nth]. apply nth_zeros.
  - rewrite (nth_overflow (map _ _)) by (rewrite map_length; exact B). rewrite (nth_overflow v) by exact B. destruct (t mod nm)%nat; reflexivity.
Qed.
Lemma sumQ_zeros n : (sumQ (repeat 0 n) == 0)%Q.
Proof. induction n as [|n IH]; [reflexivity|]. change (0 + sumQ (repeat 0 n) == 0)%Q. rewrite IH. reflexivity. Qed.
Lemma sumQ_same q n : (sumQ (repeat q n) == inject_Z (Z.of_nat n) * q)%Q.
Proof. induction n as [|n IH]; [cbn; ring|]. change (q + sumQ (repeat q n) == inject_Z (Z.of_nat (S n)) * q)%Q. rewrite IH. rewrite Nat2Z.inj_succ. unfold Z.succ. rewrite inject_Z_plus. change (inject_Z 1) with 1%Q. ring. Qed.
Lemma once_sum d ms : at_once d ms -> (sumQ ms == d)%Q.
Proof. intros ->. change (d + sumQ (repeat 0 14) == d)%Q. rewrite sumQ_zeros. ring. Qed.
Lemma evenly_sum fs d ms : evenly fs d ms -> (sumQ ms == d)%Q.
Proof.
  intros (k & K & -> & _). rewrite sumQ_app, sumQ_zeros, sumQ_same. assert (~ inject_Z (Z.of_nat k) == 0)%Q.
  { unfold Qeq, inject_Z. cbn [Qnum Qden]. clear -K. lia. }
  field. assumption.
Qed.

(** ** lists *)
Lemma read_list_ok {A} (f : A -> text -> res A) content h ls n a : file_lines content (h :: ls) -> says_int h n -> (Z.to_nat n <= length ls)%nat ->
  read_list f (Some content) a = foldM f a (firstn (Z.to_nat n) ls).
Proof.
  intros F (r & S0 & R) L. unfold read_list. destruct (skip_left _ _ _ F) as [K E]. destruct (skip_line content) as [s l]. cbn [fst snd] in *. subst l.
  rewrite (stripped_trim _ _ S0). apply stoi_reads in R. rewrite R. cbn [bind]. now apply read_lines_left.
Qed.
Lemma read_list_term {A} (f : A -> text -> res A) content h ls n a : terminated content (h :: ls) -> says_int h n -> (length ls <= Z.to_nat n)%nat ->
  read_list f (Some content) a = foldM f a (ls ++ repeat [] (Z.to_nat n - length ls)).
Proof.
  intros F (r & S0 & R) L. unfold read_list. destruct (skip_left _ _ _ (or_introl F)) as [_ E]. pose proof (read_lines_term f content h ls (Z.to_nat n) a F L) as K. destruct (skip_line content) as [s l]. cbn [fst snd] in *. subst l.
  rewrite (stripped_trim _ _ S0). apply stoi_reads in R. rewrite R. cbn [bind]. exact K.
Qed.
Lemma read_list_unterm {A} (f : A -> text -> res A) content h ls la n a : unterminated content (h :: ls) la -> says_int h n -> (length ls < Z.to_nat n)%nat ->
  read_list f (Some content) a = foldM f a (ls ++ repeat la (Z.to_nat n - length ls)).
Proof.
  intros F (r & S0 & R) L. unfold read_list. assert (F' : file_lines content (h :: ls ++ [la])) by (right; exists (h :: ls), la; auto).
  destruct (skip_left _ _ _ F') as [_ E]. pose proof (read_lines_unterm f content h ls la (Z.to_nat n) a F L) as K. destruct (skip_line content) as [s l]. cbn [fst snd] in *. subst l.
  rewrite (stripped_trim _ _ S0). apply stoi_reads in R. rewrite R. cbn [bind]. exact K.
Qed.
Lemma ints_ok ls zs : Forall2 says_int ls zs -> forall a,
  foldM (fun a l => do z <- stoi (trim l); Ok (a ++ [z])) a ls = Ok (a ++ zs).
Proof.
  induction 1 as [|l z ls zs (r & S0 & R) F IH]; intros a; cbn [foldM]; [now rewrite app_nil_r|]. rewrite (stripped_trim _ _ S0). apply stoi_reads in R. rewrite R. cbn [bind]. rewrite IH, <- app_assoc. reflexivity.
Qed.
Lemma floats_ok stof ls vs : Forall2 (says_floats stof) ls vs -> forall a,
  foldM (fun a l => do v <- mapR (fun w => stof (trim w)) (split l ch_space); Ok (a ++ [v])) a ls = Ok (a ++ vs).
Proof.
  induction 1 as [|l v ls vs (ws & W & V) F IH]; intros a; cbn [foldM]; [now rewrite app_nil_r|]. apply split_words in W. rewrite W.
  rewrite (proj2 (mapR_Forall2 (fun w => stof (trim w)) ws v)); [cbn [bind]; rewrite IH, <- app_assoc; reflexivity|].
  clear -V. induction V as [|w q ws v (r & S0 & R) V IH]; constructor; [now rewrite (stripped_trim _ _ S0)|exact IH].
Qed.
Lemma int_float_row stof (a : list (Z * Q)) l x : says_toll stof l x ->
  (fun (a : list (Z * Q)) l => let ws := split l ch_space in
    if (length ws =? 2)%nat then do z <- stoi (trim (word ws 0)); do q <- stof (trim (word ws 1)); Ok (insert a z q) else Err EThrow) a l = Ok (insert a (fst x) (snd x)).
Proof.
  intros (w0 & w1 & r0 & r1 & W & S0 & S1 & R & F). apply split_words in W. cbv beta zeta. rewrite W. cbn [length Nat.eqb word nth].
  rewrite (stripped_trim _ _ S0), (stripped_trim _ _ S1). apply stoi_reads in R. rewrite R. cbn [bind]. rewrite F. reflexivity.
Qed.

Definition td1_of (x : two_link * Z) (v : Z) : tdrow1 :=
  {| t1_lanes := tw_lanes (fst x); t1_len := (tw_miles (fst x) * 1600)%Q; t1_hold := (tw_vpm_c (fst x) / 1600)%Q; t1_flow := (tw_vph_c (fst x) / 3600)%Q;
     t1_ffs := (tw_mph_c (fst x) * 1600 / 3600)%Q; t1_toll := inject_Z v |}.
Lemma td_line1_ok stod T l x v : says_td_ninth stod l x v ->
  td_line1 stod T l = Ok (fun t k => if (t =? fst (fst x))%Z && (k =? snd (fst x))%Z then Some (td1_of (snd x) v) else T t k).
Proof.
  destruct x as [[t k] [d toll]]. intros ((w0 & w1 & w2 & w3 & w4 & w5 & w6 & w7 & w8 & w9 & w10 & w11 & w12 & pcu & W & R0 & R1 & H3 & H4 & H5 & H6 & R7 & _) & u0 & u1 & u2 & u3 & u4 & u5 & u6 & u7 & u8 & us & W2 & R8).
  cbn [fst snd] in *. apply split_words in W. apply split_words in W2. rewrite W in W2. injection W2 as <- <- <- <- <- <- <- <- <- <-. unfold td_line1. rewrite W. cbn [length Nat.eqb word nth]. apply stoi_reads in R0, R1, R7, R8.
  rewrite R0. cbn [bind]. rewrite R1. cbn [bind]. rewrite H3. cbn [bind]. rewrite H4. cbn [bind]. rewrite H5. cbn [bind]. rewrite H6. cbn [bind]. rewrite R7. cbn [bind]. rewrite R8. reflexivity.
Qed.
Lemma td1_fill stod ls xs : Forall2 (fun l (y : Z * Z * ((two_link * Z) * Z)) => says_td_ninth stod l (fst y, fst (snd y)) (snd (snd y))) ls xs -> forall T,
  exists T', foldM (td_line1 stod) T ls = Ok T' /\ forall t k, T' t k = match last_pair xs t k with Some y => Some (td1_of (fst y) (snd y)) | None => T t k end.
Proof.
  induction 1 as [|l [[t k] y] ls xs S0 F IH]; intros T; [exists T; split; reflexivity|]. cbn [foldM]. rewrite (td_line1_ok stod T l _ _ S0). cbn [bind fst snd].
  edestruct IH as (T' & E & K). exists T'. split; [exact E|]. intros t' k'. rewrite K, last_pair_cons. destruct (last_pair xs t' k'); [reflexivity|]. rewrite (Z.eqb_sym t t'), (Z.eqb_sym k k'). destruct ((t' =? t) && (k' =? k))%Z; reflexivity.
Qed.
