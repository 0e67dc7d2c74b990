(** Printed decimals. *)
From Coq Require Import Ascii String Qabs Qround Lqa.
From Verif Require Import Base Base_lemmas Model_Num Proof_Num Model_Graph Model_Text Model_Io Model_Conf Spec_Conf Proof_Conf Proof_Conf2 Spec_Io Proof_Text Proof_Io Proof_Io2 Proof_Io3 Model_Buf Spec_Buf.
Local Open Scope Z_scope.
Local Open Scope list_scope.

Lemma half_even_near q : (Qabs (inject_Z (half_even q) - q) <= 1 # 2)%Q.
Proof.
  unfold half_even. pose proof (Qfloor_le q) as A. pose proof (Qlt_floor q) as B. rewrite inject_Z_plus in B. change (inject_Z 1) with 1%Q in B. set (f := Qfloor q) in *.
  destruct (Qltb_spec (q - inject_Z f) (1#2)) as [C|C].
  - rewrite Qabs_neg by lra. lra.
  - destruct (Qltb_spec (1#2) (q - inject_Z f)) as [D|D].
    + rewrite inject_Z_plus. change (inject_Z 1) with 1%Q. rewrite Qabs_pos by lra. lra.
    + destruct (Z.even f); rewrite ?inject_Z_plus; change (inject_Z 1) with 1%Q; [rewrite Qabs_neg by lra|rewrite Qabs_pos by lra]; lra.
Qed.
Lemma half_even_nonneg q : (0 <= q)%Q -> 0 <= half_even q.
Proof.
  intros H. pose proof (half_even_near q) as N. apply Qabs_Qle_condition in N as [N _].
  destruct (Z_lt_le_dec (half_even q) 0) as [K|K]; [exfalso|exact K]. assert (half_even q <= -1) by lia.
  rewrite Zle_Qle in H0. change (inject_Z (-1)) with (-1)%Q in H0. lra.
Qed.

Lemma pdigit_is c : pdigit c -> is_digit c.
Proof. intros (n & H & ->). exists (n - 48)%nat. split; [|f_equal; lia]. assert (n - 48 <= 9)%nat by lia. remember (n - 48)%nat as k. do 10 (destruct k as [|k]; [cbn; tauto|]). lia. Qed.
Lemma pad_len k : forall n, length (pad k n) = k.
Proof. induction k as [|k IH]; intros n; [reflexivity|]. cbn [pad]. rewrite app_length, IH. cbn. lia. Qed.
Lemma pad_digits k : forall n, Forall is_digit (pad k n).
Proof.
  induction k as [|k IH]; intros n; cbn [pad]; [constructor|]. apply Forall_app. split; [apply IH|]. constructor; [|constructor].
  pose proof (Z.mod_pos_bound n 10 eq_refl). exists (Z.to_nat (n mod 10)). split; [|reflexivity]. assert (Z.to_nat (n mod 10) <= 9)%nat by lia.
  remember (Z.to_nat (n mod 10)) as j. do 10 (destruct j as [|j]; [cbn; tauto|]). lia.
Qed.
Lemma conf_value s : Spec_Conf.digits_value s = Spec_Io.digits_value s.
Proof. rewrite <- nat_of_digits_value. reflexivity. Qed.
Lemma io_value_app a b : Spec_Io.digits_value (a ++ b) = Spec_Io.digits_value a * 10 ^ Z.of_nat (length b) + Spec_Io.digits_value b.
Proof. rewrite <- !conf_value. apply digits_value_app. Qed.
Lemma pad_value k : forall n, 0 <= n < 10 ^ Z.of_nat k -> Spec_Io.digits_value (pad k n) = n.
Proof.
  induction k as [|k IH]; intros n H; [cbn in *; lia|]. cbn [pad]. rewrite io_value_app. cbn [length].
  rewrite Nat2Z.inj_succ, Z.pow_succ_r in H by lia. rewrite IH; [|split; [apply Z.div_pos; lia|apply Z.div_lt_upper_bound; lia]].
  pose proof (Z.mod_pos_bound n 10 eq_refl). unfold Spec_Io.digits_value. cbn [fold_left]. unfold code.
  rewrite nat_ascii_embedding by lia. pose proof (Z.div_mod n 10 ltac:(lia)). change (10 ^ Z.of_nat 1) with 10. lia.
Qed.
Lemma print_value n : 0 <= n -> Spec_Io.digits_value (to_string n) = n /\ Forall is_digit (to_string n) /\ to_string n <> [].
Proof.
  intros H. split; [|split; [|apply to_string_nonempty]]; unfold to_string; destruct (n <? 0) eqn:E; try lia.
  - assert (D : Forall digit (print_uint (N.to_uint (Z.to_N n)))) by (apply Forall_forall; intros c I; apply digit_iff; eapply print_digits; eauto).
    pose proof (read_digits_value (print_uint (N.to_uint (Z.to_N n))) [] ltac:(discriminate) D) as V. rewrite app_nil_r, read_print in V. rewrite <- V, DecimalN.Unsigned.of_to. lia.
  - apply Forall_forall. intros c I. apply pdigit_is. eapply print_digits; eauto.
Qed.

Lemma flt_numeral q : exists v, numeral (flt_string q) v /\ (Qabs (v - q) <= 1 # 2000000)%Q.
Proof.
  unfold flt_string. set (a := (if Qltb q 0 then - q else q)%Q). set (n := half_even (a * inject_Z 1000000)).
  assert (Ha : (0 <= a)%Q) by (unfold a; destruct (Qltb_spec q 0); lra).
  assert (Hn : 0 <= n) by (apply half_even_nonneg; change (inject_Z 1000000) with (1000000#1)%Q; nra).
  pose proof (Z.mod_pos_bound n 1000000 eq_refl) as Hm. pose proof (Z.div_mod n 1000000 ltac:(lia)) as Hd.
  assert (Hq : 0 <= n / 1000000) by (apply Z.div_pos; lia).
  destruct (print_value _ Hq) as (V1 & D1 & N1).
  exists (signed (Qltb q 0) (inject_Z (Spec_Conf.digits_value (to_string (n / 1000000))) + inject_Z (Spec_Conf.digits_value (pad 6 (n mod 1000000))) / inject_Z (10 ^ Z.of_nat (length (pad 6 (n mod 1000000)))))).
  split; [exact (numeral_decimal (Qltb q 0) _ _ N1 D1 (pad_digits 6 _))|].
  rewrite !conf_value, V1, pad_value, pad_len by (change (10 ^ Z.of_nat 6) with 1000000; lia). change (inject_Z (10 ^ Z.of_nat 6)) with (1000000#1)%Q.
  assert (E : (inject_Z (n / 1000000) + inject_Z (n mod 1000000) / (1000000#1) == inject_Z n / (1000000#1))%Q).
  { rewrite Hd at 3. rewrite inject_Z_plus, inject_Z_mult. change (inject_Z 1000000) with (1000000#1)%Q. field. }
  pose proof (half_even_near (a * inject_Z 1000000)) as K. fold n in K. change (inject_Z 1000000) with (1000000#1)%Q in K. apply Qabs_Qle_condition in K. apply Qabs_Qle_condition.
  assert (E2 : (inject_Z n / (1000000 # 1) == inject_Z n * (1 # 1000000))%Q) by (unfold Qdiv; reflexivity).
  unfold signed. revert K. unfold a. destruct (Qltb_spec q 0) as [B|B]; intros K; rewrite E, E2; lra.
Qed.

Definition flt_char (c : ascii) : Prop := c = ascii_of_nat 45 \/ c = ascii_of_nat 46 \/ is_digit c.
Lemma flt_chars q c : In c (flt_string q) -> flt_char c.
Proof.
  unfold flt_string. set (a := (if Qltb q 0 then - q else q)%Q). set (n := half_even (a * inject_Z 1000000)).
  assert (Hn : 0 <= n) by (apply half_even_nonneg; change (inject_Z 1000000) with (1000000#1)%Q; unfold a; destruct (Qltb_spec q 0); nra).
  intros H. apply in_app_or in H as [H|H].
  - destruct (Qltb q 0); [destruct H as [<-|[]]; left; reflexivity|destruct H].
  - apply in_app_or in H as [H|H].
    + destruct (print_value (n / 1000000)) as (_ & D & _); [apply Z.div_pos; lia|]. rewrite Forall_forall in D. right. right. auto.
    + destruct H as [<-|H]; [right; left; reflexivity|]. pose proof (pad_digits 6 (n mod 1000000)) as D. rewrite Forall_forall in D. right. right. auto.
Qed.
Lemma flt_char_facts c : flt_char c -> c <> ch_space /\ c <> ch_newline /\ ~ space c /\ c <> ch_hash.
Proof.
  intros [-> |[-> |(n & H & ->)]].
  - repeat split; try discriminate. intros H. apply isspace_iff in H. discriminate.
  - repeat split; try discriminate. intros H. apply isspace_iff in H. discriminate.
  - repeat destruct H as [<-|H]; try destruct H; (repeat split; try discriminate; intros K; apply isspace_iff in K; discriminate).
Qed.
Lemma flt_nonempty q : flt_string q <> [].
Proof. unfold flt_string. destruct (Qltb q 0); [discriminate|]. cbn [app]. intros E. apply app_eq_nil in E as [_ E]. discriminate. Qed.

(** a printed line of numbers *)
Definition fline (qs : list Q) : text := join (map flt_string qs).
Lemma fline_words qs : words (fline qs) (map flt_string qs).
Proof.
  apply join_tokens. apply Forall_forall. intros w I. apply in_map_iff in I as (z & <- & _). split; [apply flt_nonempty|].
  intros J. apply flt_chars in J. apply flt_char_facts in J as (K & _). now apply K.
Qed.
Lemma fline_chars qs c : In c (fline qs) -> c = ch_space \/ flt_char c.
Proof. intros I. apply join_chars in I as [H|(w & J & I)]; [left; exact H|]. apply in_map_iff in J as (z & <- & _). right. eapply flt_chars; eauto. Qed.
Lemma fline_one_line qs : ~ In ch_newline (fline qs).
Proof. intros H. apply fline_chars in H as [H|H]; [discriminate|]. apply flt_char_facts in H. now apply H. Qed.
Lemma fline_stripped qs : stripped (fline qs) (fline qs).
Proof.
  destruct qs as [|q0 qs0] eqn:E0; [exists [], []; repeat split; auto; intros c r H; try discriminate; destruct r; discriminate|]. rewrite <- E0.
  assert (N' : map flt_string qs <> []) by (subst; discriminate).
  assert (F : Forall (fun w : text => w <> []) (map flt_string qs)) by (apply Forall_forall; intros w I; apply in_map_iff in I as (z & <- & _); apply flt_nonempty).
  destruct (join_head _ N' F) as (c & r & E & I). destruct (join_end _ N' F) as (c2 & r2 & E2 & w2 & J & I2).
  assert (Nc : flt_char c). { subst qs. cbn [map hd] in I. eapply flt_chars; eauto. }
  assert (Nc2 : flt_char c2). { apply in_map_iff in J as (z & <- & _). eapply flt_chars; eauto. }
  exists [], []. rewrite app_nil_r. repeat split; auto.
  - intros x r' H. unfold fline in H. rewrite E in H. injection H as <- _. apply (flt_char_facts _ Nc).
  - intros x r' H. unfold fline in H. rewrite E2 in H. apply app_inj_tail in H as [_ <-]. apply (flt_char_facts _ Nc2).
Qed.
Lemma buffer_fline qs : buffer_to_string qs = fline qs ++ [ch_newline].
Proof. unfold buffer_to_string. destruct qs as [|z ns]; [reflexivity|]. unfold fline. rewrite <- removelast_join by discriminate. rewrite map_map. reflexivity. Qed.
Lemma flt_stripped q : stripped (flt_string q) (flt_string q).
Proof. exact (fline_stripped [q]). Qed.

Lemma read_fline stof eps qs : (0 <= eps)%Q -> reads_numerals stof eps -> exists qs', mapR (fun w => stof (trim w)) (map flt_string qs) = Ok qs' /\ Forall2 (near eps) qs' qs.
Proof.
  intros He H. induction qs as [|q qs (qs' & E & F)]; [exists []; split; [reflexivity|constructor]|].
  destruct (flt_numeral q) as (v & Nv & Bv). destruct (H _ _ Nv) as (q' & Eq & Bq). exists (q' :: qs'). cbn [map mapR]. rewrite (stripped_trim _ _ (flt_stripped q)), Eq. cbn [bind]. rewrite E. cbn [bind].
  split; [reflexivity|]. constructor; [|exact F]. unfold near.
  assert (A : (Qabs (q' - q) <= Qabs (q' - v) + Qabs (v - q))%Q).
  { eapply Qle_trans; [|apply Qabs_triangle]. apply Qle_lteq. right. apply Qabs_wd. ring. }
  assert (C : (Qabs v <= Qabs q + (1 # 2000000))%Q).
  { assert (X : (Qabs v <= Qabs q + Qabs (v - q))%Q). { eapply Qle_trans; [|apply Qabs_triangle]. apply Qle_lteq. right. apply Qabs_wd. ring. } lra. }
  assert (D : (eps * Qabs v <= eps * (Qabs q + (1 # 2000000)))%Q) by nra. lra.
Qed.

Lemma half_even_int q n : (q == inject_Z n)%Q -> half_even q = n.
Proof.
  intros E. unfold half_even. assert (F : Qfloor q = n) by (rewrite E; apply Qfloor_Z). rewrite F. destruct (Qltb_spec (q - inject_Z n) (1#2)) as [C|C]; [reflexivity|]. exfalso. rewrite E in C. lra.
Qed.
Lemma half_even_small q : (0 <= q)%Q -> (q < 1 # 2)%Q -> half_even q = 0.
Proof.
  intros A B. unfold half_even. assert (F : Qfloor q = 0).
  { assert (0 <= Qfloor q) by (change 0 with (Qfloor 0); now apply Qfloor_resp_le). assert (Qfloor q < 1); [|lia]. rewrite Zlt_Qlt. apply Qle_lt_trans with q; [apply Qfloor_le|]. change (inject_Z 1) with 1%Q. lra. }
  rewrite F. change (inject_Z 0) with 0%Q. destruct (Qltb_spec (q - 0) (1#2)) as [C|C]; [reflexivity|]. lra.
Qed.
(** the exact value printed *)
Lemma flt_value q n : half_even ((if Qltb q 0 then - q else q) * inject_Z 1000000)%Q = n -> exists v, numeral (flt_string q) v /\ (v == signed (Qltb q 0) (inject_Z n / (1000000#1)))%Q.
Proof.
  intros E. unfold flt_string. set (a := (if Qltb q 0 then - q else q)%Q) in *. rewrite E.
  assert (Ha : (0 <= a)%Q) by (unfold a; destruct (Qltb_spec q 0); lra).
  assert (Hn : 0 <= n) by (rewrite <- E; apply half_even_nonneg; change (inject_Z 1000000) with (1000000#1)%Q; nra).
  pose proof (Z.mod_pos_bound n 1000000 eq_refl) as Hm. pose proof (Z.div_mod n 1000000 ltac:(lia)) as Hd.
  assert (Hq : 0 <= n / 1000000) by (apply Z.div_pos; lia).
  destruct (print_value _ Hq) as (V1 & D1 & N1).
  eexists. split; [exact (numeral_decimal (Qltb q 0) _ _ N1 D1 (pad_digits 6 _))|].
  rewrite !conf_value, V1, pad_value, pad_len by (change (10 ^ Z.of_nat 6) with 1000000; lia). change (inject_Z (10 ^ Z.of_nat 6)) with (1000000#1)%Q.
  assert (X : (inject_Z (n / 1000000) + inject_Z (n mod 1000000) / (1000000#1) == inject_Z n / (1000000#1))%Q).
  { rewrite Hd at 3. rewrite inject_Z_plus, inject_Z_mult. change (inject_Z 1000000) with (1000000#1)%Q. field. }
  unfold signed. destruct (Qltb q 0); rewrite X; reflexivity.
Qed.
