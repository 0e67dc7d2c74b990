(** Proofs about numbers in configuration files. *)
From Coq Require Import Ascii String.
From Verif Require Import Base Base_lemmas Model_Num Proof_Num Model_Text Proof_Text Model_Conf Spec_Conf Proof_Conf.
Local Close Scope string_scope.
Local Open Scope list_scope.

Lemma digit_yes c : is_digit c -> (exists f, digit_uint c = Some f) /\ isspace c = false /\ c <> ascii_of_nat 45 /\ c <> ascii_of_nat 43 /\ nat_of_ascii c <> 46%nat.
Proof.
  intros (n & Hn & ->). cbn [In] in Hn.
  repeat match type of Hn with _ \/ _ => destruct Hn as [<-|Hn] end; try contradiction;
    (split; [eexists; reflexivity|repeat split; try reflexivity; discriminate]).
Qed.
Lemma digit_no c : ~ is_digit c -> digit_uint c = None.
Proof.
  intros H. destruct (digit_uint c) as [f|] eqn:E; [|reflexivity]. exfalso. apply H.
  assert (B : (48 <= nat_of_ascii c <= 57)%nat).
  { unfold digit_uint in E. remember (nat_of_ascii c) as n eqn:En. clear En H.
    do 48 (destruct n as [|n]; [discriminate|]). split; [lia|]. do 10 (destruct n as [|n]; [lia|]). discriminate. }
  exists (nat_of_ascii c - 48)%nat. split.
  - cbn [In]. lia.
  - rewrite <- (ascii_nat_embedding c) at 1. f_equal. lia.
Qed.
Lemma drop_digits_app a r : Forall is_digit a -> (forall c t, r = c :: t -> ~ is_digit c) -> drop_digits (a ++ r) = r.
Proof.
  intros Ha Hr. induction Ha as [|c a Hc Ha IH].
  - destruct r as [|c r]; [reflexivity|]. cbn. now rewrite (digit_no c (Hr c r eq_refl)).
  - cbn. destruct (digit_yes c Hc) as [(f & ->) _]. exact IH.
Qed.
Lemma take_digits_app a r : Forall is_digit a -> (forall c t, r = c :: t -> ~ is_digit c) -> take_digits (a ++ r) = a.
Proof.
  intros Ha Hr. unfold take_digits. rewrite drop_digits_app by assumption. rewrite app_length.
  replace (length a + length r - length r)%nat with (length a) by lia. rewrite firstn_app, firstn_all, Nat.sub_diag. cbn. now rewrite app_nil_r.
Qed.
Lemma horner a : forall z, fold_left (fun acc c => 10 * acc + (Z.of_nat (nat_of_ascii c) - 48)) a z = z * 10 ^ Z.of_nat (length a) + digits_value a.
Proof.
  induction a as [|c a IH]; intros z; [cbn; lia|]. cbn [fold_left]. rewrite IH. cbn [digits_value length].
  rewrite Nat2Z.inj_succ, Z.pow_succ_r by lia. ring.
Qed.
Lemma nat_of_digits_value a : nat_of_digits a = digits_value a.
Proof. unfold nat_of_digits. rewrite horner. lia. Qed.
Lemma digits_value_app a b : digits_value (a ++ b) = digits_value a * 10 ^ Z.of_nat (length b) + digits_value b.
Proof.
  induction a as [|c a IH]; [cbn; lia|]. cbn [app digits_value]. rewrite IH, app_length, Nat2Z.inj_add, Z.pow_add_r by lia. ring.
Qed.
Lemma pow10_neg n : (pow10 (- Z.of_nat n) == / inject_Z (10 ^ Z.of_nat n))%Q.
Proof.
  assert (P : 0 < 10 ^ Z.of_nat n) by (apply Z.pow_pos_nonneg; lia).
  unfold pow10. destruct (Z.leb_spec 0 (- Z.of_nat n)) as [H|H].
  - replace (Z.of_nat n) with 0 by lia. reflexivity.
  - rewrite Z.opp_involutive. destruct (10 ^ Z.of_nat n) as [|p|p]; try lia. reflexivity.
Qed.

(** the sign and blanks before a numeral *)
Definition sgn (neg : bool) : text := if neg then [chr "-"] else [].
Lemma sign_sgn neg a r : a <> [] -> Forall is_digit a -> sign (ltrim (sgn neg ++ a ++ r)) = (neg, a ++ r).
Proof.
  intros Hn Ha. destruct a as [|c a]; [congruence|]. inversion Ha as [|? ? Hc Ha']; subst.
  destruct (digit_yes c Hc) as (_ & Hs & H1 & H2 & _). destruct neg; cbn [sgn app ltrim].
  - reflexivity.
  - rewrite Hs. cbn [sign]. rewrite (eqb_no _ _ H1), (eqb_no _ _ H2). reflexivity.
Qed.
Lemma exponent_none r : no_more r -> exponent r = 0.
Proof.
  intros H. destruct r as [|c r]; [reflexivity|]. destruct (H c r eq_refl) as (_ & _ & He & HE). unfold exponent.
  destruct (Nat.eqb_spec (nat_of_ascii c) 101) as [E|_].
  { exfalso. apply He. rewrite <- (ascii_nat_embedding c), E. reflexivity. }
  destruct (Nat.eqb_spec (nat_of_ascii c) 69) as [E|_]; [|reflexivity].
  exfalso. apply HE. rewrite <- (ascii_nat_embedding c), E. reflexivity.
Qed.

Lemma atof_numeral t q r : numeral t q -> no_more r -> (atof (t ++ r) == q)%Q.
Proof.
  intros H Hr. assert (Hd : forall c u, r = c :: u -> ~ is_digit c) by (intros c u E; apply (Hr c u E)).
  destruct H as [neg a Hn Ha|neg a b Hn Ha Hb]; unfold atof; rewrite <- app_assoc.
  - change (if neg then [chr "-"] else []) with (sgn neg). rewrite sign_sgn by assumption. rewrite take_digits_app, drop_digits_app by assumption.
    destruct r as [|c u] eqn:Er.
    + rewrite app_nil_r. destruct a as [|d a]; [congruence|]. cbn [length]. rewrite nat_of_digits_value. cbn [exponent Z.of_nat].
      change (pow10 (0 - 0)) with 1%Q. unfold signed. destruct neg; ring.
    + assert (E46 : (nat_of_ascii c =? 46)%nat = false).
      { apply Nat.eqb_neq. intros E. destruct (Hr c u eq_refl) as (_ & Hp & _). apply Hp. rewrite <- (ascii_nat_embedding c), E. reflexivity. }
      rewrite E46, app_nil_r, (exponent_none (c :: u) Hr). destruct a as [|d a]; [congruence|]. cbn [length Z.of_nat]. rewrite nat_of_digits_value.
      change (pow10 (0 - 0)) with 1%Q. unfold signed. destruct neg; ring.
  - change (if neg then [chr "-"] else []) with (sgn neg). rewrite <- app_assoc. rewrite sign_sgn by assumption. cbn [app].
    assert (Hp : forall c u, chr "." :: b ++ r = c :: u -> ~ is_digit c).
    { intros c u [= <- _] D. destruct (digit_yes _ D) as (_ & _ & _ & _ & D'). now apply D'. }
    rewrite take_digits_app, drop_digits_app by assumption. change (nat_of_ascii (chr ".") =? 46)%nat with true. cbv iota.
    rewrite take_digits_app, drop_digits_app by assumption. rewrite (exponent_none r Hr).
    replace (0 - Z.of_nat (length b)) with (- Z.of_nat (length b)) by lia.
    destruct (a ++ b) as [|d ab] eqn:Eab; [destruct a; [congruence|discriminate]|]. rewrite <- Eab, nat_of_digits_value, digits_value_app.
    assert (P : ~ (inject_Z (10 ^ Z.of_nat (length b)) == 0)%Q).
    { change 0%Q with (inject_Z 0). rewrite inject_Z_injective. assert (0 < 10 ^ Z.of_nat (length b)) by (apply Z.pow_pos_nonneg; lia). lia. }
    unfold signed. destruct neg; rewrite pow10_neg, inject_Z_plus, inject_Z_mult; field; exact P.
Qed.

Lemma atof_not_numeric t : tight t -> not_numeric t -> atof t = 0%Q.
Proof.
  intros [T _] H. destruct t as [|c r]; [reflexivity|]. destruct (H c r eq_refl) as (Hd & Hp & Hm & Hq & Hv).
  assert (Hs : isspace c = false).
  { pose proof (T c r eq_refl) as Hb. unfold is_blank in Hb. cbn [In] in Hb, Hv. destruct (isspace c) eqn:E; [|reflexivity]. exfalso.
    unfold isspace in E. apply Bool.orb_true_iff in E as [E|E]; [apply Bool.andb_true_iff in E as [E1 E2]; apply Nat.leb_le in E1, E2|apply Nat.eqb_eq in E]; lia. }
  unfold atof. cbn [ltrim]. rewrite Hs. cbn [sign].
  rewrite (eqb_no c (ascii_of_nat 45)) by exact Hm. rewrite (eqb_no c (ascii_of_nat 43)) by exact Hq.
  pose proof (take_digits_app [] (c :: r) ltac:(constructor) ltac:(intros c' u [= <- _]; exact Hd)) as E1.
  pose proof (drop_digits_app [] (c :: r) ltac:(constructor) ltac:(intros c' u [= <- _]; exact Hd)) as E2. cbn [app] in E1, E2. rewrite E1, E2.
  assert (E46 : (nat_of_ascii c =? 46)%nat = false).
  { apply Nat.eqb_neq. intros E. apply Hp. rewrite <- (ascii_nat_embedding c), E. reflexivity. }
  rewrite E46. reflexivity.
Qed.
