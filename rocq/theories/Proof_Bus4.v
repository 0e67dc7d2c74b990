(** Walking times, order in cells, implicit buses. *)
From Verif Require Import Base Base_lemmas Model_Num Proof_Num Model_Bus Spec_Bus Proof_Bus Proof_Bus2 Proof_Bus3.

Definition untouched (p : Z) (w w' : tw) : Prop :=
  (forall x, cnt p (w_at w' x) = cnt p (w_at w x)) /\ w_age w' p = w_age w p /\ w_pas w' p = w_pas w p.
Lemma untouched_refl p w : untouched p w w. Proof. repeat split. Qed.
Lemma untouched_trans p w w1 w2 : untouched p w w1 -> untouched p w1 w2 -> untouched p w w2.
Proof. intros (A & B & C) (A' & B' & C'). split; [intros x; now rewrite A', A|]. split; congruence. Qed.

Lemma moved_cnt p q x y f g l : f x = q :: l -> moved q x y f g -> q <> p -> forall z, cnt p (g z) = cnt p (f z).
Proof.
  intros Hd M N z. rewrite (M z). destruct (place_eqb_spec z y) as [->|].
  - rewrite cnt_app. destruct (place_eqb_spec y x) as [->|].
    + rewrite Hd. cbn. destruct (Z.eqb_spec p q); [congruence|]. lia.
    + cbn. destruct (Z.eqb_spec p q); [congruence|]. lia.
  - destruct (place_eqb_spec z x) as [->|]; [|reflexivity]. rewrite Hd. cbn. destruct (Z.eqb_spec p q); [congruence|]. lia.
Qed.

Lemma enter_cases l w q r w' :
  sound (w_at w) -> w_at w (PIn l) = q :: r -> enter_walk l w q = Ok w' ->
  exists v, p_wait (w_pas w q) = Some v /\
    ((v <= 0 /\ moved q (PIn l) (PWay l) (w_at w) (w_at w') /\ w_age w' = upd (w_age w) q 0 /\ w_pas w' = upd (w_pas w) q (set_wait 0 (w_pas w q))) \/
     (0 < v /\ moved q (PIn l) (PIn l) (w_at w) (w_at w') /\ w_age w' = w_age w /\ w_pas w' = upd (w_pas w) q (set_wait (v - 1) (w_pas w q)))).
Proof.
  intros S Hd E. unfold enter_walk in E. gs E. destruct (p_wait (w_pas w q)) as [v|]; [|discriminate]. exists v. split; [auto|].
  ifs E.
  - left. split; [lia|]. cbv zeta in E.
    assert (memb q (w_at (pop (PIn l) (set_pas q (set_wait 0 (w_pas w q)) w)) (PWay l)) = false) as X.
    { apply memb_false. unfold pop. rewrite at_other by discriminate. intros Hin.
      assert (PWay l = PIn l) by (eapply sound_in; eauto; cbn; rewrite Hd; now left). discriminate. }
    rewrite X in E. injection E as <-. split; [exact (pushpop_moved q (PIn l) (PWay l) w)|]. auto.
  - right. split; [lia|]. injection E as <-. split; [exact (pushpop_moved q (PIn l) (PIn l) w)|]. auto.
Qed.
Lemma enter_other l w q r w' p :
  sound (w_at w) -> w_at w (PIn l) = q :: r -> enter_walk l w q = Ok w' -> q <> p -> untouched p w w'.
Proof.
  intros S Hd E N. destruct (enter_cases l w q r w' S Hd E) as (v & _ & [(_ & M & A & B)|(_ & M & A & B)]);
    (split; [intros x; eapply moved_cnt; eauto|]); rewrite A, B; unfold upd; destruct (Z.eqb_spec p q); split; congruence.
Qed.
Lemma enter_fold l p : forall qs w w' e, sound (w_at w) -> w_at w (PIn l) = qs ++ e -> ~ In p qs ->
  foldM (enter_walk l) w qs = Ok w' -> untouched p w w' /\ sound (w_at w') /\ exists e', w_at w' (PIn l) = e ++ e'.
Proof.
  induction qs as [|q qs IH]; intros w w' e S Hd N H; cbn [foldM] in H.
  - injection H as <-. split; [apply untouched_refl|]. split; auto. exists []. now rewrite app_nil_r.
  - destruct (enter_walk l w q) as [w1|] eqn:E; cbn [bind] in H; [|discriminate].
    assert (U := enter_other l w q _ w1 p S Hd E ltac:(intros ->; apply N; now left)).
    destruct (enter_walk_ok l w q _ w1 S Hd E) as (S1 & _ & e1 & Hd1). rewrite <- app_assoc in Hd1.
    destruct (IH w1 w' (e ++ e1) S1 Hd1 ltac:(intros I; apply N; now right) H) as (U' & S' & e' & Hd').
    split; [eapply untouched_trans; eauto|]. split; auto. exists (e1 ++ e'). now rewrite Hd', app_assoc.
Qed.
Lemma once_split p l : cnt p l = 1%nat -> exists a b, l = a ++ p :: b /\ ~ In p a /\ ~ In p b.
Proof.
  induction l as [|x l IH]; cbn; intros H; [discriminate|]. destruct (Z.eqb_spec p x) as [->|].
  - exists [], l. split; [auto|]. split; [easy|]. apply cnt_none. lia.
  - destruct (IH H) as (a & b & -> & A & B). exists (x :: a), b. split; [auto|]. split; [|auto].
    intros [->|I]; auto.
Qed.
Lemma clear_absent l w w' p : sound (w_at w) -> clear_walk l w = Ok w' -> cnt p (w_at w (PIn l)) = 0%nat ->
  untouched p w w' /\ sound (w_at w').
Proof.
  intros S H N. apply cnt_none in N.
  destruct (enter_fold l p (w_at w (PIn l)) w w' [] S ltac:(now rewrite app_nil_r) N H) as (U & S' & _). auto.
Qed.
Lemma clear_present l w w' p v :
  sound (w_at w) -> clear_walk l w = Ok w' -> cnt p (w_at w (PIn l)) = 1%nat -> p_wait (w_pas w p) = Some v ->
  sound (w_at w') /\ cnt p (w_at w' (PDone l)) = cnt p (w_at w (PDone l)) /\
  (v <= 0 -> cnt p (w_at w' (PIn l)) = 0%nat /\ cnt p (w_at w' (PWay l)) = S (cnt p (w_at w (PWay l))) /\ w_age w' p = 0) /\
  (0 < v -> cnt p (w_at w' (PIn l)) = 1%nat /\ cnt p (w_at w' (PWay l)) = cnt p (w_at w (PWay l)) /\ p_wait (w_pas w' p) = Some (v - 1)).
Proof.
  intros S H C V. unfold clear_walk in H. destruct (once_split _ _ C) as (a & b & E & Na & Nb). rewrite E, foldM_app in H.
  destruct (foldM (enter_walk l) w a) as [w1|] eqn:H1; cbn [bind] in H; [|discriminate]. cbn [foldM] in H.
  destruct (enter_walk l w1 p) as [w2|] eqn:H2; cbn [bind] in H; [|discriminate].
  destruct (enter_fold l p a w w1 (p :: b) S E Na H1) as ((U1 & U2 & U3) & S1 & e1 & Hd1). cbn in Hd1.
  destruct (enter_walk_ok l w1 p _ w2 S1 Hd1 H2) as (S2 & _ & e2 & Hd2). rewrite <- app_assoc in Hd2.
  destruct (enter_fold l p b w2 w' _ S2 Hd2 Nb H) as ((U1' & U2' & U3') & S' & _).
  split; [exact S'|]. destruct (enter_cases l w1 p _ w2 S1 Hd1 H2) as (v' & V' & Cs). rewrite U3 in V'. rewrite V in V'. injection V' as <-.
  assert (C1 : cnt p (w_at w1 (PIn l)) = 1%nat) by now rewrite U1.
  assert (T : cnt p (tl (w_at w1 (PIn l))) = 0%nat) by (rewrite Hd1 in C1 |- *; cbn in *; rewrite Z.eqb_refl in C1; lia).
  destruct Cs as [(L & M & A & B)|(L & M & A & B)].
  - split; [rewrite U1', (M (PDone l)); cbn; apply U1|]. split; [|lia]. intros _. rewrite !U1', (M (PIn l)), (M (PWay l)), U2', A.
    cbn [place_eqb]. rewrite !Z.eqb_refl, cnt_app, upd_same, U1. split; [exact T|]. split; [|reflexivity]. cbn. rewrite Z.eqb_refl. lia.
  - split; [rewrite U1', (M (PDone l)); cbn; apply U1|]. split; [lia|]. intros _. rewrite !U1', (M (PIn l)), (M (PWay l)), U3', B.
    cbn [place_eqb]. rewrite !Z.eqb_refl, cnt_app, upd_same, U1. split; [rewrite T; cbn; rewrite Z.eqb_refl; lia|]. split; [reflexivity|].
    reflexivity.
Qed.

(** ** moving on *)
Lemma walk_other l stamp w q r p : w_at w (PWay l) = q :: r -> q <> p ->
  untouched p w (walk_on l stamp w q) /\ exists e, w_at (walk_on l stamp w q) (PWay l) = r ++ e.
Proof.
  intros Hd N. unfold walk_on. destruct (_ <=? _).
  - assert (M := pushpop_moved q (PWay l) (PDone l) w). split.
    + split; [intros x; eapply moved_cnt; eauto|]. split; reflexivity.
    + exists []. rewrite app_nil_r. eapply (moved_source q (PWay l) (PDone l)); eauto. discriminate.
  - assert (M : moved q (PWay l) (PWay l) (w_at w) (w_at (push (PWay l) q (pop (PWay l) (set_age q (w_age w q + 1) w)))))
      by exact (pushpop_moved q (PWay l) (PWay l) w). split.
    + split; [intros x; eapply moved_cnt; eauto|]. cbn. unfold upd. destruct (Z.eqb_spec p q); [congruence|]. auto.
    + exists [q]. rewrite (M (PWay l)), !place_refl, Hd. reflexivity.
Qed.
Lemma walk_rest l stamp p : forall qs w e, w_at w (PWay l) = qs ++ e -> ~ In p qs ->
  untouched p w (fold_left (walk_on l stamp) qs w) /\ exists e', w_at (fold_left (walk_on l stamp) qs w) (PWay l) = e ++ e'.
Proof.
  induction qs as [|q qs IH]; intros w e Hd N; cbn [fold_left].
  - split; [apply untouched_refl|]. exists []. now rewrite app_nil_r.
  - destruct (walk_other l stamp w q (qs ++ e) p Hd ltac:(intros ->; apply N; now left)) as (U & e1 & Hd1).
    rewrite <- app_assoc in Hd1.
    destruct (IH _ _ Hd1 ltac:(intros I; apply N; now right)) as (U' & e' & Hd').
    split; [eapply untouched_trans; eauto|]. exists (e1 ++ e'). now rewrite Hd', app_assoc.
Qed.
Lemma evolve_absent l stamp ord w p : shuffle ord -> cnt p (w_at w (PWay l)) = 0%nat -> untouched p w (evolve_link l stamp ord w).
Proof.
  intros P N. unfold evolve_link.
  apply (untouched_trans p w (set_at (PWay l) (ord (w_at w (PWay l))) w)).
  - split; [|auto]. intros x. rewrite at_set. destruct (place_eqb_spec x (PWay l)) as [->|]; [|auto].
    symmetry. apply cnt_perm. apply P.
  - eapply (walk_rest l stamp p _ _ []); [rewrite at_same; now rewrite app_nil_r|].
    apply cnt_none. rewrite <- (cnt_perm _ _ (P _)). exact N.
Qed.
Lemma evolve_present l stamp ord w p : shuffle ord -> cnt p (w_at w (PWay l)) = 1%nat ->
  let w' := evolve_link l stamp ord w in
  cnt p (w_at w' (PIn l)) = cnt p (w_at w (PIn l)) /\ w_pas w' p = w_pas w p /\
  (Z.max 0 (stamp - 1) <= w_age w p -> cnt p (w_at w' (PWay l)) = 0%nat /\ cnt p (w_at w' (PDone l)) = S (cnt p (w_at w (PDone l)))) /\
  (w_age w p < Z.max 0 (stamp - 1) -> cnt p (w_at w' (PWay l)) = 1%nat /\ cnt p (w_at w' (PDone l)) = cnt p (w_at w (PDone l)) /\ w_age w' p = w_age w p + 1).
Proof.
  intros P C w'. unfold w', evolve_link. clear w'.
  assert (C' : cnt p (ord (w_at w (PWay l))) = 1%nat) by (rewrite <- (cnt_perm _ _ (P _)); exact C).
  destruct (once_split _ _ C') as (a & b & E & Na & Nb).
  set (w0 := set_at (PWay l) (ord (w_at w (PWay l))) w).
  rewrite E, fold_left_app. cbn [fold_left].
  destruct (walk_rest l stamp p a w0 (p :: b)) as ((U1 & U2 & U3) & e1 & Hd1);
    [unfold w0; rewrite at_same; exact E|exact Na|].
  set (w1 := fold_left (walk_on l stamp) a w0) in *. cbn in Hd1.
  assert (C1 : cnt p (w_at w1 (PWay l)) = 1%nat) by (rewrite U1; unfold w0; now rewrite at_same).
  assert (T : cnt p (tl (w_at w1 (PWay l))) = 0%nat) by (rewrite Hd1 in C1 |- *; cbn in *; rewrite Z.eqb_refl in C1; lia).
  assert (X : exists e2, w_at (walk_on l stamp w1 p) (PWay l) = b ++ e2).
  { unfold walk_on. destruct (_ <=? _).
    - exists e1. unfold push, pop. rewrite at_other by discriminate. rewrite at_same, Hd1. reflexivity.
    - exists (e1 ++ [p]). unfold push, pop. rewrite !at_same. rewrite age_at, Hd1. cbn. now rewrite app_assoc. }
  destruct X as [e2 Hd2].
  destruct (walk_rest l stamp p b (walk_on l stamp w1 p) e2 Hd2 Nb) as ((V1 & V2 & V3) & _).
  rewrite !V1, V2, V3. clear V1 V2 V3 Hd2.
  assert (A : w_age w1 p = w_age w p) by now rewrite U2. assert (Pa : w_pas w1 p = w_pas w p) by now rewrite U3.
  assert (D : cnt p (w_at w1 (PDone l)) = cnt p (w_at w (PDone l))) by (rewrite U1; reflexivity).
  assert (I : cnt p (w_at w1 (PIn l)) = cnt p (w_at w (PIn l))) by (rewrite U1; reflexivity).
  unfold walk_on. rewrite A. destruct (Z.max 0 (stamp - 1) <=? w_age w p) eqn:L.
  - split; [exact I|]. split; [exact Pa|]. split; [|lia]. intros _. unfold push, pop. rewrite at_other by discriminate. rewrite !at_same.
    split; [exact T|]. rewrite at_other by discriminate. rewrite cnt_app, D. cbn. rewrite Z.eqb_refl. lia.
  - split; [exact I|]. split; [exact Pa|]. split; [lia|]. intros _. unfold push, pop. rewrite !at_same. rewrite cnt_app, age_at, T.
    split; [cbn; rewrite Z.eqb_refl; lia|]. split; [exact D|]. cbn. apply upd_same.
Qed.

Lemma walks_inv l stamp p v k w w' :
  0 <= v -> (forall q, once (w_at w) q \/ nowhere (w_at w) q) -> In p (w_at w (PIn l)) -> p_wait (w_pas w p) = Some v ->
  walks l stamp p k w w' -> Z.of_nat k <= v + Z.max 1 stamp ->
  if Z.of_nat k <=? v
  then cnt p (w_at w' (PIn l)) = 1%nat /\ cnt p (w_at w' (PWay l)) = 0%nat /\ cnt p (w_at w' (PDone l)) = 0%nat /\ p_wait (w_pas w' p) = Some (v - Z.of_nat k)
  else if Z.of_nat k <? v + Z.max 1 stamp
  then cnt p (w_at w' (PIn l)) = 0%nat /\ cnt p (w_at w' (PWay l)) = 1%nat /\ cnt p (w_at w' (PDone l)) = 0%nat /\ w_age w' p = Z.of_nat k - v
  else cnt p (w_at w' (PIn l)) = 0%nat /\ cnt p (w_at w' (PWay l)) = 0%nat /\ cnt p (w_at w' (PDone l)) = 1%nat.
Proof.
  intros V S I W H. induction H as [w|k w w1 w2 w3 ord H IH (S2 & X1 & X2 & X3 & X4 & X5) Hc P]; intros B.
  - replace (Z.of_nat 0 <=? v) with true by lia. change (Z.of_nat 0) with 0. rewrite Z.sub_0_r.
    destruct (S p) as [(x & C & N)|N]; [|exfalso; eapply N; eauto].
    destruct (place_dec x (PIn l)) as [->|Nx]; [|exfalso; eapply N; eauto].
    split; [exact C|]. split; [apply cnt_none, N; discriminate|]. split; [apply cnt_none, N; discriminate|]. exact W.
  - specialize (IH S I W ltac:(lia)).
    destruct (Z.of_nat k <=? v) eqn:K1.
    + destruct IH as (A1 & A2 & A3 & A4). rewrite <- X1 in A1. rewrite <- X2 in A2. rewrite <- X3 in A3. rewrite <- X5 in A4.
      destruct (clear_present l w2 w3 p _ S2 Hc A1 A4) as (S3 & D & E1 & E2).
      destruct (Z.of_nat (Datatypes.S k) <=? v) eqn:K2.
      * destruct E2 as (E2 & E3 & E4); [lia|].
        destruct (evolve_absent l stamp ord w3 p P ltac:(lia)) as (U1 & U2 & U3).
        rewrite !U1, U3, E2, E3, D, E4. split; [reflexivity|]. split; [lia|]. split; [lia|]. f_equal. lia.
      * clear E2. destruct E1 as (E2 & E3 & E4); [lia|].
        destruct (evolve_present l stamp ord w3 p P ltac:(lia)) as (F1 & F2 & F3 & F4).
        rewrite E4 in F3, F4.
        destruct (Z.of_nat (Datatypes.S k) <? v + Z.max 1 stamp) eqn:K3.
        { destruct F4 as (F5 & F6 & F7); [lia|]. rewrite F1, F6, F7. split; [lia|]. split; [exact F5|]. split; lia. }
        { destruct F3 as (F5 & F6); [lia|]. rewrite F1, F6, F5. split; [lia|]. split; lia. }
    + replace (Z.of_nat k <? v + Z.max 1 stamp) with true in IH by lia.
      replace (Z.of_nat (Datatypes.S k) <=? v) with false by lia.
      destruct IH as (A1 & A2 & A3 & A4). rewrite <- X1 in A1. rewrite <- X2 in A2. rewrite <- X3 in A3. rewrite <- X4 in A4.
      destruct (clear_absent l w2 w3 p S2 Hc A1) as ((U1 & U2 & U3) & S3).
      destruct (evolve_present l stamp ord w3 p P ltac:(now rewrite U1)) as (F1 & F2 & F3 & F4).
      rewrite U1 in F1. rewrite U2, A4 in F3, F4.
      destruct (Z.of_nat (Datatypes.S k) <? v + Z.max 1 stamp) eqn:K3.
      { destruct F4 as (F5 & F6 & F7); [lia|]. rewrite F1, F6, F7, U1. split; [lia|]. split; [exact F5|]. split; lia. }
      { destruct F3 as (F5 & F6); [lia|]. rewrite F1, F6, F5, U1. split; [lia|]. split; lia. }
Qed.

(** ** cells *)
Lemma cell_drive_order n f sh rt stops c : forall from num w q moved w',
  cell_drive n f sh rt stops c num from w = Ok (q, moved, w') ->
  interleaved from q moved /\ Z.of_nat (length moved) <= Z.max 0 num.
Proof.
  assert (R : forall l : list Z, interleaved l l []) by (induction l; constructor; auto).
  induction from as [|b from IH]; intros num w q moved w' H; cbn [cell_drive] in H.
  - ifs H; injection H as <- <- <-; cbn [length]; split; try constructor; lia.
  - ifs H; [injection H as <- <- <-; split; [apply R|cbn; lia]|].
    destruct (drive n f sh rt stops c b w) as [[held w1]|]; cbn [bind] in H; [|discriminate].
    destruct (cell_drive _ _ _ _ _ _ _ from w1) as [[[q1 m1] w2]|] eqn:E; cbn [bind] in H; [|discriminate].
    destruct held; injection H as <- <- <-; destruct (IH _ _ _ _ _ E) as [I L]; (split; [now constructor|]); cbn [length]; lia.
Qed.
