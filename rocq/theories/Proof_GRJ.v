(** Proofs about the general road junction (Model_GRJ). *)
From Verif Require Import Base Model_Num Model_CC Model_Path Model_Link Model_World Model_Node Model_GRJ.
From Verif Require Import Base_lemmas.
From Coq Require Import Lqa.
Local Open Scope Q_scope.

Lemma qltb_t a b : Qltb a b = true <-> a < b.
Proof. unfold Qltb. rewrite negb_true_iff. split; intros H.
  - apply Qnot_le_lt. intros G. apply Qle_bool_iff in G. congruence.
  - destruct (Qle_bool b a) eqn:E; auto. apply Qle_bool_iff in E. lra. Qed.
Lemma qltb_f a b : Qltb a b = false <-> b <= a.
Proof. split; intros H. - apply Qnot_lt_le. intros G. apply qltb_t in G. congruence.
  - destruct (Qltb a b) eqn:E; auto. apply qltb_t in E. lra. Qed.

Lemma ilt_trans x y z : ilt x y = true -> ilt y z = true -> ilt x z = true.
Proof. destruct x, y, z; cbn; try congruence. rewrite !qltb_t. lra. Qed.
Lemma ilt_irr x : ilt x x = false.
Proof. destruct x; cbn; auto. apply qltb_f. lra. Qed.
Lemma ilt_neg_trans x y z : y <> NaN -> ilt x y = false -> ilt y z = false -> ilt x z = false.
Proof. destruct x, y, z; cbn; try congruence. rewrite !qltb_f. lra. Qed.
Lemma ilt_cotrans x y z : y <> NaN -> z <> NaN -> ilt x y = true -> ilt x z = false -> ilt y z = false.
Proof. destruct x, y, z; cbn; try congruence; rewrite ?qltb_t, ?qltb_f; try congruence. lra. Qed.
Lemma ilt_nan x y : ilt x y = true -> y <> NaN.
Proof. destruct x, y; cbn; congruence. Qed.

Definition step (m y : ieee) : ieee := if ilt m y then y else m.
Lemma fold_max_nan l : fold_left step l NaN = NaN.
Proof. induction l; cbn; auto. Qed.
Lemma fold_max l : forall x, x <> NaN ->
  let r := fold_left step l x in
  r <> NaN /\ (r = x \/ In r l) /\ ilt r x = false /\ (forall y, In y l -> y <> NaN -> ilt r y = false).
Proof.
  induction l as [|y l IH]; intros x Hx; cbn [fold_left].
  - split; [exact Hx|]. split; [left; reflexivity|]. split; [apply ilt_irr|intros y []].
  - destruct (ilt x y) eqn:E.
    + assert (step x y = y) as -> by (unfold step; rewrite E; reflexivity).
      assert (Hy := ilt_nan _ _ E). destruct (IH y Hy) as (A & B & C & G). cbv zeta.
      split; [exact A|]. split; [|split].
      * destruct B as [B|B]; [right; left; symmetry; exact B|right; right; exact B].
      * destruct (ilt (fold_left step l y) x) eqn:F; auto.
        rewrite (ilt_trans _ _ _ F E) in C. congruence.
      * intros z [<-|Hz] Nz; auto.
    + assert (step x y = x) as -> by (unfold step; rewrite E; reflexivity).
      destruct (IH x Hx) as (A & B & C & G). cbv zeta. split; [exact A|]. split; [|split].
      * destruct B as [B|B]; [left; exact B|right; right; exact B].
      * exact C.
      * intros z [<-|Hz] Nz; auto. exact (ilt_neg_trans _ x _ Hx C E).
Qed.

Lemma imax_spec l m : imax l = Some m ->
  In m l /\ (m = NaN -> hd_error l = Some NaN) /\ (m <> NaN -> forall y, In y l -> y <> NaN -> ilt m y = false).
Proof.
  destruct l as [|x r]; cbn -[ilt]; intros H; [discriminate|]. injection H as <-.
  change (fold_left _ r x) with (fold_left step r x).
  assert (x = NaN \/ x <> NaN) as [->|Hx] by (destruct x; auto; right; congruence).
  - rewrite fold_max_nan. split; [left; reflexivity|]. split; [reflexivity|congruence].
  - destruct (fold_max r x Hx) as (A & B & C & G). split; [|split].
    + destruct B as [B|B]; [left; symmetry; exact B|right; exact B].
    + congruence.
    + intros _ y [<-|Hy] Ny; auto.
Qed.
Lemma imax_some l : l <> [] -> exists m, imax l = Some m.
Proof. destruct l; [congruence|]. cbn. eauto. Qed.

(** power set *)
Definition grow (acc : list (list Z)) (x : Z) : list (list Z) := (acc ++ map (fun s => s ++ [x]) acc)%list.
Lemma ps_mono l : forall acc A, In A acc -> In A (fold_left grow l acc).
Proof. induction l as [|x l IH]; cbn; intros acc A H; auto. apply IH. unfold grow. apply in_app_iff; auto. Qed.
Lemma ps_all l : forall acc A, In A acc -> In (A ++ l) (fold_left grow l acc).
Proof. induction l as [|x l IH]; cbn; intros acc A H; [rewrite app_nil_r; auto|].
  change (A ++ x :: l)%list with (A ++ [x] ++ l)%list. rewrite app_assoc. apply IH. unfold grow. apply in_app_iff. right.
  apply (in_map (fun s => s ++ [x])%list) in H. exact H. Qed.
Lemma ps_prefix l : forall acc, exists r, fold_left grow l acc = (acc ++ r)%list.
Proof. induction l as [|x l IH]; cbn; intros acc; [exists nil; rewrite app_nil_r; auto|].
  destruct (IH (grow acc x)) as [r E]. rewrite E. unfold grow. rewrite <- app_assoc. eauto. Qed.

Lemma power_full l : In l (power_set l).
Proof. change (power_set l) with (fold_left grow l [[]]). apply (ps_all l [[]] []). left; auto. Qed.
Lemma power_first a l : exists r, filter (fun A => negb (Zlen A =? 0)%Z) (power_set (a :: l)) = [a] :: r.
Proof. change (power_set (a :: l)) with (fold_left grow l [[]; [a]]). destruct (ps_prefix l [[]; [a]]) as [r E]. rewrite E. cbn. eauto. Qed.

Lemma sumQ_c x l : sumQ (x :: l) = x + sumQ l.
Proof. reflexivity. Qed.
Lemma sumQ_n : sumQ [] = 0.
Proof. reflexivity. Qed.
Ltac sq := cbn [map]; rewrite ?sumQ_c, ?sumQ_n.
Lemma sumQ_le {A} (f g : A -> Q) l : (forall x, In x l -> f x <= g x) -> sumQ (map f l) <= sumQ (map g l).
Proof. induction l; intros H; sq; [lra|]. pose proof (H a (or_introl eq_refl)).
  assert (forall x, In x l -> f x <= g x) as G by (intros y h; apply H; right; auto). specialize (IHl G). lra. Qed.
Lemma sumQ_eq {A} (f g : A -> Q) l : (forall x, In x l -> f x == g x) -> sumQ (map f l) == sumQ (map g l).
Proof. induction l; intros H; sq; [lra|]. pose proof (H a (or_introl eq_refl)).
  assert (forall x, In x l -> f x == g x) as G by (intros y h; apply H; right; auto). specialize (IHl G). lra. Qed.
Lemma sumQ_pos {A} (f : A -> Q) l : (forall x, In x l -> 0 <= f x) -> 0 <= sumQ (map f l).
Proof. induction l; intros H; sq; [lra|]. pose proof (H a (or_introl eq_refl)).
  assert (forall x, In x l -> 0 <= f x) as G by (intros y h; apply H; right; auto). specialize (IHl G). lra. Qed.
Lemma sumQ_0 {A} (l : list A) : sumQ (map (fun _ => 0) l) == 0.
Proof. induction l; sq; lra. Qed.
Lemma sumQ_term {A} (f : A -> Q) l x : (forall y, In y l -> 0 <= f y) -> In x l -> f x <= sumQ (map f l).
Proof.
  induction l; intros H []; subst; sq.
  - pose proof (sumQ_pos f l (fun y h => H y (or_intror h))). lra.
  - pose proof (H a (or_introl eq_refl)). assert (forall y, In y l -> 0 <= f y) as G by (intros y h; apply H; right; auto).
    specialize (IHl G H0). lra.
Qed.
Lemma sumQ_plus {A} (f g : A -> Q) l : sumQ (map (fun x => f x + g x) l) == sumQ (map f l) + sumQ (map g l).
Proof. induction l; sq; lra. Qed.
Lemma sumQ_scale {A} k (f : A -> Q) l : sumQ (map (fun x => k * f x) l) == k * sumQ (map f l).
Proof. induction l; sq; [ring|]. rewrite IHl. ring. Qed.

Lemma div_nonneg a b : 0 <= a -> 0 <= b -> 0 <= divide a b.
Proof. intros A B. unfold divide. destruct (Qeq_bool a 0); [lra|]. destruct (Qeq_bool b 0) eqn:E; [lra|].
  apply Qle_shift_div_l; [|lra]. assert (~ b == 0) by (intros G; apply Qeq_bool_iff in G; congruence). lra. Qed.
Lemma div_pos a b : 0 < b -> divide a b == a / b.
Proof. intros B. unfold divide. destruct (Qeq_bool a 0) eqn:E. - apply Qeq_bool_iff in E. rewrite E. field. lra.
  - destruct (Qeq_bool b 0) eqn:F; [apply Qeq_bool_iff in F; lra|reflexivity]. Qed.
Lemma div_zero a b : b == 0 -> divide a b = 0.
Proof. intros B. unfold divide. destruct (Qeq_bool a 0); auto. apply Qeq_bool_iff in B. rewrite B. auto. Qed.

Section One.
  Variables (d C : Z -> Q) (m : Z -> Z -> Q) (s : Z -> Q) (ins : list Z) (b : Z).
  Hypothesis Hne : ins <> [].
  Hypothesis Hs : 0 <= s b.
  Hypothesis Hd : forall a, In a ins -> 0 <= m a b.
  Hypothesis Hdm : forall a, In a ins -> d a == m a b.
  Hypothesis HC : forall a, In a ins -> d a <= C a.

  Notation x a := (ratio m s a b).
  Lemma x_pos a : In a ins -> 0 <= x a.
  Proof. clear - Hs Hd. intros H. apply div_nonneg; auto. Qed.
  Lemma d_pos a : In a ins -> 0 <= d a.
  Proof. clear - Hd Hdm. intros H. rewrite Hdm; auto. Qed.
  Lemma C_pos a : In a ins -> 0 <= C a.
  Proof. clear - HC Hd Hdm. intros H. pose proof (d_pos a H). specialize (HC a H). lra. Qed.

  Definition up A := sumQ (map (fun a => if memb a A then 0 else d a * x a) ins).
  Definition down A := sumQ (map (fun a => if memb a A then C a * x a else 0) ins).
  Lemma bound_eq A : subset_bound d C m s ins b A = idiv (s b - up A) (down A).
  Proof. reflexivity. Qed.
  Lemma down_pos A : 0 <= down A.
  Proof. apply sumQ_pos. intros a H. destruct (memb a A); [|lra]. apply Qmult_le_0_compat; auto using C_pos, x_pos. Qed.

  Definition full := sumQ (map (fun a => d a * x a) ins).
  (** with a vanishing denominator the whole demand outside A counts *)
  Lemma down_zero A : down A == 0 -> full == up A.
  Proof.
    intros H. unfold full, up. apply sumQ_eq. intros a Ha. destruct (memb a A) eqn:E; [|lra].
    assert (C a * x a <= 0) as L.
    { rewrite <- H. pose proof (sumQ_term (fun a => if memb a A then C a * x a else 0) ins a) as T. cbv beta in T.
      rewrite E in T. apply T; auto. intros y Hy. destruct (memb y A); [|lra].
      apply Qmult_le_0_compat; auto using C_pos, x_pos. }
    pose proof (x_pos a Ha) as X. pose proof (d_pos a Ha) as D0. pose proof (HC a Ha) as D1.
    assert (0 <= d a * x a) by (apply Qmult_le_0_compat; auto).
    assert (d a * x a <= C a * x a) by (apply Qmult_le_compat_r; auto). lra.
  Qed.

  Definition f th a := if Qltb (th * C a) (d a) then th * C a else d a.
  Lemma f_le th a : f th a <= d a.
  Proof. unfold f. destruct (Qltb _ _) eqn:E; [apply qltb_t in E; lra|lra]. Qed.
  Lemma f_le2 th a : f th a <= th * C a.
  Proof. unfold f. destruct (Qltb _ _) eqn:E; [lra|apply qltb_f in E; lra]. Qed.
  Lemma f_pos th a : 0 <= th -> In a ins -> 0 <= f th a.
  Proof. intros T H. unfold f. destruct (Qltb _ _); auto using d_pos. apply Qmult_le_0_compat; auto using C_pos. Qed.

  Lemma total_full th : sumQ (map (fun a => f th a * x a) ins) <= full.
  Proof. apply sumQ_le. intros a H. apply Qmult_le_compat_r; auto using f_le, x_pos. Qed.
  Lemma total_mix th A : sumQ (map (fun a => f th a * x a) ins) <= up A + th * down A.
  Proof.
    unfold up, down. rewrite <- sumQ_scale, <- sumQ_plus. apply sumQ_le. intros a H.
    pose proof (x_pos a H) as X. destruct (memb a A).
    - assert (f th a * x a <= th * C a * x a) by (apply Qmult_le_compat_r; auto using f_le2).
      assert (th * C a * x a == th * (C a * x a)) by ring. lra.
    - assert (f th a * x a <= d a * x a) by (apply Qmult_le_compat_r; auto using f_le). lra.
  Qed.

  (** one out-link: the theta that the code computes *)
  Lemma theta_one : exists th, get_theta d C m s ins [b] = Ok (Fin th) /\ 0 <= th /\
    sumQ (map (fun a => f th a * x a) ins) <= s b.
  Proof.
    unfold get_theta.
    destruct (imax_some (map (fun a => Fin (divide (d a) (C a))) ins)) as [e1 E1].
    { destruct ins; [congruence|discriminate]. }
    rewrite E1. apply imax_spec in E1 as (I1 & _). apply in_map_iff in I1 as (a1 & <- & Ha1).
    assert (0 <= divide (d a1) (C a1)) as P1 by (apply div_nonneg; auto using d_pos, C_pos).
    set (th1 := divide (d a1) (C a1)) in *. clearbody th1.
    cbn [map all_some].
    destruct ins as [|a0 r0] eqn:Ei; [congruence|]. rewrite <- Ei in *.
    assert (exists r, filter (fun A => negb (Zlen A =? 0)%Z) (power_set ins) = [a0] :: r) as [rest Ef] by (rewrite Ei; apply power_first).
    unfold out_bound. rewrite Ef.
    destruct (imax_some (map (subset_bound d C m s ins b) ([a0] :: rest))) as [e2 E2]; [discriminate|].
    rewrite E2. cbn [imax fold_left]. apply imax_spec in E2 as (I2 & N2 & M2).
    assert (e2 <> NaN -> ilt e2 (subset_bound d C m s ins b ins) = false \/ subset_bound d C m s ins b ins = NaN) as Full.
    { intros Ne. destruct (subset_bound d C m s ins b ins) eqn:Es; auto; left; rewrite <- Es; apply M2; auto; try congruence;
        rewrite <- Ef; apply in_map, filter_In; (split; [apply power_full|rewrite Ei; reflexivity]). }
    assert (up ins == 0) as U0.
    { unfold up. rewrite (sumQ_eq _ (fun _ => 0) ins). 2:{ intros a Ha. apply memb_In in Ha. rewrite Ha. reflexivity. }
      apply sumQ_0. }
    rewrite bound_eq in Full.
    apply in_map_iff in I2 as (A & EA & _). rewrite bound_eq in EA.
    assert (e2 = NaN -> full <= s b) as CaseN.
    { intros ->. specialize (N2 eq_refl). cbn [map hd_error] in N2. injection N2 as N2. rewrite bound_eq in N2. unfold idiv in N2.
      destruct (Qeq_bool (down [a0]) 0) eqn:Ed; [|discriminate]. apply Qeq_bool_iff in Ed.
      destruct (Qeq_bool (s b - up [a0]) 0) eqn:Eu; [|destruct (Qltb 0 (s b - up [a0])); discriminate].
      apply Qeq_bool_iff in Eu. rewrite (down_zero _ Ed). lra. }
    assert (e2 = PInf -> full <= s b) as CaseP.
    { intros ->. unfold idiv in EA. destruct (Qeq_bool (down A) 0) eqn:Ed; [|discriminate]. apply Qeq_bool_iff in Ed.
      rewrite (down_zero _ Ed). destruct (Qeq_bool (s b - up A) 0); [discriminate|].
      destruct (Qltb 0 (s b - up A)) eqn:El; [|discriminate]. apply qltb_t in El. lra. }
    assert (e2 <> MInf) as CaseM.
    { intros ->. destruct (Full ltac:(congruence)) as [F|F].
      - unfold idiv in F. destruct (Qeq_bool (down ins) 0); [|discriminate].
        destruct (Qeq_bool (s b - up ins) 0) eqn:Ez; cbn in F.
        + (* zero supply: the first bound is undefined *)
          apply Qeq_bool_iff in Ez. assert (s b == 0) as Z0 by lra.
          unfold idiv in EA. destruct (Qeq_bool (down A) 0) eqn:Ed; [|discriminate].
          assert (up A == 0) as UA.
          { unfold up. rewrite (sumQ_eq _ (fun _ => 0) ins). { apply sumQ_0. }
            intros a Ha. destruct (memb a A); [reflexivity|]. unfold ratio. rewrite (div_zero _ _ Z0). ring. }
          destruct (Qeq_bool (s b - up A) 0) eqn:Eu; [discriminate|].
          assert (Qeq_bool (s b - up A) 0 = true) by (apply Qeq_bool_iff; lra). congruence.
        + destruct (Qltb 0 (s b - up ins)) eqn:El; [discriminate|].
          apply qltb_f in El. assert (s b - up ins == 0) as Z1 by lra. apply Qeq_bool_iff in Z1. congruence.
      - unfold idiv in F. destruct (Qeq_bool (down ins) 0) eqn:Ed; [|discriminate].
        destruct (Qeq_bool (s b - up ins) 0) eqn:Ez; [|destruct (Qltb 0 (s b - up ins)); discriminate].
        apply Qeq_bool_iff in Ez. assert (s b == 0) as Z0 by lra.
        unfold idiv in EA. destruct (Qeq_bool (down A) 0) eqn:Ed'; [|discriminate].
        assert (up A == 0) as UA.
        { unfold up. rewrite (sumQ_eq _ (fun _ => 0) ins). { apply sumQ_0. }
          intros a Ha. destruct (memb a A); [reflexivity|]. unfold ratio. rewrite (div_zero _ _ Z0). ring. }
        assert (Qeq_bool (s b - up A) 0 = true) as Q0 by (apply Qeq_bool_iff; lra). rewrite Q0 in EA. discriminate. }
    unfold imin. destruct e2 as [q| | |].
    - (* finite bound *)
      unfold idiv in EA. destruct (Qeq_bool (down A) 0) eqn:Ed.
      { destruct (Qeq_bool (s b - up A) 0); [discriminate|]. destruct (Qltb 0 (s b - up A)); discriminate. }
      injection EA as Eq. subst q.
      assert (0 < down A) as Dp.
      { pose proof (down_pos A). assert (~ down A == 0) by (intros G; apply Qeq_bool_iff in G; congruence). lra. }
      assert (0 <= (s b - up A) / down A) as Qp.
      { destruct (Full ltac:(congruence)) as [F|F].
        - unfold idiv in F. destruct (Qeq_bool (down ins) 0) eqn:Ed2.
          + destruct (Qeq_bool (s b - up ins) 0) eqn:Ez.
            * (* zero supply, so all ratios vanish: contradiction with Dp *)
              apply Qeq_bool_iff in Ez. assert (s b == 0) as Z0 by lra.
              assert (down A == 0).
              { unfold down. rewrite (sumQ_eq _ (fun _ => 0) ins). { apply sumQ_0. }
                intros a Ha. destruct (memb a A); [|reflexivity]. unfold ratio. rewrite (div_zero _ _ Z0). ring. }
              lra.
            * destruct (Qltb 0 (s b - up ins)) eqn:El; [discriminate|].
              apply qltb_f in El. assert (s b - up ins == 0) as Z1 by lra. apply Qeq_bool_iff in Z1. congruence.
          + cbn [ilt] in F. apply qltb_f in F. eapply Qle_trans; [|exact F].
            apply Qle_shift_div_l; [|lra]. pose proof (down_pos ins). assert (~ down ins == 0) by (intros G; apply Qeq_bool_iff in G; congruence). lra.
        - unfold idiv in F. destruct (Qeq_bool (down ins) 0) eqn:Ed2; [|discriminate].
          destruct (Qeq_bool (s b - up ins) 0) eqn:Ez; [|destruct (Qltb 0 (s b - up ins)); discriminate].
          apply Qeq_bool_iff in Ez. assert (s b == 0) as Z0 by lra.
          assert (down A == 0).
          { unfold down. rewrite (sumQ_eq _ (fun _ => 0) ins). { apply sumQ_0. }
            intros a Ha. destruct (memb a A); [|reflexivity]. unfold ratio. rewrite (div_zero _ _ Z0). ring. }
          lra. }
      assert (forall th, 0 <= th -> th <= (s b - up A) / down A -> sumQ (map (fun a => f th a * x a) ins) <= s b) as Tot.
      { intros th T0 T1. pose proof (total_mix th A) as M.
        assert (th * down A <= (s b - up A) / down A * down A) by (apply Qmult_le_compat_r; lra).
        assert ((s b - up A) / down A * down A == s b - up A) by (field; lra). lra. }
      cbn [ilt]. destruct (Qltb ((s b - up A) / down A) th1) eqn:E.
      + eexists. split; [reflexivity|]. split; [auto|apply Tot; lra].
      + apply qltb_f in E. exists th1. split; [reflexivity|]. split; [auto|apply Tot; lra].
    - exists th1. split; [reflexivity|]. split; [auto|]. pose proof (total_full th1). pose proof (CaseP eq_refl). lra.
    - congruence.
    - exists th1. split; [reflexivity|]. split; [auto|]. pose proof (total_full th1). pose proof (CaseN eq_refl). lra.
  Qed.

  Lemma grj_one : exists fl q, grj_flow d C m s ins [b] = Ok fl /\
    (forall a, In a ins -> fl a b = Fin (q a) /\ 0 <= q a /\ q a <= m a b) /\
    sumQ (map q ins) <= s b.
  Proof.
    destruct theta_one as (th & ET & T0 & Tot).
    unfold grj_flow. assert (Zlen ins =? 0 = false)%Z as El.
    { destruct ins; [congruence|]. unfold Zlen. cbn [length]. lia. }
    rewrite El. cbn [orb Zlen length]. change (Z.of_nat 1 =? 0)%Z with false. cbv iota. rewrite ET. cbn [bind].
    eexists. exists (fun a => f th a * x a). split; [reflexivity|]. split; [|exact Tot].
    intros a Ha. cbn [imul]. split; [|split].
    - unfold imin, f. cbn [ilt]. destruct (Qltb (th * C a) (d a)); reflexivity.
    - apply Qmult_le_0_compat; auto using f_pos, x_pos.
    - pose proof (f_pos th a T0 Ha) as F0. pose proof (f_le th a) as F1. pose proof (d_pos a Ha) as D0. pose proof (Hdm a Ha) as DM.
      pose proof (sumQ_term (fun a => f th a * x a) ins a) as Te. cbv beta in Te.
      assert (f th a * x a <= s b) as Fs.
      { eapply Qle_trans; [|exact Tot]. apply Te; auto. intros y Hy. apply Qmult_le_0_compat; auto using f_pos, x_pos. }
      destruct (Qlt_le_dec 0 (s b)) as [Sp|Sz].
      + unfold ratio in *. rewrite div_pos in * by auto. rewrite <- DM in *.
        assert (f th a <= s b) as Le.
        { destruct (Qlt_le_dec (s b) (f th a)) as [G|G]; auto. exfalso.
          assert (f th a * d a <= s b * s b).
          { assert (f th a * (d a / s b) * s b <= s b * s b) by (apply Qmult_le_compat_r; lra).
            assert (f th a * (d a / s b) * s b == f th a * d a) by (field; lra). lra. }
          assert (f th a * f th a <= d a * f th a) by (apply Qmult_le_compat_r; lra).
          assert (d a * f th a == f th a * d a) by ring.
          assert (s b * s b < f th a * f th a) by (set (u := f th a) in *; clearbody u; clear - Sp G; nra). lra. }
        assert (0 <= d a / s b) by (apply Qle_shift_div_l; lra).
        assert (f th a * (d a / s b) <= s b * (d a / s b)) by (apply Qmult_le_compat_r; auto).
        assert (s b * (d a / s b) == d a) by (field; lra). lra.
      + assert (s b == 0) as Z0 by lra. unfold ratio. rewrite (div_zero _ _ Z0). specialize (Hd a Ha). lra.
  Qed.
End One.
