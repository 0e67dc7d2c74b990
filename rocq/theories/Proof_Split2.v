(** Proofs about Model_Split: the demand of the origins from shares and from path flows. *)
From Verif Require Import Base Base_lemmas Model_Num Model_SP Model_Node Model_Split Spec_Split Proof_Num Proof_Link4 Proof_Split.
Local Open Scope Q_scope.

Lemma available_iff cf p m : available cf p m = Ok true <-> usable cf p m.
Proof. unfold available, usable. destruct (sc_modes cf m); [|split; [discriminate|intros [E _]; discriminate]]. destruct (op_conn p m) as [[]|]; split; try discriminate; try tauto; intros [_ E]; discriminate. Qed.

(** the share used for a mode *)
Definition share (l : list (mode * Q)) (m : mode) : Q := match share_of m l with Some s => s | None => 0 end.
Lemma mode_split_facts cf p l : exp_like (sc_exp cf) -> mode_split cf p = Ok l ->
  (forall m, usable cf p m -> share_of m l <> None) /\ (forall m, ~ usable cf p m -> share_of m l = None) /\
  (forall m, 0 <= share l m) /\ share l Driving + share l Transit + share l Pnr == 1 /\ (forall m, exists a, available cf p m = Ok a).
Proof.
  intros P H. unfold mode_split, all_modes in H. cbn [mapM] in H.
  destruct (available cf p Driving) as [a1|] eqn:E1; [|discriminate]. destruct (available cf p Transit) as [a2|] eqn:E2; [|discriminate]. destruct (available cf p Pnr) as [a3|] eqn:E3; [|discriminate].
  cbn [bind] in H. apply bind_ok in H. destruct H as (u & _ & H). clear u.
  assert (X := logit_facts _ _ _ _ _ P H). destruct X as (XF & X0 & X1). apply logit_inv in H. destruct H as (t & _ & T & ->).
  assert (U : forall m, usable cf p m <-> match m with Driving => a1 | Transit => a2 | Pnr => a3 end = true).
  { intros m. rewrite <- available_iff. destruct m; [rewrite E1|rewrite E2|rewrite E3]; split; congruence. }
  split; [|split; [|split; [|split]]].
  - intros m Hm. apply U in Hm. destruct m, a1, a2, a3; try discriminate; cbn; discriminate.
  - intros m Hm. assert (~ match m with Driving => a1 | Transit => a2 | Pnr => a3 end = true) by (intros C; apply Hm, U; exact C). destruct m, a1, a2, a3; try congruence; reflexivity.
  - intros m. unfold share. destruct (share_of m _) as [s|] eqn:E; [|lra]. apply (X0 m). clear - E. unfold gets. revert E. generalize (map (fun c => (fst c, snd (weight (sc_exp cf) (sc_alpha cf) (sc_beta cf) c) / t)) (map (fun x => (fst x, op_cost p (fst x))) (filter snd [(Driving, a1); (Transit, a2); (Pnr, a3)]))).
    induction l as [|[m' s'] l IH]; cbn; [discriminate|]. destruct (mode_eqb m m') eqn:E; intros H; [|right; auto]. apply mode_eqb_eq in E. injection H as ->. left. congruence.
  - destruct a1, a2, a3; cbn in X1; unfold share; cbn; lra.
  - intros [| |]; eauto.
Qed.

Definition slack (q : option Q) : Q := match q with Some x => x | None => 0 end.
Lemma logit_mode_step cf inter shares p stale tot m p' stale' tot' :
  (0 < sc_minutes cf)%nat -> (sc_split cf = 0 \/ sc_split cf = 1)%Z -> (forall m, ~ usable cf p m -> share_of m shares = None) ->
  logit_mode cf inter shares (p, stale, tot) m = Ok (p', stale', tot') ->
  op_total p' = op_total p /\ op_conn p' = op_conn p /\ op_cost p' = op_cost p /\ (forall m', m' <> m -> op_dem p' m' = op_dem p m') /\
  (forall i, ~ minute_of (sc_minutes cf) inter i -> in_minute p' m i = in_minute p m i) /\
  match share_of m shares with
  | Some s => in_interval (sc_minutes cf) inter p' m == s * op_total p inter /\ tot' m == tot m + s * op_total p inter /\ (forall m', m' <> m -> tot' m' = tot m') /\
      exists left, stale' = Some left /\
      (0 <= s * op_total p inter -> (forall i, minute_of (sc_minutes cf) inter i -> 0 <= in_minute p' m i) /\ 0 <= left /\ s * op_total p inter <= inject_Z (Z.of_nat (sc_minutes cf)) * left)
  | None => tot' = tot /\ stale' = stale /\
      (m <> Transit \/ op_dem p m = None -> in_interval (sc_minutes cf) inter p' m == 0 /\ forall i, minute_of (sc_minutes cf) inter i -> 0 <= in_minute p' m i) /\
      (m = Transit -> op_dem p m <> None -> exists q, stale = Some q /\ in_interval (sc_minutes cf) inter p' m == inject_Z (Z.of_nat (sc_minutes cf)) * q)
  end.
Proof.
  intros N S0 HU H. unfold logit_mode in H. cbv beta iota zeta in H. apply bind_ok in H. destruct H as (a & Ea & H).
  assert (EA : (if a then share_of m shares else None) = share_of m shares).
  { destruct a; [reflexivity|]. symmetry. apply HU. rewrite <- available_iff. congruence. }
  rewrite EA in H. destruct (share_of m shares) as [s|].
  - destruct (spread_ok cf (s * op_total p inter) N S0) as (slots & left & Es & Ls & Ss & Hs). rewrite Es in H. cbn [bind fst snd] in H. injection H as <- <- <-.
    cbn [op_total op_conn op_cost op_dem set_dem]. split; [reflexivity|]. split; [reflexivity|]. split; [reflexivity|]. split.
    { intros m' Hm. destruct (mode_eqb m m') eqn:E; [|reflexivity]. apply mode_eqb_eq in E. congruence. }
    split. { intros i Hi. unfold in_minute. cbn [op_dem set_dem]. rewrite mode_eqb_refl, put_other by assumption. unfold vec_of. now destruct (op_dem p m). }
    split. { unfold in_interval, in_minute. cbn [op_dem set_dem]. rewrite mode_eqb_refl. now rewrite sum_put. }
    split. { rewrite mode_eqb_refl. reflexivity. }
    split. { intros m' Hm. destruct (mode_eqb m m') eqn:E; [|reflexivity]. apply mode_eqb_eq in E. congruence. }
    exists left. split; [reflexivity|]. intros D. destruct (Hs D) as (H1 & H2 & H3). split; [|split; assumption].
    intros i Hi. unfold in_minute. cbn [op_dem set_dem]. rewrite mode_eqb_refl. now apply put_nonneg.
  - assert (K : op_dem p m = None -> (p', stale', tot') = (p, stale, tot)) by (intros E; rewrite E in H; now injection H as <- <- <-).
    destruct (op_dem p m) as [v|] eqn:Ed.
    + clear K. assert (G : exists q, p' = set_dem p m (put v inter (sc_minutes cf) (repeat q (sc_minutes cf))) /\ stale' = stale /\ tot' = tot /\ (m <> Transit -> q = 0) /\ (m = Transit -> stale = Some q)).
      { destruct m; [injection H as <- <- <-; exists 0; repeat split; congruence| |injection H as <- <- <-; exists 0; repeat split; congruence].
        destruct stale as [q|]; [|discriminate]. injection H as <- <- <-. exists q. repeat split; congruence. }
      destruct G as (q & -> & -> & -> & G1 & G2). clear H. cbn [op_total op_conn op_cost op_dem set_dem]. split; [reflexivity|]. split; [reflexivity|]. split; [reflexivity|]. split.
      { intros m' Hm. destruct (mode_eqb m m') eqn:E; [|reflexivity]. apply mode_eqb_eq in E. congruence. }
      assert (I : in_interval (sc_minutes cf) inter (set_dem p m (put v inter (sc_minutes cf) (repeat q (sc_minutes cf)))) m == inject_Z (Z.of_nat (sc_minutes cf)) * q).
      { unfold in_interval, in_minute. cbn [op_dem set_dem]. rewrite mode_eqb_refl. rewrite sum_put by apply repeat_length. apply sum_repeat. }
      split. { intros i Hi. unfold in_minute. cbn [op_dem set_dem]. rewrite mode_eqb_refl, put_other by assumption. now rewrite Ed. }
      split; [reflexivity|]. split; [reflexivity|]. split.
      * intros [Hm|Hm]; [|discriminate]. split; [rewrite I, (G1 Hm); ring|]. intros i Hi. unfold in_minute. cbn [op_dem set_dem]. rewrite mode_eqb_refl. apply put_nonneg; [apply repeat_length| |assumption].
        intros x Hx. apply repeat_spec in Hx. subst x. rewrite (G1 Hm). lra.
      * intros Hm _. exists q. split; [now apply G2|exact I].
    + specialize (K eq_refl). injection K as -> -> ->. split; [reflexivity|]. split; [reflexivity|]. split; [reflexivity|]. split; [reflexivity|]. split; [reflexivity|]. split; [reflexivity|]. split; [reflexivity|]. split.
      * intros _. split; [|intros i _; unfold in_minute; rewrite Ed; lra]. unfold in_interval, in_minute. rewrite Ed. rewrite (sum_ext _ (fun _ => 0 * 0)) by (intros; ring). rewrite sum_mult. ring.
      * intros _ C. congruence.
Qed.

Lemma in_interval_same n inter p p' m : op_dem p' m = op_dem p m -> in_interval n inter p' m = in_interval n inter p m.
Proof. intros E. unfold in_interval, in_minute. now rewrite E. Qed.
Lemma in_minute_same p p' m i : op_dem p' m = op_dem p m -> in_minute p' m i = in_minute p m i.
Proof. intros E. unfold in_minute. now rewrite E. Qed.

(** result of one pair *)
Record pair_done (cf : sconf) (inter : nat) (p p' : opair) (tot tot' : mode -> Q) : Prop := PD {
  pd_total : op_total p' = op_total p;
  pd_conn : op_conn p' = op_conn p;
  pd_frame : forall m i, ~ minute_of (sc_minutes cf) inter i -> in_minute p' m i = in_minute p m i;
  pd_share : exists sh : mode -> Q, (forall m, 0 <= sh m) /\ (forall m, ~ usable cf p m -> sh m = 0) /\ sh Driving + sh Transit + sh Pnr == 1 /\
    (forall m, m <> Transit \/ usable cf p Transit \/ op_dem p Transit = None ->
       in_interval (sc_minutes cf) inter p' m == sh m * op_total p inter /\
       (0 <= op_total p inter -> forall i, minute_of (sc_minutes cf) inter i -> 0 <= in_minute p' m i)) /\
    (forall m, tot' m == tot m + sh m * op_total p inter) /\
    (~ usable cf p Transit -> op_dem p Transit <> None -> exists q,
       in_interval (sc_minutes cf) inter p' Transit == inject_Z (Z.of_nat (sc_minutes cf)) * q /\
       (0 <= op_total p inter -> ~ usable cf p Pnr -> op_total p inter <= inject_Z (Z.of_nat (sc_minutes cf)) * q) /\
       (0 <= op_total p inter -> usable cf p Pnr -> sh Pnr * op_total p inter <= inject_Z (Z.of_nat (sc_minutes cf)) * q)) }.

Lemma logit_pair_ok cf inter stale tot p p' stale' tot' : exp_like (sc_exp cf) -> (0 < sc_minutes cf)%nat -> (sc_split cf = 0 \/ sc_split cf = 1)%Z ->
  logit_pair cf inter stale tot p = Ok (p', stale', tot') -> pair_done cf inter p p' tot tot'.
Proof.
  intros P N S0 H. unfold logit_pair in H. apply bind_ok in H. destruct H as (l & El & H). apply (mode_split_facts cf p l P) in El. destruct El as (SU & SN & SP & S1 & _).
  cbn [foldM] in H. apply bind_ok in H. destruct H as (((p1 & q1) & t1) & E1 & H). apply bind_ok in H. destruct H as (((p2 & q2) & t2) & E2 & H). apply bind_ok in H. destruct H as (((p3 & q3) & t3) & E3 & H).
  injection H as -> -> ->.
  apply logit_mode_step in E1; try assumption. destruct E1 as (T1 & C1 & _ & D1 & F1 & R1).
  assert (SN1 : forall m, ~ usable cf p1 m -> share_of m l = None) by (intros m Hm; apply SN; unfold usable in *; now rewrite C1 in Hm).
  apply logit_mode_step in E2; try assumption. destruct E2 as (T2 & C2 & _ & D2 & F2 & R2).
  assert (SN2 : forall m, ~ usable cf p2 m -> share_of m l = None) by (intros m Hm; apply SN; unfold usable in *; now rewrite C2, C1 in Hm).
  apply logit_mode_step in E3; try assumption. destruct E3 as (T3 & C3 & _ & D3 & F3 & R3).
  assert (T20 : op_total p2 = op_total p) by congruence.
  assert (X1 : forall m, m <> Driving -> op_dem p1 m = op_dem p m) by assumption.
  assert (X3 : op_dem p' Driving = op_dem p1 Driving) by (rewrite D3, D2; [reflexivity|discriminate|discriminate]).
  assert (X4 : op_dem p' Pnr = op_dem p2 Pnr) by (rewrite D3; [reflexivity|discriminate]).
  assert (X5 : op_dem p2 Transit = op_dem p Transit) by (rewrite D2, D1; [reflexivity|discriminate|discriminate]).
  assert (X6 : op_dem p1 Pnr = op_dem p Pnr) by (apply D1; discriminate).
  split.
  - congruence.
  - congruence.
  - intros m i Hi. destruct m.
    + rewrite (in_minute_same p1 p') by assumption. now apply F1.
    + rewrite F3 by assumption. now apply in_minute_same.
    + rewrite (in_minute_same p2 p') by assumption. rewrite F2 by assumption. now apply in_minute_same.
  - exists (share l). split; [assumption|]. split; [intros m Hm; unfold share; now rewrite SN|]. split; [assumption|].
    assert (ND : 0 <= op_total p inter -> forall m s, share_of m l = Some s -> 0 <= s * op_total p inter).
    { intros D m s E. assert (X := SP m). unfold share in X. rewrite E in X. nra. }
    assert (Dr : in_interval (sc_minutes cf) inter p' Driving == share l Driving * op_total p inter /\ (0 <= op_total p inter -> forall i, minute_of (sc_minutes cf) inter i -> 0 <= in_minute p' Driving i)).
    { rewrite (in_interval_same _ _ p1 p') by assumption. unfold share. destruct (share_of Driving l) as [s|] eqn:E.
      - destruct R1 as (R & _ & _ & left & _ & Q1). split; [exact R|]. intros D i Hi. rewrite (in_minute_same p1 p') by assumption. apply Q1; [eapply ND; eassumption|assumption].
      - destruct R1 as (_ & _ & R & _). destruct R as (R & Q1); [left; discriminate|]. split; [rewrite R; ring|]. intros D i Hi. rewrite (in_minute_same p1 p') by assumption. now apply Q1. }
    assert (Pr : in_interval (sc_minutes cf) inter p' Pnr == share l Pnr * op_total p inter /\ (0 <= op_total p inter -> forall i, minute_of (sc_minutes cf) inter i -> 0 <= in_minute p' Pnr i)).
    { rewrite (in_interval_same _ _ p2 p') by assumption. unfold share. rewrite T1 in R2. destruct (share_of Pnr l) as [s|] eqn:E.
      - destruct R2 as (R & _ & _ & left & _ & Q1). split; [exact R|]. intros D i Hi. rewrite (in_minute_same p2 p') by assumption. apply Q1; [eapply ND; eassumption|assumption].
      - destruct R2 as (_ & _ & R & _). destruct R as (R & Q1); [left; discriminate|]. split; [rewrite R; ring|]. intros D i Hi. rewrite (in_minute_same p2 p') by assumption. now apply Q1. }
    rewrite T20 in R3. split; [|split].
    + intros m Hm. destruct m; [exact Dr| |exact Pr]. unfold share. destruct (share_of Transit l) as [s|] eqn:E.
      * destruct R3 as (R & _ & _ & left & _ & Q1). split; [exact R|]. intros D. apply Q1. eapply ND; eassumption.
      * destruct R3 as (_ & _ & R & _). destruct R as (R & Q1).
        { right. rewrite X5. destruct Hm as [C|[C|C]]; [now elim C|now apply SU in C|exact C]. }
        split; [rewrite R; ring|]. intros D. exact Q1.
    + intros m. unfold share. destruct m.
      * assert (K3 : t2 Driving = t1 Driving /\ tot' Driving = t2 Driving).
        { split; [destruct (share_of Pnr l); [apply R2; discriminate|now destruct R2 as (-> & _)]|destruct (share_of Transit l); [apply R3; discriminate|now destruct R3 as (-> & _)]]. }
        destruct K3 as (K & K'). rewrite K', K. destruct (share_of Driving l); [apply R1|destruct R1 as (-> & _); ring].
      * assert (K : t2 Transit = tot Transit).
        { transitivity (t1 Transit); [destruct (share_of Pnr l); [apply R2; discriminate|now destruct R2 as (-> & _)]|destruct (share_of Driving l); [apply R1; discriminate|now destruct R1 as (-> & _)]]. }
        destruct (share_of Transit l); [rewrite <- K; apply R3|destruct R3 as (-> & _); rewrite K; ring].
      * assert (K : t1 Pnr = tot Pnr) by (destruct (share_of Driving l); [apply R1; discriminate|now destruct R1 as (-> & _)]).
        assert (K' : tot' Pnr = t2 Pnr) by (destruct (share_of Transit l); [apply R3; discriminate|now destruct R3 as (-> & _)]).
        rewrite K'. rewrite T1 in R2. destruct (share_of Pnr l); [rewrite <- K; apply R2|destruct R2 as (-> & _); rewrite K; ring].
    + intros NT V. rewrite (SN _ NT) in R3. destruct R3 as (_ & _ & _ & R). rewrite X5 in R. destruct (R eq_refl V) as (q & Eq & Iq). exists q. split; [exact Iq|]. rewrite T1 in R2. split.
      * intros D NP. rewrite (SN _ NP) in R2. destruct R2 as (_ & -> & _). unfold share in S1. rewrite (SN _ NP), (SN _ NT) in S1.
        destruct (share_of Driving l) as [s|] eqn:E; [|exfalso; lra]. destruct R1 as (_ & _ & _ & left & El & Q1). rewrite El in Eq. injection Eq as <-.
        destruct (Q1 (ND D _ _ E)) as (_ & _ & Q2). assert (s == 1) by lra. nra.
      * intros D UP. unfold share. destruct (share_of Pnr l) as [s|] eqn:E; [|now elim (SU Pnr UP)]. destruct R2 as (_ & _ & _ & left & El & Q1). rewrite El in Eq. injection Eq as <-.
        exact (proj2 (proj2 (Q1 (ND D _ _ E)))).
Qed.
