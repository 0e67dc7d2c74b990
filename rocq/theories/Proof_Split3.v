(** Proofs about Model_Split: all pairs, demand from path flows, first flows, merit, connectivity. *)
From Verif Require Import Base Base_lemmas Model_Num Model_SP Model_Node Model_Split Spec_Split Proof_Num Proof_Link4 Proof_Split Proof_Split2.
Local Open Scope Q_scope.

(* all pairs *)
Definition logit_loop (cf : sconf) (inter : nat) := fun (s : list opair * option Q * (mode -> Q)) (p : opair) =>
  let '(done, stale, tot) := s in do x <- logit_pair cf inter stale tot p; let '(p', stale', tot') := x in Ok (done ++ [p'], stale', tot').
Definition tots (t : mode -> Q) : Q := t Driving + t Transit + t Pnr.
Lemma logit_fold_ok cf inter : exp_like (sc_exp cf) -> (0 < sc_minutes cf)%nat -> (sc_split cf = 0 \/ sc_split cf = 1)%Z ->
  forall ps done stale tot out stale' tot', foldM (logit_loop cf inter) (done, stale, tot) ps = Ok (out, stale', tot') ->
  exists ps', out = done ++ ps' /\ Forall2 (fun p p' => exists t t', pair_done cf inter p p' t t') ps ps' /\
    tots tot' == tots tot + sumQ (map (fun p => op_total p inter) ps).
Proof.
  intros P N S0. induction ps as [|p ps IH]; intros done stale tot out stale' tot' H; cbn [foldM] in H.
  - injection H as <- <- <-. exists []. rewrite app_nil_r. split; [reflexivity|]. split; [constructor|]. cbn. ring.
  - apply bind_ok in H. destruct H as (((d1 & q1) & t1) & E & H). unfold logit_loop in E. apply bind_ok in E. destruct E as (((p' & q') & t') & Ep & E). injection E as <- <- <-.
    apply IH in H. destruct H as (ps' & -> & F & T). exists (p' :: ps'). rewrite <- app_assoc. split; [reflexivity|].
    assert (D := logit_pair_ok cf inter stale tot p p' q' t' P N S0 Ep). split; [constructor; eauto|].
    rewrite T. change (sumQ (map (fun p0 => op_total p0 inter) (p :: ps))) with (op_total p inter + sumQ (map (fun p0 => op_total p0 inter) ps)).
    destruct (pd_share _ _ _ _ _ _ D) as (sh & _ & _ & S1 & _ & T1 & _). unfold tots. rewrite !T1.
    setoid_replace (tot Driving + sh Driving * op_total p inter + (tot Transit + sh Transit * op_total p inter) + (tot Pnr + sh Pnr * op_total p inter))
      with (tot Driving + tot Transit + tot Pnr + (sh Driving + sh Transit + sh Pnr) * op_total p inter) by ring. rewrite S1. ring.
Qed.
Lemma logit_demand_ok cf inter tot ps ps' tot' : exp_like (sc_exp cf) -> (sc_split cf = 0 \/ sc_split cf = 1)%Z ->
  logit_demand cf inter tot ps = Ok (ps', tot') ->
  sc_minutes cf = 15%nat /\ Forall2 (fun p p' => exists t t', pair_done cf inter p p' t t') ps ps' /\ tots tot' == tots tot + sumQ (map (fun p => op_total p inter) ps).
Proof.
  intros P S0 H. unfold logit_demand in H. apply bind_ok in H. destruct H as (u & G & H). apply guard_ok in G. apply Nat.eqb_eq in G.
  apply bind_ok in H. destruct H as (u' & _ & H). apply bind_ok in H. destruct H as (((out & q) & t) & E & H). cbn [fst snd] in H. injection H as <- <-.
  split; [assumption|]. apply (logit_fold_ok cf inter P ltac:(lia) S0) in E. destruct E as (l & -> & F & T). split; assumption.
Qed.

(* demand from path flows *)
Lemma minute_unique n c c' i : minute_of n c i -> minute_of n c' i -> c = c'.
Proof. unfold minute_of. intros A B. destruct (lt_eq_lt_dec c c') as [[L|E]|L]; [|assumption|]; exfalso; nia. Qed.
Definition table_step (cf : sconf) (ps : list mpath) := fun (v : nat -> Q) (c : nat) => do x <- spread cf (vehicles ps c); Ok (put v c (sc_minutes cf) (fst x)).
Lemma table_fold cf ps : (0 < sc_minutes cf)%nat -> (sc_split cf = 0 \/ sc_split cf = 1)%Z -> forall T,
  exists v, foldM (table_step cf ps) (fun _ => 0) (seq 0 T) = Ok v /\
    forall c, (c < T)%nat -> sumQ (map (fun k => v (c * sc_minutes cf + k)%nat) (seq 0 (sc_minutes cf))) == vehicles ps c /\
      (0 <= vehicles ps c -> forall i, minute_of (sc_minutes cf) c i -> 0 <= v i).
Proof.
  intros N S0. induction T as [|T (v & E & H)]; [exists (fun _ => 0); split; [reflexivity|intros c Hc; lia]|].
  rewrite seq_S, foldM_app, E. cbn [bind foldM]. unfold table_step at 1. destruct (spread_ok cf (vehicles ps (0 + T)) N S0) as (slots & left & Es & Ls & Ss & Hs). rewrite Es. cbn [bind fst].
  exists (put v (0 + T) (sc_minutes cf) slots). split; [reflexivity|]. intros c Hc. cbn [Nat.add] in *.
  destruct (Nat.eq_dec c T) as [->|Hn].
  - split; [rewrite sum_put; assumption|]. intros D i Hi. destruct (Hs D) as (H1 & _). now apply put_nonneg.
  - destruct (H c ltac:(lia)) as (H1 & H2). split.
    + rewrite <- H1. apply sum_ext. intros k K. apply in_seq in K. rewrite put_other; [reflexivity|]. intros C. apply Hn. eapply minute_unique; [|exact C]. unfold minute_of. lia.
    + intros D i Hi. rewrite put_other; [now apply H2|]. intros C. apply Hn. eapply minute_unique; eassumption.
Qed.
Lemma table_mode_ok cf paths p m : (0 < sc_minutes cf)%nat -> (sc_split cf = 0 \/ sc_split cf = 1)%Z ->
  (sc_modes cf m = true -> op_conn p m <> None) -> (usable cf p m -> paths m <> None) ->
  exists p', table_mode cf paths p m = Ok p' /\ op_total p' = op_total p /\ op_conn p' = op_conn p /\ op_cost p' = op_cost p /\
    (forall m', m' <> m -> op_dem p' m' = op_dem p m') /\ (~ usable cf p m -> op_dem p' m = op_dem p m) /\
    (usable cf p m -> forall ps c, paths m = Some ps -> (c < sc_total cf)%nat -> in_interval (sc_minutes cf) c p' m == vehicles ps c /\
       (0 <= vehicles ps c -> forall i, minute_of (sc_minutes cf) c i -> 0 <= in_minute p' m i)).
Proof.
  intros N S0 HC HP. unfold table_mode. assert (A : exists a, available cf p m = Ok a).
  { unfold available. destruct (sc_modes cf m); [|eauto]. destruct (op_conn p m); [eauto|now elim (HC eq_refl)]. }
  destruct A as (a & Ea). rewrite Ea. cbn [bind]. destruct a.
  - assert (U : usable cf p m) by now apply available_iff. destruct (paths m) as [ps|] eqn:Ep; [|now elim (HP U)].
    assert (V : exists v, (match ps with [] => Ok (fun _ => 0) | _ => foldM (fun v c => do x <- spread cf (vehicles ps c); Ok (put v c (sc_minutes cf) (fst x))) (fun _ => 0) (seq 0 (sc_total cf)) end) = Ok v /\
      forall c, (c < sc_total cf)%nat -> sumQ (map (fun k => v (c * sc_minutes cf + k)%nat) (seq 0 (sc_minutes cf))) == vehicles ps c /\
      (0 <= vehicles ps c -> forall i, minute_of (sc_minutes cf) c i -> 0 <= v i)).
    { destruct ps as [|q ps]; [|apply table_fold; assumption]. exists (fun _ => 0). split; [reflexivity|]. intros c _. split; [|intros _ i _; lra].
      rewrite (sum_ext _ (fun _ => 0 * 0)) by (intros; ring). rewrite sum_mult. cbn. ring. }
    destruct V as (v & Ev & Hv). rewrite Ev. cbn [bind]. eexists. split; [reflexivity|]. cbn [op_total op_conn op_cost op_dem set_dem]. split; [reflexivity|]. split; [reflexivity|]. split; [reflexivity|]. split.
    { intros m' Hm. destruct (mode_eqb m m') eqn:E; [|reflexivity]. apply mode_eqb_eq in E. congruence. }
    split; [intros C; now elim C|]. intros _ ps' c E Hc. injection E as <-. destruct (Hv c Hc) as (H1 & H2). split.
    + unfold in_interval, in_minute. cbn [op_dem set_dem]. rewrite mode_eqb_refl. exact H1.
    + intros D i Hi. unfold in_minute. cbn [op_dem set_dem]. rewrite mode_eqb_refl. now apply H2.
  - exists p. split; [reflexivity|]. split; [reflexivity|]. split; [reflexivity|]. split; [reflexivity|]. split; [reflexivity|]. split; [reflexivity|]. intros U. apply available_iff in U. congruence.
Qed.
Lemma table_demand_ok cf paths p : sc_minutes cf = 15%nat -> (sc_split cf = 0 \/ sc_split cf = 1)%Z ->
  (forall m, sc_modes cf m = true -> op_conn p m <> None) -> (forall m, usable cf p m -> paths m <> None) ->
  exists p', table_demand cf paths p = Ok p' /\ op_total p' = op_total p /\ op_conn p' = op_conn p /\
    (forall m, ~ usable cf p m -> op_dem p' m = op_dem p m) /\
    (forall m, usable cf p m -> forall ps c, paths m = Some ps -> (c < sc_total cf)%nat -> in_interval (sc_minutes cf) c p' m == vehicles ps c /\
       (0 <= vehicles ps c -> forall i, minute_of (sc_minutes cf) c i -> 0 <= in_minute p' m i)).
Proof.
  intros N S0 HC HP. unfold table_demand. rewrite N. cbn [Nat.eqb guard bind foldM]. assert (N0 : (0 < sc_minutes cf)%nat) by lia.
  destruct (table_mode_ok cf paths p Driving N0 S0 (HC _) (HP _)) as (p1 & E1 & T1 & C1 & K1 & D1 & F1 & R1).
  assert (U1 : forall m, usable cf p1 m <-> usable cf p m) by (intros m; unfold usable; rewrite C1; tauto).
  destruct (table_mode_ok cf paths p1 Pnr N0 S0) as (p2 & E2 & T2 & C2 & K2 & D2 & F2 & R2); [rewrite C1; apply HC|rewrite U1; apply HP|].
  assert (U2 : forall m, usable cf p2 m <-> usable cf p m) by (intros m; unfold usable; rewrite C2, C1; tauto).
  destruct (table_mode_ok cf paths p2 Transit N0 S0) as (p3 & E3 & T3 & C3 & K3 & D3 & F3 & R3); [rewrite C2, C1; apply HC|rewrite U2; apply HP|].
  rewrite E1. cbn [bind]. rewrite E2. cbn [bind]. rewrite E3. cbn [bind]. exists p3. split; [reflexivity|]. split; [congruence|]. split; [congruence|].
  assert (X1 : op_dem p3 Driving = op_dem p1 Driving) by (rewrite D3, D2; [reflexivity|discriminate|discriminate]).
  assert (X2 : op_dem p3 Pnr = op_dem p2 Pnr) by (rewrite D3; [reflexivity|discriminate]).
  assert (X3 : op_dem p2 Transit = op_dem p Transit) by (rewrite D2, D1; [reflexivity|discriminate|discriminate]).
  assert (X4 : op_dem p1 Pnr = op_dem p Pnr) by (apply D1; discriminate). rewrite <- N. split.
  - intros m Hm. destruct m.
    + rewrite X1. now apply F1.
    + rewrite F3; [assumption|now rewrite U2].
    + rewrite X2, F2; [assumption|now rewrite U1].
  - intros m Hm ps c Ep Hc. destruct m.
    + rewrite (in_interval_same _ _ p1 p3) by assumption. destruct (R1 Hm ps c Ep Hc) as (A & B). split; [exact A|]. intros D i Hi. rewrite (in_minute_same p1 p3) by assumption. now apply B.
    + apply R3; [now apply U2|assumption|assumption].
    + rewrite (in_interval_same _ _ p2 p3) by assumption. destruct (R2 (proj2 (U1 _) Hm) ps c Ep Hc) as (A & B). split; [exact A|]. intros D i Hi. rewrite (in_minute_same p2 p3) by assumption. now apply B.
Qed.

(* first flows *)
Lemma first_flow_sum total share ps c : (c < total)%nat -> ps <> [] -> flow (first_flow total share ps) c == share c.
Proof.
  intros C H. destruct ps as [|p ps]; [congruence|]. unfold first_flow, flow. cbn [map].
  apply Nat.ltb_lt in C. change (mp_flow (set_flow p (fun c0 => if (c0 <? total)%nat then share c0 else mp_flow p c0)) c + sumQ (map (fun q => mp_flow q c) (map (fun q => set_flow q (fun c0 => if (c0 <? total)%nat then 0 else mp_flow q c0)) ps)) == share c).
  cbn [mp_flow set_flow]. rewrite C, map_map. cbn [mp_flow set_flow]. rewrite (sum_ext _ (fun _ => 0 * 0)) by (intros; rewrite C; ring). rewrite sum_mult. ring.
Qed.
Lemma flow_concat l c : flow (concat l) c == sumQ (map (fun ps => flow ps c) l).
Proof.
  induction l as [|a l IH]; [reflexivity|]. unfold flow in *. cbn [concat map]. rewrite map_app, sumQ_app, IH. reflexivity.
Qed.
Lemma mapM_ok_map {A B} (f : A -> res B) (g : A -> B) l : (forall x, In x l -> f x = Ok (g x)) -> mapM f l = Ok (map g l).
Proof. induction l as [|a l IH]; intros H; [reflexivity|]. cbn [mapM map]. rewrite (H a) by now left. cbn [bind]. rewrite IH; [reflexivity|]. intros. apply H. now right. Qed.
Lemma init_flow_ok total demand modes : modes <> [] -> (forall ps, In ps modes -> ps <> []) ->
  exists out, init_flow total demand modes = Ok out /\ length out = length modes /\
    (forall c, (c < total)%nat -> flow (concat out) c == demand c) /\
    (forall i ps ps' c, nth_error modes i = Some ps -> nth_error out i = Some ps' -> (c < total)%nat ->
       length ps' = length ps /\ flow ps' c == demand c / inject_Z (Z.of_nat (length modes)) /\ forall p, In p (tl ps') -> mp_flow p c = 0).
Proof.
  intros H0 H1. unfold init_flow. assert (K : (0 < length modes)%nat) by (destruct modes; [congruence|cbn; lia]).
  destruct (length modes =? 0)%nat eqn:E; [apply Nat.eqb_eq in E; lia|]. cbn [negb guard bind].
  set (k := inject_Z (Z.of_nat (length modes))). assert (KP : 0 < k) by now apply posn.
  set (sh := fun c => 1 / k * demand c).
  rewrite (mapM_ok_map _ (first_flow total sh)).
  2:{ intros ps I. apply H1 in I. destruct ps; [congruence|]. reflexivity. }
  cbn [bind].
  assert (F : forall c, (c < total)%nat -> flow (concat (map (first_flow total sh) modes)) c == demand c).
  { intros c C. rewrite flow_concat, map_map. rewrite (sum_ext _ (fun _ => 1 * sh c)) by (intros ps I; rewrite first_flow_sum by auto; ring).
    rewrite sum_mult. assert (L : forall l : list (list mpath), sumQ (map (fun _ => 1) l) == inject_Z (Z.of_nat (length l))).
    { clear. induction l as [|a l IH]; [reflexivity|]. change (1 + sumQ (map (fun _ => 1) l) == inject_Z (Z.of_nat (length (a :: l)))). rewrite IH. cbn [length]. rewrite Nat2Z.inj_succ. unfold Z.succ. rewrite inject_Z_plus. ring. }
    rewrite L. fold k. unfold sh. field. lra. }
  replace (forallb _ (seq 0 total)) with true.
  2:{ symmetry. apply forallb_forall. intros c C. apply in_seq in C. unfold flows_checked, approx_eq. apply Qle_bool_iff.
      change (sumQ (map (fun p => mp_flow p c) (concat (map (first_flow total sh) modes)))) with (flow (concat (map (first_flow total sh) modes)) c).
      rewrite F by lia. setoid_replace (demand c - demand c) with 0 by ring. change (Qabs 0) with 0.
      assert (0 <= Qmax (Qabs (demand c)) (Qabs (demand c))) by (apply Qle_trans with (Qabs (demand c)); [apply Qabs_nonneg|apply Q.le_max_l]). lra. }
  cbn [guard bind]. eexists. split; [reflexivity|]. split; [apply map_length|]. split; [assumption|].
  intros i ps ps' c Ei Eo C. rewrite nth_error_map, Ei in Eo. cbn in Eo. injection Eo as <-. assert (I : In ps modes) by (eapply nth_error_In; eassumption). split; [|split].
  - destruct ps; [reflexivity|]. cbn. now rewrite map_length.
  - rewrite first_flow_sum by auto. unfold sh. field. lra.
  - destruct ps as [|p0 ps]; [intros p []|]. cbn [first_flow tl]. intros p Hp. apply in_map_iff in Hp. destruct Hp as (q & <- & _). cbn [mp_flow set_flow]. apply Nat.ltb_lt in C. now rewrite C.
Qed.

(* merit *)
Definition vused (v : nat * mpath) : Prop := used (snd v) (fst v).
Definition vdis (v : nat * mpath) (x : Q) : Prop := dis_at (snd v) (fst v) x.
Definition known (vs : list (nat * mpath)) : Prop := forall v, In v vs -> vused v -> exists x, vdis v x.
Definition is_low (vs : list (nat * mpath)) (low : ext) : Prop :=
  match low with
  | None => forall v, In v vs -> ~ vused v
  | Some l => (exists v, In v vs /\ vused v /\ vdis v l) /\ forall v x, In v vs -> vused v -> vdis v x -> l <= x
  end.
Lemma lower_ok : forall vs, known vs -> exists low, foldM lower None vs = Ok low /\ is_low vs low.
Proof.
  intros vs. rewrite <- (rev_involutive vs). generalize (rev vs). clear vs. induction l as [|[c p] l IH]; intros K.
  - exists None. split; [reflexivity|]. intros v [].
  - cbn [rev] in *. destruct IH as (low & E & L). { intros v I. apply K. apply in_or_app. now left. }
    rewrite foldM_app, E. cbn [bind foldM]. unfold lower at 1. destruct (Qltb 0 (mp_flow p c)) eqn:U.
    + apply qltb_true in U. destruct (K (c, p)) as (x & X); [apply in_or_app; right; now left|exact U|]. unfold vdis, dis_at in X. cbn [fst snd] in X. rewrite X. cbn [bind].
      eexists. split; [reflexivity|]. destruct low as [l0|]; cbn [eltb].
      * destruct L as ((v0 & I0 & U0 & D0) & L). destruct (Qltb x l0) eqn:Q0.
        { apply qltb_true in Q0. cbn [is_low]. split; [exists (c, p); repeat split; [apply in_or_app; right; now left|exact U|exact X]|].
          intros v y I Uv Dv. apply in_app_or in I. destruct I as [I|[<-|[]]]; [specialize (L v y I Uv Dv); lra|]. unfold vdis, dis_at in Dv. cbn in Dv. rewrite X in Dv. injection Dv as <-. lra. }
        { apply qltb_false in Q0. cbn [is_low]. split; [exists v0; repeat split; [apply in_or_app; now left|exact U0|exact D0]|].
          intros v y I Uv Dv. apply in_app_or in I. destruct I as [I|[<-|[]]]; [now apply (L v)|]. unfold vdis, dis_at in Dv. cbn in Dv. rewrite X in Dv. injection Dv as <-. lra. }
      * split; [exists (c, p); repeat split; [apply in_or_app; right; now left|exact U|exact X]|].
        intros v y I Uv Dv. apply in_app_or in I. destruct I as [I|[<-|[]]]; [now elim (L v I)|]. unfold vdis, dis_at in Dv. cbn in Dv. rewrite X in Dv. injection Dv as <-. lra.
    + apply qltb_false in U. exists low. split; [reflexivity|]. assert (NU : ~ vused (c, p)) by (unfold vused, used; cbn; lra). destruct low as [l0|].
      * destruct L as ((v0 & I0 & D0) & L). split; [exists v0; split; [apply in_or_app; now left|exact D0]|]. intros v y I. apply in_app_or in I. destruct I as [I|[<-|[]]]; [now apply L|]. intros C. now elim NU.
      * intros v I. apply in_app_or in I. destruct I as [I|[<-|[]]]; [now apply L|exact NU].
Qed.
Lemma gap_fold_ok low all : is_low all low -> known all -> forall vs acc, incl vs all ->
  exists g k, foldM (gap_step low) acc vs = Ok (g, k) /\ fst acc <= g /\ snd acc <= k /\
    (g == fst acc <-> forall v x l, In v vs -> vused v -> vdis v x -> low = Some l -> x == l).
Proof.
  intros L K. induction vs as [|[c p] vs IH]; intros acc I.
  - exists (fst acc), (snd acc). cbn [foldM]. split; [now destruct acc|]. split; [lra|]. split; [lra|]. split; [intros _ v x l []|intros _; reflexivity].
  - cbn [foldM]. unfold gap_step at 1. destruct (Qltb 0 (mp_flow p c)) eqn:U.
    + apply qltb_true in U. assert (IV : In (c, p) all) by (apply I; now left). destruct (K _ IV U) as (x & X). unfold vdis, dis_at in X. cbn [fst snd] in X. rewrite X.
      destruct low as [l|]; [|now elim (L _ IV)]. cbn [bind].
      destruct (IH (fst acc + Qabs (x - l) * mp_flow p c, snd acc + Qabs l * mp_flow p c)) as (g & k & E & G & KK & Z); [intros v Hv; apply I; now right|].
      cbn [fst snd] in *. exists g, k. split; [exact E|]. assert (A := Qabs_nonneg (x - l)). assert (B := Qabs_nonneg l).
      assert (P1 : 0 <= Qabs (x - l) * mp_flow p c) by nra. assert (P2 : 0 <= Qabs l * mp_flow p c) by nra. split; [lra|]. split; [lra|]. split.
      * intros Eg. assert (Z1 : Qabs (x - l) * mp_flow p c == 0) by lra. assert (Z2 : g == fst acc + Qabs (x - l) * mp_flow p c) by lra.
        assert (EL : x == l). { assert (Qabs (x - l) == 0) by nra. assert (x - l <= 0) by (eapply Qle_trans; [apply Qle_Qabs|lra]). assert (- (x - l) <= 0) by (eapply Qle_trans; [apply Qle_Qabs|rewrite Qabs_opp; lra]). lra. }
        intros v y l' [<-|Iv] Uv Dv El; [|eapply (proj1 Z); eassumption]. injection El as <-. unfold vdis, dis_at in Dv. cbn in Dv. rewrite X in Dv. injection Dv as <-. exact EL.
      * intros H. assert (EL : x == l) by (eapply (H (c, p)); [now left|exact U|exact X|reflexivity]).
        assert (Z1 : Qabs (x - l) == 0) by (rewrite EL; setoid_replace (l - l) with 0 by ring; reflexivity).
        assert (g == fst acc + Qabs (x - l) * mp_flow p c) by (apply Z; intros v y l' Iv; apply H; now right). rewrite H0, Z1. ring.
    + apply qltb_false in U. cbn [bind]. destruct (IH acc) as (g & k & E & G & KK & Z); [intros v Hv; apply I; now right|]. exists g, k. split; [exact E|]. split; [exact G|]. split; [exact KK|].
      rewrite Z. split; intros H v x l Iv; [destruct Iv as [<-|Iv]; [intros C; exfalso; unfold vused, used in C; cbn in C; lra|now apply H]|apply H; now right].
Qed.
Definition even (vs : list (nat * mpath)) : Prop := forall v v' x x', In v vs -> In v' vs -> vused v -> vused v' -> vdis v x -> vdis v' x' -> x == x'.
Lemma gap_group_ok vs acc : known vs -> exists g k, gap_group acc vs = Ok (g, k) /\ fst acc <= g /\ snd acc <= k /\ (g == fst acc <-> even vs).
Proof.
  intros K. destruct (lower_ok vs K) as (low & E & L). unfold gap_group. rewrite E. cbn [bind].
  destruct (gap_fold_ok low vs L K vs acc (incl_refl _)) as (g & k & Eg & G & KK & Z). exists g, k. split; [exact Eg|]. split; [exact G|]. split; [exact KK|]. rewrite Z. split.
  - intros H v v' x x' I I' U U' D D'. destruct low as [l|]; [|now elim (L v I)]. rewrite (H v x l), (H v' x' l) by auto. reflexivity.
  - intros H v x l I U D ->. destruct L as ((v0 & I0 & U0 & D0) & _). eapply (H v v0); eassumption.
Qed.
Lemma gap_groups_ok : forall gs acc, Forall known gs -> 0 <= snd acc -> exists g k, foldM gap_group acc gs = Ok (g, k) /\ fst acc <= g /\ 0 <= k /\ (g == fst acc <-> Forall even gs).
Proof.
  induction gs as [|vs gs IH]; intros acc K S0; cbn [foldM].
  - exists (fst acc), (snd acc). split; [now destruct acc|]. split; [lra|]. split; [assumption|]. split; [constructor|reflexivity].
  - inversion K as [|? ? K1 K2]; subst. destruct (gap_group_ok vs acc K1) as (g & k & E & G & KK & Z). rewrite E. cbn [bind].
    destruct (IH (g, k) K2) as (g' & k' & E' & G' & KK' & Z'); [cbn; lra|]. cbn [fst snd] in *. exists g', k'. split; [exact E'|]. split; [lra|]. split; [exact KK'|]. split.
    + intros Eg. constructor; [apply Z; lra|apply Z'; lra].
    + intros F. inversion F as [|? ? F1 F2]; subst. apply Z in F1. apply Z' in F2. lra.
Qed.
Lemma merit_of_ok g k : 0 <= g -> 0 <= merit_of (g, k) /\ (merit_of (g, k) == 0 <-> g == 0).
Proof.
  intros G. unfold merit_of. cbn [fst snd]. set (m := Qmax k (1 # 1000000)). assert (M : 0 < m) by (apply Qlt_le_trans with (1 # 1000000); [reflexivity|apply Q.le_max_r]). split.
  - apply Qle_shift_div_l; [assumption|lra].
  - split; intros H; [|rewrite H; field; lra]. setoid_replace g with (g / m * m) by (field; lra). rewrite H. ring.
Qed.
Lemma pair_visits total ps c p : In (c, p) (concat (map (fun c => visits c ps) (seq 0 total))) <-> (c < total)%nat /\ In p ps.
Proof.
  rewrite in_concat. split.
  - intros (l & Il & I). apply in_map_iff in Il. destruct Il as (c' & <- & Ic). apply in_seq in Ic. unfold visits in I. apply in_map_iff in I. destruct I as (p' & E & Ip). injection E as <- <-. split; [lia|assumption].
  - intros (C & I). exists (visits c ps). split; [apply in_map_iff; exists c; split; [reflexivity|apply in_seq; lia]|]. unfold visits. apply in_map_iff. now exists p.
Qed.
Lemma merit_ok total pairs : costs_known total pairs -> exists r, merit total pairs = Ok r /\ 0 <= r /\ (r == 0 <-> forall ps, In ps pairs -> balanced total ps).
Proof.
  intros K. unfold merit. set (gs := map _ pairs).
  destruct (gap_groups_ok gs (0, 0)) as (g & k & E & G & _ & Z); [|cbn; lra|].
  { apply Forall_forall. intros vs I. apply in_map_iff in I. destruct I as (ps & <- & I). intros (c & p) J U. apply pair_visits in J. now apply (K ps p c); [| | |]. }
  rewrite E. cbn [bind]. eexists. split; [reflexivity|]. cbn [fst] in *. destruct (merit_of_ok g k G) as (M0 & M1). split; [exact M0|]. rewrite M1, Z. rewrite Forall_forall. unfold gs. split.
  - intros H ps I p c p' c' x x' Ip Ip' C C' U U' D D'. apply (H (concat (map (fun c => visits c ps) (seq 0 total))) ltac:(apply in_map_iff; eauto) (c, p) (c', p')); try assumption; now apply pair_visits.
  - intros H vs I. apply in_map_iff in I. destruct I as (ps & <- & I). intros (c & p) (c' & p') x x' J J' U U' D D'. apply pair_visits in J, J'. eapply (H ps I p c p' c'); try eassumption; tauto.
Qed.
Lemma merit_fixed_ok total pairs : costs_known total pairs -> exists r, merit_fixed total pairs = Ok r /\ 0 <= r /\ (r == 0 <-> forall ps, In ps pairs -> balanced_per_interval total ps).
Proof.
  intros K. unfold merit_fixed. set (gs := concat _).
  assert (GI : forall vs, In vs gs <-> exists ps c, In ps pairs /\ (c < total)%nat /\ vs = visits c ps).
  { intros vs. unfold gs. rewrite in_concat. split.
    - intros (l & Il & I). apply in_map_iff in Il. destruct Il as (ps & <- & Ip). apply in_map_iff in I. destruct I as (c & <- & Ic). apply in_seq in Ic. exists ps, c. repeat split; [assumption|lia].
    - intros (ps & c & Ip & C & ->). exists (map (fun c => visits c ps) (seq 0 total)). split; [apply in_map_iff; now exists ps|]. apply in_map_iff. exists c. split; [reflexivity|apply in_seq; lia]. }
  destruct (gap_groups_ok gs (0, 0)) as (g & k & E & G & _ & Z); [|cbn; lra|].
  { apply Forall_forall. intros vs I. apply GI in I. destruct I as (ps & c & Ip & C & ->). intros (c' & p) J U. apply in_map_iff in J. destruct J as (p' & EQ & J). injection EQ as <- <-. now apply (K ps p' c). }
  rewrite E. cbn [bind]. eexists. split; [reflexivity|]. cbn [fst] in *. destruct (merit_of_ok g k G) as (M0 & M1). split; [exact M0|]. rewrite M1, Z. rewrite Forall_forall. split.
  - intros H ps I p p' c x x' Ip Ip' C U U' D D'. apply (H (visits c ps) ltac:(apply GI; eauto) (c, p) (c, p')); try assumption; unfold visits; apply in_map_iff; eauto.
  - intros H vs I. apply GI in I. destruct I as (ps & c & I & C & ->). intros (c1 & p) (c2 & p') x x' J J' U U' D D'. apply in_map_iff in J, J'. destruct J as (q & E1 & J). destruct J' as (q' & E2 & J'). injection E1 as <- <-. injection E2 as <- <-.
    eapply (H ps I q q' c); eassumption.
Qed.
