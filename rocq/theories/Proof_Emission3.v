(** Emission totals of two classes. *)
From Coq Require Import Lia Lqa QArith Qround Setoid.
From Verif Require Import Base Base_lemmas Spec_Path Model_Num Proof_Num Model_Link Spec_Link Spec_Node Model_McLink Spec_McLink Model_World Model_Node Model_Sim Spec_Sim
  Model_McNode Model_McSim Proof_Link4 Proof_GRJ Model_Emission Spec_Emission Proof_Emission Proof_Emission2.
Local Open Scope Q_scope.

Lemma me_link_sees ut cls ev x l x' (c : bool) : me_link ut cls ev x l = Ok x' -> exists g, msees cls (ev c) c l g /\
  (forall p, em_tot (me_by x' c) p == em_tot (me_by x c) p + class_rate c p (g_mph g) * (g_miles ut g * g_fuelled g)) /\
  em_vmt (me_by x' c) == em_vmt (me_by x c) + g_miles ut g * (g_fuelled g + g_electric g) /\
  em_vmt_ev (me_by x' c) == em_vmt_ev (me_by x c) + g_miles ut g * g_electric g /\
  me_vht x' c == me_vht x c + (g_fuelled g + g_electric g) * (ut / 3600) /\ me_set x' = me_set x.
Proof.
  intros H. unfold me_link in H. apply bind_ok in H as (t1 & Ht & H). apply bind_ok in H as (u & G & H). apply guard_ok in G. cbv zeta in H.
  apply bind_ok in H as (r & Hr & H). apply bind_ok in H as (rt & Hrt & H). apply Ok_inj in H as <-. cbn [me_by me_vht me_set].
  unfold memission. cbv zeta.
  set (g := {| g_speed := mp_len (ml_par l) / t1; g_fuelled := count (mp_fs (ml_par l)) (fun v => negb (ev c v)) (of_class cls c (ml_fin l) ++ minside cls c (ml_body l));
               g_electric := count (mp_fs (ml_par l)) (ev c) (of_class cls c (ml_fin l) ++ minside cls c (ml_body l)) |}).
  exists g. split.
  { exists t1. split; [exact Ht|]. split; [|repeat split; reflexivity]. intros C. apply Qeq_bool_iff in C. rewrite C in G. discriminate. }
  destruct (rates_ok _ (em_mph_range (mp_len (ml_par l) / t1))) as (r' & Er & Rr). rewrite Hr in Er. apply Ok_inj in Er as <-.
  destruct (truck_rates_ok _ (em_mph_range (mp_len (ml_par l) / t1))) as (r' & Er & Rt). rewrite Hrt in Er. apply Ok_inj in Er as <-.
  unfold em_add. cbv zeta. cbn [em_tot em_vmt em_vmt_ev]. rewrite !(Zlen_filter_perm _ _ _ (mqueues_perm c cls l)).
  change (inject_Z (Zlen (filter (fun v => negb (ev c v)) (of_class cls c (ml_fin l) ++ minside cls c (ml_body l)))) / mp_fs (ml_par l)) with (g_fuelled g).
  change (inject_Z (Zlen (filter (ev c) (of_class cls c (ml_fin l) ++ minside cls c (ml_body l)))) / mp_fs (ml_par l)) with (g_electric g).
  change (mp_len (ml_par l) / t1 * ut / 1600) with (g_miles ut g).
  split; [|split; [reflexivity|split; [reflexivity|split; [field|reflexivity]]]].
  intros p. change (mp_len (ml_par l) / t1) with (g_speed g) in Rr, Rt. destruct c; cbn [class_rate].
  - rewrite Rt, (truck_rate_comp p _ _ (em_mph_eq g)). ring.
  - rewrite Rr, (car_rate_comp p _ _ (em_mph_eq g)). ring.
Qed.
Lemma mlinks_sees ut cls ev (c : bool) : forall ls x x', foldM (me_link ut cls ev) x ls = Ok x' -> exists G, Forall2 (msees cls (ev c) c) ls G /\
  (forall p, em_tot (me_by x' c) p == em_tot (me_by x c) p + emitted (class_rate c) ut p G) /\ em_vmt (me_by x' c) == em_vmt (me_by x c) + driven ut G /\
  em_vmt_ev (me_by x' c) == em_vmt_ev (me_by x c) + driven_electric ut G /\ me_vht x' c == me_vht x c + hours ut G /\ me_set x' = me_set x.
Proof.
  induction ls as [|l ls IH]; intros x x' H; cbn [foldM] in H.
  - apply Ok_inj in H as <-. exists []. split; [constructor|]. unfold emitted, driven, driven_electric, hours. cbn [map]. sq. repeat split; intros; ring.
  - apply bind_ok in H as (x1 & H1 & H2). destruct (me_link_sees _ _ _ _ _ _ c H1) as (g & S1 & A1 & B1 & C1 & D1 & E1). destruct (IH _ _ H2) as (G & S2 & A2 & B2 & C2 & D2 & E2).
    exists (g :: G). split; [constructor; assumption|]. repeat (split; [|]); try congruence.
    + intros p. rewrite A2, A1, emitted_cons. ring.
    + rewrite B2, B1, driven_cons. ring.
    + rewrite C2, C1, driven_electric_cons. ring.
    + rewrite D2, D1, hours_cons. ring.
Qed.

Lemma me_step M D ut ev addr E k s c s' c' : mrun_em M D ut ev addr E (S k) s c = Ok (s', c') -> exists s1 c1 w,
  mrun_em M D ut ev addr E k s c = Ok (s1, c1) /\ mmoved_to M D s1 w /\ mloop_body M D s1 = Ok s' /\ me_update ut ev addr E c1 w = Ok c'.
Proof.
  cbn [mrun_em]. intros H. apply bind_ok in H as ([s1 c1] & H1 & H). cbn [fst snd] in H. apply bind_ok in H as ([w5 c2] & H2 & H). cbn [fst snd] in H.
  apply Ok_pair in H as [E1 E2]. subst s' c'. unfold mload_once_em in H2. apply bind_ok in H2 as (w4 & H3 & H2). apply bind_ok in H2 as (c3 & H4 & H2).
  apply bind_ok in H2 as (w5' & H5 & H2). apply Ok_pair in H2 as [E3 E4]. subst w5 c2. exists s1, c1, w4. split; [exact H1|].
  assert (L : mload_once M (D (ms_cur s1)) (ms_cur s1) (ms_assign s1) (ms_w s1) = Ok w5') by (rewrite mload_once_split, H3; exact H5).
  split; [split; [exact H3|]; exists w5'; split; [exact H5|exact L]|]. split; [|exact H4].
  unfold mloop_body. rewrite L. reflexivity.
Qed.
Lemma me_same_run M D ut ev addr E : forall k s c s' c', mrun_em M D ut ev addr E k s c = Ok (s', c') -> mrun M D k s = Ok s'.
Proof.
  induction k as [|k IH]; intros s c s' c' H; [cbn [mrun_em] in H; apply Ok_pair in H as [E1 _]; subst; reflexivity|].
  apply me_step in H as (s1 & c1 & w & H1 & _ & H2 & _). cbn [mrun]. rewrite (IH _ _ _ _ H1). exact H2.
Qed.
Lemma me_totals M D ut ev addr E (c : bool) : forall k s s' x, mrun_em M D ut ev addr E k s me_zero = Ok (s', x) ->
  exists G, mobserved M D ev E s c k G /\ totals (class_rate c) ut (concat (map G (seq 0 k))) (me_by x c) /\ me_vht x c == hours ut (concat (map G (seq 0 k))).
Proof.
  induction k as [|k IH]; intros s s' x H.
  - cbn [mrun_em] in H. apply Ok_pair in H as [_ H]. subst x. exists (fun _ => []). split; [intros j Hj; lia|]. cbn [seq map concat].
    split; [split; [intros p; reflexivity|split; reflexivity]|reflexivity].
  - apply me_step in H as (s1 & x1 & w & H1 & Mv & H2 & H3). destruct (IH _ _ _ H1) as (G & Ob & T & Th). pose proof (me_same_run _ _ _ _ _ _ _ _ _ _ _ H1) as R1.
    unfold me_update in H3. apply bind_ok in H3 as (x2 & H4 & H3). apply Ok_inj in H3 as <-.
    destruct (mlinks_sees _ _ _ c _ _ _ H4) as (Gs & S1 & A & B & C & Dh & _).
    exists (fun j => if (j =? k)%nat then Gs else G j). split.
    { intros j Hj. destruct (Nat.eqb_spec j k) as [->|Ne].
      - exists s1, w. split; [exact R1|]. split; [exact Mv|]. clear - S1. revert Gs S1. induction E as [|l E IH]; intros Gs S1; cbn [map] in S1; inversion S1; subst; constructor; auto.
      - apply Ob. lia. }
    assert (EG : concat (map (fun j => if (j =? k)%nat then Gs else G j) (seq 0 (S k))) = (concat (map G (seq 0 k)) ++ Gs)%list).
    { rewrite seq_S, map_app, concat_app. cbn [map concat Nat.add]. rewrite Nat.eqb_refl, app_nil_r. f_equal. f_equal.
      apply map_ext_in. intros j Hj. apply in_seq in Hj. destruct (Nat.eqb_spec j k); [lia|reflexivity]. }
    rewrite EG. cbn [me_seen me_by me_vht]. destruct T as (T1 & T2 & T3). split; [split; [|split]|].
    + intros p. rewrite A, T1, emitted_app. reflexivity.
    + rewrite B, T2, driven_app. reflexivity.
    + rewrite C, T3, driven_electric_app. reflexivity.
    + rewrite Dh, Th, hours_app. reflexivity.
Qed.

(** * Trips *)
Lemma insert_In a b s : In a (insert b s) <-> a = b \/ In a s.
Proof. unfold insert. destruct (memb b s) eqn:M; [apply memb_In in M|]; cbn [In]; split; intros H; intuition (subst; auto). Qed.
Lemma insert_NoDup a s : NoDup s -> NoDup (insert a s).
Proof. intros H. unfold insert. destruct (memb a s) eqn:M; [exact H|]. apply memb_false in M. now constructor. Qed.
Definition spotted (E : list Z) (c : bool) (w : mworld) (v : Z) : Prop :=
  In v (f_live (mw_fac w)) /\ mw_cls w v = c /\ exists l, v_cur (mw_veh w v) = Some l /\ In l E.
Lemma me_seen_set addr E w x c : NoDup (me_set x c) -> NoDup (me_set (me_seen addr E w x) c) /\
  forall a, In a (me_set (me_seen addr E w x) c) <-> In a (me_set x c) \/ exists v, spotted E c w v /\ addr v = a.
Proof.
  intros ND. cbn [me_seen me_set]. unfold spotted.
  assert (X : forall vs s, NoDup s -> let s' := fold_left (fun s v => match v_cur (mw_veh w v) with
      | Some l => if memb l E && Bool.eqb (mw_cls w v) c then insert (addr v) s else s | None => s end) vs s in
    NoDup s' /\ forall a, In a s' <-> In a s \/ exists v, (In v vs /\ mw_cls w v = c /\ exists l, v_cur (mw_veh w v) = Some l /\ In l E) /\ addr v = a).
  { induction vs as [|v vs IH]; intros s Hs; cbn [fold_left]; cbv zeta.
    - split; [exact Hs|]. intros a. split; [auto|]. intros [H|(v & ([] & _) & _)]; exact H.
    - match goal with |- context [fold_left ?f vs ?s1] => set (s2 := s1); destruct (IH s2) as [A B] end.
      { subst s2. destruct (v_cur (mw_veh w v)); [|exact Hs]. destruct (_ && _); [now apply insert_NoDup|exact Hs]. }
      split; [exact A|]. intros a. rewrite B.
      assert (Y : In a s2 <-> In a s \/ (mw_cls w v = c /\ exists l, v_cur (mw_veh w v) = Some l /\ In l E) /\ addr v = a).
      { subst s2. destruct (v_cur (mw_veh w v)) as [l|].
        - destruct (memb l E && Bool.eqb (mw_cls w v) c) eqn:Q.
          + apply andb_true_iff in Q as [Q1 Q2]. apply memb_In in Q1. apply Bool.eqb_prop in Q2. rewrite insert_In. split; [intros [->|H]; [right|auto]|].
            * split; [split; [exact Q2|exists l; auto]|reflexivity].
            * intros [H|(_ & H)]; auto.
          + split; [auto|]. intros [H|((H1 & l' & H2 & H3) & _)]; [exact H|]. injection H2 as <-. apply memb_In in H3. rewrite H3, H1, Bool.eqb_reflx in Q. discriminate.
        - split; [auto|]. intros [H|((_ & l' & H2 & _) & _)]; [exact H|discriminate]. }
      rewrite Y. split.
      + intros [[H|(H1 & H2)]|(u & (H1 & H2) & H3)]; [auto| |].
        * right. exists v. split; [split; [now left|exact H1]|exact H2].
        * right. exists u. split; [split; [now right|exact H2]|exact H3].
      + intros [H|(u & ([->|H1] & H2) & H3)]; [auto|left; right; auto|right; exists u; auto]. }
  apply (X (f_live (mw_fac w)) (me_set x c) ND).
Qed.
Lemma me_trips_set M D ut ev addr E c : forall k s s' x, mrun_em M D ut ev addr E k s me_zero = Ok (s', x) ->
  NoDup (me_set x c) /\ forall a, In a (me_set x c) <-> exists v, on_some M D E s c k v /\ addr v = a.
Proof.
  induction k as [|k IH]; intros s s' x H.
  - cbn [mrun_em] in H. apply Ok_pair in H as [_ H]. subst x. split; [constructor|]. intros a. split; [intros []|]. intros (v & (j & sj & w & l & Hj & _) & _). lia.
  - apply me_step in H as (s1 & x1 & w & H1 & Mv & H2 & H3). destruct (IH _ _ _ H1) as [ND I]. pose proof (me_same_run _ _ _ _ _ _ _ _ _ _ _ H1) as R1.
    unfold me_update in H3. apply bind_ok in H3 as (x2 & H4 & H3). apply Ok_inj in H3 as <-. destruct (mlinks_sees _ _ _ c _ _ _ H4) as (_ & _ & _ & _ & _ & _ & Es).
    assert (ND2 : NoDup (me_set x2 c)) by now rewrite Es. destruct (me_seen_set addr E w x2 c ND2) as [A B]. split; [exact A|]. intros a. rewrite B, Es, I. split.
    + intros [(v & (j & sj & w' & l & Hj & H) & Ha)|(v & (L & Hc & l & Hl & He) & Ha)].
      * exists v. split; [exists j, sj, w', l; split; [lia|exact H]|exact Ha].
      * exists v. split; [exists k, s1, w, l; split; [lia|]; repeat (split; [assumption|]); assumption|exact Ha].
    + intros (v & (j & sj & w' & l & Hj & Hr & Hm & L & Hc & Hl & He) & Ha). destruct (Nat.eq_dec j k) as [->|Ne].
      * right. exists v. split; [|exact Ha]. rewrite R1 in Hr. apply Ok_inj in Hr as <-. destruct Hm as (Hm & _), Mv as (Mv & _). rewrite Mv in Hm. apply Ok_inj in Hm as <-.
        split; [exact L|]. split; [exact Hc|]. exists l. auto.
      * left. exists v. split; [exists j, sj, w', l; split; [lia|]; repeat (split; [assumption|]); assumption|exact Ha].
Qed.
Lemma trips_le addr (s vs : list Z) : NoDup s -> (forall a, In a s -> exists v, In v vs /\ addr v = a) -> (Zlen s <= Zlen vs)%Z.
Proof.
  intros ND H. unfold Zlen. apply Nat2Z.inj_le. rewrite <- (map_length addr vs). apply NoDup_incl_length; [exact ND|]. intros a Ha. destruct (H a Ha) as (v & Hv & <-). now apply in_map.
Qed.
Lemma trips_eq addr (s vs : list Z) : NoDup s -> NoDup vs -> (forall a, In a s <-> exists v, In v vs /\ addr v = a) ->
  (forall u v, In u vs -> In v vs -> addr u = addr v -> u = v) -> Zlen s = Zlen vs.
Proof.
  intros ND NV H I. apply Z.le_antisymm; [apply (trips_le addr); [exact ND|intros a Ha; now apply H]|]. unfold Zlen. apply Nat2Z.inj_le. rewrite <- (map_length addr vs). apply NoDup_incl_length.
  - clear - NV I. induction NV as [|v vs Hv NV IH]; cbn [map]; constructor.
    + intros C. apply in_map_iff in C as (u & Eu & Hu). apply Hv. rewrite <- (I u v); auto; [now right|now left].
    + apply IH. intros; apply I; auto; now right.
  - intros a Ha. apply in_map_iff in Ha as (v & <- & Hv). apply H. eauto.
Qed.
