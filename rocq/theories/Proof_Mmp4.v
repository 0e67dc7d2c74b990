(** The best path of the table. *)
From Coq Require Import Lia Lqa.
From Verif Require Import Base Base_lemmas Model_Num Model_SP Model_Node Model_Split Model_Mmp Spec_Mmp Proof_Num Proof_Link4 Proof_Mmp Proof_Mmp2.
Local Open Scope Q_scope.

(** the value looked at for a path and an interval *)
Definition value (de : denv) (kept : bool) (o : odset) (m : mode) (p : ppath) (i : Z) : res Q :=
  do dmd <- mode_demand o (demand_mode m) (column de i);
  match kept, pp_dis p with
  | true, _ :: _ => match nth_error (pp_dis p) (column de i) with Some d => Ok d | None => Err EAssert end
  | _, _ => do c <- path_cost (de_cost de) (pp_key p) i; Ok (disutility de (key_mode (pp_key p)) c dmd)
  end.
Lemma look_ok de kept o m dmd i cur p cur' : mode_demand o (demand_mode m) (column de i) = Ok dmd -> look_path de kept dmd i cur p = Ok cur' ->
  exists d, value de kept o m p i = Ok d /\ cur' = better cur (pp_key p) i d.
Proof.
  intros D H. unfold value. rewrite D. cbn [bind]. unfold look_path in H. destruct kept, (pp_dis p) as [|x l]; try (
    apply bind_ok in H as (c & H1 & H); rewrite H1; cbn [bind]; apply Ok_inj in H; eexists; split; [reflexivity|now symmetry]).
  destruct (nth_error (x :: l) (column de i)); [|discriminate]. apply Ok_inj in H. eauto.
Qed.
Definition lowest (val : ppath -> Z -> res Q) (seen : list (ppath * Z)) (cur : option best) : Prop :=
  match cur with
  | None => seen = []
  | Some (k, i, d) => (exists p, In (p, i) seen /\ same_trip k (pp_key p) /\ val p i = Ok d) /\
                      (forall p' i', In (p', i') seen -> exists d', val p' i' = Ok d' /\ d <= d')
  end.
Lemma lowest_better val seen cur p i d : lowest val seen cur -> val p i = Ok d -> lowest val (seen ++ [(p, i)]) (better cur (pp_key p) i d).
Proof.
  intros L V. destruct cur as [[[k0 i0] d0]|]; cbn [lowest better] in *.
  - destruct L as ((p0 & I0 & S0 & V0) & A). destruct (Qltb_spec d d0) as [B|B].
    + split.
      * exists p. split; [apply in_or_app; right; now left|]. split; [|assumption]. destruct (same_path k0 (pp_key p)) eqn:E; [now apply same_path_iff|apply same_trip_refl].
      * intros p' i' H. apply in_app_or in H as [H|[H|[]]].
        -- destruct (A p' i' H) as (d' & V' & X). exists d'. split; [assumption|lra].
        -- injection H as <- <-. exists d. split; [assumption|lra].
    + split.
      * exists p0. split; [apply in_or_app; now left|auto].
      * intros p' i' H. apply in_app_or in H as [H|[H|[]]]; [auto|]. injection H as <- <-. exists d. split; [assumption|lra].
  - subst seen. cbn [app]. split.
    + exists p. split; [now left|]. split; [apply same_trip_refl|assumption].
    + intros p' i' [H|[]]. injection H as <- <-. exists d. split; [assumption|lra].
Qed.
Lemma look_all de kept o m dmd i : mode_demand o (demand_mode m) (column de i) = Ok dmd -> forall ps seen cur cur',
  lowest (value de kept o m) seen cur -> foldM (look_path de kept dmd i) cur ps = Ok cur' -> lowest (value de kept o m) (seen ++ map (fun p => (p, i)) ps) cur'.
Proof.
  intros D. induction ps as [|p ps IH]; intros seen cur cur' L H; cbn [foldM map] in *.
  - apply Ok_inj in H. subst. now rewrite app_nil_r.
  - apply bind_ok in H as (c1 & H1 & H). apply (look_ok de kept o m) in H1 as (d & V & ->); [|assumption].
    pose proof (IH _ _ _ (lowest_better _ _ _ _ _ _ L V) H) as R. rewrite <- app_assoc in R. exact R.
Qed.
Lemma look_intervals de kept o m ps : forall is seen cur cur', lowest (value de kept o m) seen cur ->
  foldM (fun cur i => do dmd <- mode_demand o (demand_mode m) (column de i); foldM (look_path de kept dmd i) cur ps) cur is = Ok cur' ->
  lowest (value de kept o m) (seen ++ flat_map (fun i => map (fun p => (p, i)) ps) is) cur'.
Proof.
  induction is as [|i is IH]; intros seen cur cur' L H; cbn [foldM flat_map] in *.
  - apply Ok_inj in H. subst. now rewrite app_nil_r.
  - apply bind_ok in H as (c1 & H1 & H). apply bind_ok in H1 as (dmd & D & H1). pose proof (look_all _ _ _ _ _ _ D _ _ _ _ L H1) as L1.
    pose proof (IH _ _ _ L1 H) as R. rewrite <- app_assoc in R. exact R.
Qed.
Definition pairs_of (ps : list ppath) (is : list Z) : list (ppath * Z) := flat_map (fun i => map (fun p => (p, i)) ps) is.
Lemma pairs_in ps is p i : In (p, i) (pairs_of ps is) <-> In p ps /\ In i is.
Proof.
  unfold pairs_of. rewrite in_flat_map. split.
  - intros (j & H1 & H2). apply in_map_iff in H2 as (q & E & H2). injection E as <- <-. auto.
  - intros (H1 & H2). exists i. split; [assumption|]. apply in_map_iff. eauto.
Qed.
Lemma best_mode_ok de kept o is m r : best_of_mode de kept o is m = Ok r -> exists ps, set_of o m = Some ps /\ lowest (value de kept o m) (pairs_of ps is) r.
Proof.
  unfold best_of_mode. destruct (set_of o m) as [ps|]; [|discriminate]. intros H. exists ps. split; [reflexivity|].
  apply bind_ok in H as (r1 & H1 & H). assert (E : r1 = r) by (destruct m, r1; first [now apply Ok_inj in H | discriminate]). subst r1.
  exact (look_intervals de kept o m ps is [] None r eq_refl H1).
Qed.
Definition val (de : denv) (kept : bool) (o : odset) (p : ppath) (i : Z) : res Q := value de kept o (key_mode (pp_key p)) p i.
Lemma lowest_ext v1 v2 seen cur : (forall p i, In (p, i) seen -> v1 p i = v2 p i) -> lowest v1 seen cur -> lowest v2 seen cur.
Proof.
  intros E. destruct cur as [[[k i] d]|]; cbn [lowest]; [|auto]. intros ((p & I0 & S0 & V0) & A). split.
  - exists p. rewrite <- E by assumption. auto.
  - intros p' i' H. destruct (A p' i' H) as (d' & V' & L). exists d'. rewrite <- E by assumption. auto.
Qed.
Lemma lowest_merge v s1 s2 a b : lowest v s1 a -> lowest v s2 b -> lowest v (s1 ++ s2) (merge a b).
Proof.
  destruct a as [[[ka ia] da]|], b as [[[kb ib] db]|]; cbn [lowest merge].
  - intros ((p & I1 & S1 & V1) & A) ((q & I2 & S2 & V2) & B). destruct (Qltb_spec db da) as [C|C]; split.
    + exists q. split; [apply in_or_app; now right|auto].
    + intros p' i' H. apply in_app_or in H as [H|H].
      * destruct (A p' i' H) as (d' & V' & X). exists d'. split; [assumption|lra].
      * auto.
    + exists p. split; [apply in_or_app; now left|auto].
    + intros p' i' H. apply in_app_or in H as [H|H]; [auto|]. destruct (B p' i' H) as (d' & V' & X). exists d'. split; [assumption|lra].
  - intros L ->. now rewrite app_nil_r.
  - intros -> L. exact L.
  - intros -> ->. reflexivity.
Qed.
Lemma best_ok de kept o is k i d : filed o -> best_of de kept o is = Ok (k, i, d) ->
  (exists p, listed_path o p /\ In i is /\ same_trip k (pp_key p) /\ val de kept o p i = Ok d) /\
  (forall p' i', listed_path o p' -> In i' is -> exists d', val de kept o p' i' = Ok d' /\ d <= d').
Proof.
  intros F H. unfold best_of in H. apply bind_ok in H as (r & H1 & H). destruct r as [b|]; [|discriminate]. apply Ok_inj in H. subst b.
  assert (G : forall ms cur seen r, lowest (val de kept o) seen cur ->
    foldM (fun cur m => match set_of o m with None => Ok cur | Some _ => do b <- best_of_mode de kept o is m; Ok (merge cur b) end) cur ms = Ok r ->
    lowest (val de kept o) (seen ++ flat_map (fun m => match set_of o m with None => [] | Some ps => pairs_of ps is end) ms) r).
  { induction ms as [|m ms IH]; intros cur seen r L X; cbn [foldM flat_map] in *.
    - apply Ok_inj in X. subst. now rewrite app_nil_r.
    - apply bind_ok in X as (c1 & X1 & X). destruct (set_of o m) as [ps|] eqn:E.
      + apply bind_ok in X1 as (b & Hb & X1). apply Ok_inj in X1. subst c1. apply best_mode_ok in Hb as (ps' & E' & Lb).
        assert (ps' = ps) by congruence. subst ps'.
        assert (Lb' : lowest (val de kept o) (pairs_of ps is) b).
        { revert Lb. apply lowest_ext. intros p j Hp. apply pairs_in in Hp as [Hp _]. unfold val.
          now rewrite (proj2 F m ps p (set_of_in _ _ _ E) Hp). }
        pose proof (IH _ _ _ (lowest_merge _ _ _ _ _ L Lb') X) as R. rewrite <- app_assoc in R. exact R.
      + apply Ok_inj in X1. subst c1. cbn [app]. exact (IH _ _ _ L X). }
  pose proof (G all_modes None [] (Some (k, i, d)) eq_refl H1) as R. cbn [app] in R. set (seen := flat_map _ all_modes) in R.
  assert (SE : forall p j, In (p, j) seen <-> listed_path o p /\ In j is).
  { intros p j. unfold seen. rewrite in_flat_map. split.
    - intros (m & _ & X). destruct (set_of o m) as [ps|] eqn:E; [|destruct X]. apply pairs_in in X as [X1 X2]. split; [|assumption]. exists m, ps. split; [now apply set_of_in|assumption].
    - intros ((m & ps & X1 & X2) & X3). exists m. split; [destruct m; cbn; auto|]. rewrite (set_of_filed _ _ _ F X1). apply pairs_in. auto. }
  cbn [lowest] in R. destruct R as ((p & I1 & S1 & V1) & A). split.
  - exists p. apply SE in I1 as [I1 I2]. auto.
  - intros p' i' Hp Hi. apply A. apply SE. auto.
Qed.
(** park and ride without any bus path *)
Lemma best_throws de kept o is ps b : set_of o Pnr = Some ps -> set_of o Transit = None -> is <> [] -> best_of de kept o is <> Ok b.
Proof.
  intros P T N H. unfold best_of in H. apply bind_ok in H as (r & H1 & _). unfold all_modes in H1. cbn [foldM] in H1.
  apply bind_ok in H1 as (r1 & _ & H1). rewrite T in H1. cbn [bind] in H1. rewrite P in H1. apply bind_ok in H1 as (r2 & H2 & _).
  apply bind_ok in H2 as (b2 & H2 & _). unfold best_of_mode in H2. rewrite P in H2. apply bind_ok in H2 as (r3 & H2 & _).
  destruct is as [|i is]; [congruence|]. cbn [foldM demand_mode] in H2. apply bind_ok in H2 as (r4 & H2 & _). unfold mode_demand in H2. rewrite T in H2. discriminate.
Qed.
Lemma val_valued de o p i d : filed o -> key_mode (pp_key p) <> Pnr -> val de false o p i = Ok d -> valued de o p i d.
Proof.
  intros F N H. unfold val, value in H. apply bind_ok in H as (dmd & D & H). apply bind_ok in H as (c & C & H). apply Ok_inj in H.
  assert (E : demand_mode (key_mode (pp_key p)) = key_mode (pp_key p)) by (destruct (key_mode (pp_key p)); [reflexivity|reflexivity|congruence]).
  rewrite E in D. unfold mode_demand in D. destruct (set_of o (key_mode (pp_key p))) as [ps|] eqn:S1; [|discriminate]. apply Ok_inj in D. subst dmd.
  exists c, ps. split; [assumption|]. split; [now apply set_of_in|]. subst d. reflexivity.
Qed.
Lemma valued_unique de o p i d d' : filed o -> valued de o p i d -> valued de o p i d' -> d == d'.
Proof.
  intros F (c & ps & H1 & H2 & H3) (c' & ps' & H1' & H2' & H3'). assert (E : c = c') by congruence.
  assert (E2 : ps = ps') by (apply (set_of_filed _ _ _ F) in H2, H2'; congruence). subst. rewrite H3, H3'. reflexivity.
Qed.
Lemma val_stored de o p i d : pp_dis p <> [] -> val de true o p i = Ok d -> nth_error (pp_dis p) (column de i) = Some d.
Proof.
  intros N H. unfold val, value in H. apply bind_ok in H as (dmd & _ & H). destruct (pp_dis p) as [|x l]; [congruence|].
  destruct (nth_error (x :: l) (column de i)); [|discriminate]. apply Ok_inj in H. congruence.
Qed.
(** when the choice among stored disutilities works *)
Lemma look_stored de o m dmd i p cur d : mode_demand o (demand_mode m) (column de i) = Ok dmd -> nth_error (pp_dis p) (column de i) = Some d -> look_path de true dmd i cur p = Ok (better cur (pp_key p) i d).
Proof. intros _ H. unfold look_path. destruct (pp_dis p) as [|x l]; [destruct (column de i); discriminate|]. now rewrite H. Qed.
Lemma better_some cur k i d : exists b, better cur k i d = Some b.
Proof. destruct cur as [[[k0 i0] d0]|]; cbn [better]; [destruct (Qltb d d0); eauto|eauto]. Qed.
Lemma best_mode_total de o i m ps dmd : set_of o m = Some ps -> ps <> [] -> mode_demand o (demand_mode m) (column de i) = Ok dmd ->
  (forall p, In p ps -> exists d, nth_error (pp_dis p) (column de i) = Some d) -> exists b, best_of_mode de true o [i] m = Ok (Some b).
Proof.
  intros E N D K. unfold best_of_mode. rewrite E. cbn [foldM]. rewrite D. cbn [bind].
  assert (G : forall l cur, (forall p, In p l -> exists d, nth_error (pp_dis p) (column de i) = Some d) -> (cur = None -> l <> []) -> exists b, foldM (look_path de true dmd i) cur l = Ok (Some b)).
  { induction l as [|p l IH]; intros cur K' N'; cbn [foldM].
    - destruct cur as [b|]; [eauto|]. exfalso. now apply N'.
    - destruct (K' p (or_introl eq_refl)) as (d & Ed). rewrite (look_stored de o m dmd i p cur d D Ed). cbn [bind]. destruct (better_some cur (pp_key p) i d) as (b & ->).
      apply IH; [intros; apply K'; now right|discriminate]. }
  destruct (G ps None K (fun _ => N)) as (b & ->). cbn [bind]. destruct m; eauto.
Qed.
Lemma best_total de o i : filed o -> o <> [] -> (forall m ps, In (m, ps) o -> ps <> []) -> (forall p, listed_path o p -> exists d, nth_error (pp_dis p) (column de i) = Some d) ->
  (forall ps, In (Pnr, ps) o -> exists qs, In (Transit, qs) o) -> exists b, best_of de true o [i] = Ok b.
Proof.
  intros F N NE K PT. unfold best_of.
  assert (S1 : forall m cur, exists r, (match set_of o m with None => Ok cur | Some _ => do b <- best_of_mode de true o [i] m; Ok (merge cur b) end) = Ok r /\ (r = None -> cur = None /\ set_of o m = None)).
  { intros m cur. destruct (set_of o m) as [ps|] eqn:E; [|exists cur; auto].
    assert (D : exists dmd, mode_demand o (demand_mode m) (column de i) = Ok dmd).
    { unfold mode_demand. destruct m; cbn [demand_mode]; try (rewrite E; eauto). destruct (PT ps (set_of_in _ _ _ E)) as (qs & Q1). rewrite (set_of_filed _ _ _ F Q1). eauto. }
    destruct D as (dmd & D). destruct (best_mode_total de o i m ps dmd E (NE m ps (set_of_in _ _ _ E)) D) as (b & ->).
    { intros p Hp. apply K. exists m, ps. split; [now apply set_of_in|assumption]. }
    cbn [bind]. exists (merge cur (Some b)). split; [reflexivity|]. destruct cur as [[[? ?] ?]|], b as [[? ?] ?]; cbn [merge]; [destruct (Qltb q0 q)|]; discriminate. }
  unfold all_modes. cbn [foldM]. destruct (S1 Driving None) as (r1 & -> & X1). cbn [bind]. destruct (S1 Transit r1) as (r2 & -> & X2). cbn [bind]. destruct (S1 Pnr r2) as (r3 & -> & X3). cbn [bind].
  destruct r3 as [b|]; [eauto|]. exfalso. destruct (X3 eq_refl) as [-> Y3]. destruct (X2 eq_refl) as [-> Y2]. destruct (X1 eq_refl) as [_ Y1].
  destruct o as [|[m ps] r]; [congruence|]. assert (E : set_of ((m, ps) :: r) m = Some ps) by (apply set_of_filed; [assumption|now left]). destruct m; congruence.
Qed.
