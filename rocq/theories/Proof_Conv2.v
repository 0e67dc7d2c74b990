(** Proofs about the tables made from passenger paths: whole tables. *)
From Coq Require Import Lia Lqa.
From Verif Require Import Base Base_lemmas Model_Num Model_SP Model_Node Model_Split Model_Mmp Spec_Mmp Proof_Num Proof_Link4 Proof_Mmp Proof_Node4 Model_Conv Spec_Conv Proof_Conv.
Local Open Scope Q_scope.

Lemma put_fresh {S} od (s : S) t : ~ In od (map fst t) -> put_pair od s t = t ++ [(od, s)].
Proof.
  induction t as [|[a v] r IH]; intros N; cbn [put_pair app]; [reflexivity|]. cbn [map fst] in N. cbn [fst]. destruct (pair_eqb a od) eqn:E.
  - apply pair_eqb_iff in E. subst. exfalso. apply N. now left.
  - rewrite IH; [reflexivity|]. intros I. apply N. now right.
Qed.
Lemma find_fresh {S} od (t : tabof S) : ~ In od (map fst t) -> find_pair od t = None.
Proof.
  induction t as [|[a v] r IH]; intros N; cbn [find_pair]; [reflexivity|]. cbn [map fst] in N. cbn [fst]. destruct (pair_eqb a od) eqn:E.
  - apply pair_eqb_iff in E. subst. exfalso. apply N. now left.
  - apply IH. intros I. apply N. now right.
Qed.
Lemma find_in {S} od (t : tabof S) s : NoDup (map fst t) -> In (od, s) t -> find_pair od t = Some s.
Proof.
  induction t as [|[a v] r IH]; intros N H; [destruct H|]. cbn [map fst] in N. inversion N as [|? ? N1 N2]; subst. cbn [find_pair fst snd]. destruct H as [H|H].
  - injection H as -> ->. now rewrite (proj2 (pair_eqb_iff od od) eq_refl).
  - destruct (pair_eqb a od) eqn:E; [|now apply IH]. apply pair_eqb_iff in E. subst. exfalso. apply N1. now apply (in_map fst) in H.
Qed.
Lemma find_some {S} od (t : tabof S) s : find_pair od t = Some s -> In (od, s) t.
Proof.
  induction t as [|[a v] r IH]; cbn [find_pair fst snd]; [discriminate|]. destruct (pair_eqb a od) eqn:E; [|intros H; right; auto].
  apply pair_eqb_iff in E. intros H. injection H as <-. subst. now left.
Qed.

(** the trucks of a pair *)
Definition tr_of (sh : bool) (trk : option (tabof dset)) (od : pair) : dset := if sh then [] else match trk with Some t => found od t | None => [] end.
Definition good_drive (tr : dset) (o : odset) (s : dset) : Prop :=
  NoDup (map fst s) /\ ((forall e c, In e tr -> fst (snd e) c == 0) -> forall c, total_cars s c == sumQ (map (cars_needed c) (all_paths o))) /\
  forall links c, trucks_on s links c == trucks_on tr links c /\ ((forall e c, In e tr -> fst (snd e) c == 0) -> cars_on s links c == sumQ (map (cars_of links c) (all_paths o))).
Definition good_pnr (o : odset) (s : rset) : Prop := NoDup (map fst s) /\ forall k c, park_on s k c == sumQ (map (parkers_of k c) (all_paths o)).
Definition good_bus (o : odset) (s : bset) : Prop := NoDup (map fst s) /\ forall links c, bus_on s links c == sumQ (map (riders_of links c) (all_paths o)).

Lemma total_fold tr : forall s c, (forall e c, In e tr -> fst (snd e) c == 0) -> total_cars (fold_left add_truck tr s) c == total_cars s c.
Proof.
  induction tr as [|e r IH]; intros s c Z0; cbn [fold_left]; [reflexivity|]. rewrite IH by (intros; apply Z0; now right).
  unfold total_cars, add_truck. rewrite (merge_sum links_eqb (fst e) _ _ _ 0 links_eqb_iff); [ring| |]; cbn [fst snd]; [apply Z0; now left|]. intros. ring.
Qed.
Lemma total_drivers ps : forall s s' c, foldM add_driver s ps = Ok s' -> total_cars s' c == total_cars s c + sumQ (map (cars_needed c) ps).
Proof.
  induction ps as [|p r IH]; intros s s' c H; cbn [foldM] in H.
  - apply Ok_inj in H. subst. cbn [map]. change (sumQ []) with 0. ring.
  - apply bind_ok in H as (s1 & H1 & H). rewrite (IH _ _ c H). cbn [map]. match goal with |- context [sumQ (?x :: ?l)] => change (sumQ (x :: l)) with (x + sumQ l) end.
    unfold cars_needed at 2. unfold add_driver in H1. destruct (pp_key p) as [n lot l|l|lot d b]; try discriminate. apply Ok_inj in H1. subst s1.
    unfold total_cars. rewrite (merge_sum links_eqb l _ _ (fun e => fst (snd e) c) (pp_flow p c / inject_Z n) links_eqb_iff); [ring|reflexivity|]. intros v. reflexivity.
Qed.
Lemma drive_good tr o s : filed o -> foldM add_driver (fold_left add_truck tr []) (of_mode o Driving) = Ok s -> good_drive tr o s.
Proof.
  intros F H. destruct (drivers_ok _ _ _ H) as [A B]. split; [|split].
  - apply B, trucks_NoDup. constructor.
  - intros Z0 c. rewrite (total_drivers _ _ _ c H), total_fold by assumption. unfold total_cars. cbn [map]. change (sumQ []) with 0. rewrite sum_of_mode; [ring|assumption|].
    intros p NK. unfold cars_needed. destruct (pp_key p); try reflexivity. exfalso. apply NK. reflexivity.
  - intros links c. destruct (A links c) as [A1 A2]. split.
    + rewrite A2. clear. assert (G : forall s, trucks_on (fold_left add_truck tr s) links c == trucks_on s links c + trucks_on tr links c).
      { induction tr as [|e r IH]; intros s; cbn [fold_left].
        - unfold trucks_on at 3. cbn [map]. change (sumQ []) with 0. ring.
        - rewrite IH, truck_trucks. unfold trucks_on at 4. cbn [map]. match goal with |- _ == _ + sumQ (?x :: ?l) => change (sumQ (x :: l)) with (x + sumQ l) end. unfold trucks_on. ring. }
      rewrite G. unfold trucks_on at 1. cbn [map]. change (sumQ []) with 0. ring.
    + intros Z0. rewrite A1, (proj1 (trucks_fold tr [] links c Z0)). unfold cars_on. cbn [map]. change (sumQ []) with 0. rewrite sum_of_mode; [ring|assumption|].
      intros p NK. unfold cars_of. destruct (pp_key p); try reflexivity. exfalso. apply NK. reflexivity.
Qed.
Lemma pnr_good o s : filed o -> foldM add_pnr [] (of_mode o Pnr) = Ok s -> good_pnr o s.
Proof.
  intros F H. destruct (pnrs_ok _ _ _ H) as [A B]. split; [apply B; constructor|]. intros k c. rewrite A. unfold park_on at 1. cbn [map]. change (sumQ []) with 0. rewrite sum_of_mode; [ring|assumption|].
  intros p NK. unfold parkers_of. destruct (pp_key p); try reflexivity. exfalso. apply NK. reflexivity.
Qed.
Lemma bus_good o s : filed o -> foldM add_bus [] (of_mode o Transit) = Ok s -> good_bus o s.
Proof.
  intros F H. destruct (buses_ok _ _ _ H) as [A B]. split; [apply B; constructor|]. intros k c. rewrite A. unfold bus_on at 1. cbn [map]. change (sumQ []) with 0. rewrite sum_of_mode; [ring|assumption|].
  intros p NK. unfold riders_of. destruct (pp_key p); try reflexivity. exfalso. apply NK. reflexivity.
Qed.

(** a table that has the sets of exactly the pairs offered *)
Inductive built {S} (off : pair -> Prop) (P : pair -> odset -> S -> Prop) : list (pair * odset) -> tabof S -> Prop :=
| B_nil : built off P [] []
| B_yes : forall od o s r t, off od -> P od o s -> built off P r t -> built off P ((od, o) :: r) ((od, s) :: t)
| B_no : forall od o r t, ~ off od -> built off P r t -> built off P ((od, o) :: r) t.
Lemma usable_ok mo od m b : usable_mode mo od m = Ok b -> (b = true <-> offered mo od m).
Proof.
  unfold usable_mode, offered. destruct (mo_on mo m); [destruct (mo_conn mo od m) as [x|]; [|discriminate]|]; intros H; apply Ok_inj in H; subst b.
  - split; [intros ->; auto|]. intros [_ E]. congruence.
  - split; [discriminate|]. intros [E _]. discriminate.
Qed.
Definition adds {S} (off : pair -> Prop) (P : S -> Prop) (od : pair) (t t' : tabof S) : Prop :=
  (off od /\ exists s, t' = t ++ [(od, s)] /\ P s) \/ (~ off od /\ t' = t).
Lemma step_ok mo sh trk t od o t' : filed o -> ~ In od (map fst (tb_drive t)) -> ~ In od (map fst (tb_pnr t)) -> ~ In od (map fst (tb_bus t)) ->
  convert_pair mo sh trk t (od, o) = Ok t' ->
  adds (fun od => offered mo od Driving) (good_drive (tr_of sh trk od) o) od (tb_drive t) (tb_drive t') /\
  adds (fun od => offered mo od Pnr) (good_pnr o) od (tb_pnr t) (tb_pnr t') /\
  adds (fun od => offered mo od Transit) (good_bus o) od (tb_bus t) (tb_bus t').
Proof.
  intros F N1 N2 N3 H. unfold convert_pair in H. cbn [fst snd] in H. apply bind_ok in H as (d & Hd & H). apply usable_ok in Hd. apply bind_ok in H as (t1 & H1 & H).
  apply bind_ok in H as (r & Hr & H). apply usable_ok in Hr. apply bind_ok in H as (t2 & H2 & H). apply bind_ok in H as (b & Hb & H). apply usable_ok in Hb.
  assert (F1 : found od (tb_drive t) = []) by (unfold found; now rewrite find_fresh).
  assert (D : adds (fun od => offered mo od Driving) (good_drive (tr_of sh trk od) o) od (tb_drive t) (tb_drive t1) /\ tb_pnr t1 = tb_pnr t /\ tb_bus t1 = tb_bus t).
  { destruct d.
    - rewrite F1 in H1. apply bind_ok in H1 as (s & Hs & H1). apply Ok_inj in H1. subst t1. cbn [tb_drive tb_pnr tb_bus]. split; [|auto]. left. split; [now apply Hd|]. exists s. split; [now apply put_fresh|].
      apply drive_good; assumption.
    - apply Ok_inj in H1. subst t1. split; [|auto]. right. split; [|reflexivity]. intros O. apply Hd in O. discriminate. }
  destruct D as (D & P1 & B1). rewrite <- P1 in N2. rewrite <- B1 in N3.
  assert (F2 : found od (tb_pnr t1) = []) by (unfold found; now rewrite find_fresh).
  assert (R : adds (fun od => offered mo od Pnr) (good_pnr o) od (tb_pnr t1) (tb_pnr t2) /\ tb_drive t2 = tb_drive t1 /\ tb_bus t2 = tb_bus t1).
  { destruct r.
    - rewrite F2 in H2. apply bind_ok in H2 as (s & Hs & H2). apply Ok_inj in H2. subst t2. cbn [tb_drive tb_pnr tb_bus]. split; [|auto]. left. split; [now apply Hr|]. exists s. split; [now apply put_fresh|now apply pnr_good].
    - apply Ok_inj in H2. subst t2. split; [|auto]. right. split; [|reflexivity]. intros O. apply Hr in O. discriminate. }
  destruct R as (R & D2 & B2). rewrite <- B2 in N3. rewrite P1 in R.
  assert (F3 : found od (tb_bus t2) = []) by (unfold found; now rewrite find_fresh).
  destruct b.
  - rewrite F3 in H. apply bind_ok in H as (s & Hs & H). apply Ok_inj in H. subst t'. cbn [tb_drive tb_pnr tb_bus]. rewrite D2. split; [assumption|]. split; [assumption|]. left. split; [now apply Hb|].
    exists s. split; [|now apply bus_good]. rewrite put_fresh by assumption. now rewrite B2, B1.
  - apply Ok_inj in H. subst t'. rewrite D2, B2, B1. split; [assumption|]. split; [assumption|]. right. split; [|reflexivity]. intros O. apply Hb in O. discriminate.
Qed.
Lemma adds_keys {S} off (P : S -> Prop) od t t' x : adds off P od t t' -> In x (map fst t') -> In x (map fst t) \/ x = od.
Proof. intros [(_ & s & -> & _)|(_ & ->)]; [|tauto]. rewrite map_app, in_app_iff. cbn. intuition auto. Qed.
Lemma adds_built {S} off (P : pair -> odset -> S -> Prop) od o t t' r rest : adds off (P od o) od t t' -> built off P r rest -> exists tab, built off P ((od, o) :: r) tab /\ t' ++ rest = t ++ tab.
Proof.
  intros [(O & s & -> & G)|(O & ->)] B.
  - exists ((od, s) :: rest). split; [now constructor|]. now rewrite <- app_assoc.
  - exists rest. split; [now constructor|reflexivity].
Qed.
Lemma pairs_ok mo sh trk pt : forall t t', proper pt -> (forall od o, In (od, o) pt -> ~ In od (map fst (tb_drive t)) /\ ~ In od (map fst (tb_pnr t)) /\ ~ In od (map fst (tb_bus t))) ->
  foldM (convert_pair mo sh trk) t pt = Ok t' ->
  exists a b c, tb_drive t' = tb_drive t ++ a /\ tb_pnr t' = tb_pnr t ++ b /\ tb_bus t' = tb_bus t ++ c /\
    built (fun od => offered mo od Driving) (fun od o s => good_drive (tr_of sh trk od) o s) pt a /\
    built (fun od => offered mo od Pnr) (fun od o s => good_pnr o s) pt b /\ built (fun od => offered mo od Transit) (fun od o s => good_bus o s) pt c.
Proof.
  induction pt as [|[od o] r IH]; intros t t' [ND F] FR H; cbn [foldM] in H.
  - apply Ok_inj in H. subst. exists [], [], []. rewrite !app_nil_r. repeat split; constructor.
  - apply bind_ok in H as (t1 & H1 & H). cbn [map fst] in ND. inversion ND as [|? ? N1 N2]; subst.
    destruct (FR od o (or_introl eq_refl)) as (X1 & X2 & X3). destruct (step_ok _ _ _ _ _ _ _ (F od o (or_introl eq_refl)) X1 X2 X3 H1) as (A1 & A2 & A3).
    destruct (IH t1 t') as (a & b & c & E1 & E2 & E3 & B1 & B2 & B3).
    + split; [assumption|]. intros; eapply F; right; eassumption.
    + intros od' o' I. destruct (FR od' o' (or_intror I)) as (Y1 & Y2 & Y3). assert (od' <> od) by (intros ->; apply N1; now apply (in_map fst) in I).
      split; [|split]; intros J; [apply (adds_keys _ _ _ _ _ _ A1) in J|apply (adds_keys _ _ _ _ _ _ A2) in J|apply (adds_keys _ _ _ _ _ _ A3) in J]; destruct J; auto.
    + assumption.
    + destruct (adds_built _ (fun od o s => good_drive (tr_of sh trk od) o s) od o _ _ r a A1 B1) as (a' & G1 & K1).
      destruct (adds_built _ (fun od o s => good_pnr o s) od o _ _ r b A2 B2) as (b' & G2 & K2).
      destruct (adds_built _ (fun od o s => good_bus o s) od o _ _ r c A3 B3) as (c' & G3 & K3).
      exists a', b', c'. rewrite E1, E2, E3, K1, K2, K3. auto 10.
Qed.
Lemma built_in {S} off (P : pair -> odset -> S -> Prop) pt tab od s : built off P pt tab -> In (od, s) tab -> off od /\ exists o, In (od, o) pt /\ P od o s.
Proof.
  induction 1 as [|od1 o s1 r t O G B IH|od1 o r t O B IH]; intros I; [destruct I| |].
  - destruct I as [I|I]; [injection I as -> ->; split; [assumption|]; exists o; split; [now left|assumption]|]. destruct (IH I) as (X & o' & Y1 & Y2). split; [assumption|]. exists o'. split; [now right|assumption].
  - destruct (IH I) as (X & o' & Y1 & Y2). split; [assumption|]. exists o'. split; [now right|assumption].
Qed.
Lemma built_has {S} off (P : pair -> odset -> S -> Prop) pt tab od o : built off P pt tab -> In (od, o) pt -> off od -> exists s, In (od, s) tab.
Proof.
  induction 1 as [|od1 o1 s1 r t O G B IH|od1 o1 r t O B IH]; intros I W; [destruct I| |].
  - destruct I as [I|I]; [injection I as -> ->; exists s1; now left|]. destruct (IH I W) as (s & J). exists s. now right.
  - destruct I as [I|I]; [injection I as -> ->; contradiction|]. now apply IH.
Qed.
Lemma built_NoDup {S} off (P : pair -> odset -> S -> Prop) pt tab : built off P pt tab -> NoDup (map fst pt) -> NoDup (map fst tab).
Proof.
  induction 1 as [|od1 o1 s1 r t O G B IH|od1 o1 r t O B IH]; intros N; cbn [map fst] in *; [constructor| |]; inversion N as [|? ? N1 N2]; subst; [|auto].
  constructor; [|auto]. intros I. apply N1. apply in_map_iff in I as ((od & s) & E & I). cbn in E. subst od. destruct (built_in _ _ _ _ _ _ B I) as (_ & o & J & _). now apply (in_map fst) in J.
Qed.
Lemma convert_ok mo rt b old pt t : proper pt -> convert mo rt b old pt = Ok t -> exists p, prepare rt b = Ok p /\
  built (fun od => offered mo od Driving) (fun od o s => good_drive (tr_of (snd p) (fst p) od) o s) pt (tb_drive t) /\
  built (fun od => offered mo od Pnr) (fun od o s => good_pnr o s) pt (tb_pnr t) /\ built (fun od => offered mo od Transit) (fun od o s => good_bus o s) pt (tb_bus t).
Proof.
  intros P H. unfold convert in H. apply bind_ok in H as (p & E & H). exists p. split; [assumption|].
  destruct (pairs_ok mo (snd p) (fst p) pt (TB [] [] []) t P) as (a & b' & c & E1 & E2 & E3 & B); [cbn; auto|assumption|]. cbn in E1, E2, E3. subst. exact B.
Qed.
Lemma prepare_trucks rt b p : prepare rt b = Ok p -> (fst p = Some [] /\ snd p = true) \/ (fst p = bf_trucks b /\ snd p = false /\ bf_shared b = false).
Proof.
  unfold prepare. destruct rt; intros H; apply bind_ok in H as (u & G & H); apply Ok_inj in H; subst p; cbn [fst snd]; auto; right; split; auto; split; auto; apply guard_ok in G;
    repeat (apply andb_true_iff in G as [G ?]); repeat match goal with X : negb _ = true |- _ => apply negb_true_iff in X end; auto.
Qed.
(** totality *)
Lemma all_total {S} (f : list S -> ppath -> res (list S)) (m : mode) : (forall s p, key_mode (pp_key p) = m -> exists s', f s p = Ok s') ->
  forall ps s, (forall p, In p ps -> key_mode (pp_key p) = m) -> exists s', foldM f s ps = Ok s'.
Proof.
  intros T. induction ps as [|p r IH]; intros s K; cbn [foldM]; [eauto|]. destruct (T s p (K p (or_introl eq_refl))) as (s1 & ->). cbn [bind]. apply IH. intros; apply K; now right.
Qed.
Lemma of_mode_key o m p : filed o -> In p (of_mode o m) -> key_mode (pp_key p) = m.
Proof. intros F H. unfold of_mode in H. destruct (set_of o m) as [ps|] eqn:E; [|destruct H]. apply set_of_in in E. exact (proj2 F m ps p E H). Qed.
Lemma usable_total mo pt od o m : connections_known mo pt -> In (od, o) pt -> exists b, usable_mode mo od m = Ok b.
Proof. intros K I. unfold usable_mode. destruct (mo_on mo m) eqn:E; [|eauto]. specialize (K od o m I E). destruct (mo_conn mo od m); [eauto|congruence]. Qed.
Lemma convert_total mo sh trk pt0 pt : connections_known mo pt0 -> incl pt pt0 -> (forall od o, In (od, o) pt -> filed o) -> forall t, exists t', foldM (convert_pair mo sh trk) t pt = Ok t'.
Proof.
  intros K. induction pt as [|[od o] r IH]; intros I F t; cbn [foldM]; [eauto|].
  assert (J : In (od, o) pt0) by (apply I; now left). pose proof (F od o (or_introl eq_refl)) as Fo.
  assert (X : exists t1, convert_pair mo sh trk t (od, o) = Ok t1).
  { unfold convert_pair. cbn [fst snd]. destruct (usable_total mo pt0 od o Driving K J) as (d & ->). cbn [bind].
    assert (A1 : forall s, exists s', foldM add_driver s (of_mode o Driving) = Ok s').
    { intros s. apply (all_total add_driver Driving); [|intros p; now apply of_mode_key]. intros s0 p E. unfold add_driver. destruct (pp_key p); try discriminate. eauto. }
    assert (A2 : forall s, exists s', foldM add_pnr s (of_mode o Pnr) = Ok s').
    { intros s. apply (all_total add_pnr Pnr); [|intros p; now apply of_mode_key]. intros s0 p E. unfold add_pnr. destruct (pp_key p); try discriminate. eauto. }
    assert (A3 : forall s, exists s', foldM add_bus s (of_mode o Transit) = Ok s').
    { intros s. apply (all_total add_bus Transit); [|intros p; now apply of_mode_key]. intros s0 p E. unfold add_bus. destruct (pp_key p); try discriminate. eauto. }
    assert (Y : exists t1, (if d then do s <- foldM add_driver (fold_left add_truck (if sh then found od (tb_drive t) else match trk with Some tr => found od tr | None => [] end) (found od (tb_drive t))) (of_mode o Driving);
                   Ok (TB (put_pair od s (tb_drive t)) (tb_pnr t) (tb_bus t)) else Ok t) = Ok t1).
    { destruct d; [|eauto]. match goal with |- context [foldM add_driver ?s _] => destruct (A1 s) as (s' & ->) end. cbn [bind]. eauto. }
    destruct Y as (t1 & ->). cbn [bind]. destruct (usable_total mo pt0 od o Pnr K J) as (d2 & ->). cbn [bind].
    assert (Y : exists t2, (if d2 then do s <- foldM add_pnr (found od (tb_pnr t1)) (of_mode o Pnr); Ok (TB (tb_drive t1) (put_pair od s (tb_pnr t1)) (tb_bus t1)) else Ok t1) = Ok t2).
    { destruct d2; [|eauto]. destruct (A2 (found od (tb_pnr t1))) as (s' & ->). cbn [bind]. eauto. }
    destruct Y as (t2 & ->). cbn [bind]. destruct (usable_total mo pt0 od o Transit K J) as (d3 & ->). cbn [bind]. destruct d3; [|eauto].
    destruct (A3 (found od (tb_bus t2))) as (s' & ->). cbn [bind]. eauto. }
  destruct X as (t1 & ->). cbn [bind]. apply IH; [intros x Hx; apply I; now right|]. intros; eapply F; right; eassumption.
Qed.
