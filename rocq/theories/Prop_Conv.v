(** C207-C212: the path tables of the loading follow the passenger paths. *)
From Coq Require Import Lia Lqa.
From Verif Require Import Base Base_lemmas Model_Num Model_SP Model_Node Model_Split Model_Mmp Spec_Mmp Proof_Num Proof_Link4 Proof_Mmp Model_Conv Spec_Conv Proof_Conv Proof_Conv2.
Local Open Scope Q_scope.

Lemma trucks_no_cars rt b p od : prepare rt b = Ok p -> only_trucks (bf_trucks b) -> forall e c, In e (tr_of (snd p) (fst p) od) -> fst (snd e) c == 0.
Proof.
  intros H T e c. unfold tr_of. destruct (prepare_trucks _ _ _ H) as [(E1 & E2)|(E1 & E2 & _)]; rewrite E2; [intros []|]. rewrite E1. unfold only_trucks in T.
  destruct (bf_trucks b) as [t|]; [|intros []]. unfold found. match goal with |- context [match ?x with Some _ => _ | None => _ end] => destruct x as [s|] eqn:F end; [|intros []]. apply find_some in F. intros I. now apply (proj2 T od s e c).
Qed.

(** C207: every sequence of links of a pair carries, in every interval, the cars needed for its
    drivers: for each passenger path along these links its passengers divided by the people in
    a car, whatever the parking lots; every sequence is there once.  (The truck table has no
    cars of its own.) *)
Theorem C207_cars_follow_drivers : forall mo rt b old pt t od s, proper pt -> only_trucks (bf_trucks b) ->
  convert mo rt b old pt = Ok t -> has (tb_drive t) od s ->
  exists o, In (od, o) pt /\ NoDup (map fst s) /\
    (forall links c, cars_on s links c == sumQ (map (cars_of links c) (all_paths o))) /\
    (forall c, total_cars s c == sumQ (map (cars_needed c) (all_paths o))).
Proof.
  intros mo rt b old pt t od s P T H I. destruct (convert_ok _ _ _ _ _ _ P H) as (p & E & B & _). destruct (built_in _ _ _ _ _ _ B I) as (_ & o & J & N & C & G).
  pose proof (trucks_no_cars _ _ _ od E T) as Z0. exists o. split; [assumption|]. split; [assumption|]. split; [|now apply C]. intros links c. now apply (proj2 (G links c)).
Qed.
Print Assumptions C207_cars_follow_drivers.

(** C208: park and ride, and the bus: every itinerary (with its lot) and every sequence of bus
    links carries the passengers of the passenger paths, and is there once. *)
Theorem C208_park_and_ride : forall mo rt b old pt t od s, proper pt -> convert mo rt b old pt = Ok t -> has (tb_pnr t) od s ->
  exists o, In (od, o) pt /\ NoDup (map fst s) /\ (forall k c, park_on s k c == sumQ (map (parkers_of k c) (all_paths o))).
Proof.
  intros mo rt b old pt t od s P H I. destruct (convert_ok _ _ _ _ _ _ P H) as (p & E & _ & B & _). destruct (built_in _ _ _ _ _ _ B I) as (_ & o & J & G). exists o. split; [assumption|exact G].
Qed.
Print Assumptions C208_park_and_ride.
Theorem C208_bus : forall mo rt b old pt t od s, proper pt -> convert mo rt b old pt = Ok t -> has (tb_bus t) od s ->
  exists o, In (od, o) pt /\ NoDup (map fst s) /\ (forall links c, bus_on s links c == sumQ (map (riders_of links c) (all_paths o))).
Proof.
  intros mo rt b old pt t od s P H I. destruct (convert_ok _ _ _ _ _ _ P H) as (p & E & _ & _ & B). destruct (built_in _ _ _ _ _ _ B I) as (_ & o & J & G). exists o. split; [assumption|exact G].
Qed.
Print Assumptions C208_bus.

(** C209: the trucks stay.  Proved for the equilibrium (separate truck table) and pairs in the
    table of passengers that can be driven ... *)
Theorem C209_trucks_partial : forall mo rt b old pt t od s, proper pt -> (rt = DueNew \/ rt = DueFixed) -> only_trucks (bf_trucks b) ->
  convert mo rt b old pt = Ok t -> has (tb_drive t) od s ->
  exists tr, truck_set (bf_trucks b) od tr /\ forall links c, trucks_on s links c == trucks_on tr links c.
Proof.
  intros mo rt b old pt t od s P RT T H I. destruct (convert_ok _ _ _ _ _ _ P H) as (p & E & B & _). destruct (built_in _ _ _ _ _ _ B I) as (_ & o & J & N & C & G).
  exists (tr_of (snd p) (fst p) od). split; [|intros links c; apply (G links c)].
  assert (X : fst p = bf_trucks b /\ snd p = false) by (destruct RT; subst rt; unfold prepare in E; apply bind_ok in E as (u & _ & E); apply Ok_inj in E; subst p; auto).
  destruct X as [-> ->]. unfold tr_of, truck_set. unfold only_trucks in T. destruct (bf_trucks b) as [tt0|]; [|reflexivity]. unfold found. match goal with |- context [match ?x with Some _ => _ | None => _ end] => destruct x as [tr0|] eqn:FP end.
  - left. now apply find_some.
  - right. split; [reflexivity|]. intros s' I'. pose proof (eq_trans (eq_sym FP) (find_in _ _ _ (proj1 T) I')) as Y. discriminate Y.
Qed.
Print Assumptions C209_trucks_partial.
(** ... and REFUTED otherwise.  Trucks between a pair without passengers, or that cannot be
    driven, are gone, for every table; *)
Theorem C209_pairs_without_passengers_refuted : forall mo rt b old pt t od, proper pt -> convert mo rt b old pt = Ok t ->
  (forall o, In (od, o) pt -> ~ offered mo od Driving) -> forall s, ~ has (tb_drive t) od s.
Proof.
  intros mo rt b old pt t od P H N s I. destruct (convert_ok _ _ _ _ _ _ P H) as (p & E & B & _). destruct (built_in _ _ _ _ _ _ B I) as (O & o & J & _). now apply (N o).
Qed.
Print Assumptions C209_pairs_without_passengers_refuted.
(** and when the loading is the one of the equilibrium itself, all trucks are gone. *)
Theorem C209_shared_table_refuted : forall mo rt b old pt t od s links c, proper pt -> (rt = HybridNew \/ rt = Hybrid) ->
  convert mo rt b old pt = Ok t -> has (tb_drive t) od s -> trucks_on s links c == 0.
Proof.
  intros mo rt b old pt t od s links c P RT H I. destruct (convert_ok _ _ _ _ _ _ P H) as (p & E & B & _). destruct (built_in _ _ _ _ _ _ B I) as (_ & o & J & N & C & G).
  destruct (G links c) as [-> _]. assert (X : snd p = true) by (destruct RT; subst rt; unfold prepare in E; apply bind_ok in E as (u & _ & E); apply Ok_inj in E; subst p; auto).
  rewrite X. reflexivity.
Qed.
Print Assumptions C209_shared_table_refuted.

(** C210: the tables have a set for exactly the pairs a mode is offered to, one each. *)
Theorem C210_exactly_the_offered : forall mo rt b old pt t od, proper pt -> convert mo rt b old pt = Ok t ->
  ((exists s, has (tb_drive t) od s) <-> (exists o, In (od, o) pt) /\ offered mo od Driving) /\
  ((exists s, has (tb_pnr t) od s) <-> (exists o, In (od, o) pt) /\ offered mo od Pnr) /\
  ((exists s, has (tb_bus t) od s) <-> (exists o, In (od, o) pt) /\ offered mo od Transit) /\
  NoDup (map fst (tb_drive t)) /\ NoDup (map fst (tb_pnr t)) /\ NoDup (map fst (tb_bus t)).
Proof.
  intros mo rt b old pt t od P H. destruct (convert_ok _ _ _ _ _ _ P H) as (p & E & B1 & B2 & B3).
  repeat split; try (intros (s & I); destruct (built_in _ _ _ _ _ _ B1 I) as (O & o & J & _); eauto; apply O); try (intros ((o & I) & O); exact (built_has _ _ _ _ _ _ B1 I O));
   try (intros ((o & I) & O); exact (built_has _ _ _ _ _ _ B2 I O)); try (intros ((o & I) & O); exact (built_has _ _ _ _ _ _ B3 I O));
   try (eapply built_NoDup; [eassumption|apply P]);
   match goal with X : exists s, has (tb_drive t) od s |- _ => destruct X as (s & I); destruct (built_in _ _ _ _ _ _ B1 I) as ((O1 & O2) & o & J & _); eauto
   | X : exists s, has (tb_pnr t) od s |- _ => destruct X as (s & I); destruct (built_in _ _ _ _ _ _ B2 I) as ((O1 & O2) & o & J & _); eauto
   | X : exists s, has (tb_bus t) od s |- _ => destruct X as (s & I); destruct (built_in _ _ _ _ _ _ B3 I) as ((O1 & O2) & o & J & _); eauto end.
Qed.
Print Assumptions C210_exactly_the_offered.

(** C211: every passenger path table is converted, if the tables that must be there are there (or
    not), paths are filed by mode and all connections are known. *)
Theorem C211_conversion_works : forall mo rt b old pt, proper pt -> connections_known mo pt ->
  match rt with
  | HybridNew => bf_same b = true /\ bf_fixed b = false /\ bf_trucks b = None /\ bf_pnr b = false /\ bf_bus b = false
  | Hybrid => bf_same b = true /\ bf_fixed b = true /\ bf_trucks b <> None /\ bf_shared b = true /\ bf_pnr b = true /\ bf_bus b = true
  | DueNew => bf_same b = false /\ bf_shared b = false /\ (bf_fixed b = true <-> bf_trucks b <> None)
  | DueFixed => bf_same b = false /\ bf_fixed b = true /\ bf_trucks b <> None /\ bf_shared b = false /\ bf_pnr b = true /\ bf_bus b = true
  end -> exists t, convert mo rt b old pt = Ok t.
Proof.
  intros mo rt b old pt P K C. unfold convert. assert (X : exists p, prepare rt b = Ok p).
  { unfold prepare. destruct b as [sm fx tr sh pn bu]. cbn [bf_same bf_fixed bf_trucks bf_shared bf_pnr bf_bus] in *. destruct rt.
    - destruct C as (-> & -> & -> & -> & ->). cbn. eauto.
    - destruct C as (-> & -> & N & -> & -> & ->). destruct tr; [|congruence]. cbn. eauto.
    - destruct C as (-> & -> & N). destruct tr as [x|], fx; cbn; eauto; exfalso; destruct N as [N1 N2]; [discriminate N2; discriminate|now apply N1].
    - destruct C as (-> & -> & N & -> & -> & ->). destruct tr; [|congruence]. cbn. eauto. }
  destruct X as (p & ->). cbn [bind]. apply (convert_total mo (snd p) (fst p) pt pt K (incl_refl _) (proj2 P)).
Qed.
Print Assumptions C211_conversion_works.

(** and only then: with other tables it stops at an assertion *)
Theorem C211_needed : forall mo rt b old pt t, convert mo rt b old pt = Ok t ->
  match rt with
  | HybridNew => bf_same b = true /\ bf_fixed b = false /\ bf_trucks b = None /\ bf_pnr b = false /\ bf_bus b = false
  | Hybrid => bf_same b = true /\ bf_fixed b = true /\ bf_trucks b <> None /\ bf_shared b = true /\ bf_pnr b = true /\ bf_bus b = true
  | DueNew => bf_same b = false /\ bf_shared b = false /\ (bf_fixed b = true <-> bf_trucks b <> None)
  | DueFixed => bf_same b = false /\ bf_fixed b = true /\ bf_trucks b <> None /\ bf_shared b = false /\ bf_pnr b = true /\ bf_bus b = true
  end.
Proof.
  intros mo rt b old pt t H. unfold convert in H. apply bind_ok in H as (p & E & _). destruct b as [sm fx tr sh pn bu]. unfold prepare in E.
  destruct rt; apply bind_ok in E as (u & G & _); apply guard_ok in G; cbn [bf_same bf_fixed bf_trucks bf_shared bf_pnr bf_bus] in *;
    destruct sm, fx, tr, sh, pn, bu; cbn in G; try discriminate; repeat split; congruence.
Qed.
Print Assumptions C211_needed.

(** C212: the conversion can be repeated.  Proved with path tables from the start: the second
    time gives the same tables; *)
Theorem C212_again_partial : forall mo rt b old pt t, (rt = Hybrid \/ rt = DueFixed) -> convert mo rt b old pt = Ok t ->
  convert mo rt (after rt b t) t pt = Ok t.
Proof.
  intros mo rt b old pt t RT H. unfold convert in *. apply bind_ok in H as (p & E & H). destruct b as [sm fx tr sh pn bu]. destruct RT; subst rt; unfold prepare, after in *; cbn [bf_same bf_fixed bf_trucks bf_shared bf_pnr bf_bus] in *.
  - apply bind_ok in E as (u & G & E). apply Ok_inj in E. subst p. apply guard_ok in G. repeat (apply andb_true_iff in G as [G ?]). subst. cbn. exact H.
  - apply bind_ok in E as (u & G & E). apply Ok_inj in E. subst p. apply guard_ok in G. repeat (apply andb_true_iff in G as [G ?]). repeat match goal with X : negb _ = true |- _ => apply negb_true_iff in X end. subst.
    match goal with X : is_some tr = true |- _ => rewrite X end. cbn. exact H.
Qed.
Print Assumptions C212_again_partial.
(** REFUTED for the type that starts without paths: after every success the second time stops at
    an assertion; also for the equilibrium that starts without trucks, with the same loading. *)
Theorem C212_again_refuted : forall mo rt b old pt t, (rt = HybridNew \/ rt = DueNew /\ bf_trucks b = None) -> convert mo rt b old pt = Ok t ->
  convert mo rt (after rt b t) t pt = Err EAssert.
Proof. intros mo rt b old pt t [-> |[-> N]] H; unfold convert, prepare, after; cbn [bf_same bf_fixed bf_trucks bf_shared bf_pnr bf_bus]; [reflexivity|]. now rewrite N. Qed.
Print Assumptions C212_again_refuted.

(** concrete cases: two carpools and one driver along link 1, one driver along 2, a truck path
    along 1 and one along 3; a bus path twice *)
Definition cx (k : pkey) (q : Q) : ppath := PP k (fun _ => q) [].
Definition cx_o : odset := [(Driving, [cx (KDrive 2 None [1%Z]) 6; cx (KDrive 1 (Some 7%Z) [1%Z]) 4; cx (KDrive 1 None [2%Z]) 5]); (Transit, [cx (KBus [8%Z]) 3; cx (KBus [8%Z]) 2]);
  (Pnr, [cx (KPnr 7 [1%Z] [8%Z]) 1; cx (KPnr 9 [1%Z] [8%Z]) 1])].
Definition cx_mo : modes := MO (fun _ => true) (fun _ _ => Some true).
Definition cx_tr : tabof dset := [((0, 1)%Z, [([1%Z], (fun _ => 0, fun _ => 10)); ([3%Z], (fun _ => 0, fun _ => 20)); ([1%Z], (fun _ => 0, fun _ => 1))]); ((0, 2)%Z, [([1%Z], (fun _ => 0, fun _ => 10))])].
Definition cx_b : before := BF false true (Some cx_tr) false true true.
Definition shown (r : res tabs) : option (list (pair * list (list Z * (Q * Q))) * list (pair * list ((Z * list Z * list Z) * Q)) * list (pair * list (list Z * Q))) :=
  match r with
  | Ok t => Some (map (fun e => (fst e, map (fun x => (fst x, (Qred (fst (snd x) 0%nat), Qred (snd (snd x) 0%nat)))) (snd e))) (tb_drive t),
                  map (fun e => (fst e, map (fun x => (fst x, Qred (snd x 0%nat))) (snd e))) (tb_pnr t), map (fun e => (fst e, map (fun x => (fst x, Qred (snd x 0%nat))) (snd e))) (tb_bus t))
  | Err _ => None
  end.
Example C207_case : shown (convert cx_mo DueFixed cx_b (TB [] [] []) [((0, 1)%Z, cx_o)]) =
  Some ([((0, 1)%Z, [([1%Z], (7, 11)); ([3%Z], (0, 20)); ([2%Z], (5, 0))])], [((0, 1)%Z, [((7%Z, [1%Z], [8%Z]), 1); ((9%Z, [1%Z], [8%Z]), 1)])], [((0, 1)%Z, [([8%Z], 5)])]).
Proof. vm_compute. reflexivity. Qed.
Lemma cx_proper : proper [((0, 1)%Z, cx_o)].
Proof.
  split; [repeat constructor; easy|]. intros od o [H|[]]. injection H as <- <-. split; [repeat (constructor; [cbn; intuition discriminate|]); constructor|].
  intros m ps p H1 H2. cbn in H1. intuition (subst; try discriminate); match goal with H : (_, _) = (_, _) |- _ => injection H as <- <- end; cbn in H2; intuition subst; reflexivity.
Qed.
Lemma cx_trucks : only_trucks (bf_trucks cx_b).
Proof.
  split; [repeat (constructor; [cbn; intuition discriminate|]); constructor|]. intros od s e c H1 H2. cbn in H1. destruct H1 as [H1|[H1|[]]]; injection H1 as <- <-; cbn in H2; intuition subst; reflexivity.
Qed.
Example C211_case : exists t, convert cx_mo DueFixed cx_b (TB [] [] []) [((0, 1)%Z, cx_o)] = Ok t.
Proof. apply C211_conversion_works; [exact cx_proper|intros od o m _ _; discriminate|cbn; repeat split; discriminate]. Qed.
(** the trucks from 0 to 2 are gone; in a shared table all of them *)
Example C209_case : (forall t, convert cx_mo DueFixed cx_b (TB [] [] []) [((0, 1)%Z, cx_o)] = Ok t -> forall s, ~ has (tb_drive t) (0, 2)%Z s) /\
  shown (convert cx_mo Hybrid (BF true true (Some cx_tr) true true true) (TB cx_tr [] []) [((0, 1)%Z, [(Driving, [cx (KDrive 1 None [1%Z]) 2])])]) = Some ([((0, 1)%Z, [([1%Z], (2, 0))])], [((0, 1)%Z, [])], [((0, 1)%Z, [])]).
Proof.
  split; [|vm_compute; reflexivity]. intros t H. apply (C209_pairs_without_passengers_refuted _ _ _ _ _ _ _ cx_proper H). intros o [E|[]]. discriminate.
Qed.
Example C212_case : match convert cx_mo HybridNew (BF true false None false false false) (TB [] [] []) [((0, 1)%Z, cx_o)] with Ok t => convert cx_mo HybridNew (after HybridNew (BF true false None false false false) t) t [((0, 1)%Z, cx_o)] = Err EAssert | Err _ => False end.
Proof. vm_compute. reflexivity. Qed.
