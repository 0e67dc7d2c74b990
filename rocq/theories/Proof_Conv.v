(** Proofs about the tables made from passenger paths. *)
From Coq Require Import Lia Lqa.
From Verif Require Import Base Base_lemmas Model_Num Model_SP Model_Node Model_Split Model_Mmp Spec_Mmp Proof_Num Proof_Link4 Proof_Mmp Model_Conv Spec_Conv.
Local Open Scope Q_scope.

Lemma links_eqb_iff a b : links_eqb a b = true <-> a = b.
Proof.
  revert b. induction a as [|x a IH]; destruct b as [|y b]; cbn [links_eqb]; split; try discriminate; try reflexivity.
  - intros H. apply andb_true_iff in H as [H1 H2]. apply Z.eqb_eq in H1. apply IH in H2. congruence.
  - intros H. injection H as -> ->. rewrite Z.eqb_refl. now apply IH.
Qed.
Lemma same_pnr_iff a b : same_pnr a b = true <-> a = b.
Proof.
  destruct a as [[a1 a2] a3], b as [[b1 b2] b3]. unfold same_pnr. cbn [fst snd]. split.
  - intros H. apply andb_true_iff in H as [H H3]. apply andb_true_iff in H as [H1 H2]. apply Z.eqb_eq in H1. apply links_eqb_iff in H2, H3. congruence.
  - intros H. injection H as -> -> ->. rewrite Z.eqb_refl, (proj2 (links_eqb_iff b2 b2) eq_refl), (proj2 (links_eqb_iff b3 b3) eq_refl). reflexivity.
Qed.
Lemma pair_eqb_iff a b : pair_eqb a b = true <-> a = b.
Proof.
  destruct a, b. unfold pair_eqb. cbn [fst snd]. split.
  - intros H. apply andb_true_iff in H as [H1 H2]. apply Z.eqb_eq in H1, H2. congruence.
  - intros H. injection H as -> ->. now rewrite !Z.eqb_refl.
Qed.

(** merge_in: sums and keys *)
Lemma merge_sum {K V} (same : K -> K -> bool) k (fresh : V) join (g : K * V -> Q) delta : (forall a b, same a b = true <-> a = b) ->
  g (k, fresh) == delta -> (forall v, g (k, join v) == g (k, v) + delta) ->
  forall s, sumQ (map g (merge_in same k fresh join s)) == sumQ (map g s) + delta.
Proof.
  intros E F J. induction s as [|[a v] r IH]; cbn [merge_in map].
  - change (sumQ [g (k, fresh)]) with (g (k, fresh) + 0). change (sumQ []) with 0. lra.
  - cbn [fst snd]. destruct (same a k) eqn:X.
    + apply E in X. subst a. cbn [map]. change (g (k, join v) + sumQ (map g r) == g (k, v) + sumQ (map g r) + delta). rewrite J. ring.
    + cbn [map]. change (g (a, v) + sumQ (map g (merge_in same k fresh join r)) == g (a, v) + sumQ (map g r) + delta). rewrite IH. ring.
Qed.
Lemma merge_keys {K V} (same : K -> K -> bool) k (fresh : V) join s x : (forall a b, same a b = true <-> a = b) ->
  In x (map fst (merge_in same k fresh join s)) <-> In x (map fst s) \/ x = k.
Proof.
  intros E. induction s as [|[a v] r IH]; cbn [merge_in map fst snd].
  - cbn. intuition auto.
  - destruct (same a k) eqn:X; cbn [map fst In].
    + apply E in X. subst a. cbn. intuition auto.
    + rewrite IH. intuition auto.
Qed.
Lemma merge_NoDup {K V} (same : K -> K -> bool) k (fresh : V) join s : (forall a b, same a b = true <-> a = b) ->
  NoDup (map fst s) -> NoDup (map fst (merge_in same k fresh join s)).
Proof.
  intros E. induction s as [|[a v] r IH]; intros N; cbn [merge_in map fst snd].
  - constructor; [easy|constructor].
  - inversion N as [|? ? N1 N2]; subst. destruct (same a k) eqn:X; cbn [map fst].
    + now constructor.
    + constructor; [|auto]. intros I. apply (merge_keys same k fresh join r a E) in I as [I|I]; [now apply N1|]. subst a.
      rewrite (proj2 (E k k) eq_refl) in X. discriminate.
Qed.

(** driving sets *)
Lemma truck_cars s e links c : cars_on (add_truck s e) links c == cars_on s links c + (if existsb (fun x => links_eqb (fst x) (fst e)) s then 0 else if same_links (fst e) links then fst (snd e) c else 0).
Proof.
  unfold cars_on, add_truck. induction s as [|[a v] r IH]; cbn [merge_in map existsb fst snd].
  - change (sumQ (?x :: [])) with (x + 0). change (sumQ []) with 0. ring.
  - destruct (links_eqb a (fst e)) eqn:X; cbn [map orb fst snd].
    + match goal with |- sumQ (?x :: ?l) == sumQ (?x' :: ?l') + 0 => change (x + sumQ l == x' + sumQ l' + 0) end. ring.
    + match goal with |- sumQ (?x :: ?l) == sumQ (?x' :: ?l') + ?y => change (x + sumQ l == x' + sumQ l' + y) end. rewrite IH. ring.
Qed.
Lemma truck_trucks s e links c : trucks_on (add_truck s e) links c == trucks_on s links c + (if same_links (fst e) links then snd (snd e) c else 0).
Proof.
  unfold trucks_on, add_truck. apply (merge_sum links_eqb (fst e)); [apply links_eqb_iff|cbn [fst snd]; reflexivity|].
  intros v. cbn [fst snd]. unfold plus_flow. destruct (same_links (fst e) links); ring.
Qed.
Lemma trucks_fold tr : forall s links c, (forall e c, In e tr -> fst (snd e) c == 0) ->
  cars_on (fold_left add_truck tr s) links c == cars_on s links c /\ trucks_on (fold_left add_truck tr s) links c == trucks_on s links c + trucks_on tr links c.
Proof.
  induction tr as [|e r IH]; intros s links c Z0; cbn [fold_left].
  - unfold trucks_on at 3. cbn [map]. change (sumQ []) with 0. split; ring.
  - destruct (IH (add_truck s e) links c) as [I1 I2]; [intros; apply Z0; now right|]. rewrite I1, I2, truck_cars, truck_trucks. split.
    + destruct (existsb _ s); [ring|]. destruct (same_links (fst e) links); [|ring]. rewrite (Z0 e c (or_introl eq_refl)). ring.
    + unfold trucks_on at 4. cbn [map]. match goal with |- _ == _ + sumQ (?x :: ?l) => change (sumQ (x :: l)) with (x + sumQ l) end. unfold trucks_on. ring.
Qed.
Lemma trucks_NoDup tr : forall s, NoDup (map fst s) -> NoDup (map fst (fold_left add_truck tr s)).
Proof. induction tr as [|e r IH]; intros s N; cbn [fold_left]; [assumption|]. apply IH. unfold add_truck. apply merge_NoDup; [apply links_eqb_iff|assumption]. Qed.
Lemma driver_ok s p s' : add_driver s p = Ok s' -> (forall links c, cars_on s' links c == cars_on s links c + cars_of links c p /\ trucks_on s' links c == trucks_on s links c) /\ (NoDup (map fst s) -> NoDup (map fst s')).
Proof.
  unfold add_driver, cars_of. destruct (pp_key p) as [n lot l|l|lot d b]; intros H; try discriminate. apply Ok_inj in H. subst s'. split.
  - intros links c. split.
    + unfold cars_on. apply (merge_sum links_eqb l); [apply links_eqb_iff|cbn [fst snd]; reflexivity|]. intros v. cbn [fst snd]. unfold plus_flow. destruct (same_links l links); ring.
    + unfold trucks_on. rewrite (merge_sum links_eqb l _ _ _ 0 links_eqb_iff); [ring| |]; [cbn [fst snd]; destruct (same_links l links); reflexivity|]. intros v. cbn [fst snd]. destruct (same_links l links); ring.
  - now apply merge_NoDup, links_eqb_iff.
Qed.
Lemma drivers_ok ps : forall s s', foldM add_driver s ps = Ok s' ->
  (forall links c, cars_on s' links c == cars_on s links c + sumQ (map (cars_of links c) ps) /\ trucks_on s' links c == trucks_on s links c) /\ (NoDup (map fst s) -> NoDup (map fst s')).
Proof.
  induction ps as [|p r IH]; intros s s' H; cbn [foldM] in H.
  - apply Ok_inj in H. subst. split; [|auto]. intros. cbn [map]. change (sumQ []) with 0. split; ring.
  - apply bind_ok in H as (s1 & H1 & H). apply driver_ok in H1 as [D1 D2]. apply IH in H as [E1 E2]. split; [|auto]. intros links c.
    destruct (D1 links c) as [X1 X2], (E1 links c) as [Y1 Y2]. rewrite Y1, Y2, X1, X2. cbn [map].
    match goal with |- context [sumQ (?x :: ?l)] => change (sumQ (x :: l)) with (x + sumQ l) end. split; ring.
Qed.
Lemma pnrs_ok ps : forall s s', foldM add_pnr s ps = Ok s' ->
  (forall k c, park_on s' k c == park_on s k c + sumQ (map (parkers_of k c) ps)) /\ (NoDup (map fst s) -> NoDup (map fst s')).
Proof.
  induction ps as [|p r IH]; intros s s' H; cbn [foldM] in H.
  - apply Ok_inj in H. subst. split; [|auto]. intros. cbn [map]. change (sumQ []) with 0. ring.
  - apply bind_ok in H as (s1 & H1 & H). apply IH in H as [E1 E2]. unfold add_pnr in H1. destruct (pp_key p) as [|l|lot d b] eqn:K; try discriminate. apply Ok_inj in H1. subst s1. split.
    + intros k c. rewrite E1. cbn [map]. match goal with |- context [sumQ (?x :: ?l)] => change (sumQ (x :: l)) with (x + sumQ l) end. unfold parkers_of at 2. rewrite K.
      unfold park_on. rewrite (merge_sum same_pnr (lot, d, b) _ _ (fun e => if same_park (fst e) k then snd e c else 0) (if same_park (lot, d, b) k then pp_flow p c else 0) same_pnr_iff); [ring|reflexivity|].
      intros v. cbn [fst snd]. unfold plus_flow. destruct (same_park (lot, d, b) k); ring.
    + intros N. apply E2. now apply merge_NoDup, N; apply same_pnr_iff.
Qed.
Lemma buses_ok ps : forall s s', foldM add_bus s ps = Ok s' ->
  (forall links c, bus_on s' links c == bus_on s links c + sumQ (map (riders_of links c) ps)) /\ (NoDup (map fst s) -> NoDup (map fst s')).
Proof.
  induction ps as [|p r IH]; intros s s' H; cbn [foldM] in H.
  - apply Ok_inj in H. subst. split; [|auto]. intros. cbn [map]. change (sumQ []) with 0. ring.
  - apply bind_ok in H as (s1 & H1 & H). apply IH in H as [E1 E2]. unfold add_bus in H1. destruct (pp_key p) as [|l|lot d b] eqn:K; try discriminate. apply Ok_inj in H1. subst s1. split.
    + intros k c. rewrite E1. cbn [map]. match goal with |- context [sumQ (?x :: ?l)] => change (sumQ (x :: l)) with (x + sumQ l) end. unfold riders_of at 2. rewrite K.
      unfold bus_on. rewrite (merge_sum links_eqb l _ _ (fun e => if same_links (fst e) k then snd e c else 0) (if same_links l k then pp_flow p c else 0) links_eqb_iff); [ring|reflexivity|].
      intros v. cbn [fst snd]. unfold plus_flow. destruct (same_links l k); ring.
    + intros N. apply E2. now apply merge_NoDup, N; apply links_eqb_iff.
Qed.
(** only the paths of the mode count *)
Lemma sum_of_mode (f : ppath -> Q) o m : filed o -> (forall p, key_mode (pp_key p) <> m -> f p == 0) -> sumQ (map f (of_mode o m)) == sumQ (map f (all_paths o)).
Proof.
  intros F Z0. unfold all_paths. 
  assert (ZS : forall r, (forall m' ps p, In (m', ps) r -> In p ps -> key_mode (pp_key p) = m') -> ~ In m (map fst r) -> sumQ (map f (concat (map snd r))) == 0).
  { induction r as [|[m' ps] r IH]; intros FF NI; cbn [map concat snd]; [reflexivity|]. rewrite map_app, sumQ_app. rewrite IH; [|intros; eapply FF; [right; eassumption|assumption]|intros I; apply NI; now right].
    assert (sumQ (map f ps) == 0); [|lra]. assert (Q1 : forall p, In p ps -> f p == 0) by (intros p Hp; apply Z0; rewrite (FF m' ps p (or_introl eq_refl) Hp); intros ->; apply NI; now left).
    clear - Q1. induction ps as [|p ps IH]; [reflexivity|]. cbn [map]. change (f p + sumQ (map f ps) == 0). rewrite Q1 by (now left). rewrite IH; [lra|]. intros; apply Q1; now right. }
  destruct F as [N FF]. unfold of_mode. induction o as [|[m' ps] r IH]; cbn [set_of map concat snd]; [reflexivity|].
  cbn [map fst] in N. inversion N as [|? ? N1 N2]; subst. rewrite map_app, sumQ_app. destruct (mode_eqb m m') eqn:E.
  - apply mode_eqb_iff in E. subst m'. rewrite (ZS r); [lra| |assumption]. intros; eapply FF; [right; eassumption|assumption].
  - rewrite IH; [|assumption|intros; eapply FF; [right; eassumption|assumption]].
    assert (sumQ (map f ps) == 0); [|lra]. assert (Q1 : forall p, In p ps -> f p == 0). { intros p Hp; apply Z0; rewrite (FF m' ps p (or_introl eq_refl) Hp). intros ->. rewrite (proj2 (mode_eqb_iff m m) eq_refl) in E. discriminate. }
    clear - Q1. induction ps as [|p ps IH]; [reflexivity|]. cbn [map]. change (f p + sumQ (map f ps) == 0). rewrite Q1 by (now left). rewrite IH; [lra|]. intros; apply Q1; now right.
Qed.
