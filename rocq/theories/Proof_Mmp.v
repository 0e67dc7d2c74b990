(** Passenger paths: comparison of paths, sums over the table, moving flow to the best path. *)
From Coq Require Import Lia Lqa.
From Verif Require Import Base Base_lemmas Model_Num Model_SP Model_Node Model_Split Model_Mmp Spec_Mmp Proof_Num Proof_Link4.
Local Open Scope Q_scope.

Lemma links_eqb_iff a : forall b, links_eqb a b = true <-> a = b.
Proof.
  induction a as [|x a IH]; intros [|y b]; cbn [links_eqb]; split; try easy.
  - intros H. apply andb_true_iff in H as [H1 H2]. apply Z.eqb_eq in H1. apply IH in H2. congruence.
  - intros H. injection H as -> ->. rewrite Z.eqb_refl. now apply IH.
Qed.
Lemma lot_eqb_iff a b : lot_eqb a b = true <-> a = b.
Proof. destruct a, b; cbn [lot_eqb]; split; try easy; intros H; [apply Z.eqb_eq in H; congruence|injection H as ->; apply Z.eqb_refl]. Qed.
Lemma same_path_iff a b : same_path a b = true <-> same_trip a b.
Proof.
  destruct a, b; cbn [same_path same_trip]; try (split; easy).
  - rewrite !andb_true_iff, Z.eqb_eq, lot_eqb_iff, links_eqb_iff. tauto.
  - apply links_eqb_iff.
  - rewrite andb_true_iff, !links_eqb_iff. tauto.
Qed.
Lemma same_trip_refl a : same_trip a a.
Proof. destruct a; cbn; auto. Qed.
Lemma same_trip_mode a b : same_trip a b -> key_mode a = key_mode b.
Proof. destruct a, b; cbn; easy. Qed.
Lemma same_trip_trans a b c : same_trip a b -> same_trip b c -> same_trip a c.
Proof. destruct a, b, c; cbn; try easy; intuition congruence. Qed.
Lemma same_trip_sym a b : same_trip a b -> same_trip b a.
Proof. destruct a, b; cbn; try easy; intuition congruence. Qed.

Lemma mode_eqb_iff a b : mode_eqb a b = true <-> a = b.
Proof. destruct a, b; cbn; split; easy. Qed.

Section Sums.
  Context {A : Type}.
  Lemma sum_ext (f g : A -> Q) l : (forall x, In x l -> f x == g x) -> sumQ (map f l) == sumQ (map g l).
  Proof.
    induction l as [|x l IH]; intros H; [reflexivity|]. cbn [map]. unfold sumQ in *. cbn [fold_right].
    rewrite (H x (or_introl eq_refl)), IH; [reflexivity|]. intros y Hy. apply H. now right.
  Qed.
  Lemma sum_plus (f g : A -> Q) l : sumQ (map (fun x => f x + g x) l) == sumQ (map f l) + sumQ (map g l).
  Proof. unfold sumQ. induction l as [|x l IH]; cbn [map fold_right]; [ring|]. rewrite IH. ring. Qed.
  Lemma sum_minus (f g : A -> Q) l : sumQ (map (fun x => f x - g x) l) == sumQ (map f l) - sumQ (map g l).
  Proof. unfold sumQ. induction l as [|x l IH]; cbn [map fold_right]; [ring|]. rewrite IH. ring. Qed.
  Lemma sum_zero (l : list A) : sumQ (map (fun _ => 0) l) == 0.
  Proof. unfold sumQ. induction l as [|x l IH]; cbn [map fold_right]; [ring|]. rewrite IH. ring. Qed.
  Lemma sum_scale (a : Q) (f : A -> Q) l : sumQ (map (fun x => a * f x) l) == a * sumQ (map f l).
  Proof. unfold sumQ. induction l as [|x l IH]; cbn [map fold_right]; [ring|]. rewrite IH. ring. Qed.
  Lemma sum_pos (f : A -> Q) l : (forall x, In x l -> 0 <= f x) -> 0 <= sumQ (map f l).
  Proof.
    unfold sumQ. induction l as [|x l IH]; intros H; cbn [map fold_right]; [lra|].
    pose proof (H x (or_introl eq_refl)). assert (0 <= fold_right Qplus 0 (map f l)) by (apply IH; intros; apply H; now right). lra.
  Qed.
  Lemma sum_one (f : A -> bool) (x : Q) l : length (filter f l) = 1%nat -> sumQ (map (fun p => if f p then x else 0) l) == x.
  Proof.
    unfold sumQ. induction l as [|y l IH]; cbn [filter map fold_right length]; [easy|].
    destruct (f y); cbn [length].
    - intros H. assert (E : length (filter f l) = 0%nat) by lia. clear H IH.
      assert (Z0 : fold_right Qplus 0 (map (fun p => if f p then x else 0) l) == 0).
      { induction l as [|z l IH]; cbn [filter map fold_right] in *; [reflexivity|]. destruct (f z); [easy|]. rewrite IH; [ring|assumption]. }
      rewrite Z0. ring.
    - intros H. rewrite IH by assumption. ring.
  Qed.
  Lemma sum_filter (f : A -> bool) (g : A -> Q) l : sumQ (map g (filter f l)) == sumQ (map (fun p => if f p then g p else 0) l).
  Proof.
    unfold sumQ. induction l as [|y l IH]; cbn [filter map fold_right]; [reflexivity|].
    destruct (f y); cbn [map fold_right]; rewrite IH; ring.
  Qed.
End Sums.
Lemma sum_swap {A B} (f : A -> B -> Q) la lb :
  sumQ (map (fun a => sumQ (map (f a) lb)) la) == sumQ (map (fun b => sumQ (map (fun a => f a b) la)) lb).
Proof.
  induction la as [|a la IH].
  - cbn [map]. rewrite sum_zero. reflexivity.
  - change (sumQ (map (fun a => sumQ (map (f a) lb)) (a :: la))) with (sumQ (map (f a) lb) + sumQ (map (fun a => sumQ (map (f a) lb)) la)).
    rewrite IH, <- sum_plus. apply sum_ext. reflexivity.
Qed.
Lemma sum_concat (l : list (list Q)) : sumQ (concat l) == sumQ (map sumQ l).
Proof. induction l as [|x l IH]; [reflexivity|]. cbn [concat map]. rewrite sumQ_app, IH. reflexivity. Qed.

Lemma listed_iff o p : listed_path o p <-> In p (paths o).
Proof.
  unfold listed_path, paths. rewrite in_concat. split.
  - intros (m & ps & H1 & H2). exists ps. split; [|assumption]. change ps with (snd (m, ps)). now apply in_map.
  - intros (ps & H1 & H2). apply in_map_iff in H1 as ((m & ps') & E & H1). cbn in E. subst ps'. eauto.
Qed.
Lemma leaving_paths o c : leaving o c == sumQ (map (fun p => pp_flow p c) (paths o)).
Proof.
  unfold leaving, paths. rewrite concat_map, sum_concat, !map_map. reflexivity.
Qed.
Lemma paths_map f o : paths (map_paths f o) = map f (paths o).
Proof. unfold paths, map_paths. rewrite concat_map, !map_map. reflexivity. Qed.
Lemma travellers_paths n o : travellers n o == sumQ (map (fun p => sumQ (map (pp_flow p) (seq 0 n))) (paths o)).
Proof.
  unfold travellers. rewrite (sum_swap (fun p c => pp_flow p c)). apply sum_ext. intros c _. apply leaving_paths.
Qed.
Lemma by_path_map (R : ppath -> ppath -> Prop) f o : (forall p, In p (paths o) -> R p (f p)) -> path_by_path R o (map_paths f o).
Proof.
  unfold path_by_path, map_paths, paths. induction o as [|s o IH]; intros H; cbn [map]; constructor.
  - cbn [fst snd]. split; [reflexivity|]. assert (G : forall p, In p (snd s) -> R p (f p)).
    { intros p Hp. apply H. cbn [map concat]. apply in_or_app. now left. }
    clear - G. induction (snd s) as [|p l IH]; cbn [map]; constructor; [apply G; now left|]. apply IH. intros q Hq. apply G. now right.
  - apply IH. intros p Hp. apply H. cbn [map concat]. apply in_or_app. now right.
Qed.

Definition moved (k : pkey) (take : ppath -> nat -> Q) (bc : nat) (tot : Q) (p p' : ppath) : Prop :=
  pp_key p' = pp_key p /\ pp_dis p' = pp_dis p /\
  forall c, pp_flow p' c == pp_flow p c - take p c + (if is_best k p && (c =? bc)%nat then tot else 0).
Lemma move_ok cols take k bc o o' : move_to_best cols take k bc o = Ok o' ->
  length (filter (is_best k) (paths o)) = 1%nat /\
  (let tot := sumQ (map (fun p => sumQ (map (take p) cols)) (paths o)) in
   path_by_path (moved k take bc tot) o o' /\
   (forall c, leaving o' c == leaving o c - sumQ (map (fun p => take p c) (paths o)) + (if (c =? bc)%nat then tot else 0))).
Proof.
  unfold move_to_best. intros H.
  apply bind_ok in H as (u1 & G1 & H). apply guard_ok in G1. apply Nat.leb_le in G1.
  apply bind_ok in H as (u2 & G2 & H). apply guard_ok in G2. apply Nat.leb_le in G2. apply Ok_inj in H. subst o'.
  assert (E1 : length (filter (is_best k) (paths o)) = 1%nat) by lia. split; [exact E1|].
  set (tot := sumQ _). split.
  - apply by_path_map. intros p _. split; [reflexivity|]. split; [reflexivity|]. intros c. cbn [pp_flow].
    destruct (is_best k p); cbn [andb]; unfold add_at; [destruct (c =? bc)%nat|]; ring.
  - intros c. rewrite !leaving_paths, paths_map, map_map. cbn [pp_flow].
    rewrite (sum_ext _ (fun p => (pp_flow p c - take p c) + (if is_best k p then (if (c =? bc)%nat then tot else 0) else 0))).
    + rewrite sum_plus, sum_minus, (sum_one (is_best k) _ (paths o) E1). reflexivity.
    + intros p _. destruct (is_best k p); unfold add_at; [destruct (c =? bc)%nat|]; ring.
Qed.
Lemma move_total cols take k bc o : length (filter (is_best k) (paths o)) = 1%nat -> exists o', move_to_best cols take k bc o = Ok o'.
Proof. intros E. unfold move_to_best. rewrite E. cbn [Nat.leb guard bind]. eauto. Qed.

(** a push *)
Lemma push_ok p : forall o o1, push_path p o = Ok o1 -> exists a m ps b, o = a ++ (m, ps) :: b /\ o1 = a ++ (m, ps ++ [p]) :: b /\ m = key_mode (pp_key p).
Proof.
  induction o as [|[m ps] r IH]; intros o1 H; cbn [push_path] in H; [discriminate|].
  destruct (mode_eqb (key_mode (pp_key p)) m) eqn:E.
  - apply Ok_inj in H. subst o1. apply mode_eqb_iff in E. exists [], m, ps, r. auto.
  - apply bind_ok in H as (r' & H1 & H). apply Ok_inj in H. subst o1. destruct (IH r' H1) as (a & m' & ps' & b & -> & -> & ->).
    exists ((m, ps) :: a), (key_mode (pp_key p)), ps', b. auto.
Qed.
Lemma push_total p o : set_of o (key_mode (pp_key p)) <> None -> exists o1, push_path p o = Ok o1.
Proof.
  induction o as [|[m ps] r IH]; cbn [set_of push_path]; [congruence|]. intros H.
  destruct (mode_eqb (key_mode (pp_key p)) m); [eauto|]. destruct (IH H) as (r' & ->). cbn [bind]. eauto.
Qed.
Lemma set_of_in o m ps : set_of o m = Some ps -> In (m, ps) o.
Proof.
  induction o as [|[m' ps'] r IH]; cbn [set_of]; [discriminate|]. destruct (mode_eqb m m') eqn:E.
  - intros H. apply mode_eqb_iff in E. left. congruence.
  - intros H. right. auto.
Qed.
Lemma set_of_filed o m ps : filed o -> In (m, ps) o -> set_of o m = Some ps.
Proof.
  intros (H & _). induction o as [|[m' ps'] r IH]; [easy|]. cbn [map fst set_of In] in *. apply NoDup_cons_iff in H as [H1 H2]. intros [E|E].
  - injection E as -> ->. now rewrite (proj2 (mode_eqb_iff m m) eq_refl).
  - destruct (mode_eqb m m') eqn:E2; [|auto]. apply mode_eqb_iff in E2. subst m'. exfalso. apply H1. change m with (fst (m, ps)). now apply in_map.
Qed.

(** at most one path of the table is the given one *)
Lemma different_count k : forall l, (forall a p b q c, l = a ++ p :: b ++ q :: c -> ~ same_trip (pp_key p) (pp_key q)) -> (length (filter (is_best k) l) <= 1)%nat.
Proof.
  induction l as [|x l IH]; intros H; cbn [filter length]; [lia|].
  assert (IH' : (length (filter (is_best k) l) <= 1)%nat).
  { apply IH. intros a p b q c E. apply (H (x :: a) p b q c). now rewrite E. }
  destruct (is_best k x) eqn:E; [|exact IH']. cbn [length].
  destruct (filter (is_best k) l) as [|y r] eqn:F; [cbn; lia|]. exfalso.
  assert (I : In y (filter (is_best k) l)) by (rewrite F; now left). apply filter_In in I as [I1 I2].
  apply in_split in I1 as (b & c & ->). apply (H [] x b y c eq_refl).
  unfold is_best in E, I2. apply same_path_iff in E, I2. eapply same_trip_trans; [exact E|]. now apply same_trip_sym.
Qed.
Lemma in_count k o p : In p (paths o) -> same_trip (pp_key p) k -> (1 <= length (filter (is_best k) (paths o)))%nat.
Proof.
  intros H1 H2. assert (I : In p (filter (is_best k) (paths o))). { apply filter_In. split; [assumption|]. now apply same_path_iff. }
  destruct (filter (is_best k) (paths o)); [destruct I|cbn; lia].
Qed.
(** pushing a path *)
Lemma paths_app a b : paths (a ++ b) = paths a ++ paths b.
Proof. unfold paths. now rewrite map_app, concat_app. Qed.
Lemma paths_cons m ps b : paths ((m, ps) :: b) = ps ++ paths b.
Proof. reflexivity. Qed.
Lemma perhaps_leaving k o o1 c : perhaps_with k o o1 -> leaving o1 c == leaving o c.
Proof.
  intros [-> |(a & m & ps & b & d & -> & -> & _)]; [reflexivity|].
  rewrite !leaving_paths, !paths_app, !paths_cons, !map_app, !sumQ_app. cbn [map]. unfold sumQ at 3. cbn [fold_right pp_flow]. ring.
Qed.
Lemma perhaps_listed k o o1 p : perhaps_with k o o1 -> In p (paths o1) -> In p (paths o) \/ (pp_key p = k /\ forall c, pp_flow p c = 0).
Proof.
  intros [-> |(a & m & ps & b & d & -> & -> & _)]; [auto|]. rewrite !paths_app, !paths_cons, !in_app_iff. cbn [In].
  intros [H|[[H|[<- |[]]]|H]]; auto.
Qed.
Lemma perhaps_nonneg k n o o1 : perhaps_with k o o1 -> no_negative n o -> no_negative n o1.
Proof.
  intros H N p c Hp Hc. apply listed_iff in Hp. destruct (perhaps_listed k o o1 p H Hp) as [I|[_ E]].
  - apply N; [now apply listed_iff|assumption].
  - rewrite E. lra.
Qed.
Lemma perhaps_travellers k n o o1 : perhaps_with k o o1 -> travellers n o1 == travellers n o.
Proof. intros H. unfold travellers. apply sum_ext. intros c _. now apply (perhaps_leaving k). Qed.
Lemma push_perhaps k d o o1 : push_path (PP k (fun _ => 0) d) o = Ok o1 -> perhaps_with k o o1.
Proof. intros H. right. destruct (push_ok _ _ _ H) as (a & m & ps & b & E1 & E2 & E3). cbn in E3. eauto 8. Qed.
(** a path that is not in its set is in no set *)
Lemma filed_none k o : filed o -> (forall ps, set_of o (key_mode k) = Some ps -> is_in_set k ps = false) -> filter (is_best k) (paths o) = [].
Proof.
  intros F H. destruct (filter (is_best k) (paths o)) as [|p r] eqn:E; [reflexivity|]. exfalso.
  assert (I : In p (filter (is_best k) (paths o))) by (rewrite E; now left). apply filter_In in I as [I1 I2].
  apply listed_iff in I1 as (m & ps & J1 & J2). pose proof (proj2 F m ps p J1 J2) as M. unfold is_best in I2.
  pose proof (same_trip_mode _ _ (proj1 (same_path_iff _ _) I2)) as M2.
  assert (S1 : set_of o (key_mode k) = Some ps) by (rewrite <- M2, M; now apply set_of_filed).
  specialize (H ps S1). unfold is_in_set in H. assert (X : existsb (is_best k) ps = true) by (apply existsb_exists; eauto). congruence.
Qed.
Lemma push_count k d o o1 : push_path (PP k (fun _ => 0) d) o = Ok o1 -> filter (is_best k) (paths o) = [] -> length (filter (is_best k) (paths o1)) = 1%nat.
Proof.
  intros H E. destruct (push_ok _ _ _ H) as (a & m & ps & b & -> & -> & _).
  rewrite paths_app, paths_cons in *. rewrite !filter_app in *. apply app_eq_nil in E as [E1 E2]. apply app_eq_nil in E2 as [E2 E3].
  rewrite E1, E2, E3. cbn [filter app]. unfold is_best at 1. cbn [pp_key]. now rewrite (proj2 (same_path_iff k k) (same_trip_refl k)).
Qed.
Lemma forall2_imp {A B} (R S : A -> B -> Prop) l l' : (forall a b, In a l -> R a b -> S a b) -> Forall2 R l l' -> Forall2 S l l'.
Proof. intros H F. induction F; constructor; [apply H; [now left|assumption]|]. apply IHF. intros. apply H; [now right|assumption]. Qed.
Lemma by_path_imp (R S : ppath -> ppath -> Prop) o o' : (forall p p', listed_path o p -> R p p' -> S p p') -> path_by_path R o o' -> path_by_path S o o'.
Proof.
  intros H. unfold path_by_path. apply forall2_imp. intros [m ps] [m' ps'] I (E & F). cbn [fst snd] in *. split; [assumption|].
  revert F. apply forall2_imp. intros p p' J. apply H. exists m, ps. auto.
Qed.
Lemma by_path_listed (R : ppath -> ppath -> Prop) o o' p' : path_by_path R o o' -> listed_path o' p' -> exists p, listed_path o p /\ R p p'.
Proof.
  unfold path_by_path, listed_path. intros F (m & ps & H1 & H2). induction F as [|[m1 ps1] [m2 ps2] r r' (E & F1) F2 IH]; [destruct H1|].
  cbn [fst snd] in *. destruct H1 as [E1|H1].
  - injection E1 as -> ->. clear - F1 H2. induction F1 as [|p q l l' HR F IH]; [destruct H2|]. destruct H2 as [<- |H2].
    + exists p. split; [|assumption]. exists m1, (p :: l). split; now left.
    + destruct (IH H2) as (p0 & (m0 & ps0 & [E|E] & I) & HR0).
      * injection E as <- <-. exists p0. split; [|assumption]. exists m1, (p :: l). split; [now left|now right].
      * exists p0. split; [|assumption]. exists m0, ps0. split; [now right|assumption].
  - destruct (IH H1) as (p & (m0 & ps0 & I & J) & HR). exists p. split; [|assumption]. exists m0, ps0. split; [now right|assumption].
Qed.
Lemma cmin_le a b : cmin a b <= a /\ cmin a b <= b.
Proof. unfold cmin. destruct (Qltb_spec b a); split; lra. Qed.
Lemma cmin_nonneg a b : 0 <= a -> 0 <= b -> 0 <= cmin a b.
Proof. unfold cmin. destruct (Qltb_spec b a); lra. Qed.
Lemma column_lt de t : (0 < de_total de)%nat -> (column de t < de_total de)%nat.
Proof. intros H. unfold column. destruct (Nat.ltb_spec (Z.to_nat (t / de_freq de)) (de_total de)); lia. Qed.
Lemma sum_indicator (c0 : nat) (x : Q) n : (c0 < n)%nat -> sumQ (map (fun c => if (c =? c0)%nat then x else 0) (seq 0 n)) == x.
Proof.
  intros H. apply sum_one. 
  assert (G : forall s, length (filter (fun c => (c =? c0)%nat) (seq s n)) = if (s <=? c0)%nat && (c0 <? s + n)%nat then 1%nat else 0%nat).
  { clear H. induction n as [|n IH]; intros s; cbn [seq filter length].
    - destruct (Nat.leb_spec s c0), (Nat.ltb_spec c0 (s + 0)); cbn [andb]; lia.
    - destruct (Nat.eqb_spec s c0).
      + cbn [length]. rewrite IH. destruct (Nat.leb_spec (S s) c0), (Nat.leb_spec s c0), (Nat.ltb_spec c0 (S s + n)), (Nat.ltb_spec c0 (s + S n)); cbn [andb]; lia.
      + rewrite IH. destruct (Nat.leb_spec (S s) c0), (Nat.leb_spec s c0), (Nat.ltb_spec c0 (S s + n)), (Nat.ltb_spec c0 (s + S n)); cbn [andb]; lia. }
  rewrite G. destruct (Nat.leb_spec 0 c0), (Nat.ltb_spec c0 (0 + n)); cbn [andb]; lia.
Qed.
