(** C196-C206: passenger paths of the multimodal equilibrium. *)
From Coq Require Import Lia Lqa.
From Verif Require Import Base Base_lemmas Model_Num Model_SP Model_Node Model_Split Model_Mmp Spec_Mmp Proof_Num Proof_Link4 Proof_PreRouting Proof_Safe2 Proof_Mmp Proof_Mmp2 Proof_Mmp3 Proof_Mmp4 Proof_Mmp5.
Local Open Scope Q_scope.

Lemma by_path_listed2 (R : ppath -> ppath -> Prop) o o' p : path_by_path R o o' -> listed_path o p -> exists p', listed_path o' p' /\ R p p'.
Proof.
  unfold path_by_path, listed_path. intros F (m & ps & H1 & H2). induction F as [|[m1 ps1] [m2 ps2] r r' (E & F1) F2 IH]; [destruct H1|].
  cbn [fst snd] in *. destruct H1 as [E1|H1].
  - injection E1 as -> ->. assert (G : exists p', In p' ps2 /\ R p p').
    { clear - F1 H2. induction F1 as [|p1 q l l' HR F IH]; [destruct H2|]. destruct H2 as [-> |H2]; [exists q; split; [now left|assumption]|]. destruct (IH H2) as (x & X1 & X2). exists x. split; [now right|assumption]. }
    destruct G as (p' & G1 & G2). exists p'. split; [|assumption]. exists m2, ps2. split; [now left|assumption].
  - destruct (IH H1) as (p' & (m' & qs & X1 & X2) & X3). exists p'. split; [|assumption]. exists m', qs. split; [now right|assumption].
Qed.
(** C196: the update with departure time choice.  For every table, best path and loading
    interval: the number of travellers of the pair, over all paths and intervals, stays the
    same; and with non-negative demand and flows and a step between 0 and 1 (after division by
    the iteration) no flow becomes negative, nothing gains but the best path in its interval,
    and that one does not lose.  A new best path is added without passengers first. *)
Theorem C196_departure_update : forall de cg iter demand k t o o', (0 < de_total de)%nat ->
  update_choice de cg iter demand k t o = Ok o' ->
  travellers (de_total de) o' == travellers (de_total de) o /\
  exists o1, perhaps_with k o o1 /\
    path_by_path (fun p p' => pp_key p' = pp_key p) o1 o' /\
    (0 <= de_step de / inject_Z (iter + 1) <= 1 -> (forall c, 0 <= demand c) -> no_negative (de_total de) o ->
     no_negative (de_total de) o' /\
     path_by_path (fun p p' => forall c, (c < de_total de)%nat ->
       (~ (same_trip (pp_key p) k /\ c = column de t) -> pp_flow p' c <= pp_flow p c) /\
       (same_trip (pp_key p) k /\ c = column de t -> pp_flow p c <= pp_flow p' c)) o1 o').
Proof.
  intros de cg iter demand k t o o' N H. destruct (choice_ok _ _ _ _ _ _ _ _ N H) as (o1 & P & T & F). split.
  { rewrite T. now apply (perhaps_travellers k). }
  exists o1. split; [assumption|]. split; [revert F; apply by_path_imp; intros p p' _ HR; apply HR|].
  intros [R1 R2] D NN. pose proof (perhaps_nonneg _ _ _ _ P NN) as N1.
  assert (F' : path_by_path (fun p p' => forall c, (c < de_total de)%nat -> 0 <= pp_flow p' c /\ (~ (same_trip (pp_key p) k /\ c = column de t) -> pp_flow p' c <= pp_flow p c) /\
      (same_trip (pp_key p) k /\ c = column de t -> pp_flow p c <= pp_flow p' c)) o1 o').
  { revert F. apply by_path_imp. intros p p' _ (_ & HR). apply HR; auto. }
  split; [eapply perhaps_by_path_nonneg; [exact F'|]; intros p p' _ HR c Hc; now apply HR|].
  revert F'. apply by_path_imp. intros p p' _ HR c Hc. now apply HR.
Qed.
Print Assumptions C196_departure_update.
(** C196: it always works on a table whose paths are filed by mode and all different, if the
    mode of the best path is offered and, without column generation, the path is there. *)
Theorem C196_update_works : forall de cg iter demand k t o, filed o -> all_different o -> set_of o (key_mode k) <> None ->
  (cg = false -> exists p, listed_path o p /\ same_trip (pp_key p) k) -> exists o', update_choice de cg iter demand k t o = Ok o'.
Proof. exact choice_total. Qed.
Print Assumptions C196_update_works.
(** C196: how many move.  To a best path of the table: from every other path and every interval,
    as many as leave, but no more than the demand of the pair over all intervals times the step
    divided by the iteration. *)
Theorem C196_moves_to_old_path : forall de cg iter demand k t o o' p0, filed o -> listed_path o p0 -> same_trip (pp_key p0) k ->
  update_choice de cg iter demand k t o = Ok o' ->
  path_by_path (fun p p' => forall c, (c < de_total de)%nat -> ~ (same_trip (pp_key p) k /\ c = column de t) ->
     pp_flow p' c == pp_flow p c - Qmin (pp_flow p c) (sumQ (map demand (seq 0 (de_total de))) * de_step de / inject_Z (iter + 1))) o o'.
Proof.
  intros de cg iter demand k t o o' p0 F L S H. unfold update_choice in H. apply bind_ok in H as (ex & Hex & H).
  assert (ex = true) as ->.
  { unfold exists_in in Hex. destruct cg; [|now apply Ok_inj in Hex]. destruct (set_of o (key_mode k)) as [ps|] eqn:E; [|discriminate]. apply Ok_inj in Hex. subst ex.
    destruct L as (m & qs & J1 & J2). assert (m = key_mode k) as ->.
    { rewrite <- (proj2 F m qs p0 J1 J2). destruct (pp_key p0), k; cbn in S |- *; try reflexivity; contradiction. }
    rewrite (set_of_filed _ _ _ F J1) in E. injection E as <-. unfold is_in_set. apply existsb_exists. exists p0. split; [assumption|]. now apply same_path_iff. }
  apply move_ok in H as (_ & P & _). revert P. apply by_path_imp. intros p p' _ (_ & _ & E) c Hc NB. rewrite E.
  assert (B : is_best k p && (c =? column de t)%nat = false).
  { apply not_true_is_false. intros X. apply andb_true_iff in X as [X1 X2]. apply NB. split; [now apply same_path_iff|now apply Nat.eqb_eq]. }
  rewrite B, (proj2 (Nat.ltb_lt _ _) Hc). unfold cmin. destruct (Qltb_spec (sumQ (map demand (seq 0 (de_total de))) * de_step de / inject_Z (iter + 1)) (pp_flow p c)) as [X|X].
  - rewrite Q.min_r by lra. ring.
  - rewrite Q.min_l by lra. ring.
Qed.
Print Assumptions C196_moves_to_old_path.
(** C196: to a best path that is new: only those who leave in its interval, the same part of
    every path; nobody changes the time of departure. *)
Theorem C196_moves_to_new_path : forall de iter demand k t o o', (forall p, listed_path o p -> ~ same_trip (pp_key p) k) ->
  update_choice de true iter demand k t o = Ok o' ->
  exists o1 p0 p0', perhaps_with k o o1 /\ listed_path o1 p0 /\ pp_key p0 = k /\ listed_path o' p0' /\ pp_key p0' = k /\
  path_by_path (fun p p' => ~ same_trip (pp_key p) k ->
     pp_flow p' (column de t) == pp_flow p (column de t) * (1 - de_step de / inject_Z (iter + 1)) /\
     forall c, c <> column de t -> pp_flow p' c == pp_flow p c) o1 o'.
Proof.
  intros de iter demand k t o o' NL H. unfold update_choice in H. apply bind_ok in H as (ex & Hex & H).
  assert (ex = false) as ->.
  { unfold exists_in in Hex. destruct (set_of o (key_mode k)) as [ps|] eqn:E; [|discriminate]. apply Ok_inj in Hex. subst ex.
    apply not_true_is_false. intros X. unfold is_in_set in X. apply existsb_exists in X as (p & P1 & P2). apply (NL p); [|now apply same_path_iff]. exists (key_mode k), ps. split; [now apply set_of_in|assumption]. }
  apply bind_ok in H as (o1 & H1 & H). destruct (push_ok _ _ _ H1) as (a & m & ps & b & E1 & E2 & E3).
  assert (L0 : listed_path o1 (PP k (fun _ => 0) [])) by (exists m, (ps ++ [PP k (fun _ => 0) []]); subst o1; split; apply in_or_app; right; left; reflexivity).
  apply move_ok in H as (_ & P & _). destruct (by_path_listed2 _ _ _ _ P L0) as (p0' & L0' & (K & _)).
  exists o1, (PP k (fun _ => 0) []), p0'. split; [now apply push_perhaps in H1|]. split; [assumption|]. split; [reflexivity|]. split; [assumption|]. split; [exact K|].
  revert P. apply by_path_imp. intros p p' _ (_ & _ & E) NB.
  assert (B : is_best k p = false) by (apply not_true_is_false; intros X; apply NB; now apply same_path_iff).
  split; [|intros c Hc]; rewrite E, B; cbn [negb andb].
  - rewrite Nat.eqb_refl. ring.
  - rewrite (proj2 (Nat.eqb_neq _ _) Hc). ring.
Qed.
Print Assumptions C196_moves_to_new_path.

(** C197: the update with fixed departure times, all intervals.  The travellers of every
    interval stay as many, whatever path is found best for it; with step / sqrt (iteration)
    between 0 and 1 no flow becomes negative. *)
Theorem C197_fixed_update : forall de cg root demand pick o o', update_fixed de cg root demand pick o = Ok o' ->
  (forall c, leaving o' c == leaving o c) /\
  (0 <= de_step de / root <= 1 -> no_negative (de_total de) o -> no_negative (de_total de) o').
Proof. exact update_fixed_ok. Qed.
Print Assumptions C197_fixed_update.
(** C197: one interval.  Other intervals are not touched; in this one every path but the best
    keeps the same part of its passengers, the best does not lose. *)
Theorem C197_fixed_interval : forall de cg root demand k o c o', fixed_column de cg root demand k o c = Ok o' ->
  0 <= de_step de / root <= 1 -> no_negative (S c) o ->
  exists o1, perhaps_with k o o1 /\
    path_by_path (fun p p' => pp_key p' = pp_key p /\ (forall c', c' <> c -> pp_flow p' c' == pp_flow p c') /\
      (~ same_trip (pp_key p) k -> pp_flow p' c == pp_flow p c * (1 - de_step de / root)) /\
      (same_trip (pp_key p) k -> pp_flow p c <= pp_flow p' c)) o1 o'.
Proof.
  intros de cg root demand k o c o' H R N. destruct (fixed_ok _ _ _ _ _ _ _ _ H) as (o1 & P & _ & F). exists o1. split; [assumption|].
  revert F. apply by_path_imp. intros p p' _ ((E & SF) & HR). split; [assumption|]. split; [assumption|].
  destruct HR as (_ & A & B); [assumption| |auto]. intros q Hq. apply (perhaps_nonneg k (S c) o o1 P N q c Hq). lia.
Qed.
Print Assumptions C197_fixed_interval.
(** C197: the check at the end of an interval cannot fail when the table holds the demand. *)
Theorem C197_check_never_fails : forall de cg root demand k o c, filed o -> all_different o -> set_of o (key_mode k) <> None ->
  (cg = false -> exists p, listed_path o p /\ same_trip (pp_key p) k) -> leaving o c == demand c ->
  exists o', fixed_column de cg root demand k o c = Ok o'.
Proof. exact fixed_total. Qed.
Print Assumptions C197_check_never_fails.

(** C198: gradient projection, one interval.  The travellers of every interval stay as many,
    other intervals are not touched.  Either nothing moves, and then all paths weighed (the best
    one and those in use) are equally good; or the average of their disutilities is what
    decides: with a step that is not negative, paths above it do not gain, paths below it do
    not lose, paths on it and paths not weighed stay.  Nothing weighed ends below zero. *)
Theorem C198_projection : forall de cg demand k o c o', gp_column de cg demand k o c = Ok o' ->
  (forall c', leaving o' c' == leaving o c') /\
  exists o1, perhaps_with k o o1 /\
    path_by_path (fun p p' => pp_key p' = pp_key p /\ pp_dis p' = pp_dis p /\ (forall c', c' <> c -> pp_flow p' c' = pp_flow p c')) o1 o' /\
    ((o' = o1 /\ settled k c o1) \/
     exists avg, average k c o1 avg /\
       (0 <= de_step de -> no_negative (S c) o ->
        path_by_path (fun p p' => (weighed k c p -> 0 <= pp_flow p' c /\ exists d, nth_error (pp_dis p) c = Some d /\
             (avg < d -> pp_flow p' c <= pp_flow p c) /\ (d < avg -> pp_flow p c <= pp_flow p' c) /\ (d == avg -> pp_flow p' c == pp_flow p c)) /\
           (~ weighed k c p -> pp_flow p' c == pp_flow p c)) o1 o')).
Proof.
  intros de cg demand k o c o' H. destruct (gp_ok _ _ _ _ _ _ _ H) as (o1 & P & L & F & R). split.
  { intros c'. rewrite L. now apply (perhaps_leaving k). }
  exists o1. split; [assumption|]. split; [assumption|]. destruct R as [(E & _ & S)|(avg & tau & A & D & G & T & _)]; [now left|right].
  exists avg. split; [assumption|]. intros S0 NN.
  assert (N1 : forall p, listed_path o1 p -> 0 <= pp_flow p c). { intros p Hp. apply (perhaps_nonneg k (S c) o o1 P NN p c Hp). lia. }
  specialize (T S0 N1). revert G. apply by_path_imp. intros p p' Hp (E & W). split.
  - intros Wp. split; [auto|]. apply listed_iff in Hp. pose proof (D p Hp Wp) as Dp. apply dis_ok in Dp. exists (dd c p). split; [assumption|].
    rewrite (proj2 (takes_iff k c p) Wp) in E. repeat split; intros X; rewrite E; [nra|nra|rewrite X; ring].
  - intros Wp. rewrite <- takes_iff in Wp. apply not_true_is_false in Wp. rewrite Wp in E. rewrite E. ring.
Qed.
Print Assumptions C198_projection.
(** C198: all intervals, whatever path is found best for each: the travellers of every interval
    stay as many and no flow becomes negative, whatever the step. *)
Theorem C198_whole_update : forall de cg demand pick o o', update_gp de cg demand pick o = Ok o' ->
  (forall c, leaving o' c == leaving o c) /\ (no_negative (de_total de) o -> no_negative (de_total de) o').
Proof.
  intros de cg demand pick o o'. unfold update_gp. generalize (seq 0 (de_total de)). intros cs. revert o o'.
  induction cs as [|c cs IH]; intros o o' H; cbn [foldM] in H.
  - apply Ok_inj in H. subst. split; [reflexivity|auto].
  - apply bind_ok in H as (o1 & H1 & H). apply bind_ok in H1 as (k & _ & H1). destruct (IH o1 o' H) as [I1 I2]. apply gp_ok in H1 as (o0 & P & L & F & R). split.
    + intros c'. rewrite I1, L. now apply (perhaps_leaving k).
    + intros N0. apply I2. pose proof (perhaps_nonneg k _ o o0 P N0) as N1. destruct R as [(-> & _)|(avg & tau & _ & _ & G & _)]; [exact N1|].
      intros p' c' Hp Hc. destruct (Nat.eq_dec c' c) as [->|NE].
      * destruct (by_path_listed _ _ _ _ G Hp) as (p & I & E & W). destruct (takes_part k c p) eqn:T; [apply W; now apply takes_iff|]. rewrite E. specialize (N1 p c I Hc). lra.
      * destruct (by_path_listed _ _ _ _ F Hp) as (p & I & _ & _ & E). rewrite E by assumption. now apply N1.
Qed.
Print Assumptions C198_whole_update.
(** C198: with a step between 0 and 1 no interval stops the program, when the table holds the
    demand, flows are not negative and the disutilities are there. *)
Theorem C198_small_steps_work : forall de demand k o c, (forall p, listed_path o p -> weighed k c p -> exists d, nth_error (pp_dis p) c = Some d) ->
  (forall p, listed_path o p -> 0 <= pp_flow p c) -> 0 <= de_step de <= 1 -> leaving o c == demand c ->
  exists o', gp_column de false demand k o c = Ok o'.
Proof. exact gp_total. Qed.
Print Assumptions C198_small_steps_work.

(** C199: gradient projection with any positive step size.  REFUTED: with a step above 1 it
    stops with an exception in every interval that is not settled yet. *)
Theorem C199_big_steps_refuted : forall de demand k o c p1 p2 d1 d2, 1 < de_step de ->
  (forall p, listed_path o p -> weighed k c p -> exists d, nth_error (pp_dis p) c = Some d) ->
  (forall p q d e, listed_path o p -> listed_path o q -> same_trip (pp_key p) k -> weighed k c q ->
     nth_error (pp_dis p) c = Some d -> nth_error (pp_dis q) c = Some e -> d <= e) ->
  listed_path o p1 -> listed_path o p2 -> weighed k c p1 -> weighed k c p2 ->
  nth_error (pp_dis p1) c = Some d1 -> nth_error (pp_dis p2) c = Some d2 -> d1 < d2 ->
  gp_column de false demand k o c = Err EThrow.
Proof. exact gp_throw. Qed.
Print Assumptions C199_big_steps_refuted.

(** C200: the best existing path, for pairs without park and ride: it is in the table, its
    disutility is the one stated, and no path of the table has a smaller one in any loading
    interval of the run. *)
Theorem C200_best_existing_partial : forall de o k i d, filed o -> (forall ps, ~ In (Pnr, ps) o) ->
  best_existing de o = Ok (k, i, d) ->
  (exists p, listed_path o p /\ same_trip k (pp_key p) /\ in_run de i /\ valued de o p i d) /\
  (forall p' i' d', listed_path o p' -> in_run de i' -> valued de o p' i' d' -> d <= d').
Proof.
  intros de o k i d F NP H. unfold best_existing in H. destruct (best_ok _ _ _ _ _ _ _ F H) as ((p & Hp & Hi & S & V) & A).
  assert (IR : forall j, In j (intervals de) <-> in_run de j).
  { intros j. unfold intervals, in_run. rewrite in_map_iff. split.
    - intros (n & <- & Hn). apply in_seq in Hn. lia.
    - intros J. exists (Z.to_nat j). split; [lia|]. apply in_seq. lia. }
  assert (NK : forall p, listed_path o p -> key_mode (pp_key p) <> Pnr).
  { intros q (m & ps & J1 & J2) E. apply (NP ps). now rewrite <- E, (proj2 F m ps q J1 J2). }
  split.
  - exists p. repeat split; auto; [now apply IR| |]; [apply IR in Hi; apply Hi|]. apply val_valued; auto.
  - intros p' i' d' Hp' Hi' V'. destruct (A p' i' Hp' (proj2 (IR i') Hi')) as (d2 & V2 & L). apply val_valued in V2; [|assumption|auto].
    pose proof (valued_unique _ _ _ _ _ _ F V' V2) as E. lra.
Qed.
Print Assumptions C200_best_existing_partial.

(** 1 at 1, about -20.7 next to 0: the points at which the examples use the logarithm *)
Definition steps_log (x : Q) : Q := if Qltb x (1 # 2) then - (207 # 10) else 0.
Definition ones (n : nat) : list ext := repeat (Some 1) n.
Definition ex_ce : cenv := CE 10 1 (fun l => if (l =? 1)%Z then Some (ones 10) else None)
  (fun l => if (l =? 2)%Z then Some (ones 10) else if (l =? 3)%Z then Some (repeat (Some 10) 10) else None)
  (fun _ _ => Err EThrow) (fun _ => 0) (fun _ => 0) 1 0 0 5 0 0 0 20 100 0.
Definition ex_de : denv := DE ex_ce steps_log (fun _ => 0) 1 1 2 2 (1 # 2).
Definition ex_car := PP (KDrive 1 None [1%Z]) (fun _ => 1) [9; 9].
Definition ex_bus := PP (KBus [3%Z]) (fun _ => 0) [109; 109].
Definition ex_pnr := PP (KPnr 7 [1%Z] [2%Z]) (fun _ => 1) [22; 22].
Definition ex_o : odset := [(Driving, [ex_car]); (Transit, [ex_bus]); (Pnr, [ex_pnr])].

(** C200: with park and ride REFUTED: its disutility is computed with the passengers of the
    bus; here driving is the better choice by far, and park and ride is returned. *)
Theorem C200_best_existing_refuted : exists de o k i d p q e f, filed o /\ all_different o /\
  best_existing de o = Ok (k, i, d) /\ listed_path o p /\ pp_key p = k /\ valued de o p i e /\
  listed_path o q /\ valued de o q i f /\ f + 10 < e.
Proof.
  exists ex_de, ex_o, (KPnr 7 [1%Z] [2%Z]), 0%Z, (13 # 10), ex_pnr, ex_car, 22, 9.
  split. { split; [repeat (constructor; [cbn; intuition discriminate|]); constructor|]. intros m ps p H1 H2. cbn in H1. intuition (subst; try discriminate);
    match goal with H : (_, _) = (_, _) |- _ => injection H as <- <- end; cbn in H2; intuition subst; reflexivity. }
  split. { intros a p b q c E. cbn in E. destruct a as [|x a]; [|destruct a as [|y a]; [|destruct a as [|z a]; [|destruct a; discriminate]]]; cbn in E.
    - injection E as <- E. destruct b as [|u b]; [injection E as <- _; cbn; auto|]. injection E as _ E. destruct b as [|v b]; [injection E as <- _; cbn; auto|]. injection E as _ E. destruct b; discriminate.
    - injection E as _ <- E. destruct b as [|u b]; [injection E as <- _; cbn; auto|]. injection E as _ E. destruct b; discriminate.
    - injection E as _ _ _ E. destruct b; discriminate. }
  split; [vm_compute; reflexivity|].
  split; [exists Pnr, [ex_pnr]; cbn; auto|]. split; [reflexivity|].
  split; [exists 22, [ex_pnr]; split; [vm_compute; reflexivity|split; [cbn; auto|vm_compute; reflexivity]]|].
  split; [exists Driving, [ex_car]; cbn; auto|].
  split; [exists 9, [ex_car]; split; [vm_compute; reflexivity|split; [cbn; auto|vm_compute; reflexivity]]|]. lra.
Qed.
Print Assumptions C200_best_existing_refuted.
(** C200: and a pair with park and ride but no bus paths never gets an answer, with departure
    time choice or without. *)
Theorem C200_no_bus_no_answer : forall de o ps, filed o -> In (Pnr, ps) o -> (forall qs, ~ In (Transit, qs) o) -> (0 < de_inter de)%nat ->
  (forall b, best_existing de o <> Ok b) /\ (forall c b, best_existing_at de o c <> Ok b).
Proof.
  intros de o ps F P T N. assert (EP := set_of_filed _ _ _ F P).
  assert (ET : set_of o Transit = None). { destruct (set_of o Transit) as [qs|] eqn:E; [|reflexivity]. exfalso. apply (T qs). now apply set_of_in. }
  split.
  - intros b. apply (best_throws _ _ _ _ ps); try assumption. unfold intervals. destruct (de_inter de); [lia|discriminate].
  - intros c b H. unfold best_existing_at in H. apply bind_ok in H as (u & _ & H). revert H. apply (best_throws _ _ _ _ ps); try assumption. discriminate.
Qed.
Print Assumptions C200_no_bus_no_answer.

(** C201: the best path for one interval from the stored disutilities: it is in the table, and
    no path of any mode has a smaller stored disutility for the interval. *)
Theorem C201_best_stored : forall de o c k i d, filed o -> (forall p, listed_path o p -> pp_dis p <> []) -> (0 < de_freq de)%Z -> (c < de_total de)%nat ->
  best_existing_at de o c = Ok (k, i, d) ->
  i = (Z.of_nat c * de_freq de)%Z /\
  (exists p, listed_path o p /\ same_trip k (pp_key p) /\ nth_error (pp_dis p) c = Some d) /\
  (forall p', listed_path o p' -> exists d', nth_error (pp_dis p') c = Some d' /\ d <= d').
Proof.
  intros de o c k i d F K FR C H. unfold best_existing_at in H. apply bind_ok in H as (u & _ & H).
  destruct (best_ok _ _ _ _ _ _ _ F H) as ((p & Hp & [Hi|[]] & S & V) & A).
  assert (EC : column de (Z.of_nat c * de_freq de) = c).
  { unfold column. rewrite Z.div_mul by lia. rewrite Nat2Z.id. now destruct (Nat.ltb_spec c (de_total de)); [|lia]. }
  split; [now symmetry|]. split.
  - exists p. split; [assumption|]. split; [assumption|]. apply val_stored in V; [|auto]. now rewrite <- Hi, EC in V.
  - intros p' Hp'. destruct (A p' _ Hp' (or_introl eq_refl)) as (d' & V' & L). exists d'. split; [|assumption]. apply val_stored in V'; [|auto]. now rewrite EC in V'.
Qed.
Print Assumptions C201_best_stored.
(** C201: the stored disutilities are right for all modes: the cost of leaving at the start of the
    interval, with the passengers of the path's own mode; flows do not change. *)
Theorem C201_stored_right : forall de o o', (0 < de_freq de)%Z -> table_dis de o = Ok o' ->
  path_by_path (fun p p' => pp_key p' = pp_key p /\ pp_flow p' = pp_flow p /\ length (pp_dis p') = de_total de /\
    forall c, (c < de_total de)%nat -> exists d, nth_error (pp_dis p') c = Some d /\ valued de o p (Z.of_nat c * de_freq de) d) o o'.
Proof.
  intros de o o' FR H. unfold table_dis in H. apply mapM_Forall2 in H. unfold path_by_path. revert H. apply forall2_imp. intros [m ps] [m' ps'] _ H. cbn [fst snd] in *.
  apply bind_ok in H as (qs & H1 & H). apply Ok_inj in H. injection H as <- <-. split; [reflexivity|]. apply mapM_Forall2 in H1. revert H1. apply forall2_imp.
  intros p p' _ H. apply bind_ok in H as (d & H1 & H). apply Ok_inj in H. subst p'. cbn [pp_key pp_flow pp_dis]. split; [reflexivity|]. split; [reflexivity|].
  unfold path_dis in H1. apply mapM_Forall2 in H1. split; [rewrite <- (Forall2_len _ _ _ H1); apply seq_length|]. intros c Hc.
  assert (G : forall s n l, Forall2 (fun c0 y => (let i := (Z.of_nat c0 * de_freq de)%Z in do x <- path_cost (de_cost de) (pp_key p) i; do dmd <- mode_demand o (key_mode (pp_key p)) c0; Ok (disutility de (key_mode (pp_key p)) x dmd)) = Ok y) (seq s n) l ->
     forall j, (j < n)%nat -> exists y, nth_error l j = Some y /\ (do x <- path_cost (de_cost de) (pp_key p) (Z.of_nat (s + j) * de_freq de); do dmd <- mode_demand o (key_mode (pp_key p)) (s + j); Ok (disutility de (key_mode (pp_key p)) x dmd)) = Ok y).
  { clear. intros s n. revert s. induction n as [|n IH]; intros s l F j Hj; [lia|]. cbn [seq] in F. inversion F as [|? y ? r HR F']; subst. destruct j as [|j].
    - exists y. rewrite Nat.add_0_r. auto.
    - destruct (IH _ _ F' j ltac:(lia)) as (z & Z1 & Z2). exists z. rewrite <- Nat.add_succ_comm. auto. }
  destruct (G _ _ _ H1 c Hc) as (y & Y1 & Y2). cbn [Nat.add] in Y2. exists y. split; [assumption|].
  apply bind_ok in Y2 as (x & X1 & Y2). apply bind_ok in Y2 as (dmd & X2 & Y2). apply Ok_inj in Y2. unfold mode_demand in X2. destruct (set_of o (key_mode (pp_key p))) as [qs0|] eqn:E; [|discriminate]. apply Ok_inj in X2.
  assert (EC : column de (Z.of_nat c * de_freq de) = c).
  { unfold column. rewrite Z.div_mul by lia. rewrite Nat2Z.id. now destruct (Nat.ltb_spec c (de_total de)); [|lia]. }
  exists x, qs0. split; [assumption|]. split; [now apply set_of_in|]. rewrite EC, <- Y2, <- X2. reflexivity.
Qed.
Print Assumptions C201_stored_right.
Example C201_stored_case : match table_dis ex_de ex_o with Ok o' => map (fun p => map Qred (pp_dis p)) (paths o') = [[9; 9]; [1093 # 10; 1093 # 10]; [22; 22]] | Err _ => False end.
Proof. vm_compute. reflexivity. Qed.
(** C201: there is an answer when every set has paths, all disutilities are stored, a pair with
    park and ride has bus paths too, and the run is long enough. *)
Theorem C201_best_stored_works : forall de o c, filed o -> o <> [] -> (forall m ps, In (m, ps) o -> ps <> []) ->
  (0 < de_freq de)%Z -> (c < de_total de)%nat -> (Z.of_nat c * de_freq de + de_freq de <= Z.of_nat (de_inter de))%Z ->
  (forall p, listed_path o p -> exists d, nth_error (pp_dis p) c = Some d) ->
  (forall ps, In (Pnr, ps) o -> exists qs, In (Transit, qs) o) -> exists b, best_existing_at de o c = Ok b.
Proof.
  intros de o c F N NE FR C R K PT. unfold best_existing_at. rewrite (proj2 (Z.leb_le _ _) R). cbn [guard bind].
  apply best_total; try assumption.
  assert (EC : column de (Z.of_nat c * de_freq de) = c).
  { unfold column. rewrite Z.div_mul by lia. rewrite Nat2Z.id. now destruct (Nat.ltb_spec c (de_total de)); [|lia]. }
  now rewrite EC.
Qed.
Print Assumptions C201_best_stored_works.

(** C202: travel times read from the tables.  By car: walk to the car, the links one after the
    other, each with its entry for the time it is entered, rounded up to whole intervals, the
    cruise for parking if there is a lot, the walk; by bus: the links, unless one takes longer
    than the run, which counts as twice the run; park and ride: the car, then the bus from the
    time the car arrives. *)
Theorem C202_times : forall ce k start t, path_time ce k start = Ok t ->
  let walk x := Qceiling (x / ce_unit ce) in
  let by_bus links s b := (exists arr, rides (within_run (ce_now ce)) (ce_bus ce) (ce_now ce) s links arr /\ b = (arr - s)%Z) \/
                          (stuck (ce_bus ce) (ce_now ce) s links /\ b = (2 * ce_now ce)%Z) in
  match k with
  | KDrive _ None links => exists arr, rides any_time (ce_car ce) (ce_now ce) (start + walk (ce_before ce)) links arr /\ (start + t = arr + walk (ce_after ce))%Z
  | KDrive _ (Some lot) links => exists arr c, rides any_time (ce_car ce) (ce_now ce) (start + walk (ce_before ce)) links arr /\
      ce_cruise ce lot arr = Ok c /\ (start + t = arr + Qceiling c + walk (ce_after ce))%Z
  | KBus links => by_bus links start t
  | KPnr _ drive bus => exists arr b, rides any_time (ce_car ce) (ce_now ce) (start + walk (ce_before ce)) drive arr /\
      by_bus bus arr b /\ (start + t = arr + b)%Z
  end.
Proof.
  intros ce k start t H walk by_bus. destruct k as [n lot links|links|lot drive bus]; cbn [path_time] in H.
  - apply drive_time_ok in H as (arr & R & E). destruct lot as [lot|].
    + destruct E as (c & C & E). exists arr, c. repeat split; auto. unfold walk. lia.
    + exists arr. split; [assumption|]. unfold walk. lia.
  - now apply bus_time_ok in H.
  - apply bind_ok in H as (x & X & H). apply bind_ok in H as (y & Y & H). apply Ok_inj in H. apply drive_time_ok in X as (arr & R & E).
    apply bus_time_ok in Y. assert (W0 : Qceiling (0 / ce_unit ce) = 0%Z) by (unfold Qceiling, Qdiv; destruct (/ ce_unit ce); reflexivity).
    assert (E' : (start + x = arr)%Z) by (rewrite W0 in E; lia). rewrite E' in Y. exists arr, y. split; [assumption|]. split; [exact Y|]. lia.
Qed.
Print Assumptions C202_times.
(** C202: the links take at least one interval each *)
Theorem C202_at_least_one : forall fine tab now t links t', rides fine tab now t links t' -> (t + Z.of_nat (length links) <= t')%Z.
Proof. exact rides_length. Qed.
Print Assumptions C202_at_least_one.
(** C202: there is a time when the tables cover the run and the links, for any start not
    before the run, however late. *)
Theorem C202_times_exist : forall ce k start, (0 < ce_now ce)%Z -> (0 <= start)%Z -> (0 <= Qceiling (ce_before ce / ce_unit ce))%Z ->
  match k with
  | KDrive _ lot links => covers (ce_car ce) (ce_now ce) links /\ (forall l, lot = Some l -> forall x, exists c, ce_cruise ce l x = Ok c)
  | KBus links => covers (ce_bus ce) (ce_now ce) links
  | KPnr _ drive bus => covers (ce_car ce) (ce_now ce) drive /\ covers (ce_bus ce) (ce_now ce) bus
  end -> exists t, path_time ce k start = Ok t.
Proof.
  intros ce k start N S B H. assert (NB : (0 <? ce_now ce)%Z = true) by (apply Z.ltb_lt; lia). destruct k as [n lot links|links|lot drive bus]; cbn [path_time]; unfold drive_time, bus_time; rewrite ?NB; cbn [guard bind].
  - destruct H as [H1 H2]. destruct (drive_total ce N links (start + Qceiling (ce_before ce / ce_unit ce)) H1 ltac:(lia)) as (t & -> & _). cbn [bind].
    destruct lot as [l|]; [destruct (H2 l eq_refl t) as (c & ->)|]; cbn [bind]; eauto.
  - destruct (bus_total ce N links start H S) as (r & ->). cbn [bind]. eauto.
  - destruct H as [H1 H2]. destruct (drive_total ce N drive (start + Qceiling (ce_before ce / ce_unit ce)) H1 ltac:(lia)) as (t & -> & L). cbn [bind].
    assert (W0 : Qceiling (0 / ce_unit ce) = 0%Z) by (unfold Qceiling, Qdiv; destruct (/ ce_unit ce); reflexivity). rewrite W0.
    destruct (bus_total ce N bus (start + (t + 0 - start)) H2 ltac:(lia)) as (r & ->). cbn [bind]. eauto.
Qed.
Print Assumptions C202_times_exist.

(** C203: the penalty for arriving at the wrong time is never negative, and nothing exactly for
    arriving on time; and of two travel times on a path, left at the same time, the longer one
    never costs less, if time is worth at least the early penalty. *)
Theorem C203_penalty : forall ce a, 0 < ce_early ce -> 0 < ce_late ce -> 0 <= penalty ce a /\ (penalty ce a == 0 <-> a == ce_target ce).
Proof. intros ce a E L. split; [apply penalty_nonneg; lra|now apply penalty_zero]. Qed.
Print Assumptions C203_penalty.
Theorem C203_longer_costs_more : forall ce k start t1 t2, 0 <= ce_early ce -> ce_early ce <= ce_vot ce -> 0 <= ce_late ce ->
  0 <= ce_fare ce -> 0 <= ce_bus_inc ce -> 0 <= ce_pnr_inc ce -> (0 <= t1 <= t2)%Z ->
  cost_with_time ce k start t1 <= cost_with_time ce k start t2.
Proof. intros ce k start t1 t2 A B C D E F [G H]. apply cost_mono; try assumption. repeat split; assumption. Qed.
Print Assumptions C203_longer_costs_more.

(** C204: a bus journey that gets stuck never looks cheaper than one that arrives.  Proved if the
    one that arrives takes at most twice the run. *)
Theorem C204_stuck_partial : forall ce l1 l2 start t1 c1 c2, 0 <= ce_early ce -> ce_early ce <= ce_vot ce -> 0 <= ce_late ce ->
  0 <= ce_fare ce -> 0 <= ce_bus_inc ce -> 0 <= ce_pnr_inc ce ->
  path_time ce (KBus l1) start = Ok t1 -> (0 <= t1 <= 2 * ce_now ce)%Z -> path_cost ce (KBus l1) start = Ok c1 ->
  path_time ce (KBus l2) start = Ok (2 * ce_now ce)%Z -> path_cost ce (KBus l2) start = Ok c2 -> c1 <= c2.
Proof.
  intros ce l1 l2 start t1 c1 c2 A B C D E F T1 R P1 T2 P2. unfold path_cost in P1, P2. rewrite T1 in P1. rewrite T2 in P2. cbn [bind] in P1, P2.
  apply Ok_inj in P1, P2. subst c1 c2. change (cost_with_time ce (KBus l2) start (2 * ce_now ce)) with (cost_with_time ce (KBus l1) start (2 * ce_now ce)).
  apply cost_mono; [repeat split; assumption|lia|lia].
Qed.
Print Assumptions C204_stuck_partial.
(** C204: REFUTED otherwise: three links of ten intervals in a run of ten arrive after thirty,
    and cost more than a path whose only link is never passed. *)
Definition slow_ce : cenv := CE 10 1 (fun _ => None)
  (fun l => if (l =? 9)%Z then Some (repeat None 10) else Some (repeat (Some 10) 10))
  (fun _ _ => Err EThrow) (fun _ => 0) (fun _ => 0) 1 0 0 5 0 0 0 2 0 0.
Theorem C204_stuck_refuted : exists ce l1 l2 start c1 c2, (exists arr, rides (within_run (ce_now ce)) (ce_bus ce) (ce_now ce) start l1 arr) /\
  stuck (ce_bus ce) (ce_now ce) start l2 /\ path_cost ce (KBus l1) start = Ok c1 /\ path_cost ce (KBus l2) start = Ok c2 /\ c2 < c1.
Proof.
  exists slow_ce, [1; 2; 3]%Z, [9%Z], 0%Z, 32000, 22000.
  assert (W : whole_intervals 10 10) by (apply whole_ok; vm_compute; reflexivity).
  assert (U : within_run (ce_now slow_ce) 10) by (vm_compute; discriminate).
  split; [|split; [|split; [vm_compute; reflexivity|split; [vm_compute; reflexivity|lra]]]].
  - exists 30%Z. repeat (eapply Rides_link; [eexists; split; reflexivity|exact U|exact W|]). constructor.
  - eapply Stuck_never; reflexivity.
Qed.
Print Assumptions C204_stuck_refuted.

(** C205: travellers pay what is charged on their way.  REFUTED: driving without a parking lot
    costs 8 more than the time, the penalty, the share of the car and the tolls ... *)
Theorem C205_fee_without_lot_refuted : forall ce n links start t,
  cost_with_time ce (KDrive n None links) start t == ce_vot ce * inject_Z t + penalty ce (inject_Z (start + t)) + ce_pool ce * inject_Z (n - 1) + sumQ (map (ce_toll ce) links) + 8.
Proof. intros. cbn [cost_with_time parking_fee]. unfold toll. ring. Qed.
Print Assumptions C205_fee_without_lot_refuted.
(** ... and a park-and-ride trip costs and takes the same whatever the tolls on its links, the
    price of the lot, the time to find a place in it, and whichever lot it is. *)
Definition other_charges (ce : cenv) (price toll : Z -> Q) (cruise : Z -> Z -> res Q) : cenv :=
  CE (ce_now ce) (ce_unit ce) (ce_car ce) (ce_bus ce) cruise price toll (ce_vot ce) (ce_early ce) (ce_late ce) (ce_target ce) (ce_pool ce) (ce_before ce) (ce_after ce)
     (ce_fare ce) (ce_bus_inc ce) (ce_pnr_inc ce).
Theorem C205_park_and_ride_free_refuted : forall ce price toll cruise lot lot' drive bus start,
  path_cost (other_charges ce price toll cruise) (KPnr lot' drive bus) start = path_cost ce (KPnr lot drive bus) start /\
  path_time (other_charges ce price toll cruise) (KPnr lot' drive bus) start = path_time ce (KPnr lot drive bus) start.
Proof. intros. split; reflexivity. Qed.
Print Assumptions C205_park_and_ride_free_refuted.
(** C205: what is right: a car trip to a lot pays the tolls and its share of the price *)
Theorem C205_car_with_lot_partial : forall ce n lot links start t,
  cost_with_time ce (KDrive n (Some lot) links) start t ==
    ce_vot ce * inject_Z t + penalty ce (inject_Z (start + t)) + ce_pool ce * inject_Z (n - 1) + sumQ (map (ce_toll ce) links) + ce_price ce lot / inject_Z n.
Proof. intros. cbn [cost_with_time parking_fee]. unfold toll. ring. Qed.
Print Assumptions C205_car_with_lot_partial.

(** C206: travellers who change go to the assignment interval of the best time.  Proved for best
    times within the assignment intervals ... *)
Theorem C206_best_interval_partial : forall de t, (0 < de_freq de)%Z -> (0 <= t < Z.of_nat (de_total de) * de_freq de)%Z ->
  (column de t < de_total de)%nat /\ (Z.of_nat (column de t) * de_freq de <= t < Z.of_nat (column de t) * de_freq de + de_freq de)%Z.
Proof.
  intros de t F T. assert (D : (0 <= t / de_freq de < Z.of_nat (de_total de))%Z).
  { split; [apply Z.div_pos; lia|]. apply Z.div_lt_upper_bound; lia. }
  unfold column. destruct (Nat.ltb_spec (Z.to_nat (t / de_freq de)) (de_total de)) as [L|L]; [|lia]. split; [assumption|].
  rewrite Z2Nat.id by lia. pose proof (Z.div_mod t (de_freq de) ltac:(lia)). pose proof (Z.mod_pos_bound t (de_freq de) F). lia.
Qed.
Print Assumptions C206_best_interval_partial.
(** ... and REFUTED for later times: every loading interval of the run is looked at, and the
    travellers of a better time after the last assignment interval are put into the last one.
    Here all passengers leave in interval 0, where the trip costs 6 when leaving
    at time 9; after the update all leave in interval 1, where it costs at least 9 at every time. *)
Definition late_ce : cenv := CE 40 1 (fun _ => Some (repeat (Some 1) 10 ++ repeat (Some 8) 10 ++ repeat (Some 1) 20))
  (fun _ => None) (fun _ _ => Ok 0) (fun _ => 0) (fun _ => 0) 1 (1 # 5) 1 35 0 0 0 0 0 0.
Definition late_de : denv := DE late_ce steps_log (fun _ => 0) 1 10 2 40 1.
Definition late_o : odset := [(Driving, [PP (KDrive 1 (Some 7%Z) [1%Z]) (fun c => if (c =? 0)%nat then 2 else 0) []])].
Definition late_demand (c : nat) : Q := if (c =? 0)%nat then 2 else 0.
Definition late_after : odset := match update_choice late_de false 0 late_demand (KDrive 1 (Some 7%Z) [1%Z]) 34 late_o with Ok o => o | Err _ => [] end.
Definition late_path : ppath := match late_after with (_, p :: _) :: _ => p | _ => ex_car end.
Theorem C206_best_interval_refuted : exists de o k t d demand o' p p', (0 < de_freq de)%Z /\ best_existing de o = Ok (k, t, d) /\
  update_choice de false 0 demand k t o = Ok o' /\ listed_path o p /\ listed_path o' p' /\ pp_key p' = pp_key p /\
  pp_flow p 0%nat == 2 /\ pp_flow p' 0%nat == 0 /\ pp_flow p' 1%nat == 2 /\
  path_cost (de_cost de) (pp_key p) 9 = Ok (30 # 5) /\
  (forall i c, (10 <= i < 20)%Z -> path_cost (de_cost de) (pp_key p) i = Ok c -> 9 <= c).
Proof.
  exists late_de, late_o, (KDrive 1 (Some 7%Z) [1%Z]), 34%Z, (Qred (1 - (207 # 10))), late_demand, late_after, (PP (KDrive 1 (Some 7%Z) [1%Z]) late_demand []), late_path.
  split; [reflexivity|]. split; [vm_compute; reflexivity|]. split; [vm_compute; reflexivity|].
  split; [exists Driving, [PP (KDrive 1 (Some 7%Z) [1%Z]) late_demand []]; split; left; reflexivity|]. split; [exists Driving, [late_path]; split; left; vm_compute; reflexivity|].
  split; [vm_compute; reflexivity|]. split; [reflexivity|]. split; [vm_compute; reflexivity|]. split; [vm_compute; reflexivity|]. split; [vm_compute; reflexivity|].
  intros i c Hi. assert (J : exists n, (n < 10)%nat /\ i = (10 + Z.of_nat n)%Z) by (exists (Z.to_nat (i - 10)); lia). destruct J as (n & Hn & ->).
  do 10 (destruct n as [|n]; [intros H; vm_compute in H; injection H as H; rewrite <- H; vm_compute; discriminate|]). lia.
Qed.
Print Assumptions C206_best_interval_refuted.

(** concrete cases *)
Definition ex_k := KBus [4%Z].
Definition gp_o : odset := [(Driving, [PP (KDrive 1 None [1%Z]) (fun _ => 3) [9; 9]; PP (KDrive 2 None [1%Z]) (fun _ => 1) [5; 9]]); (Transit, [PP (KBus [3%Z]) (fun _ => 2) [7; 9]])].
Definition at0 (p : ppath) : Q := Qred (pp_flow p 0%nat).
Definition flows0 (r : res odset) : option (list (list Q)) := match r with Ok o => Some (map (fun s => map at0 (snd s)) o) | Err _ => None end.
Definition flows1 (r : res odset) : option (list (list Q)) := match r with Ok o => Some (map (fun s => map (fun p => Qred (pp_flow p 1%nat)) (snd s)) o) | Err _ => None end.

(** six travellers in interval 0 and six in interval 1: half of those of interval 1 move to a new
    bus path; at most one from each path and interval moves to a path that is there *)
Example C196_case : flows0 (update_choice ex_de true 0 (fun _ => 6) ex_k 1 gp_o) = Some [[3; 1]; [2; 0]] /\
  flows1 (update_choice ex_de true 0 (fun _ => 6) ex_k 1 gp_o) = Some [[3 # 2; 1 # 2]; [1; 3]] /\
  flows0 (update_choice ex_de true 5 (fun _ => 6) (KBus [3%Z]) 1 gp_o) = Some [[2; 0]; [1]] /\
  flows1 (update_choice ex_de true 5 (fun _ => 6) (KBus [3%Z]) 1 gp_o) = Some [[2; 0]; [7]] /\ travellers 2 gp_o == 12.
Proof. repeat split; vm_compute; reflexivity. Qed.
Lemma gp_o_filed : filed gp_o.
Proof.
  split; [repeat (constructor; [cbn; intuition discriminate|]); constructor|]. intros m ps p H1 H2. cbn in H1. intuition (subst; try discriminate);
    match goal with H : (_, _) = (_, _) |- _ => injection H as <- <- end; cbn in H2; intuition subst; reflexivity.
Qed.
Lemma gp_o_different : all_different gp_o.
Proof.
  intros a p b q c E. cbn in E. destruct a as [|x a]; [|destruct a as [|y a]; [|destruct a as [|z a]; [|destruct a; discriminate]]]; cbn in E.
  - injection E as <- E. destruct b as [|u b]; [injection E as <- _; cbn; intuition discriminate|]. injection E as _ E. destruct b as [|v b]; [injection E as <- _; cbn; auto|]. injection E as _ E. destruct b; discriminate.
  - injection E as _ <- E. destruct b as [|u b]; [injection E as <- _; cbn; auto|]. injection E as _ E. destruct b; discriminate.
  - injection E as _ _ _ E. destruct b; discriminate.
Qed.
Example C196_works_case : exists o', update_choice ex_de true 0 (fun _ => 6) ex_k 1 gp_o = Ok o'.
Proof. apply C196_update_works; [exact gp_o_filed|exact gp_o_different|discriminate|discriminate]. Qed.

Example C197_case : flows0 (fixed_column ex_de true 1 (fun _ => 6) ex_k gp_o 0) = Some [[3 # 2; 1 # 2]; [1; 3]] /\
  flows1 (fixed_column ex_de true 1 (fun _ => 6) ex_k gp_o 0) = Some [[3; 1]; [2; 0]].
Proof. split; vm_compute; reflexivity. Qed.
Example C197_update_case : flows0 (update_fixed ex_de true 1 (fun _ => 6) (fun _ _ => Ok ex_k) gp_o) = Some [[3 # 2; 1 # 2]; [1; 3]] /\
  flows1 (update_fixed ex_de true 1 (fun _ => 6) (fun _ _ => Ok ex_k) gp_o) = Some [[3 # 2; 1 # 2]; [1; 3]].
Proof. split; vm_compute; reflexivity. Qed.
Example C197_check_case : exists o', fixed_column ex_de true 1 (fun _ => 6) ex_k gp_o 0 = Ok o'.
Proof. apply C197_check_never_fails; [exact gp_o_filed|exact gp_o_different|discriminate|discriminate|vm_compute; reflexivity]. Qed.

(** disutilities 9, 5 and 7, average 7, step one half: the path at 9 hands one half of what it
    could to the best path, the one at 7 stays; interval 1 is settled *)
Example C198_case : flows0 (gp_column ex_de false (fun _ => 6) (KDrive 2 None [1%Z]) gp_o 0) = Some [[3 # 2; 5 # 2]; [2]] /\
  flows1 (gp_column ex_de false (fun _ => 6) (KDrive 2 None [1%Z]) gp_o 1) = Some [[3; 1]; [2]].
Proof. split; vm_compute; reflexivity. Qed.
Lemma gp_o_known c : (c < 2)%nat -> forall p, listed_path gp_o p -> exists d, nth_error (pp_dis p) c = Some d.
Proof. intros C p (m & ps & H1 & H2). destruct c as [|[|c]]; [| |lia]; cbn in H1; intuition (subst; try discriminate); match goal with H : (_, _) = (_, _) |- _ => injection H as <- <- end; cbn in H2; intuition subst; cbn; eauto. Qed.
Example C198_works_case : exists o', gp_column ex_de false (fun _ => 6) (KDrive 2 None [1%Z]) gp_o 0 = Ok o'.
Proof.
  apply C198_small_steps_work; [intros p Hp _; apply (gp_o_known 0); [lia|assumption]| |split; vm_compute; discriminate|vm_compute; reflexivity].
  intros p (m & ps & H1 & H2). cbn in H1. intuition (subst; try discriminate); match goal with H : (_, _) = (_, _) |- _ => injection H as <- <- end; cbn in H2; intuition subst; cbn; lra.
Qed.
(** the same with a step of 2 *)
Definition big_de : denv := DE ex_ce steps_log (fun _ => 0) 1 1 2 2 2.
Example C199_case : gp_column big_de false (fun _ => 6) (KDrive 2 None [1%Z]) gp_o 0 = Err EThrow.
Proof.
  apply (C199_big_steps_refuted big_de _ _ gp_o 0%nat (PP (KDrive 2 None [1%Z]) (fun _ => 1) [5; 9]) (PP (KBus [3%Z]) (fun _ => 2) [7; 9]) 5 7);
    [reflexivity|intros p Hp _; apply (gp_o_known 0); [lia|assumption]| |exists Driving; eexists; split; [left; reflexivity|right; left; reflexivity]|exists Transit; eexists; split; [right; left; reflexivity|left; reflexivity]|left; cbn; auto|right; reflexivity|reflexivity|reflexivity|reflexivity].
  intros p q d e (m & ps & P1 & P2) (m' & qs & Q1 & Q2) S W D E.
  cbn in P1, Q1. destruct P1 as [P1|[P1|[]]]; injection P1 as <- <-; cbn in P2; [destruct P2 as [<-|[<-|[]]]|destruct P2 as [<-|[]]]; cbn in S, D; try now destruct S; try discriminate.
  injection D as <-. destruct Q1 as [Q1|[Q1|[]]]; injection Q1 as <- <-; cbn in Q2; [destruct Q2 as [<-|[<-|[]]]|destruct Q2 as [<-|[]]]; cbn in E; injection E as <-; lra.
Qed.
(** without park and ride: driving, at once *)
Example C200_case : best_existing ex_de [(Driving, [ex_car]); (Transit, [ex_bus])] = Ok (KDrive 1 None [1%Z], 0%Z, 9).
Proof. vm_compute. reflexivity. Qed.
Example C200_no_bus_case : best_existing ex_de [(Driving, [ex_car]); (Pnr, [ex_pnr])] = Err EThrow.
Proof. vm_compute. reflexivity. Qed.
Example C201_case : best_existing_at ex_de gp_o 0 = Ok (KDrive 2 None [1%Z], 0%Z, 5).
Proof. vm_compute. reflexivity. Qed.
Example C201_works_case : exists b, best_existing_at ex_de gp_o 1 = Ok b.
Proof.
  apply C201_best_stored_works; [exact gp_o_filed|discriminate| |reflexivity|cbn; lia|cbn; lia|apply gp_o_known; lia|].
  - intros m ps [H|[H|[]]]; injection H as <- <-; discriminate.
  - intros ps [H|[H|[]]]; discriminate.
Qed.
(** by car one interval, by bus three, park and ride two; after the run the last entries count *)
Example C202_case : path_time ex_ce (KDrive 1 None [1%Z; 1%Z]) 3 = Ok 2%Z /\ path_time ex_ce (KPnr 7 [1%Z] [2%Z]) 3 = Ok 2%Z /\ path_time slow_ce (KBus [1; 2; 3]%Z) 0 = Ok 30%Z /\
  path_time slow_ce (KBus [9]%Z) 0 = Ok 20%Z.
Proof. repeat split; vm_compute; reflexivity. Qed.
Example C203_case : penalty late_ce 35 == 0 /\ penalty late_ce 30 == 1 /\ penalty late_ce 36 == 1 /\ path_cost late_ce (KDrive 1 (Some 7%Z) [1%Z]) 9 = Ok (30 # 5) /\
  0 < ce_early late_ce /\ ce_early late_ce <= ce_vot late_ce.
Proof. repeat split; vm_compute; (reflexivity || discriminate). Qed.
Example C204_case : path_cost slow_ce (KBus [1; 2]%Z) 0 = Ok 22000 /\ path_time slow_ce (KBus [1; 2]%Z) 0 = Ok 20%Z.
Proof. split; vm_compute; reflexivity. Qed.
Example C205_case : path_cost ex_ce (KDrive 1 None [1%Z]) 0 = Ok 9 /\ path_cost ex_ce (KDrive 1 (Some 7%Z) [1%Z]) 0 = Err EThrow.
Proof. split; vm_compute; reflexivity. Qed.
Example C206_case : column late_de 15 = 1%nat /\ column late_de 34 = 1%nat.
Proof. split; reflexivity. Qed.
