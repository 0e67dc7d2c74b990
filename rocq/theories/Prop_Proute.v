(** Travellers with fixed routes in the multimodal loading: C227-C234. *)
From Coq Require Import Lqa Permutation.
From Verif Require Import Base Base_lemmas Model_Num Model_Node Model_Path Model_Proute Spec_Path Spec_Choice Spec_Proute Proof_Link4 Proof_Node4 Proof_PreRouting Proof_Choice
  Proof_Proute Proof_Proute2 Proof_Proute3.
Local Open Scope Z_scope.

(** ** C227: a bus drives exactly the links of its route, in order: whatever rounds and moves
    happen, it either has not been registered and is on no link, or the links driven so far, the
    next one and the queued ones make up the route of its line; with no next link it has driven
    the whole route. *)
Theorem C227_buses_drive_their_route : forall tbl known to I s tr v,
  (forall u ls, is_bus (I u) = true -> tbl (i_from (I u)) (i_to (I u)) (i_route (I u)) = Some (Some ls) -> route_to to (i_to (I u)) ls) ->
  story (fun _ _ => True) (bus_round tbl known to I) s tr ->
  (k_que s v = None /\ k_cur s v = None /\ tr v = []) \/
  exists ls, tbl (i_from (I v)) (i_to (I v)) (i_route (I v)) = Some (Some ls) /\ k_path s v = Some ls /\ on_way s (tr v) v ls.
Proof.
  intros tbl known to I s tr v Hr St.
  pose proof (story_J (fun ls => ls) to (bus_goal I) (bus_plan tbl to I) free (bus_good tbl to I) _ (fun a b c => bus_pass_J tbl known to I Hr a b c) s tr St v) as Jv.
  destruct (k_que s v) as [q|] eqn:Eq; [right|left; unfold J in Jv; rewrite Eq in Jv; tauto].
  destruct (J_on_way _ _ _ s tr v q Jv Eq) as (ls & P & [T _] & O). exists ls. auto.
Qed.
Print Assumptions C227_buses_drive_their_route.

(** ** C228: a park-and-ride car drives exactly the driving part of one of the paths of its pair of
    nodes. *)
Theorem C228_cars_drive_to_the_lot : forall t0 known to I R s tr v,
  (forall u a, is_pnr_car true (I u) = true -> offered_path t0 (i_from (I u)) (i_to (I u)) a -> route_to to (r_mid a) (r_drive a)) ->
  story (fun _ _ => True) (pnr_round t0 known to I R) s tr ->
  (k_que s v = None /\ k_cur s v = None /\ tr v = []) \/
  exists a, offered_path t0 (i_from (I v)) (i_to (I v)) a /\ k_path s v = Some a /\ on_way s (tr v) v (r_drive a).
Proof.
  intros t0 known to I R s tr v Hr St.
  pose proof (story_J r_drive to pnr_goal (pnr_plan t0 to I) free (pnr_good t0 to I) _ (fun a b c => pnr_pass_J t0 known to I R Hr a b c) s tr St v) as Jv.
  destruct (k_que s v) as [q|] eqn:Eq; [right|left; unfold J in Jv; rewrite Eq in Jv; tauto].
  destruct (J_on_way _ _ _ s tr v q Jv Eq) as (a & P & (_ & O & _) & W). exists a. auto.
Qed.
Print Assumptions C228_cars_drive_to_the_lot.

(** ** C229: a passenger travels exactly the links of its path: one of the paths of its pair of
    nodes, or for a park-and-ride passenger the path it was given. *)
Theorem C229_passengers_follow_their_path : forall t0 known to kind I R s tr v,
  (forall u a, i_static (I u) = true -> i_pnr (I u) = false -> offered_path t0 (i_from (I u)) (i_to (I u)) a -> route_to to (i_to (I u)) a) ->
  story (fun u a => i_static (I u) = true -> i_pnr (I u) = true -> route_to to (i_to (I u)) a) (pas_round t0 known to kind I R) s tr ->
  (k_que s v = None /\ k_cur s v = None /\ tr v = []) \/
  exists a, (i_pnr (I v) = false -> offered_path t0 (i_from (I v)) (i_to (I v)) a) /\ k_path s v = Some a /\ on_way s (tr v) v a.
Proof.
  intros t0 known to kind I R s tr v Hr St.
  pose proof (story_J (fun ls => ls) to (pas_goal I) (pas_plan t0 to I) (pas_given to I) (pas_good t0 to I) _ (fun a b c => pas_pass_J t0 known to kind I R Hr a b c) s tr St v) as Jv.
  destruct (k_que s v) as [q|] eqn:Eq; [right|left; unfold J in Jv; rewrite Eq in Jv; tauto].
  destruct (J_on_way _ _ _ s tr v q Jv Eq) as (a & P & (_ & O & _) & W). exists a. auto.
Qed.
Print Assumptions C229_passengers_follow_their_path.

(** C229: no round gives a park-and-ride passenger, or a passenger under way, another path. *)
Theorem C229_path_kept : forall t known to kind I R origins lots ends stops s s' v,
  pas_pass t known to kind I R origins lots ends stops s = Ok s' -> i_pnr (I v) = true \/ (i_static (I v) = true /\ k_que s v <> None) -> k_path s' v = k_path s v.
Proof.
  intros t known to kind I R origins lots ends stops s s' v H [K|[B K]]; destruct (pas_pass_step t known to kind I R v _ _ _ _ _ _ H) as (A1 & _ & A3 & _); [auto|].
  now apply A1.
Qed.
Print Assumptions C229_path_kept.

(** ** C230: shares.  After the rounds of times 0 to [k] the shares are those of interval
    [k / freq] (the last one after the last interval); the path drawn is the one whose piece of the
    unit interval, cut in proportion to the flows of that interval, holds the random number. *)
Theorem C230_shares_of_the_interval : forall (A : Type) freq len k (t t' : shares_of A) o d r a, 0 < freq -> 0 < len -> (0 <= r <= 1)%Q ->
  foldM (fun t n => refresh true freq len (Z.of_nat n) t) t (seq 0 (S k)) = Ok t' -> draw_path t' o d r = Ok a ->
  exists es e i, In ((o, d), es) t /\ nth_error es i = Some e /\ s_path e = a /\
    in_slice (shares (map (fun e => nth (Z.to_nat (interval_at freq len (Z.of_nat k))) (s_buf e) 0%Q) es)) r i.
Proof.
  intros A freq len k t t' o d r a Hf Hl Hr H D. rewrite rounds_seq in H. exact (col_draw _ t t' o d r a (rounds_col freq len t Hf Hl k t' H) Hr D).
Qed.
Print Assumptions C230_shares_of_the_interval.
(** C230: the paths stay the same and the shares of every pair make a distribution. *)
Theorem C230_shares_stay_fair : forall (A : Type) freq len k (t t' : shares_of A), 0 < freq -> 0 < len -> (forall p es, In (p, es) t -> es <> []) ->
  foldM (fun t n => refresh true freq len (Z.of_nat n) t) t (seq 0 (S k)) = Ok t' -> paths_of t' = paths_of t /\ fair t'.
Proof.
  intros A freq len k t t' Hf Hl Ne H. rewrite rounds_seq in H. pose proof (rounds_col freq len t Hf Hl k t' H) as F. split; [exact (col_paths _ _ _ F)|exact (col_fair _ _ _ F Ne)].
Qed.
Print Assumptions C230_shares_stay_fair.
(** C230: the path of a traveller registered in a round is the one drawn with the shares of that
    round. *)
Theorem C230_path_is_drawn : forall t known to kind I R origins lots ends stops s s' v,
  pas_pass t known to kind I R origins lots ends stops s = Ok s' -> i_pnr (I v) = false -> k_que s v = None -> k_que s' v <> None ->
  exists a, k_path s' v = Some a /\ draw_path t (i_from (I v)) (i_to (I v)) (R v) = Ok a.
Proof.
  intros t known to kind I R origins lots ends stops s s' v H Pn K N. destruct (pas_pass_step t known to kind I R v _ _ _ _ _ _ H) as (_ & _ & _ & A4).
  destruct (A4 Pn K) as [[_ X]|X]; [congruence|exact X].
Qed.
Print Assumptions C230_path_is_drawn.
Theorem C230_car_path_is_drawn : forall t known to I R origins ends s s' v,
  pnr_pass t known to I R origins ends s = Ok s' -> k_que s v = None -> k_que s' v <> None ->
  exists a, k_path s' v = Some a /\ draw_path t (i_from (I v)) (i_to (I v)) (R v) = Ok a.
Proof.
  intros t known to I R origins ends s s' v H K N. destruct (pnr_pass_step t known to I R v _ _ _ _ H) as (_ & _ & A4).
  destruct (A4 K) as [[_ X]|X]; [congruence|exact X].
Qed.
Print Assumptions C230_car_path_is_drawn.

(** ** C231: with sound plans routing never fails. *)
Theorem C231_buses_never_fail : forall tbl known to I s tr origins ends,
  (forall u, is_bus (I u) = true -> exists ls, tbl (i_from (I u)) (i_to (I u)) (i_route (I u)) = Some (Some ls) /\ route_to to (i_to (I u)) ls /\
     forall l, In l ls -> known l = true /\ l <> -1) ->
  story (fun _ _ => True) (bus_round tbl known to I) s tr -> standing s origins ends ->
  exists s', bus_pass tbl known to I origins ends s = Ok s'.
Proof.
  intros tbl known to I s tr origins ends Hc St Sd.
  assert (Hr : forall u ls, is_bus (I u) = true -> tbl (i_from (I u)) (i_to (I u)) (i_route (I u)) = Some (Some ls) -> route_to to (i_to (I u)) ls).
  { intros u ls B T. destruct (Hc u B) as (ls' & T' & K & _). congruence. }
  apply (bus_pass_total tbl known to I Hr) with (tr := tr); [|exact (story_J _ _ _ _ _ (bus_good tbl to I) _ (fun a b c => bus_pass_J tbl known to I Hr a b c) s tr St)|exact Sd].
  intros u B. destruct (Hc u B) as (ls & T & _ & K). eauto.
Qed.
Print Assumptions C231_buses_never_fail.
Theorem C231_cars_never_fail : forall t0 t known to I R s tr origins ends,
  (forall u st, is_pnr_car st (I u) = true -> exists es, In ((i_from (I u), i_to (I u)), es) t0) ->
  (forall u a, offered_path t0 (i_from (I u)) (i_to (I u)) a -> route_to to (r_mid a) (r_drive a) /\ i_to (I u) <> r_mid a /\
     forall l, In l (r_drive a) -> known l = true /\ l <> -1) ->
  (forall u, 0 <= R u <= 1)%Q -> paths_of t = paths_of t0 -> fair t ->
  story (fun _ _ => True) (pnr_round t0 known to I R) s tr -> standing s origins ends ->
  exists s', pnr_pass t known to I R origins ends s = Ok s'.
Proof.
  intros t0 t known to I R s tr origins ends Hc Hp Hu Et Ft St Sd.
  assert (Hr : forall u a, is_pnr_car true (I u) = true -> offered_path t0 (i_from (I u)) (i_to (I u)) a -> route_to to (r_mid a) (r_drive a)) by (intros u a _ O; now apply (Hp u a)).
  apply (pnr_pass_total t0 known to I R Hr Hc) with (tr := tr); auto.
  - intros u a l O Hl. now apply (Hp u a).
  - intros u a O. now apply (Hp u a).
  - exact (story_J _ _ _ _ _ (pnr_good t0 to I) _ (fun a b c => pnr_pass_J t0 known to I R Hr a b c) s tr St).
Qed.
Print Assumptions C231_cars_never_fail.
Theorem C231_passengers_never_fail : forall t0 t known to kind I R s tr origins lots ends stops,
  (forall u, i_pnr (I u) = false -> exists es, In ((i_from (I u), i_to (I u)), es) t0) ->
  (forall u a, i_static (I u) = true -> i_pnr (I u) = false -> offered_path t0 (i_from (I u)) (i_to (I u)) a ->
     route_to to (i_to (I u)) a /\ legal kind to (i_to (I u)) a /\ forall l, In l a -> known l = true /\ l <> -1) ->
  (forall u, i_pnr (I u) = true -> exists a, k_path s u = Some a /\
     (i_static (I u) = true -> legal kind to (i_to (I u)) a /\ forall l, In l a -> known l = true /\ l <> -1)) ->
  (forall u, 0 <= R u <= 1)%Q -> paths_of t = paths_of t0 -> fair t ->
  story (fun u a => i_static (I u) = true -> i_pnr (I u) = true -> route_to to (i_to (I u)) a) (pas_round t0 known to kind I R) s tr ->
  standing s (origins ++ lots) ends ->
  (forall u, In u lots -> i_static (I u) = true -> i_drove (I u) = true /\ i_pnr (I u) = true) ->
  (forall b us u, In (b, us) stops -> In u us -> i_static (I u) = true -> exists l x y, k_cur s u = Some l /\ kind l = Ride x y) ->
  exists s', pas_pass t known to kind I R origins lots ends stops s = Ok s'.
Proof.
  intros t0 t known to kind I R s tr origins lots ends stops Hc Hp Hl Hu Et Ft St Sd Lt Sp.
  assert (Hr : forall u a, i_static (I u) = true -> i_pnr (I u) = false -> offered_path t0 (i_from (I u)) (i_to (I u)) a -> route_to to (i_to (I u)) a)
    by (intros u a B Pn O; now apply (Hp u a)).
  apply (pas_pass_total t0 known to kind I R Hr Hc) with (tr := tr); auto.
  - intros u a B Pn O. split; now apply (Hp u a).
  - exact (story_J _ _ _ _ _ (pas_good t0 to I) _ (fun a b c => pas_pass_J t0 known to kind I R Hr a b c) s tr St).
Qed.
Print Assumptions C231_passengers_never_fail.

(** ** C232: unsound plans.  A bus whose line is missing from the table, or has no links, and a bus
    or passenger whose links end short of its destination are undefined behaviour. *)
Theorem C232_new_bus : forall tbl known I s v, is_bus (I v) = true -> k_que s v = None ->
  match tbl (i_from (I v)) (i_to (I v)) (i_route (I v)) with
  | None => bus_origin tbl known I s v = Err EUB
  | Some None => bus_origin tbl known I s v = Err EThrow
  | Some (Some []) => bus_origin tbl known I s v = Err EUB
  | Some (Some (l :: q)) =>
      if known l then exists s', bus_origin tbl known I s v = Ok s' /\ k_nxt s' v = Some l /\ k_que s' v = Some q else bus_origin tbl known I s v = Err EThrow
  end.
Proof.
  intros tbl known I s v B Eq. unfold bus_origin, register_bus. rewrite B, Eq. destruct (tbl _ _ _) as [[[|l q]|]|]; cbn [bind]; try reflexivity.
  - unfold take_next. cbn [enrol k_que]. rewrite upd_same, Eq. reflexivity.
  - unfold take_next. cbn [enrol k_que]. rewrite upd_same, Eq. destruct (known l); cbn [guard bind]; [|reflexivity].
    eexists. split; [reflexivity|]. cbn [k_nxt k_que]. now rewrite !upd_same.
Qed.
Print Assumptions C232_new_bus.
Theorem C232_short_route : forall known to I l s v, is_bus (I v) = true -> i_to (I v) <> to l -> k_que s v = Some [] -> k_cur s v = k_nxt s v ->
  bus_link known to I l s v = Err EUB.
Proof.
  intros known to I l s v B D Eq C. unfold bus_link. rewrite B, Eq, C. apply Z.eqb_neq in D. rewrite D.
  replace (same (k_nxt s v) (k_nxt s v)) with true by (destruct (k_nxt s v); cbn [same]; [now rewrite Z.eqb_refl|reflexivity]).
  unfold take_checked. now rewrite Eq.
Qed.
Print Assumptions C232_short_route.
Theorem C232_short_path : forall known to kind I l s v e, i_static (I v) = true -> kind l = Walk e -> e = SPhysical \/ e = SVirtual \/ e = SDest -> i_to (I v) <> to l ->
  k_que s v = Some [] -> k_cur s v = Some l -> k_nxt s v = Some l -> pas_link known to kind I l s v = Err EUB.
Proof.
  intros known to kind I l s v e B Kd He D Eq C N. unfold pas_link. rewrite B, Kd, Eq. apply Z.eqb_neq in D. rewrite D.
  replace (match e with SPhysical | SVirtual | SDest => true | _ => false end) with true by (destruct He as [-> |[-> | ->]]; reflexivity).
  cbn [guard bind]. unfold moved_on. rewrite C, N, Z.eqb_refl. cbn [bind]. unfold take_checked. now rewrite Eq.
Qed.
Print Assumptions C232_short_path.
(** a passenger between two nodes without paths *)
Theorem C232_no_paths : forall t known I R s v, i_static (I v) = true -> i_pnr (I v) = false -> k_que s v = None -> find_set t (i_from (I v)) (i_to (I v)) = None ->
  pas_origin t known I R s v = Err EUB.
Proof. intros t known I R s v B Pn Eq F. unfold pas_origin, register_passenger, draw_path. now rewrite B, Pn, Eq, F. Qed.
Print Assumptions C232_no_paths.

Definition xr_bus : who := {| i_static := true; i_class := 1; i_route := 7; i_pnr := false; i_from := 10; i_to := 13; i_drove := false |}.
Definition xr_new {A} : trip A := {| k_que := fun _ => None; k_cur := fun _ => None; k_nxt := fun _ => None; k_path := fun _ => None |}.
Definition xr_to (l : Z) : Z := 10 + l.
Definition xr_known (l : Z) : bool := (1 <=? l) && (l <=? 3).

Theorem C232_unsound_plans_reported_refuted :
  ~ (forall tbl known to I s tr origins ends e, story (fun _ _ => True) (bus_round tbl known to I) s tr -> standing s origins ends ->
       bus_pass tbl known to I origins ends s = Err e -> e <> EUB).
Proof.
  intros H. assert (S0 : story (fun _ _ => True) (bus_round (fun _ _ _ => Some (Some [1])) xr_known xr_to (fun _ => xr_bus)) xr_new (fun _ => [])).
  { apply St_start. intros v. repeat split. }
  assert (P0 : bus_round (fun _ _ _ => Some (Some [1])) xr_known xr_to (fun _ => xr_bus) xr_new
    (match bus_pass (fun _ _ _ => Some (Some [1])) xr_known xr_to (fun _ => xr_bus) [5] [] xr_new with Ok s => s | Err _ => xr_new end)).
  { exists [5], []. split; [split; [reflexivity|intros ? ? ? []]|reflexivity]. }
  pose proof (St_pass _ _ _ _ _ S0 P0) as S1.
  match type of S1 with story _ _ ?s _ => pose proof (St_go _ _ s _ 5 1 S1 eq_refl ltac:(discriminate)) as S2 end.
  refine (H _ _ _ _ _ _ [] [(1, [5])] EUB S2 _ eq_refl eq_refl). split; [intros v []|].
  intros l vs v [K|[]]; injection K as <- <-. intros [<-|[]]. reflexivity.
Qed.
Print Assumptions C232_unsound_plans_reported_refuted.

(** ** C233: travellers that choose their way as they go keep their nominal path, get no links to
    follow and keep their next link. *)
Theorem C233_adaptive_passengers : forall t known to kind I R origins lots ends stops s s' v,
  pas_pass t known to kind I R origins lots ends stops s = Ok s' -> i_static (I v) = false ->
  k_que s' v = k_que s v /\ k_nxt s' v = k_nxt s v /\ (forall a, k_path s v = Some a -> k_path s' v = Some a).
Proof.
  intros t known to kind I R origins lots ends stops s s' v H B. destruct (pas_pass_step t known to kind I R v _ _ _ _ _ _ H) as (_ & A2 & _). destruct (A2 B) as (K1 & K2 & K3).
  split; [exact K1|]. split; [exact K2|]. intros a E. rewrite K3; congruence.
Qed.
Print Assumptions C233_adaptive_passengers.
Theorem C233_adaptive_cars : forall t known to I R origins ends s s' v,
  pnr_pass t known to I R origins ends s = Ok s' -> i_static (I v) = false ->
  k_que s' v = k_que s v /\ k_nxt s' v = k_nxt s v /\ (forall a, k_path s v = Some a -> k_path s' v = Some a).
Proof.
  intros t known to I R origins ends s s' v H B. destruct (pnr_pass_step t known to I R v _ _ _ _ H) as (_ & A2 & _).
  destruct (A2 ltac:(unfold is_pnr_car; rewrite B; reflexivity)) as (K1 & K2 & K3). split; [exact K1|]. split; [exact K2|]. intros a E. rewrite K3; congruence.
Qed.
Print Assumptions C233_adaptive_cars.
(** C233: an adaptive park-and-ride car waiting at its origin does get a nominal path. *)
Theorem C233_nominal_path : forall t known I R s v, is_pnr_car false (I v) = true -> k_path s v = None ->
  pnr_origin t known I R s v = match draw_path t (i_from (I v)) (i_to (I v)) (R v) with Ok a => Ok (nominal s v a) | Err e => Err e end.
Proof.
  intros t known I R s v B Ep. unfold pnr_origin. replace (is_pnr_car true (I v)) with false; [rewrite B, Ep; destruct (draw_path _ _ _ _); reflexivity|].
  symmetry. unfold is_pnr_car in *. destruct (i_static (I v)); [discriminate|reflexivity].
Qed.
Print Assumptions C233_nominal_path.

(** ** C234: the parking lot of an adaptive park-and-ride car.  The lot is the first one, in the
    shuffled order, that is not at the destination itself; times play no part. *)
Theorem C234_first_lot : forall node_dest lots drive ride from final skipped p rest, node_dest from = None ->
  lots = skipped ++ p :: rest -> (forall x, In x skipped -> p_node x = final) -> p_node p <> final -> drive from (p_node p) <> None -> ride (p_node p) final <> None ->
  find_lot node_dest lots drive ride from final = Ok (Some (p_dest p)).
Proof.
  intros node_dest lots drive ride from final skipped p rest Hn -> Hs Hp Hd Hr. unfold find_lot. rewrite Hn. induction skipped as [|x sk IH]; cbn [app].
  - apply Z.eqb_neq in Hp. rewrite Hp. destruct (from =? p_node p); [reflexivity|]. destruct (drive from (p_node p)); [|congruence]. destruct (ride (p_node p) final); [reflexivity|congruence].
  - rewrite (Hs x (or_introl eq_refl)), Z.eqb_refl. apply IH. intros y Hy. apply Hs. now right.
Qed.
Print Assumptions C234_first_lot.
(** C234: so every usable lot is chosen for some order. *)
Theorem C234_any_lot : forall node_dest lots drive ride from final p, node_dest from = None -> In p lots -> p_node p <> final ->
  drive from (p_node p) <> None -> ride (p_node p) final <> None ->
  exists order, Permutation lots order /\ find_lot node_dest order drive ride from final = Ok (Some (p_dest p)).
Proof.
  intros node_dest lots drive ride from final p Hn Hp Nf Hd Hr. apply in_split in Hp as (l1 & l2 & ->). exists (p :: l1 ++ l2). split; [symmetry; apply Permutation_middle|].
  apply (C234_first_lot node_dest _ drive ride from final [] p (l1 ++ l2)); auto. intros x [].
Qed.
Print Assumptions C234_any_lot.
(** C234: without a lot away from the destination there is none. *)
Theorem C234_no_lot : forall node_dest lots drive ride from final, node_dest from = None -> (forall x, In x lots -> p_node x = final) ->
  find_lot node_dest lots drive ride from final = Ok None.
Proof.
  intros node_dest lots drive ride from final Hn H. unfold find_lot. rewrite Hn. induction lots as [|x ls IH]; [reflexivity|].
  rewrite (H x (or_introl eq_refl)), Z.eqb_refl. apply IH. intros y Hy. apply H. now right.
Qed.
Print Assumptions C234_no_lot.
(** C234: a car already at a destination parks there if it has a lot; if it has none the
    loading ends with an exception. *)
Theorem C234_at_a_destination : forall node_dest lots drive ride from final d lot, node_dest from = Some (d, lot) ->
  find_lot node_dest lots drive ride from final = if lot then Ok (Some d) else Err EThrow.
Proof. intros node_dest lots drive ride from final d lot H. unfold find_lot. rewrite H. now destruct lot. Qed.
Print Assumptions C234_at_a_destination.
(** C234: other travel times give the same lot. *)
Theorem C234_times_play_no_part : forall node_dest lots drive ride drive' ride' from final,
  (forall a b, drive a b = None <-> drive' a b = None) -> (forall a b, ride a b = None <-> ride' a b = None) ->
  find_lot node_dest lots drive ride from final = find_lot node_dest lots drive' ride' from final.
Proof.
  intros node_dest lots drive ride drive' ride' from final Hd Hr. unfold find_lot. destruct (node_dest from) as [[d []]|]; [reflexivity|reflexivity|]. induction lots as [|p ls IH]; [reflexivity|].
  destruct (p_node p =? final); [exact IH|]. destruct (from =? p_node p); [reflexivity|]. pose proof (Hd from (p_node p)) as H1. pose proof (Hr (p_node p) final) as H2.
  destruct (drive from (p_node p)), (drive' from (p_node p)), (ride (p_node p) final), (ride' (p_node p) final); try reflexivity; exfalso;
    (discriminate (proj1 H1 eq_refl) || discriminate (proj2 H1 eq_refl) || discriminate (proj1 H2 eq_refl) || discriminate (proj2 H2 eq_refl)).
Qed.
Print Assumptions C234_times_play_no_part.
(** C234: the lot chosen need not have the lowest travel time. *)
Theorem C234_not_the_quickest :
  ~ (forall node_dest lots drive ride from final p, node_dest from = None -> find_lot node_dest lots drive ride from final = Ok (Some (p_dest p)) -> In p lots ->
       forall q a b c d, In q lots -> p_node q <> final -> drive from (p_node p) = Some a -> ride (p_node p) final = Some b ->
       drive from (p_node q) = Some c -> ride (p_node q) final = Some d -> (a + b <= c + d)%Q).
Proof.
  intros H. specialize (H (fun _ => None) [{| p_node := 2; p_dest := 20 |}; {| p_node := 3; p_dest := 30 |}] (fun _ n => Some (if n =? 2 then 100 else 1)%Q) (fun _ _ => Some 5%Q)
    1 9 {| p_node := 2; p_dest := 20 |} eq_refl eq_refl (or_introl eq_refl) {| p_node := 3; p_dest := 30 |} 100%Q 5%Q 1%Q 5%Q (or_intror (or_introl eq_refl)) ltac:(discriminate) eq_refl eq_refl eq_refl eq_refl).
  lra.
Qed.
Print Assumptions C234_not_the_quickest.

(** ** Concrete cases *)
Definition xr_tbl (o d r : Z) : option (option (list Z)) := if (o =? 10) && (d =? 13) && (r =? 7) then Some (Some [1; 2; 3]) else None.
Definition xr_step (origins : list Z) (ends : list (Z * list Z)) (s : trip (list Z)) : trip (list Z) :=
  match bus_pass xr_tbl xr_known xr_to (fun _ => xr_bus) origins ends s with Ok s => s | Err _ => s end.
(** a bus at the end of the second link of its route *)
Definition xr_half : trip (list Z) := go (xr_step [] [(1, [5])] (go (xr_step [5] [] xr_new) 5)) 5.
Lemma xr_route : route_to xr_to 13 [1; 2; 3].
Proof.
  split; [discriminate|]. split.
  - intros [|x [|y [|z pre]]] a b post E; try (injection E; intros; subst; discriminate). destruct pre; discriminate.
  - intros [|x [|y [|z pre]]] l post E; injection E; intros; subst; unfold xr_to; try (split; intros K; discriminate).
    + split; reflexivity.
    + destruct pre; discriminate.
Qed.
Lemma xr_story : story (fun _ _ => True) (bus_round xr_tbl xr_known xr_to (fun _ => xr_bus)) xr_half (upd (upd (fun _ => []) 5 [1]) 5 [1; 2]).
Proof.
  assert (S0 : story (fun _ _ => True) (bus_round xr_tbl xr_known xr_to (fun _ => xr_bus)) xr_new (fun _ => [])) by (apply St_start; intros v; repeat split).
  assert (P0 : bus_round xr_tbl xr_known xr_to (fun _ => xr_bus) xr_new (xr_step [5] [] xr_new)).
  { exists [5], []. split; [split; [reflexivity|intros ? ? ? []]|reflexivity]. }
  pose proof (St_go _ _ _ _ 5 1 (St_pass _ _ _ _ _ S0 P0) eq_refl ltac:(discriminate)) as S1.
  assert (P1 : bus_round xr_tbl xr_known xr_to (fun _ => xr_bus) (go (xr_step [5] [] xr_new) 5) (xr_step [] [(1, [5])] (go (xr_step [5] [] xr_new) 5))).
  { exists [], [(1, [5])]. split; [split; [intros v []|]|reflexivity]. intros l vs v [K|[]]; injection K as <- <-. intros [<-|[]]. reflexivity. }
  exact (St_go _ _ _ _ 5 2 (St_pass _ _ _ _ _ S1 P1) eq_refl ltac:(discriminate)).
Qed.
Example C227_case :
  (forall (u : Z) ls, is_bus xr_bus = true -> xr_tbl (i_from xr_bus) (i_to xr_bus) (i_route xr_bus) = Some (Some ls) -> route_to xr_to (i_to xr_bus) ls) /\
  k_que xr_half 5 = Some [3] /\ k_cur xr_half 5 = Some 2 /\ on_way xr_half [1; 2] 5 [1; 2; 3] /\
  (exists s', bus_pass xr_tbl xr_known xr_to (fun _ => xr_bus) [] [(2, [5])] xr_half = Ok s' /\ k_nxt s' 5 = Some 3 /\ k_que s' 5 = Some []).
Proof.
  split; [intros u ls _ [= <-]; exact xr_route|]. split; [reflexivity|]. split; [reflexivity|]. split.
  - exists [3]. split; [reflexivity|]. left. exists 2. repeat split.
  - eexists. split; [reflexivity|]. split; reflexivity.
Qed.

(** a park-and-ride traveller: links 1, 2 to the lot's node 12, then walk 3, ride 4, walk 5 *)
Definition xr_path : pnr := {| r_drive := [1; 2]; r_mid := 12; r_transit := [3; 4; 5] |}.
Definition xr_path2 : pnr := {| r_drive := [1]; r_mid := 11; r_transit := [6; 5] |}.
Definition xr_car (st : bool) : who := {| i_static := st; i_class := 0; i_route := -1; i_pnr := true; i_from := 10; i_to := 15; i_drove := true |}.
Definition xr_cars : shares_of pnr :=
  [((10, 15), [{| s_path := xr_path; s_p := (1#4)%Q; s_buf := [1; 3]%Q |}; {| s_path := xr_path2; s_p := (3#4)%Q; s_buf := [3; 1]%Q |}])].
Example C228_case : fair xr_cars /\ offered_path xr_cars 10 15 xr_path /\ route_to xr_to 12 (r_drive xr_path) /\
  (exists s', pnr_pass xr_cars xr_known xr_to (fun v => xr_car (v =? 8)) (fun _ => 1#8)%Q [8; 9] [] xr_new = Ok s' /\
     k_que s' 8 = Some [2] /\ k_nxt s' 8 = Some 1 /\ k_path s' 8 = Some xr_path /\ k_que s' 9 = None /\ k_path s' 9 = Some xr_path /\ k_nxt s' 9 = None) /\
  (exists s', pnr_pass xr_cars xr_known xr_to (fun v => xr_car (v =? 8)) (fun _ => 1#2)%Q [8] [] xr_new = Ok s' /\ k_que s' 8 = Some [] /\ k_path s' 8 = Some xr_path2).
Proof.
  split; [|split; [|split; [|split]]].
  - intros o d es [E|[]]. injection E as <- <- <-. split; [discriminate|]. split; [|reflexivity]. intros e [<-|[<-|[]]]; cbn; lra.
  - eexists _, _. split; [left; reflexivity|]. split; [left; reflexivity|reflexivity].
  - split; [discriminate|]. split.
    + intros [|x [|y pre]] a b post E; try (injection E; intros; subst; discriminate). destruct pre; discriminate.
    + intros [|x [|y pre]] l post E; injection E; intros; subst; unfold xr_to; try (split; intros K; discriminate); [split; reflexivity|destruct pre; discriminate].
  - eexists. split; [reflexivity|]. repeat split.
  - eexists. split; [reflexivity|]. repeat split.
Qed.
Definition xr_kind (l : Z) : tlink := if l =? 4 then Ride SPlain SPlain else if l =? 5 then Walk SDest else Walk SVirtual.
Definition xr_pas (n : Z) : who := {| i_static := true; i_class := 0; i_route := -1; i_pnr := n =? 8; i_from := 10; i_to := 15; i_drove := n =? 8 |}.
Definition xr_tab : shares_of (list Z) := [((10, 15), [{| s_path := [3; 4; 5]; s_p := 1%Q; s_buf := [1; 1]%Q |}])].
Definition xr_all (l : Z) : bool := (1 <=? l) && (l <=? 9).
(** passenger 7 takes public transport all the way, passenger 8 comes from a parking lot *)
Definition xr_start : trip (list Z) := nominal xr_new 8 [6; 5].
Definition xr_round (o l : list Z) e b (s : trip (list Z)) : trip (list Z) :=
  match pas_pass xr_tab xr_all xr_to xr_kind xr_pas (fun _ => 1#2)%Q o l e b s with Ok s => s | Err _ => s end.
Definition xr_aboard : trip (list Z) := go (xr_round [] [] [(3, [7])] [] (go (xr_round [7] [8] [] [] xr_start) 7)) 7.
Example C229_case : legal xr_kind xr_to 15 [3; 4; 5] /\ k_cur xr_aboard 7 = Some 4 /\ k_que xr_aboard 7 = Some [5] /\ k_nxt xr_aboard 8 = Some 6 /\ k_que xr_aboard 8 = Some [5] /\
  k_nxt (xr_round [] [] [] [(Some 4, [7])] xr_aboard) 7 = Some 5 /\ k_que (xr_round [] [] [] [(Some 4, [7])] xr_aboard) 7 = Some [] /\
  k_nxt (xr_round [] [] [(5, [7])] [] (go (xr_round [] [] [] [(Some 4, [7])] xr_aboard) 7)) 7 = None.
Proof.
  split; [|repeat split]. intros l [<-|[<-|[<-|[]]]]; cbn [xr_kind Z.eqb Pos.eqb]; [split; [discriminate|auto]|repeat split; discriminate|split; auto].
Qed.
Example C230_case : exists t', foldM (fun t n => refresh true 2 2 (Z.of_nat n) t) xr_cars (seq 0 6) = Ok t' /\ interval_at 2 2 5 = 1 /\
  draw_path t' 10 15 (1#2)%Q = Ok xr_path /\ draw_path t' 10 15 (9#10)%Q = Ok xr_path2 /\ draw_path xr_cars 10 15 (1#2)%Q = Ok xr_path2.
Proof. eexists. split; [reflexivity|]. repeat split. Qed.
Example C231_case : standing xr_half [] [(2, [5])] /\
  (forall u : Z, is_bus ((fun _ => xr_bus) u) = true -> exists ls, xr_tbl (i_from xr_bus) (i_to xr_bus) (i_route xr_bus) = Some (Some ls) /\ route_to xr_to (i_to xr_bus) ls /\
     forall l, In l ls -> xr_known l = true /\ l <> -1).
Proof.
  split.
  - split; [intros v []|]. intros l vs v [K|[]]; injection K as <- <-. intros [<-|[]]. reflexivity.
  - intros u _. exists [1; 2; 3]. split; [reflexivity|]. split; [exact xr_route|]. intros l [<-|[<-|[<-|[]]]]; split; (reflexivity || discriminate).
Qed.
Example C234_case : find_lot (fun _ => None) [{| p_node := 9; p_dest := 90 |}; {| p_node := 2; p_dest := 20 |}; {| p_node := 3; p_dest := 30 |}] (fun _ _ => Some 1%Q) (fun _ _ => Some 2%Q) 1 9 = Ok (Some 20) /\
  find_lot (fun n => if n =? 1 then Some (10, true) else None) [] (fun _ _ => None) (fun _ _ => None) 1 9 = Ok (Some 10).
Proof. split; reflexivity. Qed.
