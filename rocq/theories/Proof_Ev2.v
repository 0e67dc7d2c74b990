(** Charging stations: histories. *)
From Verif Require Import Base Base_lemmas Model_Num Model_CC Spec_CC Proof_CC Model_Path Model_Link Spec_Link Proof_Link Proof_Link3 Proof_Link4 Model_World Model_Node Proof_Node
  Proof_Node2 Model_Ev Spec_Ev Proof_Ev.
Local Open Scope Z_scope.

Lemma arriving_perm l l' x : Permutation l l' -> Permutation (arriving l x) (arriving l' x).
Proof.
  intros P. unfold arriving. induction P; cbn [map concat].
  - constructor.
  - now apply Permutation_app_head.
  - rewrite !app_assoc. apply Permutation_app_tail. apply Permutation_app_comm.
  - now rewrite IHP1.
Qed.
Lemma in_arriving_perm l l' x v : Permutation l l' -> In v (arriving l x) -> In v (arriving l' x).
Proof. intros P. apply Permutation_in. now apply arriving_perm. Qed.

Section H.
Variables (node : Z) (fs : Q) (unit slots time : Z) (price : Q) (ins outs : list Z) (t0 : Z) (b a : nat -> sworld) (n : nat).
Hypothesis H : history node fs unit slots time price ins outs t0 b a n.

Let C := Z.max 0 time.

(** timers of a queue *)
Definition timed (x : sworld) (q : list Z) : Prop :=
  match q with [] => True | v :: r => charging_since x v <= C /\ forall u, In u r -> charging_since x u = 0 end.
Record good (x : sworld) : Prop := {
  go_node : s_node (sw_st x) = node; go_fs : s_fs (sw_st x) = fs; go_charge : s_charge (sw_st x) = time;
  go_len : length (s_pool (sw_st x)) = Z.to_nat (slots * trunc fs);
  go_timed : forall q, In q (s_pool (sw_st x)) -> timed x q }.

Lemma since_nn x v : 0 <= charging_since x v.
Proof. unfold charging_since. destruct (sw_ev x v); lia. Qed.

Lemma arr_zero k v : (k < n)%nat -> In v (arriving ins (b k)) -> charging_since (b k) v = 0.
Proof.
  intros K Hv. unfold charging_since. destruct (sw_ev (b k) v) as [e|] eqn:E; [|reflexivity]. pose proof (hi_idle _ _ _ _ _ _ _ _ _ _ _ _ H k v e K Hv E). lia.
Qed.

Lemma extended_timed x p p' vs : (forall q, In q p -> timed x q) -> extended p p' vs -> (forall v, In v vs -> charging_since x v = 0) ->
  forall q, In q p' -> timed x q.
Proof.
  intros G (L & _ & E) Z0 q' Hq. apply In_nth_error in Hq as (i & Hi).
  assert (LT : (i < length p)%nat) by (rewrite <- L; apply nth_error_Some; congruence).
  destruct (nth_error p i) as [q|] eqn:EQ; [|apply nth_error_None in EQ; lia]. destruct (E i q EQ) as (m & Em & IM). rewrite Hi in Em. injection Em as ->.
  pose proof (G q (nth_error_In _ _ EQ)) as T. destruct q as [|v r]; cbn [app].
  - destruct m as [|v m]; [exact I|]. cbn. rewrite (Z0 v) by (apply IM; now left). split; [lia|]. intros u Hu. apply Z0, IM. now right.
  - destruct T as [T1 T2]. split; [exact T1|]. intros u Hu. apply in_app_or in Hu as [Hu|Hu]; [now apply T2|]. apply Z0, IM, Hu.
Qed.

(** the interval [k] of a good state *)
Lemma good_step k : (k < n)%nat -> good (b k) ->
  exists order p, Permutation order ins /\ stepped order outs (t0 + Z.of_nat k) (b k) (a k) p /\ extended (s_pool (sw_st (b k))) p (arriving order (b k)) /\
    NoDup (concat p) /\ (forall q, In q p -> timed (b k) q).
Proof.
  intros K G. destruct (hi_step _ _ _ _ _ _ _ _ _ _ _ _ H k K) as (order & P & E). exists order.
  pose proof (hi_one _ _ _ _ _ _ _ _ _ _ _ _ H k K) as ND.
  assert (ND' : NoDup (at_station (b k) ++ arriving order (b k))) by (eapply Permutation_NoDup; [apply Permutation_app_head, arriving_perm, Permutation_sym, P|exact ND]).
  apply evolve_stepped in E as (p & S); [|eapply Permutation_NoDup; [apply Permutation_sym, P|apply H]|exact ND'].
  pose proof (joins_ok _ _ _ (sp_join _ _ _ _ _ _ S)) as X. exists p. split; [exact P|]. split; [exact S|]. split; [exact X|]. split.
  - destruct X as (_ & PX & _). apply (Permutation_NoDup (Permutation_sym PX)). exact ND'.
  - apply (extended_timed (b k) _ p _ (go_timed _ G) X). intros v Hv. apply arr_zero; [exact K|]. eapply in_arriving_perm; eauto.
Qed.

(** timers after the interval *)
Lemma since_after order t x y p v : stepped order outs t x y p -> s_charge (sw_st x) = time -> NoDup (concat p) ->
  charging_since y v = if in_dec Z.eq_dec v (concat (map head_q p)) then (if full_timer x v then 0 else charging_since x v + 1) else charging_since x v.
Proof.
  intros S CT ND. unfold charging_since at 1. rewrite (sp_ev _ _ _ _ _ _ S). destruct (in_dec Z.eq_dec v (concat (map head_q p))) as [I|N]; [|reflexivity].
  pose proof (sp_some _ _ _ _ _ _ S v I) as E. destruct (sw_ev x v) as [e|]; [|congruence]. cbn. unfold served_ev. destruct (full_timer x v); cbn; [reflexivity|]. pose proof (since_nn x v). lia.
Qed.
Lemma head_pos p q v r : In q p -> q = v :: r -> In v (concat (map head_q p)).
Proof. intros Hq ->. apply in_concat. exists [v]. split; [|now left]. apply in_map_iff. exists (v :: r). split; [reflexivity|exact Hq]. Qed.
Lemma tail_not_head p : NoDup (concat p) -> forall q v r u, In q p -> q = v :: r -> In u r -> ~ In u (concat (map head_q p)).
Proof.
  induction p as [|q0 p IH]; intros ND q v r u Hq E Hu; [contradiction|]. cbn [concat map] in *. apply NoDup_app_inv in ND as (N1 & N2 & DJ). intros I. apply in_app_or in I as [I|I].
  - destruct Hq as [->|Hq].
    + rewrite E in *. cbn in I. destruct I as [<-|[]]. apply NoDup_cons_iff in N1 as [N1 _]. contradiction.
    + apply (DJ u); [now apply head_in_q|]. apply in_concat. exists q. split; [exact Hq|]. rewrite E. now right.
  - destruct Hq as [->|Hq].
    + apply heads_in in I. apply (DJ u); [rewrite E; now right|exact I].
    + eapply IH; eauto.
Qed.

Lemma good_after k : (k < n)%nat -> good (b k) -> good (a k) /\ NoDup (at_station (a k)).
Proof.
  intros K G. destruct (good_step k K G) as (order & p & P & S & X & ND & T). pose proof (sp_par _ _ _ _ _ _ S) as (N1 & N2 & N3 & N4 & N5). split; [constructor|].
  - rewrite N1. apply G.
  - rewrite N2. apply G.
  - rewrite N4. apply G.
  - rewrite (sp_pool _ _ _ _ _ _ S), map_length. destruct X as (L & _). rewrite L. apply G.
  - rewrite (sp_pool _ _ _ _ _ _ S). intros q Hq. apply in_map_iff in Hq as (q0 & <- & Hq). specialize (T q0 Hq). destruct q0 as [|v r]; [exact I|]. destruct T as [T1 T2]. cbn [kept_q].
    assert (TL : forall u, In u r -> charging_since (a k) u = 0).
    { intros u Hu. rewrite (since_after _ _ _ _ _ u S (go_charge _ G) ND). destruct (in_dec Z.eq_dec u (concat (map head_q p))) as [I|N]; [|now apply T2]. exfalso. eapply tail_not_head; eauto. }
    destruct (full_timer (b k) v) eqn:FT.
    + destruct r as [|u r]; [exact I|]. cbn. rewrite (TL u) by now left. split; [lia|]. intros w Hw. apply TL. now right.
    + cbn. rewrite (since_after _ _ _ _ _ v S (go_charge _ G) ND). destruct (in_dec Z.eq_dec v (concat (map head_q p))) as [I|N]; [|exfalso; apply N; eapply head_pos; eauto].
      rewrite FT. unfold full_timer in FT. rewrite (go_charge _ G) in FT. apply Z.leb_gt in FT. pose proof (since_nn (b k) v). split; [unfold C; lia|exact TL].
  - unfold at_station. rewrite (sp_pool _ _ _ _ _ _ S). pose proof (gone_kept_perm (b k) p) as GK. apply (Permutation_NoDup (Permutation_sym GK)) in ND. apply NoDup_app_inv in ND. apply ND.
Qed.
Lemma good_between x y : untouched x y -> good x -> good y.
Proof.
  intros [E U] G. constructor; try (rewrite E; apply G). rewrite E. intros q Hq. pose proof (go_timed _ G q Hq) as T. destruct q as [|v r]; [exact I|].
  assert (SM : forall u, In u (v :: r) -> charging_since y u = charging_since x u).
  { intros u Hu. unfold charging_since. destruct (U u) as [-> _]; [|reflexivity]. apply in_concat. exists (v :: r). split; [exact Hq|exact Hu]. }
  destruct T as [T1 T2]. split; [rewrite SM; [exact T1|now left]|]. intros u Hu. rewrite SM; [now apply T2|now right].
Qed.
Lemma good_all k : (k < n)%nat -> good (b k).
Proof.
  induction k as [|k IH]; intros K.
  - constructor; rewrite (hi_new _ _ _ _ _ _ _ _ _ _ _ _ H); cbn; try reflexivity.
    + apply repeat_length.
    + intros q Hq. apply repeat_spec in Hq as ->. exact I.
  - eapply good_between; [apply (hi_between _ _ _ _ _ _ _ _ _ _ _ _ H); exact K|]. apply good_after; [lia|]. apply IH. lia.
Qed.

(** ** when a vehicle leaves *)
Definition due (x : sworld) (p : list (list Z)) (v : Z) (r : Z) : Prop :=
  exists q i m, nth_error p i = Some q /\ nth_error q m = Some v /\ r = C - head_since x q + Z.of_nat m * (C + 1).

Lemma due_step k order p v r : (k < n)%nat -> stepped order outs (t0 + Z.of_nat k) (b k) (a k) p -> NoDup (concat p) -> (forall q, In q p -> timed (b k) q) -> due (b k) p v r ->
  0 <= r /\
  (r = 0 -> ~ In v (at_station (a k)) /\ exists l, v_next (w_veh (sw_w (a k)) v) = Some l /\ In v (l_in (w_link (sw_w (a k)) l))) /\
  (0 < r -> due (a k) (s_pool (sw_st (a k))) v (r - 1)).
Proof.
  intros K S ND T (q & i & m & Ei & Em & ->). pose proof (good_all k K) as G. pose proof (T q (nth_error_In _ _ Ei)) as Tq. destruct q as [|h rest]; [destruct m; discriminate|].
  destruct Tq as [T1 T2]. pose proof (since_nn (b k) h) as NN. cbn [head_since].
  assert (FTE : full_timer (b k) h = (C <=? charging_since (b k) h)).
  { unfold full_timer. rewrite (go_charge _ G). unfold C. lia. }
  assert (NEW : nth_error (s_pool (sw_st (a k))) i = Some (kept_q (b k) (h :: rest))).
  { rewrite (sp_pool _ _ _ _ _ _ S), nth_error_map, Ei. reflexivity. }
  assert (Hin : In (h :: rest) p) by (eapply nth_error_In; eauto).
  assert (SH : charging_since (a k) h = if full_timer (b k) h then 0 else charging_since (b k) h + 1).
  { rewrite (since_after _ _ _ _ _ h S (go_charge _ G) ND). destruct (in_dec Z.eq_dec h (concat (map head_q p))) as [I|N]; [reflexivity|]. exfalso. apply N. eapply head_pos; eauto. }
  assert (ST : forall u, In u rest -> charging_since (a k) u = 0).
  { intros u Hu. rewrite (since_after _ _ _ _ _ u S (go_charge _ G) ND). destruct (in_dec Z.eq_dec u (concat (map head_q p))) as [I|N]; [|now apply T2]. exfalso. eapply tail_not_head; eauto. }
  split; [nia|]. split.
  - intros R. assert (M0 : m = O) by (destruct m; [reflexivity|unfold C in *; nia]). subst m. injection Em as ->. assert (CE : charging_since (b k) v = C) by lia.
    assert (FT : full_timer (b k) v = true) by (rewrite FTE; lia).
    assert (GN : In v (concat (map (gone_q (b k)) p))).
    { apply in_concat. exists [v]. split; [|now left]. apply in_map_iff. exists (v :: rest). split; [cbn; now rewrite FT|exact Hin]. }
    split.
    + unfold at_station. rewrite (sp_pool _ _ _ _ _ _ S). pose proof (gone_kept_perm (b k) p) as GK. apply (Permutation_NoDup (Permutation_sym GK)) in ND. apply NoDup_app_inv in ND as (_ & _ & DJ). now apply DJ.
    + destruct (sp_move _ _ _ _ _ _ S) as (w1 & MV & WV & _). pose proof (mo_next _ _ _ _ MV v GN) as [_ NX]. destruct (v_next (w_veh w1 v)) as [l|] eqn:EL; [|congruence]. exists l. split.
      * rewrite (mo_veh _ _ _ _ MV). destruct (in_dec Z.eq_dec v (concat (map (gone_q (b k)) p))); cbn; exact EL.
      * rewrite (mo_in _ _ _ _ MV). apply in_or_app. right. apply filter_In. split; [exact GN|]. now apply goes_next.
  - intros R. destruct (full_timer (b k) h) eqn:FT.
    + destruct m as [|m]; [exfalso; lia|]. exists rest, i, m. cbn [kept_q] in NEW. rewrite FT in NEW. split; [exact NEW|]. split; [exact Em|].
      destruct rest as [|u rest]; [destruct m; discriminate|]. cbn [head_since]. rewrite (ST u) by now left. lia.
    + exists (h :: rest), i, m. cbn [kept_q] in NEW. rewrite FT in NEW. split; [exact NEW|]. split; [exact Em|]. cbn [head_since]. rewrite SH. lia.
Qed.
Lemma due_in x p v r : due x p v r -> In v (concat p).
Proof. intros (q & i & m & Ei & Em & _). apply in_concat. exists q. split; eapply nth_error_In; eauto. Qed.
Lemma due_between x y v r p vs : untouched x y -> due x (s_pool (sw_st x)) v r -> extended (s_pool (sw_st y)) p vs -> due y p v r.
Proof.
  intros [E U] (q & i & m & Ei & Em & ->) (L & _ & X). rewrite E in X. destruct (X i q Ei) as (e & Xe & _). exists (q ++ e), i, m. split; [exact Xe|]. split.
  - rewrite nth_error_app1; [exact Em|]. apply nth_error_Some. congruence.
  - destruct q as [|h q]; [destruct m; discriminate|]. cbn [app head_since]. unfold charging_since. destruct (U h) as [-> _]; [|reflexivity].
    apply in_concat. exists (h :: q). split; [eapply nth_error_In; eauto|now left].
Qed.

Lemma due_leaves_nat d : forall k order p v, (k < n)%nat -> stepped order outs (t0 + Z.of_nat k) (b k) (a k) p -> NoDup (concat p) -> (forall q, In q p -> timed (b k) q) -> due (b k) p v (Z.of_nat d) ->
  leaves_in a n (Z.of_nat k) v (Z.of_nat k + Z.of_nat d).
Proof.
  induction d as [|d IH]; intros k order p v K S ND T D; destruct (due_step k order p v _ K S ND T D) as (R0 & R1 & R2).
  - split; [intros; lia|]. intros i Hi E. assert (i = k) by lia. subst i. now apply R1.
  - specialize (R2 ltac:(lia)). replace (Z.of_nat (Datatypes.S d) - 1) with (Z.of_nat d) in R2 by lia.
    assert (NX : (Datatypes.S k < n)%nat -> leaves_in a n (Z.of_nat (Datatypes.S k)) v (Z.of_nat (Datatypes.S k) + Z.of_nat d)).
    { intros K2. pose proof (good_all _ K2) as G2. destruct (good_step _ K2 G2) as (order2 & p2 & P2 & S2 & X2 & ND2 & T2).
      apply (IH _ order2 p2); auto. eapply due_between; [apply (hi_between _ _ _ _ _ _ _ _ _ _ _ _ H); exact K2|exact R2|exact X2]. }
    split.
    + intros i Hi B. destruct (Nat.eq_dec i k) as [->|NE]; [apply due_in in R2; exact R2|]. destruct NX as [NX _]; [lia|]. apply NX; lia.
    + intros i Hi E. destruct NX as [_ NX]; [lia|]. apply NX; [exact Hi|lia].
Qed.
Lemma due_leaves k order p v r : (k < n)%nat -> stepped order outs (t0 + Z.of_nat k) (b k) (a k) p -> NoDup (concat p) -> (forall q, In q p -> timed (b k) q) -> due (b k) p v r ->
  0 <= r /\ leaves_in a n (Z.of_nat k) v (Z.of_nat k + r).
Proof.
  intros K S ND T D. destruct (due_step k order p v _ K S ND T D) as (R0 & _). split; [exact R0|]. rewrite <- (Z2Nat.id r) by exact R0. rewrite <- (Z2Nat.id r) in D by exact R0. eapply due_leaves_nat; eauto.
Qed.

(** a vehicle in the station after interval [k] *)
Lemma inside_leaves k i q m v : (k < n)%nat -> nth_error (s_pool (sw_st (a k))) i = Some q -> nth_error q m = Some v ->
  0 <= head_since (a k) q <= C /\
  leaves_in a n (Z.of_nat k) v (Z.of_nat k + 1 + (C - head_since (a k) q) + Z.of_nat m * (C + 1)).
Proof.
  intros K Ei Em. pose proof (good_all k K) as G. destruct (good_after k K G) as [GA _].
  assert (HS : 0 <= head_since (a k) q <= C).
  { pose proof (go_timed _ GA q (nth_error_In _ _ Ei)) as T. destruct q as [|h q]; [destruct m; discriminate|]. cbn [head_since]. pose proof (since_nn (a k) h). destruct T as [T _]. lia. }
  assert (IN : In v (at_station (a k))) by (apply in_concat; exists q; split; eapply nth_error_In; eauto).
  split; [exact HS|].
  assert (D : due (a k) (s_pool (sw_st (a k))) v (C - head_since (a k) q + Z.of_nat m * (C + 1))) by (exists q, i, m; auto).
  assert (NX : (S k < n)%nat -> leaves_in a n (Z.of_nat (S k)) v (Z.of_nat (S k) + (C - head_since (a k) q + Z.of_nat m * (C + 1)))).
  { intros K2. pose proof (good_all _ K2) as G2. destruct (good_step _ K2 G2) as (order2 & p2 & P2 & S2 & X2 & ND2 & T2).
    eapply due_leaves; eauto. eapply due_between; [apply (hi_between _ _ _ _ _ _ _ _ _ _ _ _ H); exact K2|exact D|exact X2]. }
  split.
  - intros j Hj B. destruct (Nat.eq_dec j k) as [->|NE]; [exact IN|]. destruct NX as [NX _]; [lia|]. apply NX; lia.
  - intros j Hj E. assert (k <> j) by (intros ->; unfold C in *; nia). destruct NX as [_ NX]; [unfold C in *; nia|]. apply NX; [exact Hj|lia].
Qed.

(** a vehicle that arrives in interval [k]: it takes some place in some queue *)
Lemma arrival_leaves k v : (k < n)%nat -> In v (arriving ins (b k)) ->
  exists d, Z.of_nat k + C <= d <= Z.of_nat k + C + (C + 1) * (Zlen (at_station (b k)) + Zlen (arriving ins (b k)) - 1) /\ leaves_in a n (Z.of_nat k) v d.
Proof.
  intros K Hv. pose proof (good_all k K) as G. destruct (good_step k K G) as (order & p & P & S & X & ND & T). destruct X as (L & PX & E).
  assert (IN : In v (concat p)) by (apply (Permutation_in _ (Permutation_sym PX)), in_or_app; right; eapply in_arriving_perm; [apply Permutation_sym, P|exact Hv]).
  apply in_concat in IN as (q & Hq & Iv). apply In_nth_error in Hq as (i & Ei). apply In_nth_error in Iv as (m & Em).
  assert (D : due (b k) p v (C - head_since (b k) q + Z.of_nat m * (C + 1))) by (exists q, i, m; auto).
  destruct (due_leaves k order p v _ K S ND T D) as [R LV]. eexists. split; [|exact LV].
  assert (LQ : (length q <= length (concat p))%nat).
  { apply nth_error_split in Ei as (p1 & p2 & -> & _). rewrite concat_app, app_length. cbn [concat]. rewrite app_length. lia. }
  assert (LT : length (concat p) = (length (at_station (b k)) + length (arriving ins (b k)))%nat).
  { rewrite (Permutation_length PX), app_length. unfold at_station. f_equal. apply Permutation_length. now apply arriving_perm. }
  assert (MQ : (m < length q)%nat) by (apply nth_error_Some; congruence).
  pose proof (T q (nth_error_In _ _ Ei)) as Tq. destruct q as [|h r]; [destruct m; discriminate|]. destruct Tq as [T1 T2]. cbn [head_since] in *. pose proof (since_nn (b k) h).
  pose proof (arr_zero k v K Hv) as AZ.
  assert (M1 : charging_since (b k) h <= Z.of_nat m * (C + 1)).
  { destruct m as [|m]; [cbn in Em; injection Em as ->; lia|]. unfold C in *. nia. }
  unfold Zlen. assert (Z.of_nat m <= Z.of_nat (length (at_station (b k))) + Z.of_nat (length (arriving ins (b k))) - 1) by lia. unfold C in *. nia.
Qed.

(** the only vehicle that arrives takes the end of the first shortest queue *)
Lemma lone_arrival k v : (k < n)%nat -> arriving ins (b k) = [v] ->
  exists i q, i = shortest (s_pool (sw_st (b k))) /\ nth_error (s_pool (sw_st (b k))) i = Some q /\ (forall q', In q' (s_pool (sw_st (b k))) -> (length q <= length q')%nat) /\
    0 <= head_since (b k) q <= C /\ leaves_in a n (Z.of_nat k) v (Z.of_nat k + (C - head_since (b k) q) + Z.of_nat (length q) * (C + 1)).
Proof.
  intros K Hv. pose proof (good_all k K) as G. destruct (good_step k K G) as (order & p & P & S & X & ND & T).
  assert (AO : arriving order (b k) = [v]).
  { pose proof (arriving_perm _ _ (b k) P) as PA. rewrite Hv in PA. apply Permutation_sym, Permutation_length_1_inv in PA. exact PA. }
  pose proof (sp_join _ _ _ _ _ _ S) as J. rewrite AO in J. cbn [foldM] in J. apply bind_ok in J as (p1 & J & E). apply Ok_inj in E as ->. apply join_ok in J as (i & q & Ei & Eq & Ep & _ & _).
  exists i, q. split; [exact Ei|]. split; [exact Eq|]. split.
  - destruct (shortest_spec (s_pool (sw_st (b k)))) as (q0 & E0 & M0); [intros X0; rewrite X0 in Eq; destruct i; discriminate|]. rewrite <- Ei in E0. rewrite Eq in E0. injection E0 as <-. exact M0.
  - assert (Hv0 : charging_since (b k) v = 0) by (apply arr_zero; [exact K|rewrite Hv; now left]).
    assert (HS : 0 <= head_since (b k) q <= C).
    { pose proof (go_timed _ G q (nth_error_In _ _ Eq)) as Tq. destruct q as [|h q]; cbn [head_since]; [unfold C; lia|]. pose proof (since_nn (b k) h). destruct Tq. lia. }
    assert (HE : head_since (b k) (q ++ [v]) = head_since (b k) q) by (destruct q; [exact Hv0|reflexivity]).
    split; [exact HS|].
    assert (D : due (b k) p v (C - head_since (b k) q + Z.of_nat (length q) * (C + 1))).
    { exists (q ++ [v]), i, (length q). split; [exact Ep|]. split; [rewrite nth_error_app2 by lia; now rewrite Nat.sub_diag|]. now rewrite HE. }
    destruct (due_leaves k order p v _ K S ND T D) as [_ LV]. rewrite Z.add_assoc in LV. exact LV.
Qed.

(** ** idle slots *)
Definition idle (p : list (list Z)) : nat := length (filter (fun q => match q with [] => true | _ => false end) p).
Lemma idle_empty p : (0 < idle p)%nat -> In [] p.
Proof. unfold idle. intros L. destruct (filter _ p) as [|q f] eqn:E; [cbn in L; lia|]. assert (I : In q (q :: f)) by now left. rewrite <- E in I. apply filter_In in I as [I1 I2]. destruct q; [exact I1|discriminate]. Qed.
Lemma join_idle v p p' : join v p = Ok p' -> (0 < idle p)%nat ->
  (S (idle p') = idle p)%nat /\ exists i, nth_error p i = Some [] /\ nth_error p' i = Some [v].
Proof.
  intros J L. pose proof J as J0. apply join_ok in J as (i & q & Ei & Eq & Ep & Eo & X). apply idle_empty in L.
  destruct (shortest_spec p) as (q0 & E0 & M0); [intros ->; contradiction|]. rewrite <- Ei, Eq in E0. injection E0 as <-. specialize (M0 [] L). destruct q as [|h q]; [|cbn in M0; lia]. split.
  - unfold join in J0. rewrite <- Ei, Eq in J0. apply Ok_inj in J0 as <-. destruct (nth_error_split3 p i [] Eq) as [SP _]. unfold idle. rewrite SP at 3. rewrite !filter_app, !app_length. cbn. lia.
  - exists i. split; [exact Eq|]. exact Ep.
Qed.
Lemma joins_idle vs : forall p p', foldM (fun p v => join v p) p vs = Ok p' -> (length vs <= idle p)%nat ->
  forall v, In v vs -> exists i r, nth_error p' i = Some (v :: r).
Proof.
  induction vs as [|u vs IH]; intros p p' J L v Hv; [contradiction|]. cbn [foldM] in J. apply bind_ok in J as (p1 & J1 & J2). cbn [length] in L. destruct (join_idle _ _ _ J1) as (I1 & i & E1 & E2); [lia|].
  destruct Hv as [->|Hv].
  - apply joins_ok in J2 as (_ & _ & X). destruct (X i _ E2) as (m & Em & _). exists i, m. exact Em.
  - eapply IH; eauto. lia.
Qed.
Lemma idle_arrivals k v : (k < n)%nat -> (length (arriving ins (b k)) <= idle (s_pool (sw_st (b k))))%nat -> In v (arriving ins (b k)) ->
  leaves_in a n (Z.of_nat k) v (Z.of_nat k + C).
Proof.
  intros K L Hv. pose proof (good_all k K) as G. destruct (good_step k K G) as (order & p & P & S & X & ND & T).
  rewrite <- (Permutation_length (arriving_perm _ _ (b k) P)) in L.
  destruct (joins_idle _ _ _ (sp_join _ _ _ _ _ _ S) L v) as (i & r & Ei); [eapply in_arriving_perm; [apply Permutation_sym, P|exact Hv]|].
  assert (D : due (b k) p v C).
  { exists (v :: r), i, O. split; [exact Ei|]. split; [reflexivity|]. cbn [head_since]. rewrite (arr_zero k v K Hv). lia. }
  destruct (due_leaves k order p v _ K S ND T D) as [_ LV]. exact LV.
Qed.

(** ** everything that arrived *)
Lemma conserved k : (k < n)%nat -> exists gone, Permutation (gone ++ at_station (a k)) (concat (map (fun i => arriving ins (b i)) (seq 0 (S k)))) /\
  grown fs (Zlen gone) (Some fresh_curve) (Some (s_cc (sw_st (a k)))).
Proof.
  induction k as [|k IH]; intros K; pose proof (good_all _ K) as G; destruct (good_step _ K G) as (order & p & P & S & X & ND & T); destruct X as (L & PX & E);
  match goal with X : stepped _ _ _ ?x _ p |- _ => pose proof (gone_kept_perm x p) as GK end; pose proof (sp_cc _ _ _ _ _ _ S) as CC; rewrite (go_fs _ G) in CC.
  - exists (concat (map (gone_q (b O)) p)). split.
    + unfold at_station. rewrite (sp_pool _ _ _ _ _ _ S), GK, PX, (hi_new _ _ _ _ _ _ _ _ _ _ _ _ H). cbn [s_pool new_station seq map concat]. rewrite app_nil_r.
      assert (Z0 : forall j, concat (repeat (@nil Z) j) = []) by (induction j; [reflexivity|assumption]). rewrite Z0. cbn [app]. now apply arriving_perm.
    + rewrite (hi_new _ _ _ _ _ _ _ _ _ _ _ _ H) in CC. exact CC.
  - destruct IH as (g & PG & GG); [lia|]. exists (g ++ concat (map (gone_q (b (Datatypes.S k))) p)). destruct (hi_between _ _ _ _ _ _ _ _ _ _ _ _ H k K) as [SE _]. split.
    + unfold at_station at 1. rewrite (sp_pool _ _ _ _ _ _ S), <- app_assoc, GK, PX, SE. rewrite app_assoc. fold (at_station (a k)). rewrite PG.
      rewrite (seq_S (Datatypes.S k)), map_app, concat_app. cbn [map concat]. rewrite app_nil_r. apply Permutation_app_head. now apply arriving_perm.
    + rewrite Zlen_app. rewrite SE in CC. eapply grown_trans; eauto.
Qed.

(** ** the estimate on record *)
Lemma rec_keys k : (k < n)%nat -> 0 <= t0 -> (forall e, In e (s_rec (sw_st (b k))) -> fst e <= t0 + Z.of_nat k).
Proof.
  induction k as [|k IH]; intros K T0 e He.
  - rewrite (hi_new _ _ _ _ _ _ _ _ _ _ _ _ H) in He. cbn in He. destruct He as [<-|[]]. cbn. lia.
  - destruct (hi_between _ _ _ _ _ _ _ _ _ _ _ _ H k K) as [SE _]. rewrite SE in He. pose proof (good_all k ltac:(lia)) as G. destruct (good_step k ltac:(lia) G) as (order & p & P & S & _).
    destruct (sp_rec _ _ _ _ _ _ S) as (y & _ & R). rewrite R in He. unfold rec_insert in He. destruct (existsb _ _).
    + specialize (IH ltac:(lia) T0 e He). lia.
    + apply in_app_or in He as [He|[<-|[]]]; [specialize (IH ltac:(lia) T0 e He); lia|]. cbn. lia.
Qed.
Lemma recorded k y : (k < n)%nat -> 0 <= t0 -> In (t0 + Z.of_nat k + 1, y) (s_rec (sw_st (a k))) -> estimate (sw_st (a k)) = Ok y.
Proof.
  intros K T0 I. pose proof (good_all k K) as G. destruct (good_step k K G) as (order & p & P & S & _). destruct (sp_rec _ _ _ _ _ _ S) as (z & EZ & R). rewrite R in I.
  assert (NO : existsb (fun e => fst e =? t0 + Z.of_nat k + 1) (s_rec (sw_st (b k))) = false).
  { apply not_true_iff_false. intros X. apply existsb_exists in X as (e & He & X). apply (rec_keys k K T0) in He. lia. }
  unfold rec_insert in I. rewrite NO in I. apply in_app_or in I as [I|[I|[]]]; [apply (rec_keys k K T0) in I; cbn in I; lia|]. injection I as <-. exact EZ.
Qed.
Lemma recorded_ex k : (k < n)%nat -> 0 <= t0 -> exists y, In (t0 + Z.of_nat k + 1, y) (s_rec (sw_st (a k))).
Proof.
  intros K T0. pose proof (good_all k K) as G. destruct (good_step k K G) as (order & p & P & S & _). destruct (sp_rec _ _ _ _ _ _ S) as (z & EZ & R). exists z. rewrite R.
  assert (NO : existsb (fun e => fst e =? t0 + Z.of_nat k + 1) (s_rec (sw_st (b k))) = false).
  { apply not_true_iff_false. intros X. apply existsb_exists in X as (e & He & X). apply (rec_keys k K T0) in He. lia. }
  unfold rec_insert. rewrite NO. apply in_or_app. right. now left.
Qed.
Lemma estimate_wait k v y : (S k < n)%nat -> 0 <= t0 -> 0 <= time -> In (t0 + Z.of_nat k + 1, y) (s_rec (sw_st (a k))) -> arriving ins (b (S k)) = [v] ->
  exists m c, y = m * time /\ 0 <= m /\ 0 <= c <= time /\ (m = 0 -> c = 0) /\ leaves_in a n (Z.of_nat (S k)) v (Z.of_nat (S k) + (y + m - c) + time).
Proof.
  intros K T0 TM I AR. apply recorded in I; [|lia|exact T0]. destruct (lone_arrival (S k) v K AR) as (i & q & Ei & Eq & _ & HS & LV).
  destruct (hi_between _ _ _ _ _ _ _ _ _ _ _ _ H k K) as [SE _]. pose proof (good_all _ K) as G. rewrite SE in *. unfold estimate in I. rewrite Ei in Eq. rewrite Eq in I. apply Ok_inj in I.
  pose proof (go_charge _ G) as GC. rewrite SE in GC. rewrite GC in I.
  exists (Zlen q), (head_since (b (S k)) q). assert (CT : C = time) by (unfold C; lia). rewrite CT in *. split; [lia|]. split; [unfold Zlen; lia|]. split; [exact HS|]. split.
  - intros Z0. destruct q; [reflexivity|unfold Zlen in Z0; cbn in Z0; lia].
  - replace (Z.of_nat (S k) + (y + Zlen q - head_since (b (S k)) q) + time) with (Z.of_nat (S k) + (time - head_since (b (S k)) q) + Z.of_nat (length q) * (time + 1)); [exact LV|]. unfold Zlen in *. nia.
Qed.
End H.
