(** C75-C80: dynamic user equilibrium (src/due.cpp). *)
From Verif Require Import Base Base_lemmas Model_Num Model_Graph Model_SP Model_TDSP Model_GRJ Model_Due Spec_Graph Spec_TDSP Spec_Due
  Proof_Num Proof_Path Proof_GRJ Proof_Link4 Proof_Graph Proof_Due Proof_Due2 Proof_Due3 Proof_Due4 Proof_Due5 Prop_TDSP.
Local Open Scope Q_scope.

(** C75: the initial path flows spread the demand evenly; a pair without demand gets none *)
Theorem C75_initial_flows : forall n dm pairs t,
  (forall o d ps, In (o, d) pairs -> t o d = Some ps -> ps <> []) ->
  exists t', init_path_flow n pairs dm t = Ok t' /\
    (forall o d, ~ In (o, d) pairs -> t' o d = t o d) /\
    (forall o d ps, In (o, d) pairs -> t o d = Some ps -> exists ps', t' o d = Some ps' /\ map dp_links ps' = map dp_links ps /\
       forall c, interval n c ->
         flow ps' c == match dm o d with Some a => a c | None => 0 end /\
         (forall p q, In p ps' -> In q ps' -> dp_buf p c == dp_buf q c)).
Proof.
  intros n dm pairs t N. destruct (init_rel n dm pairs t N) as (t' & E & A & B). exists t'. split; [exact E|]. split; [exact A|].
  intros o d ps I T. specialize (B o d I). rewrite T in B. destruct (t' o d) as [ps'|]; [|contradiction]. destruct B as [L F].
  exists ps'. split; [auto|]. split; [auto|]. intros c C. split.
  - rewrite (flow_const ps' c _ (fun p P => F p c P C)). rewrite <- (map_length dp_links ps'), L, map_length. fold (dmd_of (dm o d) c).
    assert (ps <> []) by (eapply N; eauto). assert (0 < inject_Z (Z.of_nat (length ps))).
    { change 0 with (inject_Z 0). rewrite <- Zlt_Qlt. destruct ps; [congruence|]. cbn [length]. lia. }
    field. lra.
  - intros p q P Q. rewrite (F p c P C), (F q c Q C). reflexivity.
Qed.
Print Assumptions C75_initial_flows.

(** the demand handed to the simulation is the sum of the path flows *)
Theorem C75_demand_from_flows : forall n pairs t dm,
  (forall o d ps, In (o, d) pairs -> t o d = Some ps -> exists a, dm o d = Some a) ->
  exists dm', update_demand n pairs t dm = Ok dm' /\
    (forall o d, ~ In (o, d) pairs \/ t o d = None -> dm' o d = dm o d) /\
    (forall o d ps, In (o, d) pairs -> t o d = Some ps -> exists a, dm' o d = Some a /\ forall c, interval n c -> a c == flow ps c).
Proof. exact demand_rel. Qed.
Print Assumptions C75_demand_from_flows.

(** hence the first simulation is run with the demand that was read *)
Theorem C75_demand_round_trip : forall n dm pairs t,
  (forall o d ps, In (o, d) pairs -> t o d = Some ps -> ps <> [] /\ exists a, dm o d = Some a) ->
  exists t' dm', init_path_flow n pairs dm t = Ok t' /\ update_demand n pairs t' dm = Ok dm' /\
    forall o d a, dm o d = Some a -> exists a', dm' o d = Some a' /\ forall c, interval n c -> a' c == a c.
Proof.
  intros n dm pairs t N. destruct (init_rel n dm pairs t) as (t' & E & A & B). { intros o d ps I T. apply (N o d ps I T). }
  assert (forall o d ps', In (o, d) pairs -> t' o d = Some ps' -> exists ps, t o d = Some ps) as BK.
  { intros o d ps' I T'. specialize (B o d I). rewrite T' in B. destruct (t o d); [eauto|contradiction]. }
  destruct (demand_rel n pairs t' dm) as (dm' & E' & A' & B').
  { intros o d ps' I T'. destruct (BK o d ps' I T') as (ps & T). apply (N o d ps I T). }
  exists t', dm'. split; [exact E|]. split; [exact E'|]. intros o d a D.
  destruct (in_dec (fun a b : Z * Z => ltac:(decide equality; apply Z.eq_dec)) (o, d) pairs) as [I|I].
  2:{ exists a. split; [rewrite A'; auto|reflexivity]. }
  destruct (t' o d) as [ps'|] eqn:T'.
  2:{ exists a. split; [rewrite A'; auto|reflexivity]. }
  destruct (B' o d ps' I T') as (a' & D' & F'). exists a'. split; [auto|]. intros c C. rewrite F' by auto.
  destruct (C75_initial_flows n dm pairs t) as (t2 & E2 & _ & B2). { intros o' d' ps0 I0 T0. apply (N o' d' ps0 I0 T0). }
  rewrite E in E2. apply Ok_inj in E2. subst t2. destruct (BK o d ps' I T') as (ps & T). destruct (B2 o d ps I T) as (ps2 & T2 & _ & F2).
  rewrite T' in T2. injection T2 as <-. destruct (F2 c C) as [F3 _]. rewrite D in F3. exact F3.
Qed.
Print Assumptions C75_demand_round_trip.

Definition ex_path (ls : list Z) (f : Z -> Q) (dis : list Q) : dpath := {| dp_links := ls; dp_buf := f; dp_dis := dis |}.
Definition ex_table : ptable := fun o d =>
  if ((o =? 1) && (d =? 2))%Z then Some [ex_path [10; 11]%Z (fun _ => 0) [5; 6]; ex_path [12]%Z (fun _ => 0) [4; 9]] else None.
Example C75_case : exists t', init_path_flow 2 [(1, 2)]%Z (fun _ _ => Some (fun c => if (c =? 0)%Z then 6 else 3)) ex_table = Ok t' /\
  match t' 1%Z 2%Z with Some ps => map (fun p => (Qred (dp_buf p 0), Qred (dp_buf p 1))) ps = [(3, 3 # 2); (3, 3 # 2)] | None => False end.
Proof. eexists. split; [reflexivity|]. vm_compute. reflexivity. Qed.

(** C76: successive averages with departure time choice *)
Lemma assign_col_range n frq time c : (0 < n)%nat -> (0 < frq)%Z -> (0 <= time)%Z -> assign_col (Z.of_nat n) frq time = Ok c -> interval n c.
Proof.
  intros N F T H. unfold assign_col in H. apply bind_ok in H. destruct H as ([] & _ & H). apply Ok_inj in H.
  pose proof (Z.quot_pos time frq T F). unfold interval. destruct (Z.leb_spec (Z.of_nat n) (time ÷ frq)); lia.
Qed.
(** the flow of each pair over all intervals is unchanged, whatever routes and
    departure times are chosen, provided no path set is empty *)
Theorem C76_msa_conserves : forall n frq step iter route dm pairs t t', (0 < n)%nat -> (0 < frq)%Z ->
  (forall o d best time, route o d = Ok (best, time) -> (0 <= time)%Z) ->
  (forall o d ps, t o d = Some ps -> ps <> []) ->
  msa_table n frq step iter route dm pairs t = Ok t' ->
  pairwise (fun ps ps' => same_total_flow n ps ps' /\ keeps_routes ps ps') t t'.
Proof.
  intros n frq step iter route dm pairs t t' Hn Hf Hr Ht H.
  assert (pairwise (fun ps ps' => keeps_routes ps ps' /\ (ps <> [] -> ps' <> [] /\ same_total_flow n ps ps')) t t') as G.
  { revert H. apply msa_table_R.
    - intros x. split; [intros ls K; exact K|]. intros X. split; [auto|]. unfold same_total_flow. lra.
    - intros x y z [K1 A1] [K2 A2]. split; [intros ls K; auto|]. intros X. destruct (A1 X) as [Y B1]. destruct (A2 Y) as [Z B2]. split; [auto|].
      unfold same_total_flow in *. lra.
    - intros o d a best time c ps ps' _ _ R C H. assert (interval n c) as IC by (eapply assign_col_range; eauto).
      pose proof (msa_links _ _ _ _ _ _ _ _ H) as L. split.
      + intros ls K. rewrite L. destruct (is_in ps best); auto. apply in_app_iff. auto.
      + intros NE. split.
        * intros ->. cbn in L. destruct (is_in ps best); destruct ps; cbn in L; congruence.
        * destruct (is_in ps best) eqn:I; [eapply msa_in_total; eauto|].
          unfold same_total_flow. rewrite !flow_all_cols. apply sumQ_eq. intros k _. eapply msa_new_flow; eauto. }
  intros o d. specialize (G o d). specialize (Ht o d). destruct (t o d) as [ps|]; destruct (t' o d) as [ps'|]; auto.
  destruct G as [K G]. destruct (G (Ht ps eq_refl)) as [_ F]. auto.
Qed.
Print Assumptions C76_msa_conserves.

(** when the best route is already in the set: no flow becomes negative, every
    other route and interval gives up a fixed amount or all it has *)
Theorem C76_msa_known_route : forall n step iter dem best c ps, In best (map dp_links ps) -> interval n c ->
  0 <= dem * step / inject_Z (iter + 1) -> no_negative_flow n ps ->
  exists ps', msa_pair n step iter dem best c ps = Ok ps' /\ no_negative_flow n ps' /\ same_total_flow n ps ps' /\
    forall i p, nth_error ps i = Some p -> exists p', nth_error ps' i = Some p' /\ dp_links p' = dp_links p /\
      (forall k, interval n k -> k <> c \/ dp_links p <> best -> dp_buf p' k == Qmax 0 (dp_buf p k - dem * step / inject_Z (iter + 1))) /\
      (dp_links p = best -> dp_buf p c <= dp_buf p' c).
Proof.
  intros n step iter dem best c ps I C L N. pose proof (proj2 (is_in_iff ps best) I) as I'.
  destruct (msa_in_ok n step iter dem best c ps I') as (ps' & E). exists ps'. split; [auto|]. split; [eapply msa_in_nonneg; eauto|]. split; [eapply msa_in_total; eauto|].
  intros i p P. destruct (msa_each n step iter dem best c ps ps' i p I L N E P) as (p' & A & B & D & F). exists p'. auto.
Qed.
Print Assumptions C76_msa_known_route.

(** a new route: the flow taken from each known path is not limited by the flow
    it carries; with an empty set flow appears from nowhere *)
Theorem C76_negative_flow_refuted : forall n step iter dem best c ps p, ~ In best (map dp_links ps) -> In p ps ->
  dp_buf p c < step / inject_Z (iter + 1) / inject_Z (Z.of_nat (length ps)) ->
  exists ps' p', msa_pair n step iter dem best c ps = Ok ps' /\ In p' ps' /\ dp_links p' = dp_links p /\ dp_buf p' c < 0.
Proof.
  intros n step iter dem best c ps p I P L. unfold msa_pair. destruct (is_in ps best) eqn:E; [apply is_in_iff in E; contradiction|].
  eexists _, _. split; [reflexivity|]. split; [apply in_app_iff; left; apply in_map_iff; exists p; split; [reflexivity|auto]|]. split; [reflexivity|].
  cbn. unfold upd. rewrite Z.eqb_refl. lra.
Qed.
Print Assumptions C76_negative_flow_refuted.
Theorem C76_empty_set_refuted : forall n step iter dem best c, interval n c ->
  exists ps', msa_pair n step iter dem best c [] = Ok ps' /\ flow_all n ps' == step / inject_Z (iter + 1) /\ flow_all n [] == 0.
Proof.
  intros n step iter dem best c C. eexists. split; [reflexivity|]. rewrite !flow_all_cols. split.
  - transitivity (sumQ (map (fun k => if (k =? c)%Z then step / inject_Z (iter + 1) else 0) (cols n))).
    + apply sumQ_eq. intros k _. unfold flow. cbn [map app set_buf dp_buf new_path]. sq. unfold upd. destruct (k =? c)%Z; lra.
    + apply sum_one; [apply nodup_cols|now apply in_cols].
  - rewrite <- (sumQ_0 (cols n)). apply sumQ_eq. intros. unfold flow. cbn. lra.
Qed.
Print Assumptions C76_empty_set_refuted.
Definition ex_ps : list dpath := [ex_path [10; 11]%Z (fun c => if (c =? 0)%Z then 4 else 1) [5; 6]; ex_path [12]%Z (fun c => if (c =? 0)%Z then 2 else 0) [4; 9]].
Example C76_case : match msa_pair 2 (1 # 2) 1 7 [12]%Z 0 ex_ps with Ok ps' => map (fun p => (Qred (dp_buf p 0), Qred (dp_buf p 1))) ps' | Err _ => [] end
    = [(9 # 4, 0); (19 # 4, 0)] /\
  match msa_pair 2 (1 # 2) 1 7 [13]%Z 1 ex_ps with Ok ps' => map (fun p => (Qred (dp_buf p 0), Qred (dp_buf p 1))) ps' | Err _ => [] end
    = [(4, 7 # 8); (2, -1 # 8); (0, 1 # 4)].
Proof. split; vm_compute; reflexivity. Qed.

(** C77: successive averages with given departure times, over any number of
    iterations with any routes *)
Record fixed_iter := { fi_root : Q; fi_route : Z -> Z -> Z -> res (list Z); fi_dmd : dmd; fi_pairs : list (Z * Z) }.
Definition fixed_iters n frq step (its : list fixed_iter) (t : ptable) : res ptable :=
  foldM (fun t it => fixed_table n frq step (fi_root it) (fi_route it) (fi_dmd it) (fi_pairs it) t) t its.
Theorem C77_fixed_conserves : forall n frq step its t t', fixed_iters n frq step its t = Ok t' ->
  pairwise (fun ps ps' => same_flow_per_interval n ps ps' /\ keeps_routes ps ps') t t'.
Proof.
  intros n frq step its t t'. unfold fixed_iters.
  set (R := fun ps ps' => same_flow_per_interval n ps ps' /\ keeps_routes ps ps').
  assert (forall x, R x x) as Rr by (intros x; split; [intros c _; lra|intros ls K; exact K]).
  assert (forall x y z, R x y -> R y z -> R x z) as Rt.
  { intros x y z [A K] [B L]. split; [intros c C; rewrite (B c C); apply A; auto|intros ls M; auto]. }
  apply (foldM_pairwise R Rr Rt). intros t0 it t1 _ H. revert H. unfold fixed_table. apply (cols_table_R R Rr Rt).
  intros best c ps ps' C H. split; [intros k _; eapply fixed_flow; eauto|]. exact (proj1 (fixed_keeps _ _ _ _ _ _ H)).
Qed.
Print Assumptions C77_fixed_conserves.
Theorem C77_fixed_no_negative_flow : forall n frq step its t t',
  (forall it, In it its -> 0 < fi_root it /\ 0 <= step <= fi_root it) ->
  fixed_iters n frq step its t = Ok t' -> table_no_negative_flow n t -> table_no_negative_flow n t'.
Proof.
  intros n frq step its t t' HS H N.
  assert (pairwise (fun ps ps' => no_negative_flow n ps -> no_negative_flow n ps') t t') as G.
  { set (R := fun ps ps' => no_negative_flow n ps -> no_negative_flow n ps') in *.
    assert (forall x, R x x) as Rr by (intros x X; exact X).
    assert (forall x y z, R x y -> R y z -> R x z) as Rt by (intros x y z A B X; auto).
    revert H. unfold fixed_iters. apply (foldM_pairwise R Rr Rt). intros t0 it t1 I H. destruct (HS it I) as [H1 H2]. revert H. unfold fixed_table.
    apply (cols_table_R R Rr Rt). intros best c ps ps' C H X. eapply fixed_nonneg; eauto. }
  intros o d ps' T'. specialize (G o d). rewrite T' in G. destruct (t o d) as [ps|] eqn:T; [|contradiction]. exact (G (N o d ps T)).
Qed.
Print Assumptions C77_fixed_no_negative_flow.
(** one interval: the best route is in the set afterwards, every other route
    keeps the share 1 - step / sqrt (iter + 1) of its flow *)
Theorem C77_fixed_each : forall n step root best c ps, 0 < root -> 0 <= step <= root -> interval n c -> no_negative_flow n ps ->
  exists ps', fixed_col step root best c ps = Ok ps' /\ In best (map dp_links ps') /\
    forall i p, nth_error ps i = Some p -> exists p', nth_error ps' i = Some p' /\ dp_links p' = dp_links p /\
      (forall k, k <> c -> dp_buf p' k = dp_buf p k) /\
      (dp_links p <> best -> dp_buf p' c == (1 - step / root) * dp_buf p c) /\ (dp_links p = best -> dp_buf p c <= dp_buf p' c).
Proof.
  intros n step root best c ps R S C N. destruct (fixed_ok step root best c ps) as (ps' & E). exists ps'. split; [auto|].
  split; [exact (proj2 (fixed_keeps _ _ _ _ _ _ E))|]. intros i p P. eapply fixed_each; eauto.
Qed.
Print Assumptions C77_fixed_each.
Example C77_case : match fixed_table 2 1 (1 # 2) 1 (fun _ _ i => Ok (if (i =? 0)%Z then [12] else [13])%Z) (fun _ _ => Some (fun _ => 0)) [(1, 2)]%Z
    (fun _ _ => Some ex_ps) with Ok t => match t 1%Z 2%Z with Some ps => map (fun p => (Qred (dp_buf p 0), Qred (dp_buf p 1))) ps | None => [] end | Err _ => [] end
  = [(2, 1 # 2); (4, 0); (0, 1 # 2)].
Proof. vm_compute. reflexivity. Qed.

(** C78: gradient projection with given departure times *)
Theorem C78_gp_no_negative_flow : forall n frq step cost route dm pairs t t', 0 <= step ->
  gp_table n frq step cost route dm pairs t = Ok t' -> table_no_negative_flow n t ->
  table_no_negative_flow n t' /\ pairwise keeps_routes t t'.
Proof.
  intros n frq step cost route dm pairs t t' S H N.
  assert (pairwise (fun ps ps' => (no_negative_flow n ps -> no_negative_flow n ps') /\ keeps_routes ps ps') t t') as G.
  { set (R := fun ps ps' => (no_negative_flow n ps -> no_negative_flow n ps') /\ keeps_routes ps ps') in *.
    assert (forall x, R x x) as Rr by (intros x; split; [intros X; exact X|intros ls K; exact K]).
    assert (forall x y z, R x y -> R y z -> R x z) as Rt by (intros x y z [A A'] [B B']; split; [auto|intros ls K; auto]).
    revert H. unfold gp_table. apply (cols_table_R R Rr Rt). intros best c ps ps' C H. split; [intros X; eapply gp_nonneg; eauto|].
    intros ls K. rewrite (gp_links _ _ _ _ _ _ S H). now apply with_best_keeps. }
  split.
  - intros o d ps' T'. specialize (G o d). rewrite T' in G. destruct (t o d) as [ps|] eqn:T; [|contradiction]. exact (proj1 G (N o d ps T)).
  - intros o d. specialize (G o d). destruct (t o d), (t' o d); auto. apply G.
Qed.
Print Assumptions C78_gp_no_negative_flow.
(** the flow of the interval is unchanged if the best route is no worse than the
    used ones (full claim, without that condition: refuted below) *)
Theorem C78_gp_conserves_partial : forall step cost best c ps ps' y, 0 <= step <= 1 ->
  gp_col step cost best c ps = Ok ps' -> (forall p, In p ps -> 0 <= dp_buf p c) ->
  (forall p, In p ps -> dp_links p = best -> has_dis p c y) -> (~ In best (map dp_links ps) -> nth_error (cost best) (Z.to_nat c) = Some y) ->
  (forall p x, In p ps -> 0 < dp_buf p c -> has_dis p c x -> y <= x) ->
  forall k, flow ps' k == flow ps k.
Proof.
  intros step cost best c ps ps' y S H N HB HN HU k. destruct (Z.eq_dec k c) as [->|D]; [|eapply gp_other; eauto; lra].
  apply (gp_flow_if step cost best c ps ps' y S H).
  - intros p P L. unfold with_best in P. destruct (is_in ps best) eqn:I; [auto|]. apply in_app_iff in P. destruct P as [P|[<-|[]]]; [auto|].
    cbn [new_path dp_buf]. split; [lra|]. unfold has_dis. cbn [new_path dp_dis]. apply HN. intros X. apply is_in_iff in X. congruence.
  - intros p x P U D. unfold with_best in P. destruct (is_in ps best) eqn:I; [eauto|]. apply in_app_iff in P. destruct P as [P|[<-|[]]]; [eauto|].
    cbn in U. lra.
Qed.
Print Assumptions C78_gp_conserves_partial.
(** a new route with a higher disutility than the used ones creates flow *)
Theorem C78_gp_creates_flow_refuted : forall step cost best c ps ps' y, 0 < step <= 1 -> gp_col step cost best c ps = Ok ps' ->
  ~ In best (map dp_links ps) -> (forall p, In p ps -> 0 <= dp_buf p c) ->
  nth_error (cost best) (Z.to_nat c) = Some y -> (exists p, In p ps /\ 0 < dp_buf p c) ->
  (forall p x, In p ps -> 0 < dp_buf p c -> has_dis p c x -> x < y) -> flow ps c < flow ps' c.
Proof. exact gp_creates. Qed.
Print Assumptions C78_gp_creates_flow_refuted.
(** [carries best c p]: the paths the method looks at *)
Definition considered (best : list Z) (c : Z) (p : dpath) : Prop := dp_links p = best \/ 0 < dp_buf p c.
(** the worst of the paths considered does not gain flow, the best does not lose *)
Theorem C78_gp_direction : forall n step cost best c ps ps' i p y, 0 <= step -> interval n c -> no_negative_flow n ps ->
  In best (map dp_links ps) -> gp_col step cost best c ps = Ok ps' -> nth_error ps i = Some p -> considered best c p -> has_dis p c y ->
  exists p', nth_error ps' i = Some p' /\ dp_links p' = dp_links p /\ (forall k, k <> c -> dp_buf p' k = dp_buf p k) /\
    ((forall q x, In q ps -> considered best c q -> has_dis q c x -> x <= y) -> dp_buf p' c <= dp_buf p c) /\
    ((forall q x, In q ps -> considered best c q -> has_dis q c x -> y <= x) -> dp_buf p c <= dp_buf p' c).
Proof.
  intros n step cost best c ps ps' i p y S C N I H P CP D. apply is_in_iff in I.
  destruct (gp_each n step cost best c ps ps' i p S C N H P) as (p' & A & B & K & HI & LO).
  assert (with_best (cost best) ps best = ps) as W by (unfold with_best; now rewrite I). rewrite W in HI, LO.
  exists p'. split; [auto|]. split; [auto|]. split; [auto|]. split.
  - intros X. apply HI. intros q x z Q Aq Dq Dz. unfold has_dis in *. assert (z = y) by congruence. subst z. apply active_or in Aq. eauto.
  - intros X. apply LO; [now apply active_or|]. intros q x z Q Aq Dq Dz. unfold has_dis in *. assert (z = y) by congruence. subst z. apply active_or in Aq. eauto.
Qed.
Print Assumptions C78_gp_direction.
Example C78_case : match gp_col (1 # 2) (fun _ => []) [12]%Z 0 ex_ps with Ok ps' => map (fun p => Qred (dp_buf p 0)) ps' | Err _ => [] end = [3; 3].
Proof. vm_compute. reflexivity. Qed.
(** a toll-free but slower route is chosen by cost: flow 6 becomes more *)
Example C78_creates_case : match gp_col (1 # 2) (fun _ => [8; 8]) [13]%Z 0 ex_ps with Ok ps' => Qred (flow ps' 0) | Err _ => 0 end = 7 /\ flow ex_ps 0 == 6.
Proof. split; vm_compute; reflexivity. Qed.

(** C79: the merit function is zero exactly at a user equilibrium on the table *)
Theorem C79_merit : forall n pairs t,
  (forall o d ps, In (o, d) pairs -> t o d = Some ps -> costs_known n ps /\ no_negative_flow n ps) ->
  exists r, merit n pairs t = Ok r /\ 0 <= r /\ (r == 0 <-> forall o d ps, In (o, d) pairs -> t o d = Some ps -> equilibrium n ps).
Proof. exact merit_ok. Qed.
Print Assumptions C79_merit.
(** with given departure times: zero exactly when the used paths of each pair and
    interval have equal disutility; not a number without flow *)
Theorem C79_merit_fixed_partial : forall n pairs t,
  (forall o d ps, In (o, d) pairs -> t o d = Some ps -> costs_known n ps /\
     forall p c x, In p ps -> interval n c -> 0 < dp_buf p c -> has_dis p c x -> 0 < x) ->
  ((exists o d ps p c, In (o, d) pairs /\ t o d = Some ps /\ In p ps /\ interval n c /\ 0 < dp_buf p c) ->
     exists r, merit_fixed n pairs t = Ok (Fin r) /\ 0 <= r /\
      (r == 0 <-> forall o d ps, In (o, d) pairs -> t o d = Some ps ->
         forall p p' c x x', In p ps -> In p' ps -> interval n c -> 0 < dp_buf p c -> 0 < dp_buf p' c -> has_dis p c x -> has_dis p' c x' -> x == x')) /\
  ((forall o d ps p c, In (o, d) pairs -> t o d = Some ps -> In p ps -> interval n c -> dp_buf p c <= 0) ->
     merit_fixed n pairs t = Ok NaN).
Proof.
  intros n pairs t H. destruct (merit_fixed_ok n pairs t H) as (g & k & E & G0 & K0 & GZ & KP & KG). split.
  - intros X. apply KP in X. unfold idiv in E. destruct (Qeq_bool k 0) eqn:Z; [apply Qeq_bool_iff in Z; lra|]. exists (g / k). split; [exact E|]. split.
    + apply Qle_shift_div_l; [auto|]. lra.
    + rewrite <- GZ. split.
      * intros Y. setoid_replace g with (g / k * k) by (field; lra). rewrite Y. ring.
      * intros ->. field. lra.
  - intros X. assert (k == 0) as Z.
    { destruct (Qlt_le_dec 0 k) as [L|L]; [|lra]. apply KP in L. destruct L as (o & d & ps & p & c & I & T & P & C & B). specialize (X o d ps p c I T P C). lra. }
    unfold idiv in E. apply Qeq_bool_iff in Z as Z'. rewrite Z' in E. specialize (KG Z). apply Qeq_bool_iff in KG. rewrite KG in E. exact E.
Qed.
Print Assumptions C79_merit_fixed_partial.
(** it is blind to unused routes: zero although a route of the table is better *)
Theorem C79_unused_route_refuted : exists n pairs t o d ps,
  t o d = Some ps /\ In (o, d) pairs /\ costs_known n ps /\ no_negative_flow n ps /\
  (exists r, merit_fixed n pairs t = Ok (Fin r) /\ r == 0) /\ ~ equilibrium_per_interval n ps.
Proof.
  set (ps := [ex_path [10]%Z (fun _ => 3) [9]; ex_path [11]%Z (fun _ => 0) [2]]).
  exists 1%nat, [(1, 2)]%Z, (fun _ _ => Some ps), 1%Z, 2%Z, ps. split; [reflexivity|]. split; [left; reflexivity|].
  split; [intros p [<-|[<-|[]]]; cbn; lia|]. split; [intros p c [<-|[<-|[]]] _; cbn; lra|]. split.
  - eexists. split; [vm_compute; reflexivity|]. reflexivity.
  - intros E. assert (9 <= 2); [|lra].
    apply (E (ex_path [10]%Z (fun _ => 3) [9]) (ex_path [11]%Z (fun _ => 0) [2]) 0%Z 9 2); [left; auto|right; left; auto|unfold interval; lia|cbn; lra|reflexivity|reflexivity].
Qed.
Print Assumptions C79_unused_route_refuted.
Example C79_case : merit 2 [(1, 2)]%Z (fun _ _ => Some ex_ps) = Ok (0 + (5 - 4) * 4 + (4 - 4) * 2 + (6 - 4) * 1 + (9 - 4) * 0) /\
  match merit_fixed 2 [(1, 2)]%Z (fun _ _ => Some ex_ps) with Ok (Fin r) => Qred r = 2 # 15 | _ => False end.
Proof. split; vm_compute; reflexivity. Qed.

(** C80: route and departure time choice.  [real_choice]: leaving [o] at interval
    [i] along [ls] takes [w] intervals in all and costs the disutility [u]. *)
Definition real_choice g k cost tt M (o dest : Z) (ls : list Z) (i : Z) (u : Q) : Prop :=
  (0 <= i < M)%Z /\ exists c w, td_way g cost tt M o i ls dest c w /\ disutility k (inject_Z i) w u.

(** what is minimised: the disutility with the generalised cost in place of the
    travel time; the route is a cheapest one for the departure chosen *)
Theorem C80_best_by_cost_partial : forall ops lids dest M k tt toll,
  let g := gbuild ops in let cost := link_cost k tt toll in
  In dest (g_nids g) -> ~ In (-1)%Z (g_lids g) -> Permutation lids (g_lids g) -> (1 <= M)%Z -> td_tables_ok g M cost tt ->
  0 <= vot k + late k -> early k <= vot k ->
  exists N, forall fuel, (N <= fuel)%nat -> exists s, update_tree fuel g lids dest M cost tt = Ok s /\
  forall o fuel', In o (g_nids g) -> (Z.to_nat M + length (g_nids g) <= fuel')%nat ->
  match get_best_route k fuel' g dest M tt s o with
  | Ok (ls, i) => (0 <= i < M)%Z /\ exists c w, td_way g (cost_at cost) (tt_at tt) M o i ls dest c w /\
      (forall ls' c' w', td_way g (cost_at cost) (tt_at tt) M o i ls' dest c' w' -> c <= c') /\
      forall j ls' c' w' u u', (0 <= j < M)%Z -> td_way g (cost_at cost) (tt_at tt) M o j ls' dest c' w' ->
        disutility k (inject_Z i) c u -> disutility k (inject_Z j) c' u' -> u <= u'
  | Err e => e = EAssert /\ forall j ls' c' w', (0 <= j < M)%Z -> ~ td_way g (cost_at cost) (tt_at tt) M o j ls' dest c' w'
  end.
Proof.
  intros ops lids dest M k tt toll g cost Hd Hm HP HM HT HV HE.
  destruct (C23_tdsp_optimal ops lids dest M cost tt Hd Hm HP HM HT) as (N1 & H1).
  destruct (C24_tdsp_extraction ops lids dest M cost tt Hd Hm HP HM HT) as (N2 & H2).
  exists (max N1 N2). intros fuel Hf. destruct (H1 fuel ltac:(lia)) as (s & E & D). destruct (H2 fuel ltac:(lia)) as (s' & E' & X).
  fold g in E, E', D, X. rewrite E in E'. apply Ok_inj in E'. subst s'. exists s. split; [exact E|]. intros o fuel' Io Hf'.
  unfold get_best_route. destruct (scan_times k (td_dist s o) (cols (Z.to_nat M))) as [[x i]|] eqn:SC.
  - apply scan_some in SC. destruct SC as (w & Ii & Di & Xi & Mi). apply in_cols in Ii. assert (0 <= i < M)%Z as RI by (unfold interval in Ii; lia).
    pose proof (D o i Io RI) as L. rewrite Di in L. destruct L as [(l0 & c0 & w0 & W0 & C0) LB].
    destruct (X o i fuel' Io (proj1 RI) Hf') as [(ls & ns & c & v & v' & G & _ & _ & W & L2)|(_ & L2)].
    2:{ rewrite Z.min_l in L2 by lia. exfalso. exact (L2 _ _ _ W0). }
    rewrite Z.min_l in W, L2 by lia. rewrite G. cbn [bind snd]. split; [exact RI|]. exists c, v. split; [exact W|].
    destruct L2 as [_ LC]. split; [exact LC|]. intros j ls' c' w' u u' RJ W' U U'.
    assert (c == w) as CW. { pose proof (LB _ _ _ W). pose proof (LC _ _ _ W0). lra. }
    pose proof (D o j Io RJ) as Lj. destruct (td_dist s o j) as [dj|] eqn:Dj; [|exfalso; exact (Lj _ _ _ W')].
    destruct Lj as [_ LBj]. specialize (LBj _ _ _ W').
    assert (In j (cols (Z.to_nat M))) as Ij by (apply in_cols; unfold interval; lia). specialize (Mi j dj Ij Dj). subst x.
    pose proof (disutility_eq k _ _ _ _ U (disutility_ext k _ w c _ (Qeq_sym _ _ CW) (get_disutility_spec k (inject_Z i) w))) as EQ.
    pose proof (disutility_mono k _ dj c' _ _ HV HE LBj (get_disutility_spec k (inject_Z j) dj) U') as MO. lra.
  - split; [reflexivity|]. intros j ls' c' w' RJ W'. assert (In j (cols (Z.to_nat M))) as Ij by (apply in_cols; unfold interval; lia).
    pose proof (scan_none _ _ _ SC j Ij) as Dj. pose proof (D o j Io RJ) as Lj. rewrite Dj in Lj. exact (Lj _ _ _ W').
Qed.
Print Assumptions C80_best_by_cost_partial.

(** with value of time 1 and no tolls the choice has the lowest disutility of all *)
Lemma cost_is_time ops k tt toll M o i ls dest c w : let g := gbuild ops in
  vot k == 1 -> (forall l, toll l == 0) -> td_way g (cost_at (link_cost k tt toll)) (tt_at tt) M o i ls dest c w -> c == w.
Proof.
  intros g V T W. induction W as [|u t l x t' ls v q c y _ Q _ _ IH]; [lra|]. unfold cost_at, link_cost, tt_at in *. destruct (tt l) as [f|]; [|discriminate].
  injection Q as <-. rewrite V, (T l), IH. ring.
Qed.
Theorem C80_best_choice_partial : forall ops lids dest M k tt toll,
  let g := gbuild ops in let cost := link_cost k tt toll in
  In dest (g_nids g) -> ~ In (-1)%Z (g_lids g) -> Permutation lids (g_lids g) -> (1 <= M)%Z -> td_tables_ok g M cost tt ->
  vot k == 1 -> (forall l, toll l == 0) -> 0 <= late k -> early k <= 1 ->
  exists N, forall fuel, (N <= fuel)%nat -> exists s, update_tree fuel g lids dest M cost tt = Ok s /\
  forall o fuel', In o (g_nids g) -> (Z.to_nat M + length (g_nids g) <= fuel')%nat ->
  match get_best_route k fuel' g dest M tt s o with
  | Ok (ls, i) => exists u, real_choice g k (cost_at cost) (tt_at tt) M o dest ls i u /\
      forall ls' j u', real_choice g k (cost_at cost) (tt_at tt) M o dest ls' j u' -> u <= u'
  | Err e => forall ls' j u', ~ real_choice g k (cost_at cost) (tt_at tt) M o dest ls' j u'
  end.
Proof.
  intros ops lids dest M k tt toll g cost Hd Hm HP HM HT HV HTo HL HE.
  destruct (C80_best_by_cost_partial ops lids dest M k tt toll Hd Hm HP HM HT) as (N & H); [lra|lra|]. exists N. intros fuel Hf.
  destruct (H fuel Hf) as (s & E & X). exists s. split; [exact E|]. intros o fuel' Io Hf'. specialize (X o fuel' Io Hf'). fold g cost in X.
  destruct (get_best_route k fuel' g dest M tt s o) as [[ls i]|e].
  - destruct X as (RI & c & w & W & _ & B). exists (get_disutility k (inject_Z i) w). split.
    + split; [exact RI|]. exists c, w. split; [exact W|apply get_disutility_spec].
    + intros ls' j u' (RJ & c' & w' & W' & U'). pose proof (cost_is_time ops k tt toll _ _ _ _ _ _ _ HV HTo W) as CW. pose proof (cost_is_time ops k tt toll _ _ _ _ _ _ _ HV HTo W') as CW'.
      apply (B j ls' c' w' _ u' RJ W').
      * apply (disutility_ext k _ w c); [now symmetry|apply get_disutility_spec].
      * apply (disutility_ext k _ w' c'); [now symmetry|exact U'].
  - destruct X as [_ X]. intros ls' j u' (RJ & c' & w' & W' & _). exact (X j ls' c' w' RJ W').
Qed.
Print Assumptions C80_best_choice_partial.

(** in general not: cost per interval below 1 makes every trip look shorter than
    it is, so the departure chosen is too late *)
Theorem C80_best_choice_refuted : exists ops lids dest M k tt toll s o ls i u ls' j u',
  let g := gbuild ops in let cost := link_cost k tt toll in
  Permutation lids (g_lids g) /\ td_tables_ok g M cost tt /\ 0 < early k /\ early k < vot k /\ vot k < late k /\
  update_tree 20 g lids dest M cost tt = Ok s /\ get_best_route k 20 g dest M tt s o = Ok (ls, i) /\
  real_choice g k (cost_at cost) (tt_at tt) M o dest ls i u /\ real_choice g k (cost_at cost) (tt_at tt) M o dest ls' j u' /\ u' < u.
Proof.
  exists [GNode 1; GNode 2; GLink 1 2 10]%Z, [10]%Z, 2%Z, 5%Z, {| vot := 1 # 4; early := 1 # 8; late := 1; target := 3 |}, (fun _ => Some (fun _ => 2)), (fun _ => 0).
  eexists. exists 1%Z, [10]%Z, 2%Z, (3 # 2), [10]%Z, 1%Z, (1 # 2). cbv zeta. split; [reflexivity|]. split.
  { intros l e _. split; [eexists; reflexivity|]. eexists. split; [reflexivity|]. intros t _. cbn. lra. }
  split; [cbn; lra|]. split; [cbn; lra|]. split; [cbn; lra|]. split; [vm_compute; reflexivity|]. split; [vm_compute; reflexivity|].
  split; [|split; [|lra]].
  - split; [lia|]. eexists _, _. split.
    + eapply td_cons; [reflexivity|reflexivity| |apply td_nil]. eexists. split; [reflexivity|reflexivity].
    + left. split; [vm_compute; discriminate|vm_compute; reflexivity].
  - split; [lia|]. eexists _, _. split.
    + eapply td_cons; [reflexivity|reflexivity| |apply td_nil]. eexists. split; [reflexivity|reflexivity].
    + left. split; [vm_compute; discriminate|vm_compute; reflexivity].
Qed.
Print Assumptions C80_best_choice_refuted.
Example C80_case : match update_tree 20 (gbuild [GNode 1; GNode 2; GLink 1 2 10]%Z) [10]%Z 2 5
     (link_cost {| vot := 1; early := 1 # 2; late := 2; target := 3 |} (fun _ => Some (fun _ => 2)) (fun _ => 0)) (fun _ => Some (fun _ => 2)) with
  | Ok s => get_best_route {| vot := 1; early := 1 # 2; late := 2; target := 3 |} 20 (gbuild [GNode 1; GNode 2; GLink 1 2 10]%Z) 2 5 (fun _ => Some (fun _ => 2)) s 1
  | Err e => Err e end = Ok ([10], 1)%Z.
Proof. vm_compute. reflexivity. Qed.
