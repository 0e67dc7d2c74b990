(** C54, C16 and the run-level versions of C38-C41: what the curves of a loading run say
    about the vehicles that actually moved. *)
From Verif Require Import Base Base_lemmas Model_Num Proof_Num Spec_Path Proof_Path Model_CC Spec_CC Proof_CC Proof_CC2 Proof_CC3 Model_Path Model_Link Spec_Link Spec_Node
  Proof_Link Proof_Link3 Proof_Link4 Proof_Link5 Model_World Model_Node Proof_Node Proof_Node2 Model_Sim Spec_Sim Spec_Route Proof_Sim1 Proof_Sim2 Proof_Sim3 Proof_Sim4 Proof_Sim7 Spec_Curve Proof_Curve1 Proof_Curve2 Proof_Curve3 Proof_Curve4
  Spec_Grad Model_Grad Proof_Grad5 Proof_Grad6 Prop_Grad Ex_Net Prop_Node Prop_Sim.
Local Open Scope Z_scope.

Lemma filter_filter_key paths key ops : filter (fun o : flow_op => key_eqb key (fst o)) (filter (regop paths) ops) = if paths (fst key) then filter (fun o => key_eqb key (fst o)) ops else [].
Proof.
  induction ops as [|o ops IH]; [destruct (paths (fst key)); reflexivity|]. cbn [filter]. unfold regop at 1.
  destruct (paths (fst (fst o))) eqn:E1; cbn [filter]; rewrite IH; destruct (key_eqb key (fst o)) eqn:E2; destruct (paths (fst key)) eqn:E3; try reflexivity;
    exfalso; unfold key_eqb in E2; apply andb_true_iff in E2 as [E2 _]; apply Z.eqb_eq in E2; congruence.
Qed.
Lemma last_opt_In {A} (l : list A) b : last_opt l = Some b -> In b l.
Proof. destruct l as [|x l] using rev_ind; [discriminate|]. rewrite last_opt_snoc. intros E. injection E as <-. apply in_or_app. right. now left. Qed.
(** the time line of a run of fewer than 10000 intervals is one of whole times *)
Lemma line_whole fs k incs n : Z.of_nat k < 10000 -> timeline fs k incs n -> forall r, In r incs -> whole_time (fst r).
Proof. intros Hk T r Hr. destruct (tl_time _ _ _ _ T r Hr) as (j & Hj & E). exists (Z.of_nat j + 1). split; [lia|]. now rewrite E. Qed.
Lemma line_units fs k incs n : timeline fs k incs n -> forall r, In r incs -> units fs (snd r).
Proof. intros T r Hr. destruct (tl_amt _ _ _ _ T r Hr) as (z & Hz & E). exists z. split; [exact Hz|]. now rewrite E. Qed.
Lemma line_total fs k incs n : timeline fs k incs n -> (total_amount incs == inject_Z (n k) / fs)%Q.
Proof.
  intros T. pose proof (tl_until _ _ _ _ T (Z.of_nat k) ltac:(lia)) as U. rewrite Nat2Z.id, Nat.min_id in U. rewrite <- U, amount_all; [reflexivity|].
  intros r Hr. destruct (tl_time _ _ _ _ T r Hr) as (j & Hj & ->). rewrite <- Zle_Qle. lia.
Qed.
Lemma line_lookup fs k incs n c z : Z.of_nat k < 10000 -> timeline fs k incs n -> foldM add_increment fresh_curve incs = Ok c -> 0 <= z < 10000 ->
  exists v, get_result c (inject_Z z) = Ok v /\ (v == inject_Z (n (Nat.min (Z.to_nat z) k)) / fs)%Q.
Proof.
  intros Hk T E Hz. destruct (curve_lookup incs (tl_mono _ _ _ _ T) (line_whole _ _ _ _ Hk T)) as (c' & E' & L & _). rewrite E in E'. apply Ok_inj in E' as <-.
  destruct (L (inject_Z z)) as (v & Ev & Q); [exists z; split; [lia|reflexivity]|]. exists v. split; [exact Ev|]. rewrite Q. apply (tl_until _ _ _ _ T). lia.
Qed.

Section Run.
Context (N : net) (D : Z -> draws) (w0 : world) (K : net_ok N) (F : fresh_world N w0) (DV : forall t, draws_valid (D t)).

Lemma installed_in k s l c : In l (n_links N) -> run N D k (init_state N w0) = Ok s -> cc_Nin (w_cc (s_w s)) l = Some c ->
  exists incs, foldM add_increment fresh_curve incs = Ok c /\ timeline (n_fs N) k incs (fun m => Zlen (entered N D w0 l m)).
Proof.
  intros Hl H Ec. destruct (run_Nin N D w0 K F DV l k s Hl H) as (incs & G & T). exists incs. split; [|exact T]. rewrite Ec in G.
  destruct (fw_cc _ _ F l) as [[E _]|[E _]]; rewrite E in G; [destruct G|exact G].
Qed.
Lemma installed_out k s l c : In l (n_links N) -> run N D k (init_state N w0) = Ok s -> cc_Nout (w_cc (s_w s)) l = Some c ->
  exists incs, foldM add_increment fresh_curve incs = Ok c /\ timeline (n_fs N) k incs (fun m => Zlen (exited N D w0 l m)).
Proof.
  intros Hl H Ec. destruct (run_Nout N D w0 K F DV l k s Hl H) as (incs & G & T). exists incs. split; [|exact T]. rewrite Ec in G.
  destruct (fw_cc _ _ F l) as [[_ E]|[_ E]]; rewrite E in G; [destruct G|exact G].
Qed.
Lemma tree_ops (x : option cctree) ops y : (x = None \/ x = Some []) -> tgrow ops x (Some y) -> foldM apply_op [] ops = Ok y.
Proof. intros [->| ->] G; [destruct G|exact G]. Qed.
Lemma during_mono {A} (f : world -> world -> list A) j k x : (j <= k)%nat -> In x (during N D w0 f j) -> In x (during N D w0 f k).
Proof. intros L H. induction L as [|k L IH]; [exact H|]. cbn [during]. apply in_or_app. now left. Qed.
Lemma during_split {A} (f : world -> world -> list A) j k : (j <= k)%nat -> exists x, during N D w0 f k = during N D w0 f j ++ x.
Proof. intros L. induction L as [|k L (x & IH)]; [exists []; now rewrite app_nil_r|]. cbn [during]. rewrite IH. eexists. rewrite <- app_assoc. reflexivity. Qed.
Lemma labels_len l k : Zlen (entered_labels N D w0 l k) = Zlen (entered N D w0 l k).
Proof.
  unfold entered_labels, entered. induction k as [|k IH]; [reflexivity|]. cbn [during]. rewrite !Zlen_app, IH. f_equal.
  destruct (run N D k (init_state N w0)), (run N D (S k) (init_state N w0)); try reflexivity. apply Zlen_map.
Qed.

Lemma tree_spec ls k s tr z (T0 : option cctree) ops : Z.of_nat k < 10000 -> run N D k (init_state N w0) = Ok s -> (T0 = None \/ T0 = Some []) ->
  tgrow ops T0 (Some tr) -> treeline N k ops ls -> (forall key, times_seen key (ls k) = 0 <-> ~ In key (ls k)) -> 0 <= z < 10000 ->
  NoDup (map fst tr) /\
  (forall key, match tree_find tr key with
     | Some c => exists v, get_result c (inject_Z z) = Ok v /\ (v == inject_Z (times_seen key (ls (Nat.min (Z.to_nat z) k))) / n_fs N)%Q
     | None => times_seen key (ls k) = 0 end) /\
  exists vs, Forall2 (fun e v => get_result (snd e) (inject_Z z) = Ok v) tr vs /\ (sumQ vs == inject_Z (Zlen (ls (Nat.min (Z.to_nat z) k))) / n_fs N)%Q.
Proof.
  clear K F DV. intros Hk H HT G (T1 & T2 & T3) Seen Hz. pose proof (tree_ops _ _ _ HT G) as E. destruct (tree_inv _ _ E) as (Hn & Hkeys & Hc). split; [exact Hn|]. split.
  - intros key. destruct (tree_find tr key) as [c|] eqn:Ef.
    + apply Hc in Ef. exact (line_lookup _ _ _ _ _ z Hk (T2 key) Ef Hz).
    + apply Seen. rewrite <- T3, <- Hkeys. intros C. apply in_map_iff in C as ((k' & c) & Ek & Hin). cbn in Ek. subst k'. apply (tree_find_In tr key c Hn) in Hin. congruence.
  - assert (W : forall o, In o ops -> whole_time (fst (snd o))) by (intros o Ho; apply (line_whole _ _ _ _ Hk T1), in_map, Ho).
    destruct (tree_total ops tr (inject_Z z) E (tl_mono _ _ _ _ T1) W) as (vs & V & S1); [exists z; split; [lia|reflexivity]|].
    exists vs. split; [|rewrite S1; apply (tl_until _ _ _ _ T1); lia]. clear - V. induction V as [|e v t vs [A _] V IH]; constructor; auto.
Qed.
Lemma seen_zero key ls : times_seen key ls = 0 <-> ~ In key ls.
Proof.
  unfold times_seen. split.
  - intros E C. assert (Hin : In key (filter (fun x => (fst key =? fst x) && (snd key =? snd x)) ls)) by (apply filter_In; rewrite !Z.eqb_refl; auto).
    destruct (filter _ ls); [destruct Hin|simpl in E; lia].
  - intros C. induction ls as [|x ls IH]; [reflexivity|]. cbn [filter]. destruct ((fst key =? fst x) && (snd key =? snd x)) eqn:E; [|apply IH; intros H; apply C; now right].
    exfalso. apply C. left. apply andb_true_iff in E as [A B]. apply Z.eqb_eq in A, B. destruct key, x; simpl in *; congruence.
Qed.
End Run.

(** C54: at every whole time z the inflow curve of a link is the number of vehicles that
    entered it in intervals before z, over the flow scalar; likewise the outflow curve. *)
Theorem C54_inflow_curve_counts_entries : forall N D w0 k s l c z, net_ok N -> fresh_world N w0 -> (forall t, draws_valid (D t)) ->
  run N D k (init_state N w0) = Ok s -> Z.of_nat k < 10000 -> In l (n_links N) -> cc_Nin (w_cc (s_w s)) l = Some c -> 0 <= z < 10000 ->
  exists v, get_result c (inject_Z z) = Ok v /\ (v == inject_Z (Zlen (entered N D w0 l (Nat.min (Z.to_nat z) k))) / n_fs N)%Q.
Proof.
  intros N D w0 k s l c z K F DV H Hk Hl Ec Hz. destruct (installed_in N D w0 K F DV k s l c Hl H Ec) as (incs & E & T). exact (line_lookup _ _ _ _ _ z Hk T E Hz).
Qed.
Print Assumptions C54_inflow_curve_counts_entries.
Theorem C54_outflow_curve_counts_exits : forall N D w0 k s l c z, net_ok N -> fresh_world N w0 -> (forall t, draws_valid (D t)) ->
  run N D k (init_state N w0) = Ok s -> Z.of_nat k < 10000 -> In l (n_links N) -> cc_Nout (w_cc (s_w s)) l = Some c -> 0 <= z < 10000 ->
  exists v, get_result c (inject_Z z) = Ok v /\ (v == inject_Z (Zlen (exited N D w0 l (Nat.min (Z.to_nat z) k))) / n_fs N)%Q.
Proof.
  intros N D w0 k s l c z K F DV H Hk Hl Ec Hz. destruct (installed_out N D w0 K F DV k s l c Hl H Ec) as (incs & E & T). exact (line_lookup _ _ _ _ _ z Hk T E Hz).
Qed.
Print Assumptions C54_outflow_curve_counts_exits.

(** C16: on a link not fed by an origin node, the per-path tree has one curve per (route,
    departure interval) that entered; each curve counts exactly the vehicles of that route
    and interval; at every time the curves add up to all entries, hence to the inflow curve. *)
Theorem C16_entry_tree_of_a_run : forall N D w0 k s l tr z, net_ok N -> fresh_world N w0 -> (forall t, draws_valid (D t)) ->
  run N D k (init_state N w0) = Ok s -> Z.of_nat k < 10000 -> In l (n_links N) -> ~ origin_fed N l -> cc_Tin (w_cc (s_w s)) l = Some tr -> 0 <= z < 10000 ->
  NoDup (map fst tr) /\
  (forall key, match tree_find tr key with
     | Some c => exists v, get_result c (inject_Z z) = Ok v /\ (v == inject_Z (times_seen key (entered_labels N D w0 l (Nat.min (Z.to_nat z) k))) / n_fs N)%Q
     | None => times_seen key (entered_labels N D w0 l k) = 0 end) /\
  exists vs, Forall2 (fun e v => get_result (snd e) (inject_Z z) = Ok v) tr vs /\
    (sumQ vs == inject_Z (Zlen (entered N D w0 l (Nat.min (Z.to_nat z) k))) / n_fs N)%Q /\
    (forall c, cc_Nin (w_cc (s_w s)) l = Some c -> exists v, get_result c (inject_Z z) = Ok v /\ (sumQ vs == v)%Q).
Proof.
  intros N D w0 k s l tr z K F DV H Hk Hl Ho Et Hz. destruct (run_Tin N D w0 K F DV l k s Hl Ho H) as (ops & G & T). rewrite Et in G.
  destruct (tree_spec N D w0 _ k s tr z _ ops Hk H (proj1 (fw_trees _ _ F l)) G T (fun key => seen_zero key _) Hz) as (A & B & vs & V & S1).
  split; [exact A|]. split; [exact B|]. rewrite labels_len in S1. exists vs. split; [exact V|]. split; [exact S1|]. intros c Ec.
  destruct (C54_inflow_curve_counts_entries N D w0 k s l c z K F DV H Hk Hl Ec Hz) as (v & Ev & Qv). exists v. split; [exact Ev|]. now rewrite S1, Qv.
Qed.
Print Assumptions C16_entry_tree_of_a_run.
Theorem C16_exit_tree_of_a_run : forall N D w0 k s l tr z, net_ok N -> fresh_world N w0 -> (forall t, draws_valid (D t)) ->
  run N D k (init_state N w0) = Ok s -> Z.of_nat k < 10000 -> In l (n_links N) -> ~ dest_bound N l -> cc_Tout (w_cc (s_w s)) l = Some tr -> 0 <= z < 10000 ->
  NoDup (map fst tr) /\
  (forall key, match tree_find tr key with
     | Some c => exists v, get_result c (inject_Z z) = Ok v /\ (v == inject_Z (times_seen key (exited_labels N D w0 l (Nat.min (Z.to_nat z) k))) / n_fs N)%Q
     | None => times_seen key (exited_labels N D w0 l k) = 0 end) /\
  exists vs, Forall2 (fun e v => get_result (snd e) (inject_Z z) = Ok v) tr vs /\
    (sumQ vs == inject_Z (Zlen (exited_labels N D w0 l (Nat.min (Z.to_nat z) k))) / n_fs N)%Q.
Proof.
  intros N D w0 k s l tr z K F DV H Hk Hl Ho Et Hz. destruct (run_Tout N D w0 K F DV l k s Hl Ho H) as (ops & G & T). rewrite Et in G.
  exact (tree_spec N D w0 _ k s tr z _ ops Hk H (proj2 (fw_trees _ _ F l)) G T (fun key => seen_zero key _) Hz).
Qed.
Print Assumptions C16_exit_tree_of_a_run.

(** C16: the label recorded on entry is the vehicle's route and departure interval for
    good: for fixed-route vehicles it is the one seen at the end of the run. *)
Theorem C16_labels_are_final : forall N D w0 k s l, net_ok N -> fresh_world N w0 -> (forall t, draws_valid (D t)) -> routes_ok (w_pt w0) ->
  run N D k (init_state N w0) = Ok s -> In l (n_links N) -> (forall v, In v (entered N D w0 l k) -> v_adapt (w_veh (s_w s) v) = false) ->
  entered_labels N D w0 l k = map (label (s_w s)) (entered N D w0 l k).
Proof.
  intros N D w0 k s l K F DV RO H Hl Ad.
  enough (X : forall j, (j <= k)%nat -> entered_labels N D w0 l j = map (label (s_w s)) (entered N D w0 l j)) by (apply X; lia).
  induction j as [|j IH]; intros Lj; [reflexivity|]. unfold entered_labels, entered in *. cbn [during]. rewrite map_app, IH by lia. f_equal.
  destruct (st_before N D w0 j k s ltac:(lia) H) as (s1 & H1). destruct (st_before N D w0 (S j) k s Lj H) as (s2 & H2). rewrite H1, H2.
  apply map_ext_in. intros v Hv. pose proof (reached_sinv _ _ _ _ K (st_reached N D w0 F DV _ _ H2)) as I2. pose proof (proj1 (proj1 (in_newcomers _ _ _ _) Hv)) as On.
  pose proof (u_l_old N (s_w s2) I2 v l Hl On) as Old.
  assert (ST : forall m sm, (S j <= m)%nat -> run N D m (init_state N w0) = Ok sm -> v <= f_num (w_fac (s_w sm)) /\ stat (w_veh (s_w sm) v) = stat (w_veh (s_w s2) v)).
  { intros m sm Lm. revert sm. induction Lm as [|m Lm IHm]; intros sm Hm; [rewrite H2 in Hm; apply Ok_inj in Hm as <-; auto|].
    pose proof Hm as Hm'. apply run_S in Hm' as (sp & Hp & _). destruct (IHm sp Hp) as [A B]. destruct (st_srel N D w0 K F DV m sp sm Hp Hm) as (C1 & C2 & _). split; [lia|]. rewrite C2 by lia. exact B. }
  destruct (ST k s Lj H) as [_ Est].
  assert (Av : v_adapt (w_veh (s_w s2) v) = false).
  { replace (v_adapt (w_veh (s_w s2) v)) with (v_adapt (w_veh (s_w s) v)) by (unfold stat in Est; congruence). apply Ad. apply (during_mono N D w0 _ (S j) k v Lj). cbn [during]. rewrite H1, H2. apply in_or_app. now right. }
  destruct (run_v N D w0 v K F DV RO (S j) s2 H2) as [_ _ P3 _]. destruct (P3 Old Av) as [_ S2 _ _]. destruct (S2 l Hl On) as (p & pre & rest & (Ep & _) & _).
  pose proof (run_path_kept N D w0 v K F DV RO (S j) k s2 s p Lj H2 H Old Ep) as Ep'. unfold label. rewrite Ep, Ep'. f_equal. unfold stat in Est. congruence.
Qed.
Print Assumptions C16_labels_are_final.

(** C38 for a real run: fewer than 10000 intervals and fewer than 10000 entries on the link.
    Travel times read from the curves of the run are defined, and nobody entering later is
    reported to leave earlier. *)
Theorem C38_run_first_in_first_out : forall N D w0 k s l cin cout ff T, net_ok N -> fresh_world N w0 -> (forall t, draws_valid (D t)) ->
  run N D k (init_state N w0) = Ok s -> Z.of_nat k < 10000 -> In l (n_links N) -> cc_Nin (w_cc (s_w s)) l = Some cin -> cc_Nout (w_cc (s_w s)) l = Some cout ->
  Zlen (entered N D w0 l k) < 10000 -> Z.of_nat k <= T -> (0 <= ff)%Q ->
  counting_curve (n_fs N) cin /\ counting_curve (n_fs N) cout /\
  exists L, forall s1 s2, (0 <= s1)%Q -> (s1 <= s2)%Q -> exists t1 t2,
    travel_time (Some cin) (Some cout) ff (-1 # 1) s1 T = Ok (t1, L) /\ travel_time (Some cin) (Some cout) ff L s1 T = Ok (t1, L) /\
    travel_time (Some cin) (Some cout) ff (-1 # 1) s2 T = Ok (t2, L) /\ (s1 + t1 <= s2 + t2)%Q.
Proof.
  intros N D w0 k s l cin cout ff T K F DV H Hk Hl Ei Eo Hn HT Hff. pose proof (no_fs _ K) as Hf.
  destruct (installed_in N D w0 K F DV k s l cin Hl H Ei) as (ii & Bi & Ti). destruct (installed_out N D w0 K F DV k s l cout Hl H Eo) as (io & Bo & To).
  destruct (built_recorded ii (tl_mono _ _ _ _ Ti) (line_whole _ _ _ _ Hk Ti)) as (c1 & E1 & R1 & _ & bi & Lbi & Vbi).
  { intros r Hr. apply (units_nonneg (n_fs N)); [exact Hf|]. exact (line_units _ _ _ _ Ti r Hr). }
  destruct (built_recorded io (tl_mono _ _ _ _ To) (line_whole _ _ _ _ Hk To)) as (c2 & E2 & R2 & _ & bo & Lbo & Vbo).
  { intros r Hr. apply (units_nonneg (n_fs N)); [exact Hf|]. exact (line_units _ _ _ _ To r Hr). }
  rewrite Bi in E1. apply Ok_inj in E1 as <-. rewrite Bo in E2. apply Ok_inj in E2 as <-.
  pose proof (line_total _ _ _ _ Ti) as Tti. pose proof (line_total _ _ _ _ To) as Tto.
  assert (BAL : ((snd bi - snd bo) * n_fs N == inject_Z (Zlen (on_link (w_link (s_w s) l))))%Q).
  { pose proof (i_bal _ _ (reached_sinv _ _ _ _ K (st_reached N D w0 F DV _ _ H)) l cin cout Hl Ei Eo) as B. unfold last_value in B. rewrite Lbi, Lbo in B. exact B. }
  assert (Le : (snd bo <= snd bi)%Q).
  { assert (0 <= inject_Z (Zlen (on_link (w_link (s_w s) l))))%Q by (apply injZ_nonneg; unfold Zlen; lia). destruct (Qlt_le_dec (snd bi) (snd bo)); [exfalso; nra|assumption]. }
  assert (Ci : counting_curve (n_fs N) cin).
  { destruct (built_counting (n_fs N) ii Hf (tl_mono _ _ _ _ Ti) (line_whole _ _ _ _ Hk Ti) (line_units _ _ _ _ Ti)) as (c & E & C); [|rewrite Bi in E; apply Ok_inj in E as <-; exact C].
    rewrite Tti. rewrite <- (Qmult_comm (n_fs N)), Qmult_div_r by lra. change 10000%Q with (inject_Z 10000). rewrite <- Zlt_Qlt. exact Hn. }
  assert (Co : counting_curve (n_fs N) cout).
  { destruct (built_counting (n_fs N) io Hf (tl_mono _ _ _ _ To) (line_whole _ _ _ _ Hk To) (line_units _ _ _ _ To)) as (c & E & C); [|rewrite Bo in E; apply Ok_inj in E as <-; exact C].
    rewrite <- Vbo. apply Qle_lt_trans with (snd bi * n_fs N)%Q; [apply Qmult_le_compat_r; lra|]. rewrite Vbi, Tti. rewrite <- (Qmult_comm (n_fs N)), Qmult_div_r by lra. change 10000%Q with (inject_Z 10000). rewrite <- Zlt_Qlt. exact Hn. }
  assert (LT : forall incs n c b, timeline (n_fs N) k incs n -> foldM add_increment fresh_curve incs = Ok c -> last_opt c = Some b -> (fst b <= inject_Z T)%Q).
  { intros incs n c b TL E Lb. destruct (build_inv incs (tl_mono _ _ _ _ TL)) as (c' & E' & _ & _ & Fr & _).
    { intros r Hr. split; [apply whole_nonneg, (line_whole _ _ _ _ Hk TL r Hr)|]. apply whole_sep; [apply (line_whole _ _ _ _ Hk TL r Hr)|apply whole_zero]. }
    { intros r r' Hr Hr'. apply whole_sep; [exact (line_whole _ _ _ _ Hk TL r Hr)|exact (line_whole _ _ _ _ Hk TL r' Hr')]. }
    rewrite E in E'. apply Ok_inj in E' as <-. apply last_opt_In in Lb. destruct (Fr b Lb) as [->|(r & Hr & ->)].
    - change 0%Q with (inject_Z 0). rewrite <- Zle_Qle. lia.
    - destruct (tl_time _ _ _ _ TL r Hr) as (j & Hj & ->). rewrite <- Zle_Qle. lia. }
  split; [exact Ci|]. split; [exact Co|].
  exact (C38_first_in_first_out (n_fs N) cin cout bi bo ff T Ci Co Lbi Lbo (LT _ _ _ _ Ti Bi Lbi) (LT _ _ _ _ To Bo Lbo) Le Hff).
Qed.
Print Assumptions C38_run_first_in_first_out.

(** C40 for a real run: the inflow reported for a window is the number of entries in it. *)
Theorem C40_run_window_counts_entries : forall N D w0 k s l c a b, net_ok N -> fresh_world N w0 -> (forall t, draws_valid (D t)) ->
  run N D k (init_state N w0) = Ok s -> Z.of_nat k < 10000 -> In l (n_links N) -> cc_Nin (w_cc (s_w s)) l = Some c -> (a <= b)%nat -> (b <= k)%nat ->
  exists x mid, entered N D w0 l b = entered N D w0 l a ++ mid /\
    link_flow_between (Some c) (inject_Z (Z.of_nat a)) (inject_Z (Z.of_nat b)) = Ok x /\ (x == inject_Z (Zlen mid) / n_fs N)%Q.
Proof.
  intros N D w0 k s l c a b K F DV H Hk Hl Ec Hab Hbk.
  destruct (C54_inflow_curve_counts_entries N D w0 k s l c (Z.of_nat a) K F DV H Hk Hl Ec ltac:(lia)) as (va & Ea & Qa).
  destruct (C54_inflow_curve_counts_entries N D w0 k s l c (Z.of_nat b) K F DV H Hk Hl Ec ltac:(lia)) as (vb & Eb & Qb).
  rewrite Nat2Z.id, Nat.min_l in Qa, Qb by lia. destruct (during_split N D w0 (fun w w' => newcomers w w' l) a b Hab) as (mid & Em). exists (vb - va)%Q, mid. split; [exact Em|].
  unfold link_flow_between. rewrite Ea, Eb. split; [reflexivity|]. rewrite Qa, Qb. unfold entered. rewrite Em, Zlen_app, inject_Z_plus. unfold Qdiv. ring.
Qed.
Print Assumptions C40_run_window_counts_entries.

(** C41 for a real run: the assignment records of a link and window [a, b) are the entries of
    registered paths in that window, per (path, departure interval). *)
Theorem C41_run_records_are_entries : forall N D w0 k s l tr paths a b acc, net_ok N -> fresh_world N w0 -> (forall t, draws_valid (D t)) -> (n_fs N * dbl_eps < 1)%Q ->
  run N D k (init_state N w0) = Ok s -> Z.of_nat k < 10000 -> In l (n_links N) -> ~ origin_fed N l -> cc_Tin (w_cc (s_w s)) l = Some tr -> (a <= b)%nat -> (b <= k)%nat ->
  exists new mid, entered_labels N D w0 l b = entered_labels N D w0 l a ++ mid /\
    add_dar_records acc paths l (Some tr) (inject_Z (Z.of_nat a)) (inject_Z (Z.of_nat b)) = Ok (acc ++ new) /\
    NoDup (map (fun r => (da_path r, da_int r)) new) /\
    (forall r, In r new -> paths (da_path r) = true /\ (0 < da_flow r)%Q /\ (da_flow r == inject_Z (times_seen (da_path r, da_int r) mid) / n_fs N)%Q) /\
    ((forall key, In key mid -> paths (fst key) = true) -> (sumQ (map da_flow new) == inject_Z (Zlen mid) / n_fs N)%Q).
Proof.
  intros N D w0 k s l tr paths a b acc K F DV Fe H Hk Hl Ho Et Hab Hbk. pose proof (no_fs _ K) as Hf.
  destruct (run_Tin N D w0 K F DV l k s Hl Ho H) as (ops & G & (T1 & T2 & T3)). rewrite Et in G. pose proof (tree_ops _ _ _ (proj1 (fw_trees _ _ F l)) G) as E.
  assert (W : forall o, In o ops -> whole_time (fst (snd o))) by (intros o Hop; apply (line_whole _ _ _ _ Hk T1), in_map, Hop).
  assert (U : forall o, In o ops -> units (n_fs N) (snd (snd o))) by (intros o Hop; apply (line_units _ _ _ _ T1), in_map, Hop).
  assert (Wn : forall m, (m <= k)%nat -> whole_time (inject_Z (Z.of_nat m))) by (intros m Hm; exists (Z.of_nat m); split; [lia|reflexivity]).
  assert (Lab : (inject_Z (Z.of_nat a) <= inject_Z (Z.of_nat b))%Q) by (rewrite <- Zle_Qle; lia).
  destruct (dar_total (n_fs N) ops tr paths l _ _ acc Hf Fe E (tl_mono _ _ _ _ T1) W U (Wn a ltac:(lia)) (Wn b Hbk) Lab) as (new & A & B & C & S1).
  destruct (during_split N D w0 (fun w w' => map (label w') (newcomers w w' l)) a b Hab) as (mid & Em). exists new, mid. split; [exact Em|]. split; [exact A|]. split; [exact B|].
  assert (EL : entered_labels N D w0 l b = entered_labels N D w0 l a ++ mid) by exact Em.
  assert (AU : forall m incs n, (m <= k)%nat -> timeline (n_fs N) k incs n -> (amount_until incs (inject_Z (Z.of_nat m)) == inject_Z (n m) / n_fs N)%Q).
  { intros m incs n Hm TL. rewrite (tl_until _ _ _ _ TL) by lia. rewrite Nat2Z.id, Nat.min_l by lia. reflexivity. }
  split.
  - intros r Hr. destruct (C r Hr) as (_ & _ & P & Pos & Q). split; [exact P|]. split; [exact Pos|]. rewrite Q, (AU b _ _ Hbk (T2 _)), (AU a _ _ ltac:(lia) (T2 _)), EL, seen_app, inject_Z_plus. unfold Qdiv. ring.
  - intros Reg. rewrite S1.
    assert (KS : forall kb, (forall o, In o ops -> In (fst o) kb) -> NoDup kb -> forall m, (m <= k)%nat ->
      (amount_until (map snd (filter (regop paths) ops)) (inject_Z (Z.of_nat m)) == sumQ (map (fun key => if paths (fst key) then inject_Z (times_seen key (entered_labels N D w0 l m)) / n_fs N else 0) kb))%Q).
    { intros kb Hin Nd m Hm. rewrite <- (sum_over_keys kb (filter (regop paths) ops)); [|exact Nd|intros o Hop; apply filter_In in Hop; apply Hin, Hop].
      clear - T2 AU Hm. induction kb as [|key kb IH]; [reflexivity|]. unfold sumQ in *. cbn [map fold_right]. rewrite IH. apply Qplus_comp; [|reflexivity].
      unfold ops_of. rewrite filter_filter_key. destruct (paths (fst key)); [exact (AU m _ _ Hm (T2 key))|reflexivity]. }
    destruct (tree_inv _ _ E) as (Hn & Hkeys & _).
    assert (Hin : forall o, In o ops -> In (fst o) (map fst tr)) by (intros o Hop; apply Hkeys; eauto).
    rewrite (KS _ Hin Hn b Hbk), (KS _ Hin Hn a ltac:(lia)).
    assert (KA : forall m, (m <= k)%nat -> (sumQ (map (fun key => inject_Z (times_seen key (entered_labels N D w0 l m)) / n_fs N) (map fst tr)) == inject_Z (Zlen (entered_labels N D w0 l m)) / n_fs N)%Q).
    { intros m Hm. rewrite <- (AU m _ _ Hm T1), <- (sum_over_keys (map fst tr) ops) by assumption. clear - T2 AU Hm. induction (map fst tr) as [|key kb IH]; [reflexivity|].
      unfold sumQ in *. cbn [map fold_right]. rewrite IH. apply Qplus_comp; [|reflexivity]. symmetry. exact (AU m _ _ Hm (T2 key)). }
    assert (X : forall kb, (sumQ (map (fun key => if paths (fst key) then inject_Z (times_seen key (entered_labels N D w0 l b)) / n_fs N else 0) kb) -
       sumQ (map (fun key => if paths (fst key) then inject_Z (times_seen key (entered_labels N D w0 l a)) / n_fs N else 0) kb) ==
       sumQ (map (fun key => inject_Z (times_seen key (entered_labels N D w0 l b)) / n_fs N) kb) - sumQ (map (fun key => inject_Z (times_seen key (entered_labels N D w0 l a)) / n_fs N) kb))%Q).
    { induction kb as [|key kb IH]; [unfold sumQ; simpl; lra|]. unfold sumQ in *. cbn [map fold_right]. 
      assert (Y : ((if paths (fst key) then inject_Z (times_seen key (entered_labels N D w0 l b)) / n_fs N else 0) - (if paths (fst key) then inject_Z (times_seen key (entered_labels N D w0 l a)) / n_fs N else 0) ==
        inject_Z (times_seen key (entered_labels N D w0 l b)) / n_fs N - inject_Z (times_seen key (entered_labels N D w0 l a)) / n_fs N)%Q).
      { destruct (paths (fst key)) eqn:Ep; [reflexivity|]. rewrite EL, seen_app. rewrite (proj2 (seen_zero key mid)); [rewrite Z.add_0_r; ring|]. intros Cn. apply Reg in Cn. congruence. }
      lra. }
    rewrite X, (KA b Hbk), (KA a ltac:(lia)), EL, Zlen_app, inject_Z_plus. unfold Qdiv. ring.
Qed.
Print Assumptions C41_run_records_are_entries.

Lemma xn_ten : xn_run 10 = Ok (xn_at 10).
Proof. apply xn_run_at. vm_compute. reflexivity. Qed.
(** the hypotheses are met by the example network; link 20 is entered by six vehicles on
    routes 0 and 2 *)
Example C16_C54_case : net_ok xn /\ fresh_world xn xn_world /\ routes_ok (w_pt xn_world) /\ xn_run 10 = Ok (xn_at 10) /\
  In 20 (n_links xn) /\ ~ origin_fed xn 20 /\ ~ dest_bound xn 20 /\
  entered xn (fun _ => xn_draws) xn_world 20 10 = [6; 5; 4; 2; 9; 8] /\
  entered_labels xn (fun _ => xn_draws) xn_world 20 10 = [(2, 0); (2, 0); (0, 0); (0, 0); (2, 1); (0, 1)] /\
  cc_Nin (w_cc (s_w (xn_at 10))) 20 = Some [(0, 0); (2, 4); (5, 6)]%Q /\
  cc_Tin (w_cc (s_w (xn_at 10))) 20 = Some [((2, 0), [(0, 0); (2, 2)]%Q); ((0, 0), [(0, 0); (2, 2)]%Q); ((2, 1), [(0, 0); (5, 1)]%Q); ((0, 1), [(0, 0); (5, 1)]%Q)].
Proof.
  split; [apply xn_net_ok|]. split; [apply xn_fresh|]. split.
  { intros o d p (es & e & Hin & He & <-). destruct Hin as [Hin|[Hin|[]]]; injection Hin as _ _ <-; cbn in He.
    - destruct He as [<-|[<-|[]]]; intros [|x [|y [|z pre]]] a b post E; cbn in E; injection E; intros; subst; try discriminate; destruct pre; discriminate.
    - destruct He as [<-|[]]; intros [|x [|y [|z pre]]] a b post E; cbn in E; injection E; intros; subst; try discriminate; destruct pre; discriminate. }
  split; [exact xn_ten|]. split; [right; right; now left|].
  split; [intros (n & Hn & Hl); destruct Hn as [E|[E|[E|[E|[E|[]]]]]]; injection E as <-; try discriminate; cbn in Hl; intuition discriminate|].
  split; [intros (n & Hn & Hl); destruct Hn as [E|[E|[E|[E|[E|[]]]]]]; injection E as <-; try discriminate; cbn in Hl; intuition discriminate|].
  do 3 (split; [vm_compute; reflexivity|]). vm_compute. reflexivity.
Qed.
(** The restriction to links not fed by an origin node is needed: link 10 is fed by origin
    node 1, six vehicles enter it, its inflow curve says so, and its tree stays empty. *)
Theorem C16_origin_links_are_not_recorded : origin_fed xn 10 /\ xn_run 10 = Ok (xn_at 10) /\
  entered xn (fun _ => xn_draws) xn_world 10 10 = [4; 3; 2; 1; 8; 7] /\ (exists c, cc_Nin (w_cc (s_w (xn_at 10))) 10 = Some c /\ get_result c 10 = Ok 6%Q) /\
  cc_Tin (w_cc (s_w (xn_at 10))) 10 = Some [].
Proof.
  split; [exists 1; split; [right; now left|now left]|]. split; [exact xn_ten|]. split; [vm_compute; reflexivity|].
  split; [eexists; split; [vm_compute; reflexivity|vm_compute; reflexivity]|vm_compute; reflexivity].
Qed.
Print Assumptions C16_origin_links_are_not_recorded.
