(** Lemmas for the real-time engine: passes, meters and prediction. *)
From Verif Require Import Base Base_lemmas Model_Num Proof_Num Model_Graph Spec_Graph Spec_Path Model_CC Model_Path Proof_Path Model_Link Spec_Link Proof_Link Proof_Link4
  Model_World Model_Node Spec_Node Proof_Node Proof_Node4 Model_Sim Spec_Sim Proof_Sim1 Proof_Sim2 Proof_Sim3 Proof_Sim4 Model_Rt Spec_Rt Proof_Rt Proof_Rt2 Proof_GRJ.
From Verif Require Import Proof_Safe2 Proof_PreRouting.
From Verif Require Proof_Rt3.
Local Open Scope Z_scope.

(** * Passes *)
Lemma pass_trace N D ut m sp assign : forall k x x', pass_run N D ut m sp assign k x = Ok x' ->
  exists f, pass_states N D ut m sp assign k x f /\ f k = x'.
Proof.
  induction k as [|k IH]; intros x x' H; cbn [pass_run] in H.
  - apply Ok_inj in H as <-. exists (fun _ => x). split; [split; [reflexivity|intros j Hj; lia]|reflexivity].
  - apply bind_ok in H as (x1 & H1 & H2). destruct (IH _ _ H1) as (f & (F0 & F1) & F2).
    exists (fun j => if (j =? S k)%nat then x' else f j). split; [split|].
    + cbn. exact F0.
    + intros j Hj. replace (j =? S k)%nat with false by (symmetry; apply Nat.eqb_neq; lia).
      destruct (Nat.eqb_spec (S j) (S k)) as [E|E].
      * injection E as ->. rewrite F2. exact H2.
      * apply F1. lia.
    + now rewrite Nat.eqb_refl.
Qed.

Lemma pass_step_avg N D ut m sp assign t x x' : pass_step N D ut m sp assign t x = Ok x' ->
  sample m sp t (mt_tt (pa_m x')) (pa_avg x) = Ok (pa_avg x') /\
  exists w, meter_update N ut t w (pa_m x) = Ok (pa_m x').
Proof.
  unfold pass_step. intros H. apply bind_ok in H as (w2 & _ & H). apply bind_ok in H as (w3 & _ & H). apply bind_ok in H as (mt & HM & H).
  apply bind_ok in H as (w4 & _ & H). apply bind_ok in H as (w5 & _ & H). apply bind_ok in H as (a & HA & H). apply Ok_inj in H as <-. cbn. eauto.
Qed.
Lemma sample_ok m sp t tt avg a : sample m sp t tt avg = Ok a -> sp <> 0 /\ Z.quot m sp <> 0 /\
  forall l, (a l == avg l + if Z.rem (t + 1) (Z.quot m sp) =? 0 then tt l / inject_Z sp else 0)%Q.
Proof.
  unfold sample. intros H. apply bind_ok in H as ([] & G & H). apply guard_ok in G. apply andb_true_iff in G as (G1 & G2).
  apply negb_true_iff, Z.eqb_neq in G1. apply negb_true_iff, Z.eqb_neq in G2. split; [exact G1|]. split; [exact G2|]. intros l.
  destruct (Z.rem (t + 1) (Z.quot m sp) =? 0); apply Ok_inj in H as <-; [reflexivity|ring].
Qed.

Lemma seq_last k : seq 0 (S k) = (seq 0 k ++ [k])%list. Proof. rewrite seq_S. reflexivity. Qed.
Lemma pass_avg N D ut m sp assign f : forall k x, pass_states N D ut m sp assign k x f ->
  forall l, (pa_avg (f k) l == pa_avg x l + sumQ (map (fun j => mt_tt (pa_m (f (S j))) l / inject_Z sp) (filter (sampled (Z.quot m sp)) (seq 0 k))))%Q.
Proof.
  induction k as [|k IH]; intros x (F0 & F1) l.
  - cbn. rewrite F0. ring.
  - assert (Q : pass_states N D ut m sp assign k x f) by (split; [exact F0|intros j Hj; apply F1; lia]).
    destruct (pass_step_avg _ _ _ _ _ _ _ _ _ (F1 k ltac:(lia))) as (HS & _). destruct (sample_ok _ _ _ _ _ _ HS) as (_ & _ & HA).
    rewrite HA, (IH _ Q l), seq_last, filter_app, map_app, sumQ_app. cbn [filter]. change (sampled (Z.quot m sp) k) with (Z.rem (Z.of_nat k + 1) (Z.quot m sp) =? 0).
    destruct (Z.rem (Z.of_nat k + 1) (Z.quot m sp) =? 0); cbn [map]; rewrite ?sumQ_c, ?sumQ_n; ring.
Qed.

Lemma count_multiples q : 0 < q -> forall k, Zlen (filter (sampled q) (seq 0 k)) = Z.of_nat k / q.
Proof.
  intros Hq. induction k as [|k IH]; [reflexivity|]. rewrite seq_last, filter_app, Zlen_app, IH. cbn [filter]. unfold sampled.
  rewrite Z.rem_mod_nonneg by lia. destruct (Z.eqb_spec ((Z.of_nat k + 1) mod q) 0) as [E|E]; unfold Zlen; cbn [length].
  - pose proof (Z.div_mod (Z.of_nat k + 1) q ltac:(lia)) as DM. rewrite E in DM. rewrite Nat2Z.inj_succ. unfold Z.succ.
    set (d := (Z.of_nat k + 1) / q) in *. assert (Z.of_nat k / q = d - 1); [|lia]. symmetry. apply (Z.div_unique _ _ _ (q - 1)); [left; lia|]. lia.
  - pose proof (Z.div_mod (Z.of_nat k + 1) q ltac:(lia)) as DM. pose proof (Z.mod_pos_bound (Z.of_nat k + 1) q Hq) as MB. rewrite Nat2Z.inj_succ. unfold Z.succ.
    set (d := (Z.of_nat k + 1) / q) in *. assert (Z.of_nat k / q = d); [|lia]. symmetry. apply (Z.div_unique _ _ _ ((Z.of_nat k + 1) mod q - 1)); [left; lia|]. lia.
Qed.

(** * Meters *)
Lemma meter_link_pos l x m m' : (0 <= x)%Q -> (forall l, 0 < mt_tt m l)%Q -> meter_link l x m = Ok m' ->
  (forall l, 0 < mt_tt m' l)%Q /\ mt_rec m' = mt_rec m /\ exists l0, l = Some l0 /\ forall l', l' <> l0 -> mt_tt m' l' = mt_tt m l'.
Proof.
  unfold meter_link. intros Hx P H. destruct l as [l|]; [|discriminate]. apply Ok_inj in H as <-. cbn [mt_tt mt_rec]. split; [|split; [reflexivity|exists l; split; [reflexivity|]]].
  - intros l'. destruct (Z.eq_dec l' l) as [-> | Ne]; [rewrite upd_same|now rewrite upd_other by exact Ne]. unfold blend. pose proof (P l). lra.
  - intros l' Ne. now rewrite upd_other by exact Ne.
Qed.
Lemma elapsed t t0 ut : t0 <= t -> (0 <= ut)%Q -> (0 <= inject_Z (t - t0) * ut)%Q.
Proof. intros A B. apply Qmult_le_0_compat; [change 0%Q with (inject_Z 0); rewrite <- Zle_Qle; lia|exact B]. Qed.

Lemma meter_veh_ok ut t w m v m' : (0 <= ut)%Q -> mt_ok t m -> meter_veh ut t w m v = Ok m' ->
  mt_ok t m' /\ (forall u, u <> v -> mt_rec m' u = mt_rec m u) /\
  (forall l, mt_tt m' l = mt_tt m l \/ exists t0, mt_rec m v = Some (Some l, t0) /\ (0 < v_fin (w_veh w v) \/ v_cur (w_veh w v) <> Some l)).
Proof.
  intros Hu (P & R) H. unfold meter_veh in H. destruct (mt_rec m v) as [[l t0]|] eqn:E.
  - pose proof (R _ _ _ E) as Ht. pose proof (elapsed _ _ _ Ht Hu) as He.
    assert (X : (0 < v_fin (w_veh w v) \/ v_cur (w_veh w v) <> l) /\ exists y, (do m1 <- meter_link l (inject_Z (t - t0) * ut)%Q m; Ok (meter_rec v y m1)) = Ok m' /\ forall l t1, y = Some (l, t1) -> t1 <= t).
    { destruct (Z.ltb_spec 0 (v_fin (w_veh w v))) as [F|F].
      - split; [left; exact F|]. exists None. split; [exact H|]. discriminate.
      - destruct (negb (opt_eqb l (v_cur (w_veh w v)))) eqn:B; [|discriminate]. split.
        + right. intros C. rewrite C in B. destruct l as [l|]; cbn in B; [rewrite Z.eqb_refl in B|]; discriminate B.
        + exists (Some (v_cur (w_veh w v), t)). split; [exact H|]. intros ? ? Z. injection Z as _ <-. lia. }
    destruct X as (XV & y & HX & Hy). apply bind_ok in HX as (m1 & H1 & HX). apply Ok_inj in HX as <-.
    destruct (meter_link_pos _ _ _ _ He P H1) as (P1 & R1 & l0 & -> & K1). split; [|split].
    + split; [exact P1|]. intros u l t1. cbn. rewrite R1. destruct (Z.eq_dec u v) as [-> | Ne]; [rewrite upd_same; apply Hy|rewrite upd_other by exact Ne; apply R].
    + intros u Ne. cbn. rewrite R1. now rewrite upd_other.
    + intros l. cbn. destruct (Z.eq_dec l l0) as [-> | Ne]; [right|left; auto]. exists t0. split; [reflexivity|exact XV].
  - apply Ok_inj in H as <-. split; [|split; [|auto]].
    + split; [exact P|]. intros u l t1. cbn. destruct (Z.eq_dec u v) as [-> | Ne]; [rewrite upd_same; intros Z; injection Z as _ <-; lia|rewrite upd_other by exact Ne; apply R].
    + intros u Ne. cbn. now rewrite upd_other.
Qed.

Lemma meter_fold ut t w : (0 <= ut)%Q -> forall vs m m', NoDup vs -> mt_ok t m -> foldM (meter_veh ut t w) m vs = Ok m' ->
  mt_ok t m' /\ (forall u, ~ In u vs -> mt_rec m' u = mt_rec m u) /\
  (forall l, mt_tt m' l = mt_tt m l \/ exists v t0, In v vs /\ mt_rec m v = Some (Some l, t0) /\ (0 < v_fin (w_veh w v) \/ v_cur (w_veh w v) <> Some l)).
Proof.
  intros Hu. induction vs as [|v vs IH]; intros m m' ND M H; cbn [foldM] in H.
  - apply Ok_inj in H as <-. auto.
  - apply bind_ok in H as (m1 & H1 & H). inversion ND as [|? ? NI ND']; subst. destruct (meter_veh_ok _ _ _ _ _ _ Hu M H1) as (M1 & K1 & C1).
    destruct (IH _ _ ND' M1 H) as (M2 & K2 & C2). split; [exact M2|]. split.
    + intros u Hn. rewrite K2, K1; [reflexivity|intros ->; apply Hn; now left|intros I; apply Hn; now right].
    + intros l. destruct (C2 l) as [E2 | (u & t0 & I & R & V)].
      * destruct (C1 l) as [E1 | (t0 & R & V)]; [left; congruence|right; exists v, t0; split; [now left|auto]].
      * right. exists u, t0. split; [now right|]. rewrite <- K1; [auto|intros ->; contradiction].
Qed.
Lemma foldM_concat {A B C} (f : A -> B -> res A) (g : C -> list B) : forall ls a, foldM (fun a l => foldM f a (g l)) a ls = foldM f a (concat (map g ls)).
Proof.
  induction ls as [|l ls IH]; intros a; [reflexivity|]. cbn [foldM map concat]. rewrite foldM_app. destruct (foldM f a (g l)); cbn [bind]; auto.
Qed.
Lemma meter_flat N ut t w m : meter_update N ut t w m = foldM (meter_veh ut t w) m (concat (map (fun l => l_in (w_link w l)) (n_links N))).
Proof. apply foldM_concat. Qed.

Lemma meter_pos ut t w : (0 <= ut)%Q -> forall vs m m', mt_ok t m -> foldM (meter_veh ut t w) m vs = Ok m' -> mt_ok t m'.
Proof.
  intros Hu. induction vs as [|v vs IH]; intros m m' M H; cbn [foldM] in H; [now apply Ok_inj in H as <-|].
  apply bind_ok in H as (m1 & H1 & H). eapply IH; [|exact H]. eapply meter_veh_ok; eauto.
Qed.
Lemma pass_pos N D ut m sp assign f : (0 <= ut)%Q -> forall k x, mt_ok 0 (pa_m x) -> pass_states N D ut m sp assign k x f ->
  forall j, (j <= k)%nat -> mt_ok (Z.of_nat j) (pa_m (f j)).
Proof.
  intros Hu k x M (F0 & F1). induction j as [|j IH]; intros Hj; [rewrite F0; exact M|].
  destruct (pass_step_avg _ _ _ _ _ _ _ _ _ (F1 j ltac:(lia))) as (_ & w & HM). rewrite meter_flat in HM.
  destruct (meter_pos _ _ _ Hu _ _ _ (IH ltac:(lia)) HM) as (P & R). split; [exact P|]. intros v l t0 E. apply R in E. lia.
Qed.
Lemma meter_init_ok w : (forall l, par_pos (l_par (w_link w l))) -> mt_ok 0 (meter_init w).
Proof.
  intros P. split; [|discriminate]. intros l. cbn. destruct (P l) as (A & B). apply Qlt_shift_div_l; [exact B|]. lra.
Qed.

(** * Prediction *)
Definition pk (w w' : world) : Prop := (paired (w_cc w) -> paired (w_cc w')) /\ w_fac w' = w_fac w.
Lemma pk_trans a b c : pk a b -> pk b c -> pk a c. Proof. unfold pk. intuition congruence. Qed.
Lemma nodes_pk N D t w w' : net_ok N -> draws_valid D -> paired (w_cc w) -> foldM (node_evolve N D t) w (n_nodes N) = Ok w' -> paired (w_cc w') /\ w_fac w' = w_fac w.
Proof.
  intros K DV I H. eapply (foldM_inv (node_evolve N D t) (fun x => paired (w_cc x) /\ w_fac x = w_fac w)); [|split; [exact I|reflexivity]|exact H].
  intros nk s s' Hin [Hs R] E. destruct (node_neff N D t s s' nk K DV Hs Hin E) as (e & lv & o & d & J).
  split; [eapply neff_paired; eauto|]. destruct (ne_keep _ _ _ _ _ _ _ _ J) as (Ef & _). congruence.
Qed.
Lemma links_cc D ls w w' : foldM (link_step D) w ls = Ok w' -> w_cc w' = w_cc w.
Proof.
  apply (foldM_rel (fun a b => w_cc b = w_cc a)); [reflexivity|congruence|]. intros s l s' _ H. unfold link_step in H.
  apply bind_ok in H as (x & _ & H). apply bind_ok in H as (y & _ & H). now apply Ok_inj in H as <-.
Qed.
Lemma receive1_keep t ns w w' : foldM (receive1 t) w ns = Ok w' -> w_fac w' = w_fac w /\ w_cc w' = w_cc w.
Proof.
  apply (foldM_rel (fun a b => w_fac b = w_fac a /\ w_cc b = w_cc a)); [auto|intuition congruence|]. intros s n s' _ H. unfold receive1 in H.
  apply bind_ok in H as (w1 & H1 & H). apply Ok_inj in H as <-. cbn [set_dq w_fac w_cc].
  refine (foldM_rel (fun a b => w_fac b = w_fac a /\ w_cc b = w_cc a) _ _ _ _ _ _ _ H1); [auto|intuition congruence|]. intros x v y _ E.
  apply bind_ok in E as (? & _ & E). apply Ok_inj in E as <-. auto.
Qed.
Lemma predict_tail N D t w w2 w3 w4 w5 : net_ok N -> draws_valid D -> paired (w_cc w) ->
  update_routing N D t w = Ok w2 -> foldM (node_evolve N D t) w2 (n_nodes N) = Ok w3 -> foldM (link_step D) w3 (n_links N) = Ok w4 ->
  foldM (receive1 t) w4 (n_dests N) = Ok w5 -> paired (w_cc w5) /\ w_fac w5 = w_fac w.
Proof.
  intros K DV P H2 H3 H4 H5. destruct (update_routing_r _ _ _ _ _ H2) as ((_ & _ & _ & E1 & E2) & _). rewrite <- E1 in P.
  destruct (nodes_pk _ _ _ _ _ K DV P H3) as (P3 & F3). pose proof (links_fac _ _ _ _ H4) as F4. pose proof (links_cc _ _ _ _ H4) as C4.
  destruct (receive1_keep _ _ _ _ H5) as (F5 & C5). split; [rewrite C5, C4; exact P3|congruence].
Qed.


Lemma release_n_keep D t a o d r : forall k w, let w' := release_n k D t a o d r w in w_cc w' = w_cc w /\ f_finished (w_fac w') = f_finished (w_fac w) /\
  f_tt (w_fac w') = f_tt (w_fac w) /\ f_done (w_fac w') = f_done (w_fac w) /\ f_num (w_fac w) <= f_num (w_fac w').
Proof.
  induction k as [|k IH]; intros w; cbn zeta; [cbn; repeat split; lia|]. cbn [release_n].
  match goal with |- context [release_n k D t a o d r ?x] => destruct (IH x) as (A & B & C & E & F) end. rewrite A, B, C, E. cbn in F |- *. repeat split. lia.
Qed.
Definition keepr (w w' : world) : Prop := w_cc w' = w_cc w /\ f_finished (w_fac w') = f_finished (w_fac w) /\
  f_tt (w_fac w') = f_tt (w_fac w) /\ f_done (w_fac w') = f_done (w_fac w) /\ f_num (w_fac w) <= f_num (w_fac w').
Lemma keepr_refl w : keepr w w. Proof. unfold keepr. repeat split. lia. Qed.
Lemma keepr_trans a b c : keepr a b -> keepr b c -> keepr a c.
Proof. unfold keepr. intros (A1 & A2 & A3 & A4 & A5) (B1 & B2 & B3 & B4 & B5). repeat split; try congruence. lia. Qed.
Lemma release_dests_keep N D t a o : forall ds r w, keepr w (release_dests N D t a o r ds w).
Proof.
  induction ds as [|[d dem] ds IH]; intros r w; [apply keepr_refl|]. cbn [release_dests]. eapply keepr_trans; [|apply IH]. apply release_n_keep.
Qed.
Lemma release_fold_keep N D t a r : forall os w, keepr w (fold_left (release_one N D t a r) os w).
Proof.
  induction os as [|o os IH]; intros w; [apply keepr_refl|]. cbn [fold_left]. eapply keepr_trans; [|apply IH].
  unfold release_one. destruct (a <? 0); [apply keepr_refl|]. exact (release_dests_keep _ _ _ _ _ _ _ _).
Qed.

Lemma predict_step_eff N D t s s' : net_ok N -> draws_valid D -> paired (w_cc (snd s)) -> predict_step N D t s = Ok s' ->
  n_freq N <> 0 /\ paired (w_cc (snd s')) /\ f_finished (w_fac (snd s')) = f_finished (w_fac (snd s)) /\ f_tt (w_fac (snd s')) = f_tt (w_fac (snd s)) /\
  f_done (w_fac (snd s')) = f_done (w_fac (snd s)) /\ f_num (w_fac (snd s)) <= f_num (w_fac (snd s')) /\
  (Z.rem (t + 1) (n_freq N) <> 0 -> w_fac (snd s') = w_fac (snd s) /\ fst s' = fst s) /\
  (Z.rem (t + 1) (n_freq N) = 0 -> n_total_assign N <> 0 /\ fst s' = Z.rem (fst s) (n_total_assign N) + 1 /\
     w_fac (snd s') = w_fac (fold_left (release_one N D t (Z.rem (fst s) (n_total_assign N)) 0%Q) (n_origins N) (snd s))).
Proof.
  intros K DV P H. unfold predict_step in H. apply bind_ok in H as ([] & G & H). apply guard_ok, negb_true_iff, Z.eqb_neq in G. split; [exact G|].
  apply bind_ok in H as (r & HR & H). apply bind_ok in H as (w2 & H2 & H). apply bind_ok in H as (w3 & H3 & H). apply bind_ok in H as (w4 & H4 & H).
  apply bind_ok in H as (w5 & H5 & H). apply Ok_inj in H as <-. cbn [fst snd].
  destruct (Z.eqb_spec (Z.rem (t + 1) (n_freq N)) 0) as [E|E].
  - apply bind_ok in HR as ([] & G2 & HR). apply guard_ok, negb_true_iff, Z.eqb_neq in G2. apply Ok_inj in HR as <-. cbn [fst snd] in *.
    destruct (release_fold_keep N D t (Z.rem (fst s) (n_total_assign N)) 0%Q (n_origins N) (snd s)) as (R1 & R2 & R3 & R4 & R5). rewrite <- R1 in P.
    destruct (predict_tail _ _ _ _ _ _ _ _ K DV P H2 H3 H4 H5) as (P5 & F5). rewrite F5. split; [exact P5|]. do 3 (split; [assumption|]). split; [exact R5|]. split; [intros C; contradiction|]. auto.
  - apply Ok_inj in HR as <-. destruct (predict_tail _ _ _ _ _ _ _ _ K DV P H2 H3 H4 H5) as (P5 & F5). rewrite F5. split; [exact P5|]. do 3 (split; [reflexivity|]). split; [lia|]. split; [auto|]. intros C; contradiction.
Qed.

Lemma predict_eff N D : net_ok N -> (forall t, draws_valid (D t)) -> forall k s s', paired (w_cc (snd s)) -> predict N D k s = Ok s' ->
  paired (w_cc (snd s')) /\ f_finished (w_fac (snd s')) = f_finished (w_fac (snd s)) /\ f_tt (w_fac (snd s')) = f_tt (w_fac (snd s)) /\
  f_done (w_fac (snd s')) = f_done (w_fac (snd s)) /\ f_num (w_fac (snd s)) <= f_num (w_fac (snd s')).
Proof.
  intros K DV. induction k as [|k IH]; intros s s' P H; cbn [predict] in H.
  - apply Ok_inj in H as <-. split; [exact P|]. do 3 (split; [reflexivity|]). lia.
  - apply bind_ok in H as (s1 & H1 & H). destruct (IH _ _ P H1) as (P1 & A & B & C & E).
    destruct (predict_step_eff _ _ _ _ _ K (DV _) P1 H) as (_ & P2 & A2 & B2 & C2 & E2 & _). split; [exact P2|]. do 3 (split; [congruence|]). lia.
Qed.
Lemma predict_early N D : net_ok N -> (forall t, draws_valid (D t)) -> forall k s s', paired (w_cc (snd s)) -> predict N D k s = Ok s' ->
  Z.of_nat k < n_freq N -> w_fac (snd s') = w_fac (snd s) /\ fst s' = fst s.
Proof.
  intros K DV. induction k as [|k IH]; intros s s' P H L; cbn [predict] in H.
  - apply Ok_inj in H as <-. auto.
  - apply bind_ok in H as (s1 & H1 & H). destruct (IH _ _ P H1 ltac:(lia)) as (A & B). destruct (predict_eff _ _ K DV _ _ _ P H1) as (P1 & _).
    destruct (predict_step_eff _ _ _ _ _ K (DV _) P1 H) as (_ & _ & _ & _ & _ & _ & X & _).
    destruct X as (X1 & X2); [rewrite Z.rem_small by lia; lia|]. split; congruence.
Qed.
Lemma predict_counter N D : net_ok N -> (forall t, draws_valid (D t)) -> 0 < n_freq N -> 0 < n_total_assign N -> forall k s s', paired (w_cc (snd s)) -> 0 <= fst s -> predict N D k s = Ok s' ->
  fst s' = if Z.of_nat k / n_freq N =? 0 then fst s else (fst s + Z.of_nat k / n_freq N - 1) mod (n_total_assign N) + 1.
Proof.
  intros K DV Hf Ht. induction k as [|k IH]; intros s s' P Hs H; cbn [predict] in H.
  - apply Ok_inj in H as <-. rewrite Z.div_0_l by lia. reflexivity.
  - apply bind_ok in H as (s1 & H1 & H). specialize (IH _ _ P Hs H1). destruct (predict_eff _ _ K DV _ _ _ P H1) as (P1 & _).
    destruct (predict_step_eff _ _ _ _ _ K (DV _) P1 H) as (_ & _ & _ & _ & _ & _ & X & Y).
    pose proof (count_multiples _ Hf k) as C0. pose proof (count_multiples _ Hf (S k)) as C1. rewrite seq_last, filter_app, Zlen_app, C0 in C1. cbn [filter] in C1. unfold sampled in C1.
    assert (NN : 0 <= Z.of_nat k / n_freq N) by (apply Z.div_pos; lia).
    destruct (Z.eqb_spec (Z.rem (Z.of_nat k + 1) (n_freq N)) 0) as [E|E]; unfold Zlen in C1; cbn [length] in C1; rewrite <- C1.
    + destruct (Y E) as (_ & Y1 & _). rewrite Y1, IH. replace (Z.of_nat k / n_freq N + Z.of_nat 1 =? 0) with false by (symmetry; apply Z.eqb_neq; lia). f_equal.
      rewrite Z.rem_mod_nonneg; [| |lia].
      * destruct (Z.eqb_spec (Z.of_nat k / n_freq N) 0) as [Z|Z]; [rewrite Z; f_equal; lia|]. rewrite Z.add_mod_idemp_l by lia. f_equal. lia.
      * destruct (Z.eqb_spec (Z.of_nat k / n_freq N) 0) as [Z|Z]; [exact Hs|]. pose proof (Z.mod_pos_bound (fst s + Z.of_nat k / n_freq N - 1) (n_total_assign N) Ht). lia.
    + destruct (X E) as (_ & X1). replace (Z.of_nat k / n_freq N + Z.of_nat 0) with (Z.of_nat k / n_freq N) by lia. congruence.
Qed.

(** * Screenshots: flows and supply *)
Lemma cells_like_vol cs cs' : Forall2 (fun c c' => c_hold c' = c_hold c /\ c_flow c' = c_flow c /\ c_wr c' = c_wr c /\ c_vol c' = 0 /\ length (c_q c') = length (c_q c)) cs cs' -> sumZ (map c_vol cs') = 0.
Proof. induction 1 as [|c c' cs cs' (_ & _ & _ & V & _) F IH]; [reflexivity|]. cbn [map sumZ fold_right]. cbn in IH |- *. unfold sumZ in *. cbn in *. lia. Qed.
Local Open Scope Q_scope.
Lemma copy_p_In k pt key es e n : bufs n pt -> (k < n)%nat -> In (key, es) (copy_p k pt) -> In e es ->
  exists es0 e0, In (key, es0) pt /\ In e0 es0 /\ e_path e = e_path e0 /\ e_p e = e_p e0 /\ get_col k e = e_p e0 /\ forall j, j <> k -> get_col j e = get_col j e0.
Proof.
  intros B L I J. unfold copy_p in I. apply in_map_iff in I as ([k0 es0] & E & I). cbn [fst snd] in E. injection E as <- <-.
  apply in_map_iff in J as (e0 & <- & J). exists es0, e0. pose proof (B _ _ _ I J) as LB.
  split; [exact I|]. split; [exact J|]. split; [reflexivity|]. split; [reflexivity|]. split; [rewrite get_set_col by lia; now rewrite Nat.eqb_refl|].
  intros j Hj. rewrite get_set_col by lia. apply Nat.eqb_neq in Hj. now rewrite Hj.
Qed.
Lemma copy_p_same k pt : same_table pt (copy_p k pt).
Proof.
  unfold same_table, copy_p. induction pt as [|[key es] pt IH]; cbn [map]; constructor; [|exact IH]. cbn. split; [reflexivity|].
  unfold same_shares. clear IH. induction es; cbn [map]; constructor; auto. cbn. split; reflexivity.
Qed.
Lemma copy_p_bufs k n pt : bufs n pt -> bufs n (copy_p k pt).
Proof.
  intros B key es e I J. unfold copy_p in I. apply in_map_iff in I as ([k0 es0] & E & I). cbn [fst snd] in E. injection E as <- <-.
  apply in_map_iff in J as (e0 & <- & J). cbn. rewrite set_nth_len. eapply B; eauto.
Qed.
Lemma via_zero b (x : Z * Z -> pentry -> Q) pt : (forall k es e, In (k, es) pt -> In e es -> x k e == 0) -> via_sum b x pt == 0.
Proof.
  intros H. unfold via_sum. induction pt as [|[k es] pt IH]; [reflexivity|]. sq. rewrite IH by (intros; eapply H; [right|]; eauto).
  assert (E : sumQ (map (fun e => if in_dec Z.eq_dec b (r_links (e_path e)) then x (fst (k, es)) e else 0) (snd (k, es))) == 0); [|rewrite E; reflexivity].
  cbn [fst snd]. assert (HH : forall e, In e es -> x k e == 0) by (intros; eapply H; [left; reflexivity|assumption]). clear IH H.
  induction es as [|e es IH]; [reflexivity|]. sq. rewrite IH by (intros; apply HH; now right). destruct (in_dec _ _ _); [rewrite (HH e) by now left|]; ring.
Qed.
Lemma plan_flat pt1 pt2 (dem : Z * Z -> Q) pt : bufs 4 pt -> pt1 = copy_p 0 pt -> kept_but_t 3 pt1 pt2 -> forall b, gain dem (copy_p 2 pt2) b == 0.
Proof.
  intros B -> K b. assert (B1 : bufs 4 (copy_p 0 pt)) by now apply copy_p_bufs. assert (B2 : bufs 4 pt2) by (eapply kept_bufs; eauto).
  apply via_zero. intros k es e I J. destruct (copy_p_In 2 pt2 k es e 4 B2 ltac:(lia) I J) as (es2 & e2 & I2 & J2 & _ & _ & C2 & C0).
  destruct (Forall2_In_r _ _ _ _ K I2) as ([k1 es1] & I1 & E1 & F). cbn in E1, F. subst k1.
  destruct (Forall2_In_r _ _ _ _ F J2) as (e1 & J1 & _ & P1 & _ & G1). destruct (copy_p_In 0 pt k es1 e1 4 B ltac:(lia) I1 J1) as (es0 & e0 & I0 & J0 & _ & P0 & C & _).
  change (nth 2 (e_buf e) 0) with (get_col 2 e). change (nth 0 (e_buf e) 0) with (get_col 0 e). rewrite C2, (C0 0%nat) by lia. rewrite (G1 0%nat) by lia. rewrite C, P1, P0. ring.
Qed.

(** flow and supply of a copied link *)
Local Open Scope Z_scope.
Lemma copy_flow l l' : l_par l' = l_par l -> length (l_fin l') = length (l_fin l) -> Proof_Rt3.body_like (l_body l) (l_body l') ->
  (link_flow l' = inject_Z (match l_body l with BCtm _ => Zlen (l_fin l) | _ => 0 end) / p_fs (l_par l))%Q /\ link_supply l' = link_supply (blank l).
Proof.
  intros EP EF B. unfold link_flow, link_supply, blank. cbn [l_body l_par l_fin]. rewrite EP.
  destruct (l_body l) as [cs|s q v|q v], (l_body l') as [cs'|s' q' v'|q' v']; cbn [Proof_Rt3.body_like] in B; try contradiction.
  - split; [rewrite (cells_like_vol cs cs' B); unfold Zlen; rewrite EF; reflexivity|]. destruct B as [|c c' cs cs' (H1 & H2 & H3 & H4 & _) B]; [reflexivity|]. cbn [map ctm_supply].
    unfold cell_supply, blank_cell. cbn [c_vol c_hold c_flow c_wr]. rewrite H1, H2, H3, H4. reflexivity.
  - destruct B as (-> & -> & _). split; reflexivity.
  - destruct B as (-> & ->). split; reflexivity.
Qed.
