(** Emission totals over a run. *)
From Coq Require Import Lia Lqa QArith Qround Setoid.
From Verif Require Import Base Base_lemmas Spec_Path Model_Num Proof_Num Model_Link Spec_Link Spec_Node Model_McLink Spec_McLink Model_World Model_Node Model_Sim Spec_Sim
  Model_McNode Model_McSim Proof_Link4 Proof_GRJ Proof_Node Proof_Sim2 Proof_Sim3 Model_Emission Spec_Emission Proof_Emission.
Local Open Scope Q_scope.

Lemma load_once_split N D t a w : load_once N D t a w = (do w4 <- load_links N D t a w; foldM (receive N t) w4 (n_dests N)).
Proof.
  unfold load_once, load_links. destruct (release_all N D t a w); cbn [bind]; [|reflexivity]. destruct (update_routing _ _ _ _); cbn [bind]; [|reflexivity].
  destruct (foldM _ _ (n_nodes N)); reflexivity.
Qed.
Lemma mload_once_split M D t a w : mload_once M D t a w = (do w4 <- mload_links M D t a w; foldM (mreceive M t) w4 (mn_dests M)).
Proof.
  unfold mload_once, mload_links. destruct (mrelease_all M D t a w); cbn [bind]; [|reflexivity]. destruct (mupdate_routing _ _ _ _); cbn [bind]; [|reflexivity].
  destruct (foldM _ _ (mn_nodes M)); reflexivity.
Qed.

Lemma em_step N D ut f ev E k s c s' c' : run_em N D ut f ev E (S k) s c = Ok (s', c') -> exists s1 c1 w,
  run_em N D ut f ev E k s c = Ok (s1, c1) /\ moved_to N D s1 w /\ loop_body N D s1 = Ok s' /\ em_update ut f ev (map (w_link w) E) c1 = Ok c'.
Proof.
  cbn [run_em]. intros H. apply bind_ok in H as ([s1 c1] & H1 & H). cbn [fst snd] in H. apply bind_ok in H as ([w5 c2] & H2 & H). cbn [fst snd] in H.
  apply Ok_pair in H as [E1 E2]. subst s' c'. unfold load_once_em in H2. apply bind_ok in H2 as (w4 & H3 & H2). apply bind_ok in H2 as (c3 & H4 & H2).
  apply bind_ok in H2 as (w5' & H5 & H2). apply Ok_pair in H2 as [E3 E4]. subst w5 c2. exists s1, c1, w4. split; [exact H1|].
  assert (L : load_once N (D (s_cur s1)) (s_cur s1) (s_assign s1) (s_w s1) = Ok w5') by (rewrite load_once_split, H3; exact H5).
  split; [split; [exact H3|]; exists w5'; split; [exact H5|exact L]|]. split; [|exact H4].
  unfold loop_body. rewrite L. reflexivity.
Qed.
Lemma em_same_run N D ut f ev E : forall k s c s' c', run_em N D ut f ev E k s c = Ok (s', c') -> run N D k s = Ok s'.
Proof.
  induction k as [|k IH]; intros s c s' c' H; [cbn [run_em] in H; apply Ok_pair in H as [E1 _]; subst; reflexivity|].
  apply em_step in H as (s1 & c1 & w & H1 & _ & H2 & _). cbn [run]. rewrite (IH _ _ _ _ H1). exact H2.
Qed.

Lemma since_S f k : since f (S k) = if (Z.of_nat (since f k) + 1 =? f)%Z then 0%nat else S (since f k).
Proof.
  unfold since. destruct (Z.leb_spec f 0) as [H|H].
  - destruct (Z.eqb_spec (Z.of_nat k + 1) f); [lia|reflexivity].
  - pose proof (Z.mod_pos_bound (Z.of_nat k) f H) as B. rewrite Z2Nat.id by lia.
    assert (X : (Z.of_nat (S k) mod f = if Z.of_nat k mod f + 1 =? f then 0 else Z.of_nat k mod f + 1)%Z).
    { replace (Z.of_nat (S k)) with (Z.of_nat k + 1)%Z by lia. rewrite <- Zplus_mod_idemp_l. destruct (Z.eqb_spec (Z.of_nat k mod f + 1) f) as [->|Ne]; [apply Z_mod_same_full|apply Z.mod_small; lia]. }
    rewrite X. destruct (_ =? f)%Z; [reflexivity|]. lia.
Qed.
Lemma since_le f k : (since f k <= k)%nat.
Proof. induction k as [|k IH]; [unfold since; destruct (f <=? 0)%Z; [lia|rewrite Zmod_0_l; cbn; lia]|]. rewrite since_S. destruct (_ =? f)%Z; lia. Qed.

Definition recent (f : Z) (k : nat) (G : nat -> list sighting) : list sighting := concat (map G (seq (k - since f k) (since f k))).
Lemma recent_S f k G Gs : recent f (S k) (fun j => if (j =? k)%nat then Gs else G j) = if (Z.of_nat (since f k) + 1 =? f)%Z then [] else (recent f k G ++ Gs)%list.
Proof.
  unfold recent. rewrite since_S. destruct (_ =? f)%Z; [reflexivity|]. pose proof (since_le f k) as L. replace (S k - S (since f k))%nat with (k - since f k)%nat by lia.
  rewrite seq_S, map_app, concat_app. replace (k - since f k + since f k)%nat with k by lia. cbn [map concat]. rewrite Nat.eqb_refl, app_nil_r. f_equal. f_equal.
  apply map_ext_in. intros j Hj. apply in_seq in Hj. destruct (Nat.eqb_spec j k); [lia|reflexivity].
Qed.
Lemma em_totals N D ut f ev E : forall k s s' n x, run_em N D ut f ev E k s (0%Z, em_zero) = Ok (s', (n, x)) ->
  n = Z.of_nat (since f k) /\ exists G, observed N D ev E s k G /\ totals car_rate ut (recent f k G) x.
Proof.
  induction k as [|k IH]; intros s s' n x H.
  - cbn [run_em] in H. apply Ok_pair in H as [_ H]. injection H as En Ex. subst n x. split; [unfold since; destruct (f <=? 0)%Z; [|rewrite Zmod_0_l]; reflexivity|].
    exists (fun _ => []). split; [intros j Hj; lia|]. unfold recent. replace (since f 0) with 0%nat by (pose proof (since_le f 0); lia). cbn [seq map concat].
    split; [intros p; reflexivity|split; reflexivity].
  - apply em_step in H as (s1 & [n1 x1] & w & H1 & Mv & H2 & H3). destruct (IH _ _ _ _ H1) as (En & G & Ob & T). pose proof (em_same_run _ _ _ _ _ _ _ _ _ _ _ H1) as R1.
    unfold em_update in H3. cbv zeta in H3. cbn [fst snd] in H3. apply bind_ok in H3 as (x2 & H4 & H3).
    destruct (links_sees _ _ _ _ _ H4) as (Gs & S1 & A & B & C). rewrite En in H3.
    assert (Ob' : observed N D ev E s (S k) (fun j => if (j =? k)%nat then Gs else G j)).
    { intros j Hj. destruct (Nat.eqb_spec j k) as [->|Ne].
      - exists s1, w. split; [exact R1|]. split; [exact Mv|]. clear - S1. revert Gs S1. induction E as [|l E IH]; intros Gs S1; cbn [map] in S1; inversion S1; subst; constructor; auto.
      - apply Ob. lia. }
    rewrite since_S. destruct (Z.of_nat (since f k) + 1 =? f)%Z eqn:Q; apply Ok_inj in H3; injection H3 as <- <-.
    + split; [reflexivity|]. exists (fun j => if (j =? k)%nat then Gs else G j). split; [exact Ob'|]. rewrite recent_S, Q. split; [intros p; reflexivity|split; reflexivity].
    + split; [lia|]. exists (fun j => if (j =? k)%nat then Gs else G j). split; [exact Ob'|]. rewrite recent_S, Q. destruct T as (T1 & T2 & T3). split; [|split].
      * intros p. rewrite A, T1, emitted_app. reflexivity.
      * rewrite B, T2, driven_app. reflexivity.
      * rewrite C, T3, driven_electric_app. reflexivity.
Qed.

(** * The parameters of a link never change, so the totals are always defined *)
Definition same_par (w w' : world) : Prop := forall l, l_par (w_link w' l) = l_par (w_link w l).
Lemma same_par_refl w : same_par w w. Proof. intros l; reflexivity. Qed.
Lemma same_par_trans a b c : same_par a b -> same_par b c -> same_par a c.
Proof. intros A B l. now rewrite B. Qed.
Lemma release_n_link k D cur assign o d ratio : forall w, w_link (release_n k D cur assign o d ratio w) = w_link w.
Proof. induction k as [|k IH]; intros w; [reflexivity|]. cbn [release_n]. cbv zeta. rewrite IH. reflexivity. Qed.
Lemma release_dests_link N D cur assign o : forall ds ratio w, w_link (release_dests N D cur assign o ratio ds w) = w_link w.
Proof. induction ds as [|[d dem] ds IH]; intros ratio w; [reflexivity|]. cbn [release_dests]. cbv zeta. rewrite IH. apply release_n_link. Qed.
Lemma release_all_link N D cur assign w w' : release_all N D cur assign w = Ok w' -> w_link w' = w_link w.
Proof.
  unfold release_all. intros H. apply bind_ok in H as (u & _ & H). destruct (_ =? 0)%Z; apply Ok_inj in H as <-; [|reflexivity].
  set (asg := if (n_total_assign N <=? assign)%Z then (-1)%Z else assign). clearbody asg.
  generalize (n_origins N). intros os. revert w. induction os as [|o os IH]; intros w; [reflexivity|]. cbn [fold_left]. rewrite IH.
  unfold release_one. destruct (asg <? 0)%Z; [reflexivity|]. cbn [set_oq w_link]. apply release_dests_link.
Qed.
Lemma link_clear_par l l' : link_clear l = Ok l' -> l_par l' = l_par l.
Proof.
  unfold link_clear. destruct (l_body l); intros H.
  - apply bind_ok in H as (r & _ & H). apply Ok_inj in H as <-. reflexivity.
  - cbv zeta in H. apply Ok_inj in H as <-. reflexivity.
  - apply bind_ok in H as (r & _ & H). apply Ok_inj in H as <-. reflexivity.
Qed.
Lemma link_evolve_par r h l l' : link_evolve r h l = Ok l' -> l_par l' = l_par l.
Proof.
  unfold link_evolve. destruct (l_body l); intros H.
  - apply bind_ok in H as (m & _ & H). apply Ok_inj in H as <-. reflexivity.
  - cbv zeta in H. apply Ok_inj in H as <-. reflexivity.
  - apply bind_ok in H as (m & _ & H). apply Ok_inj in H as <-. reflexivity.
Qed.
Lemma link_step_par D w l w' : link_step D w l = Ok w' -> same_par w w'.
Proof.
  unfold link_step. intros H. apply bind_ok in H as (x & Hx & H). apply bind_ok in H as (y & Hy & H). apply Ok_inj in H as <-. intros l'. cbn [set_link w_link].
  unfold upd. destruct (Z.eqb_spec l' l) as [->|Ne]; [|reflexivity]. rewrite (link_evolve_par _ _ _ _ Hy). apply link_clear_par, Hx.
Qed.
Lemma load_links_par N D t a w w' : net_ok N -> draws_valid D -> sinv N w -> load_links N D t a w = Ok w' -> same_par w w'.
Proof.
  intros K DV I H. unfold load_links in H. apply bind_ok in H as (w1 & H1 & H). apply bind_ok in H as (w2 & H2 & H). apply bind_ok in H as (w3 & H3 & H).
  pose proof (release_all_sinv _ _ _ _ _ _ K DV H1 I) as I1. pose proof (update_routing_q _ _ _ _ _ H2) as Q2. pose proof (sinv_q _ _ _ Q2 I1) as I2.
  apply (same_par_trans w w2). { intros l. destruct Q2 as (-> & _). now rewrite (release_all_link _ _ _ _ _ _ H1). }
  apply (same_par_trans w2 w3).
  - assert (X : sinv N w3 /\ same_par w2 w3); [|apply X].
    refine (foldM_inv (node_evolve N D t) (fun s => sinv N s /\ same_par w2 s) _ _ _ _ _ H3).
    + intros nk s s' Hin [Hs Sp] En. destruct (node_neff N D t s s' nk K DV (i_paired N s Hs) Hin En) as (e & lv & o & d & J). split; [eapply neff_sinv; eauto|].
      intros l. destruct (ne_like _ _ _ _ _ _ _ _ J l) as [-> _]. apply Sp.
    + split; [exact I2|apply same_par_refl].
  - refine (foldM_rel same_par (link_step D) same_par_refl same_par_trans _ _ _ _ H). intros s l s' _. apply link_step_par.
Qed.
Lemma receive_par N t ds w w' : foldM (receive N t) w ds = Ok w' -> same_par w w'.
Proof.
  intros H. refine (foldM_rel same_par (receive N t) same_par_refl same_par_trans _ _ _ _ H). intros s n s' _ E.
  unfold receive in E. apply bind_ok in E as (w1 & E1 & E). apply Ok_inj in E as <-. apply receive_loop_eff in E1. intros l. cbn [set_dq w_link]. now rewrite (re_link _ _ _ _ _ E1).
Qed.

Lemma run_par N D w0 : net_ok N -> fresh_world N w0 -> (forall t, draws_valid (D t)) -> forall k s, run N D k (init_state N w0) = Ok s -> sinv N (s_w s) /\ same_par w0 (s_w s).
Proof.
  intros K F DV. induction k as [|k IH]; intros s H.
  - cbn [run] in H. apply Ok_inj in H as <-. split; [now apply fresh_sinv|apply same_par_refl].
  - apply run_S in H as (s1 & H1 & H2). destruct (IH _ H1) as [I P]. apply loop_body_inv in H2 as (w & H2 & _ & -> & _). split; [eapply load_once_sinv; eauto|].
    rewrite load_once_split in H2. apply bind_ok in H2 as (w4 & H3 & H4). eapply same_par_trans; [exact P|]. eapply same_par_trans; [eapply load_links_par; eauto|]. eapply receive_par; eauto.
Qed.
Lemma tt_pos p x : road_ok p -> exists t, tt_from_flow p x = Ok t /\ 0 < t.
Proof.
  intros (L & Hl & Hf). unfold tt_from_flow.
  assert (L' : 0 < inject_Z (p_lanes p)) by (change 0 with (inject_Z 0); rewrite <- Zlt_Qlt; lia).
  assert (P : 0 < inject_Z (p_lanes p) * p_len p * p_ffs p). { assert (0 < inject_Z (p_lanes p) * p_len p) by (apply Qmult_lt_0_compat; assumption). apply Qmult_lt_0_compat; assumption. }
  replace (Qeq_bool _ 0) with false by (symmetry; destruct (Qeq_bool _ 0) eqn:X; [apply Qeq_bool_iff in X; lra|reflexivity]). cbn [negb guard bind]. cbv zeta.
  destruct (Qle_bool (p_hold p) _); [eexists; split; [reflexivity|]; reflexivity|]. eexists. split; [reflexivity|].
  assert (Dv : forall y, 0 < y -> 0 < p_len p / y) by (intros y Hy; unfold Qdiv; apply Qmult_lt_0_compat; [assumption|apply Qinv_lt_0_compat; assumption]).
  apply Dv. destruct (Qle_bool _ _); [exact Hf|]. eapply Qlt_le_trans; [|apply Q.le_max_l]. apply Qmult_lt_0_compat; [|exact Hf]. destruct (p_kind p); reflexivity.
Qed.
Lemma em_link_total ut ev x l : road_ok (l_par l) -> exists x', em_link ut ev x l = Ok x'.
Proof.
  intros R. unfold em_link, link_tt. destruct (tt_pos (l_par l) (link_flow l) R) as (t & -> & Ht). cbn [bind].
  replace (Qeq_bool t 0) with false by (symmetry; destruct (Qeq_bool t 0) eqn:X; [apply Qeq_bool_iff in X; lra|reflexivity]). cbn [negb guard bind]. cbv zeta.
  destruct (rates_ok _ (em_mph_range (p_len (l_par l) / t))) as (r & -> & _). cbn [bind]. destruct (link_emission ev l). eauto.
Qed.
Lemma em_total N D w0 ut f ev E : net_ok N -> fresh_world N w0 -> (forall t, draws_valid (D t)) -> (forall l, In l E -> road_ok (l_par (w_link w0 l))) ->
  forall k s c, run N D k (init_state N w0) = Ok s -> exists c', run_em N D ut f ev E k (init_state N w0) c = Ok (s, c').
Proof.
  intros K F DV R. induction k as [|k IH]; intros s c H.
  - cbn [run] in H. apply Ok_inj in H as <-. exists c. reflexivity.
  - apply run_S in H as (s1 & H1 & H2). destruct (IH _ c H1) as (c1 & Ec). destruct (run_par N D w0 K F DV _ _ H1) as [I P].
    pose proof H2 as H2'. apply loop_body_inv in H2' as (w & H3 & _). rewrite load_once_split in H3. apply bind_ok in H3 as (w4 & H3 & H4).
    assert (U : exists c2, em_update ut f ev (map (w_link w4) E) c1 = Ok c2).
    { unfold em_update. cbv zeta. assert (X : forall ls x, (forall l, In l ls -> road_ok (l_par l)) -> exists x', foldM (em_link ut ev) x ls = Ok x').
      { clear. induction ls as [|l ls IH]; intros x H; cbn [foldM]; [eauto|]. destruct (em_link_total ut ev x l (H l (or_introl eq_refl))) as (x1 & ->). cbn [bind]. apply IH. intros; apply H; now right. }
      destruct (X (map (w_link w4) E) (snd c1)) as (x' & ->); [|cbn [bind]; eauto].
      intros l Hl. apply in_map_iff in Hl as (l' & <- & Hl'). rewrite (load_links_par _ _ _ _ _ _ K (DV _) I H3), P. auto. }
    destruct U as (c2 & U). exists c2. cbn [run_em]. rewrite Ec. cbn [bind fst snd]. unfold load_once_em. rewrite H3. cbn [bind]. rewrite U. cbn [bind]. rewrite H4. cbn [bind fst snd].
    f_equal. f_equal. unfold loop_body in H2. rewrite load_once_split, H3 in H2. cbn [bind] in H2. rewrite H4 in H2. cbn [bind] in H2. cbv zeta in H2. apply Ok_inj in H2. exact H2.
Qed.

(** * Order between the totals *)
Definition gpos (g : sighting) : Prop := 0 <= g_speed g /\ 0 <= g_fuelled g /\ 0 <= g_electric g.
Lemma count_nonneg fs f vs : 0 < fs -> 0 <= count fs f vs.
Proof.
  intros H. unfold count, Qdiv. apply Qmult_le_0_compat; [change 0 with (inject_Z 0); rewrite <- Zle_Qle; unfold Zlen; lia|]. apply Qinv_le_0_compat. lra.
Qed.
Lemma sees_pos ev l g : road_ok (l_par l) -> 0 < p_fs (l_par l) -> sees ev l g -> gpos g.
Proof.
  intros R Hf (t & Et & _ & A & B & C). unfold link_tt in Et. destruct (tt_pos _ (link_flow l) R) as (t' & Et' & Ht). rewrite Et in Et'. apply Ok_inj in Et' as <-.
  split; [|split; [rewrite B|rewrite C]; now apply count_nonneg]. rewrite A. destruct R as (_ & R & _). unfold Qdiv. apply Qmult_le_0_compat; [lra|]. apply Qinv_le_0_compat. lra.
Qed.
Lemma g_mph_range g : 5 <= g_mph g <= 65.
Proof. rewrite <- em_mph_eq. apply em_mph_range. Qed.
Lemma inv_between x a b : 0 < a -> a < x < b -> / b < / x < / a.
Proof.
  intros Ha [H1 H2]. assert (0 < / x) by (apply Qinv_lt_0_compat; lra). assert (0 < / a) by (apply Qinv_lt_0_compat; lra). assert (0 < / b) by (apply Qinv_lt_0_compat; lra).
  assert (X : x * / x == 1) by (field; lra). assert (A : a * / a == 1) by (field; lra). assert (B : b * / b == 1) by (field; lra). split; nra.
Qed.
Lemma car_rate_bounds p v : 5 <= v <= 65 -> least p < car_rate p v < most p.
Proof.
  intros H. pose proof (inv_between _ 10 33 ltac:(lra) (mpg_between v H)) as [I1 I2]. destruct p; cbn [least most car_rate].
  - unfold Qdiv. lra.
  - unfold Qdiv. lra.
  - pose proof (hc_between v H). lra.
  - apply co_between, H.
  - apply nox_between, H.
Qed.
Lemma truck_multiple_range p i : (i < 3)%nat -> 3 # 2 <= nth i (truck_multiple p) 0 <= 8.
Proof. intros H. destruct i as [|[|[|i]]]; [| | |lia]; destruct p; cbn [nth truck_multiple]; split; vm_compute; discriminate. Qed.
Lemma miles_pos ut g : 0 < ut -> gpos g -> 0 <= g_miles ut g.
Proof. intros U (A & _). unfold g_miles, Qdiv. apply Qmult_le_0_compat; [apply Qmult_le_0_compat; lra|]. vm_compute. discriminate. Qed.
Definition fuelled_miles (ut : Q) (G : list sighting) : Q := driven ut G - driven_electric ut G.
Lemma sums_pos ut p G : 0 < ut -> Forall gpos G ->
  0 <= driven_electric ut G /\ driven_electric ut G <= driven ut G /\ least p * (driven ut G - driven_electric ut G) <= emitted car_rate ut p G <= most p * (driven ut G - driven_electric ut G).
Proof.
  intros U F. induction F as [|g G Hg F (A & B & C & D)]; [unfold driven, driven_electric, emitted; cbn [map]; sq; lra|].
  rewrite driven_cons, driven_electric_cons, emitted_cons. pose proof (miles_pos ut g U Hg) as M. destruct Hg as (_ & Gf & Ge).
  assert (X : 0 <= g_miles ut g * g_fuelled g) by (apply Qmult_le_0_compat; assumption). assert (Y : 0 <= g_miles ut g * g_electric g) by (apply Qmult_le_0_compat; assumption).
  destruct (car_rate_bounds p (g_mph g) (g_mph_range g)) as [R1 R2].
  assert (Z1 : least p * (g_miles ut g * g_fuelled g) <= car_rate p (g_mph g) * (g_miles ut g * g_fuelled g)) by (apply Qmult_le_compat_r; lra).
  assert (Z2 : car_rate p (g_mph g) * (g_miles ut g * g_fuelled g) <= most p * (g_miles ut g * g_fuelled g)) by (apply Qmult_le_compat_r; lra).
  repeat split; lra.
Qed.
Lemma co2_fuel ut G : emitted car_rate ut CO2 G == 8887 * emitted car_rate ut Fuel G.
Proof.
  induction G as [|g G IH]; [reflexivity|]. rewrite !emitted_cons, IH. cbn [car_rate]. pose proof (mpg_between _ (g_mph_range g)). field. lra.
Qed.

Lemma observed_pos N D ev E w0 k G : net_ok N -> fresh_world N w0 -> (forall t, draws_valid (D t)) -> (forall l, In l E -> road_ok (l_par (w_link w0 l)) /\ 0 < p_fs (l_par (w_link w0 l))) ->
  observed N D ev E (init_state N w0) k G -> forall j, (j < k)%nat -> Forall gpos (G j).
Proof.
  intros K F DV R Ob j Hj. destruct (Ob j Hj) as (s & w & H1 & (H2 & _) & S). destruct (run_par N D w0 K F DV _ _ H1) as [I P].
  pose proof (load_links_par _ _ _ _ _ _ K (DV _) I H2) as P2. revert S. generalize (G j). clear - P P2 R. intros G S. induction S as [|l g E' G' Hs S IH]; constructor.
  - destruct (R l (or_introl eq_refl)) as [R1 R2]. apply (sees_pos ev (w_link w l)); [rewrite P2, P; exact R1|rewrite P2, P; exact R2|exact Hs].
  - apply IH. intros l' Hl'. apply R. now right.
Qed.
Lemma Forall_concat {A} (P : A -> Prop) l : (forall x, In x l -> Forall P x) -> Forall P (concat l).
Proof. induction l as [|x l IH]; intros H; cbn [concat]; [constructor|]. apply Forall_app. split; [apply H; now left|apply IH; intros; apply H; now right]. Qed.
Lemma recent_pos f k G : (forall j, (j < k)%nat -> Forall gpos (G j)) -> Forall gpos (recent f k G).
Proof. intros H. apply Forall_concat. intros x Hx. apply in_map_iff in Hx as (j & <- & Hj). apply in_seq in Hj. apply H. pose proof (since_le f k). lia. Qed.
