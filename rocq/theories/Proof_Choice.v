(** How a vehicle's route is drawn from the path table. *)
From Verif Require Import Base Base_lemmas Model_Num Proof_Num Spec_Path Proof_Path Model_CC Model_Path Model_Link Spec_Link Spec_Node
  Proof_Link Proof_Link4 Model_World Model_Node Model_Sim Spec_Sim Spec_Route Spec_Choice Proof_Sim3 Proof_Sim4 Proof_Sim7.
Local Open Scope Q_scope.

Lemma draw_slice : forall ps r i, (forall p, In p ps -> 0 <= p) -> 0 <= r <= 1 -> draw ps r = Ok i -> in_slice ps r i.
Proof.
  induction ps as [|p ps IH]; intros r i Hp Hr H; cbn [draw] in H; [discriminate|]. pose proof (Hp p (or_introl eq_refl)) as Hpp.
  unfold approx_lt in H. destruct (Qltb_spec (p + tol * Qmax (Qabs p) (Qabs r)) r) as [E|E]; cbn [negb] in H.
  - apply bind_ok in H as (j & Hj & H). apply Ok_inj in H as <-.
    assert (Hm : 0 <= tol * Qmax (Qabs p) (Qabs r)).
    { apply Qmult_le_0_compat; [unfold tol; lra|]. pose proof (Q.le_max_l (Qabs p) (Qabs r)). pose proof (Qabs_nonneg p). lra. }
    destruct (IH (r - p) j) as (A & B & C); [intros; apply Hp; now right|lra|exact Hj|].
    split; [cbn [length]; lia|]. split.
    + intros _. cbn [firstn sumQ fold_right]. destruct j as [|j]; [cbn [firstn sumQ fold_right]; lra|]. specialize (B ltac:(lia)).
      unfold sumQ in *. cbn [fold_right]. lra.
    + change (firstn (S (S j)) (p :: ps)) with (p :: firstn (S j) ps). unfold sumQ in *. cbn [fold_right]. lra.
  - apply Ok_inj in H as <-. split; [cbn [length]; lia|]. split; [intros; lia|]. cbn [firstn sumQ fold_right].
    assert (tol * Qmax (Qabs p) (Qabs r) <= Qmax 0 (r - p) \/ r <= p + (1#10000)).
    { destruct (Qlt_le_dec p r) as [L|L]; [right|right; lra].
      rewrite (Qabs_pos p), (Qabs_pos r), Q.max_r in E by lra. unfold tol in E. lra. }
    destruct (Qlt_le_dec p r) as [L|L]; [|lra]. rewrite (Qabs_pos p), (Qabs_pos r), Q.max_r in E by lra. unfold tol in E. lra.
Qed.

(** normalising *)
Lemma normalize_nonneg ps qs : normalize_p ps = Ok qs -> forall p, In p ps -> 0 <= p.
Proof.
  unfold normalize_p. destruct (existsb _ ps) eqn:E; [discriminate|]. intros _ p Hp. destruct (Qlt_le_dec p 0) as [L|L]; [|exact L]. exfalso.
  assert (existsb (fun p => Qltb p 0) ps = true); [|congruence]. apply existsb_exists. exists p. split; [exact Hp|]. destruct (Qltb_spec p 0); [reflexivity|lra].
Qed.
Lemma normalize_len ps qs : normalize_p ps = Ok qs -> length qs = length ps.
Proof. unfold normalize_p. destruct (existsb _ ps); [discriminate|]. cbv zeta. destruct (Qeq_bool _ 0); intros H; apply Ok_inj in H as <-; apply map_length. Qed.
Lemma normalize_shares ps qs : normalize_p ps = Ok qs -> Forall2 Qeq qs (shares ps) /\ (forall q, In q qs -> 0 <= q).
Proof.
  intros H. pose proof (normalize_nonneg _ _ H) as Hp. rewrite (normalize_ok ps Hp) in H. apply Ok_inj in H as <-.
  pose proof (fold_minus0 ps 0) as E0. pose proof (fold_plus ps 0) as E1. pose proof (sumQ_nonneg ps Hp) as Hs. unfold shares.
  destruct (Qeq_bool (fold_left (fun t p => t + (p - 0)) ps 0) 0) eqn:Eb.
  - apply Qeq_bool_iff in Eb. rewrite (proj2 (Qeq_bool_iff (sumQ ps) 0)) by lra. split.
    + generalize (1 / inject_Z (Z.of_nat (length ps))). intros q. clear. induction ps; cbn [map]; constructor; [reflexivity|assumption].
    + intros q Hq. apply in_map_iff in Hq as (x & <- & Hx). assert (0 < inject_Z (Z.of_nat (length ps))).
      { change 0 with (inject_Z 0). rewrite <- Zlt_Qlt. destruct ps; [destruct Hx|simpl; lia]. } apply Qle_shift_div_l; lra.
  - apply Qeq_bool_neq in Eb. destruct (Qeq_bool (sumQ ps) 0) eqn:Es; [apply Qeq_bool_iff in Es; exfalso; apply Eb; lra|].
    set (t := fold_left (fun t p => t + p) ps 0) in *. assert (Et : t == sumQ ps) by lra. apply Qeq_bool_neq in Es. split.
    + clearbody t. clear - Et. generalize (sumQ ps) Et. intros u Eu. clear Et. induction ps; cbn [map]; constructor; [rewrite Eu; reflexivity|assumption].
    + intros q Hq. apply in_map_iff in Hq as (x & <- & Hx). apply Qle_shift_div_l; [lra|]. specialize (Hp x Hx). lra.
Qed.
Lemma sumQ_Forall2 a b : Forall2 Qeq a b -> forall n, sumQ (firstn n a) == sumQ (firstn n b).
Proof.
  induction 1 as [|x y a b Hxy H IH]; intros n; [reflexivity|]. destruct n as [|n]; [reflexivity|]. cbn [firstn sumQ fold_right].
  specialize (IH n). unfold sumQ in *. cbn [fold_right]. lra.
Qed.
Lemma slice_ext a b r i : Forall2 Qeq a b -> in_slice a r i -> in_slice b r i.
Proof.
  intros F (A & B & C). assert (L : length a = length b) by (clear - F; induction F; simpl; congruence).
  split; [now rewrite <- L|]. split; [intros H; rewrite <- (sumQ_Forall2 _ _ F); auto|]. rewrite <- (sumQ_Forall2 _ _ F). exact C.
Qed.

(** copying a column of the buffer *)
Lemma mapM_nth {A B} (f : A -> res B) : forall l l', mapM f l = Ok l' -> Forall2 (fun a b => f a = Ok b) l l'.
Proof.
  induction l as [|a l IH]; intros l' H; cbn [mapM] in H; [apply Ok_inj in H as <-; constructor|].
  apply bind_ok in H as (b & Hb & H). apply bind_ok in H as (bs & Hbs & H). apply Ok_inj in H as <-. constructor; auto.
Qed.
Lemma set_ps_facts : forall es ps, length ps = length es ->
  map e_p (set_ps es ps) = ps /\ map (fun e => (e_path e, e_buf e)) (set_ps es ps) = map (fun e => (e_path e, e_buf e)) es.
Proof.
  unfold set_ps. induction es as [|e es IH]; intros [|p ps] H; try discriminate; [split; reflexivity|]. cbn [combine map fst snd e_p e_path e_buf].
  injection H as H. destruct (IH ps H) as [A B]. rewrite A, B. split; reflexivity.
Qed.
Lemma copy_col col es es' : mapM (copy_entry col) es = Ok es' ->
  map e_p es' = map (flow_in col) es /\ map (fun e => (e_path e, e_buf e)) es' = map (fun e => (e_path e, e_buf e)) es.
Proof.
  intros H. apply mapM_nth in H. induction H as [|e e' es es' He H IH]; [split; reflexivity|]. unfold copy_entry in He. apply bind_ok in He as (u & _ & He).
  apply Ok_inj in He as <-. destruct IH as [A B]. cbn [map e_p e_path e_buf]. rewrite A, B. split; reflexivity.
Qed.
(** one OD pair before and after *)
Definition copied (col : Z) (x y : (Z * Z) * list pentry) : Prop :=
  fst y = fst x /\ map (fun e => (e_path e, e_buf e)) (snd y) = map (fun e => (e_path e, e_buf e)) (snd x) /\
  Forall2 Qeq (map e_p (snd y)) (shares (map (flow_in col) (snd x))) /\ (forall e, In e (snd y) -> 0 <= e_p e).
Lemma change_copied col pt pt' : change_choice_portion col pt = Ok pt' -> Forall2 (copied col) pt pt'.
Proof.
  unfold change_choice_portion. intros H. apply bind_ok in H as (pt1 & H1 & H2). apply mapM_nth in H1. apply mapM_nth in H2.
  revert pt' H2. induction H1 as [|x y pt pt1 Hxy H1 IH]; intros pt' H2; inversion H2 as [|y' z pt1' pt'' Hyz H2' E1 E2]; subst; constructor; auto. clear IH H1 H2 H2'.
  apply bind_ok in Hxy as (es & He & Hx). apply Ok_inj in Hx as <-. apply bind_ok in Hyz as (ps & Hp & Hy). apply Ok_inj in Hy as <-. cbn [fst snd] in *.
  destruct (copy_col _ _ _ He) as [A B]. destruct (normalize_shares _ _ Hp) as [S1 S2].
  assert (L : length ps = length es) by (rewrite (normalize_len _ _ Hp), map_length; reflexivity).
  destruct (set_ps_facts es ps L) as [C E]. unfold copied. cbn [fst snd]. rewrite C, E, <- A. repeat split; auto.
  intros e He'. apply S2. rewrite <- C. now apply in_map.
Qed.

Lemma copied_plan col pt pt' : Forall2 (copied col) pt pt' -> plan pt' = plan pt.
Proof. unfold plan. induction 1 as [|x y pt pt' (A & B & _) H IH]; [reflexivity|]. cbn [map]. now rewrite A, B, IH. Qed.
Lemma find_plan k : forall pt pt' es', plan pt' = plan pt -> pt_find pt' k = Some es' ->
  exists es, pt_find pt k = Some es /\ map (fun e => (e_path e, e_buf e)) es' = map (fun e => (e_path e, e_buf e)) es.
Proof.
  unfold plan. induction pt as [|[k1 e1] pt IH]; intros [|[k2 e2] pt'] es' P H; cbn [map fst snd] in P; try discriminate. injection P as -> Pe P. cbn [pt_find] in *.
  destruct (key_eqb k k1); [injection H as <-; eauto|]. eapply IH; eauto.
Qed.
Lemma find_copied col k : forall pt pt' es', Forall2 (copied col) pt pt' -> pt_find pt' k = Some es' ->
  exists es, pt_find pt k = Some es /\ copied col (k, es) (k, es').
Proof.
  induction 1 as [|[k1 e1] [k2 e2] pt pt' C H IH]; intros E; [discriminate|]. destruct C as (A & B). cbn [fst snd] in A, B. subst k2. cbn [pt_find] in *.
  destruct (key_eqb k k1); [injection E as <-; exists e1; split; [reflexivity|]; split; [reflexivity|exact B]|]. exact (IH E).
Qed.
Lemma flow_plan col es es' : map (fun e => (e_path e, e_buf e)) es' = map (fun e => (e_path e, e_buf e)) es -> map (flow_in col) es' = map (flow_in col) es.
Proof.
  intros H. rewrite <- (map_ext (fun e => nth (Z.to_nat col) (snd (e_path e, e_buf e)) 0) (flow_in col) (fun e => eq_refl)).
  rewrite <- (map_ext (fun e => nth (Z.to_nat col) (snd (e_path e, e_buf e)) 0) (flow_in col) (fun e => eq_refl) es).
  change (fun e : pentry => nth (Z.to_nat col) (snd (e_path e, e_buf e)) 0) with (fun e : pentry => (fun x => nth (Z.to_nat col) (snd x) 0) ((fun e => (e_path e, e_buf e)) e)).
  rewrite <- !(map_map (fun e => (e_path e, e_buf e)) (fun x => nth (Z.to_nat col) (snd x) 0)). now rewrite H.
Qed.
Lemma nth_plan es es' i e' : map (fun e : pentry => (e_path e, e_buf e)) es' = map (fun e => (e_path e, e_buf e)) es -> nth_error es' i = Some e' ->
  exists e, nth_error es i = Some e /\ e_path e = e_path e'.
Proof.
  intros H E. apply (f_equal (fun l => nth_error l i)) in H. rewrite !nth_error_map, E in H. cbn [option_map] in H. destruct (nth_error es i) as [e|]; [|discriminate].
  injection H as H _. exists e. auto.
Qed.

(** what registration draws *)
Definition chosen (pt : ptable) (r : Q) (o d : Z) (p : option rpath) : Prop :=
  exists es e i, pt_find pt (o, d) = Some es /\ draw (map e_p es) r = Ok i /\ nth_error es i = Some e /\ p = Some (e_path e).
Lemma chosen_picked pt0 pt pt' col r o d p : plan pt = plan pt0 -> 0 <= r <= 1 -> Forall2 (copied col) pt pt' -> chosen pt' r o d p -> picked pt0 (flow_in col) o d r p.
Proof.
  intros Pl Hr C (es' & e' & i & F & Dr & Nt & ->). destruct (find_copied col (o, d) pt pt' es' C F) as (es1 & F1 & (_ & B & S & Nn)). cbn [snd] in *.
  destruct (find_plan (o, d) pt0 pt es1 Pl F1) as (es & F0 & B0).
  assert (B' : map (fun e => (e_path e, e_buf e)) es' = map (fun e => (e_path e, e_buf e)) es) by congruence.
  destruct (nth_plan es es' i e' B' Nt) as (e & Ne & Pe). exists es, e, i. split; [apply pt_find_In, F0|]. split; [exact Ne|]. split; [|now rewrite Pe].
  rewrite <- (flow_plan col es es1 B0). eapply slice_ext; [exact S|]. apply draw_slice; auto. intros q Hq. apply in_map_iff in Hq as (x & <- & Hx). auto.
Qed.

(** the loops of the fixed routing, for the vehicles [mine] *)
Section Loops.
Context (N : net) (D : draws) (mine : Z -> bool).
Definition org_step (w : world) (v : Z) : res world := if mine v then fixed_origin_veh N D w v else Ok w.
Definition lnk_step (l : Z) (w : world) (v : Z) : res world := if mine v then fixed_link_veh N l w v else Ok w.

Lemma fixed_origin_pt w v w' : fixed_origin_veh N D w v = Ok w' -> w_pt w' = w_pt w.
Proof.
  unfold fixed_origin_veh. destruct (v_adapt _).
  - destruct (v_path _); [intros H; apply Ok_inj in H as <-; reflexivity|]. unfold register_veh. cbv zeta. destruct (pt_find _ _); [|discriminate].
    intros H. apply bind_ok in H as (i & _ & H). destruct (nth_error _ _); [|discriminate]. apply Ok_inj in H as <-. reflexivity.
  - destruct (w_trk w v) eqn:T; [intros H; apply Ok_inj in H as <-; reflexivity|]. intros H. apply bind_ok in H as (w1 & H1 & H2).
    apply register_inv in H1 as (p & _ & ->); [|exact T]. unfold advance in H2.
    match type of H2 with context [w_trk ?a v] => destruct (w_trk a v) as [[|l r]|] end; try discriminate.
    apply bind_ok in H2 as (u & _ & H2). apply Ok_inj in H2 as <-. reflexivity.
Qed.
Lemma fixed_link_pt l w v w' : fixed_link_veh N l w v = Ok w' -> w_pt w' = w_pt w /\ forall u, v_path (w_veh w' u) = v_path (w_veh w u).
Proof.
  assert (X : forall w x, w_pt (veh_next w v x) = w_pt w /\ forall u, v_path (w_veh (veh_next w v x) u) = v_path (w_veh w u)).
  { intros a x. split; [reflexivity|]. intros u. unfold veh_next. cbn [set_vehs w_veh]. destruct (Z.eq_dec u v) as [->|Ne]; [now rewrite upd_same|now rewrite upd_other]. }
  unfold fixed_link_veh. destruct (v_adapt _); [intros H; apply Ok_inj in H as <-; auto|]. destruct (_ =? _)%Z.
  - destruct (w_trk w v); [|discriminate]. intros H. apply bind_ok in H as (u & _ & H). apply Ok_inj in H as <-. apply X.
  - destruct (w_trk w v); [|discriminate]. destruct (opt_eqb _ _); [|intros H; apply Ok_inj in H as <-; auto]. unfold advance.
    destruct (w_trk w v) as [[|l2 r]|]; try discriminate. intros H. apply bind_ok in H as (u & _ & H). apply Ok_inj in H as <-. exact (X w (Some l2)).
Qed.
(** other vehicles *)
Lemma fixed_origin_frame w u w' v : u <> v -> fixed_origin_veh N D w u = Ok w' -> w_veh w' v = w_veh w v /\ w_trk w' v = w_trk w v.
Proof.
  intros Ne. unfold fixed_origin_veh. destruct (v_adapt _).
  - destruct (v_path _); [intros H; apply Ok_inj in H as <-; auto|]. intros H. destruct (frame_register v _ _ _ _ _ Ne H) as (A & B & _). auto.
  - destruct (w_trk w u) eqn:T; [intros H; apply Ok_inj in H as <-; auto|]. intros H. apply bind_ok in H as (w1 & H1 & H2).
    destruct (frame_register v _ _ _ _ _ Ne H1) as (A & B & _). destruct (frame_advance N v _ _ _ Ne H2) as (A' & B' & _). split; congruence.
Qed.
Lemma fixed_link_frame l w u w' v : u <> v -> fixed_link_veh N l w u = Ok w' -> w_veh w' v = w_veh w v /\ w_trk w' v = w_trk w v.
Proof.
  intros Ne. unfold fixed_link_veh. destruct (v_adapt _); [intros H; apply Ok_inj in H as <-; auto|]. destruct (_ =? _)%Z.
  - destruct (w_trk w u); [|discriminate]. intros H. apply bind_ok in H as (x & _ & H). apply Ok_inj in H as <-. split; [apply (frame_veh_next v), Ne|reflexivity].
  - destruct (w_trk w u) eqn:T; [|discriminate]. destruct (opt_eqb _ _); [|intros H; apply Ok_inj in H as <-; auto]. intros H. destruct (frame_advance N v _ _ _ Ne H) as (A & B & _). auto.
Qed.

Context (v : Z) (pt : ptable) (x0 : veh).
Definition waiting (w : world) : Prop := w_pt w = pt /\ w_veh w v = x0 /\ w_trk w v = None.
Definition settled (w : world) : Prop := w_pt w = pt /\ stat (w_veh w v) = stat x0 /\ w_trk w v <> None /\ chosen pt (d_route D v) (v_org x0) (v_dst x0) (v_path (w_veh w v)).
Lemma org_step_case w u w' : v_adapt x0 = false -> mine v = true -> org_step w u = Ok w' ->
  (settled w -> settled w') /\ (waiting w -> if Z.eqb u v then settled w' else waiting w').
Proof.
  intros Ad Mv H. unfold org_step in H. destruct (Z.eqb_spec u v) as [->|Ne].
  - rewrite Mv in H. split.
    + intros (P & S & T & C). unfold fixed_origin_veh in H. assert (Ea : v_adapt (w_veh w v) = false) by (unfold stat in S; congruence). rewrite Ea in H.
      destruct (w_trk w v) eqn:Et; [|congruence]. apply Ok_inj in H as <-. repeat split; auto. now rewrite Et.
    + intros (P & E & T). pose proof (fixed_origin_pt _ _ _ H) as Pt. pose proof (fixed_origin_r _ _ _ _ _ H) as [_ R]. destruct (R v) as [Rs _]. rewrite E in Rs.
      unfold fixed_origin_veh in H. rewrite E, Ad, T in H. apply bind_ok in H as (w1 & H1 & H2).
      unfold register_veh in H1. cbv zeta in H1. rewrite E, P in H1. destruct (pt_find pt (v_org x0, v_dst x0)) as [es|] eqn:F; [|discriminate].
      apply bind_ok in H1 as (i & Di & H1). destruct (nth_error es i) as [e|] eqn:Ne; [|discriminate]. rewrite T in H1. apply Ok_inj in H1 as <-.
      unfold advance in H2. cbn [set_vehs set_trk w_trk] in H2. rewrite upd_same in H2. destruct (r_links (e_path e)) as [|l r] eqn:El; [discriminate|].
      apply bind_ok in H2 as (g & _ & H2). apply Ok_inj in H2 as <-. split; [congruence|]. split; [exact Rs|]. split.
      * cbn [set_trk w_trk]. rewrite upd_same. discriminate.
      * exists es, e, i. repeat split; auto. unfold veh_next. cbn [set_trk set_vehs w_veh]. rewrite !upd_same. reflexivity.
  - destruct (mine u); [|apply Ok_inj in H as <-; auto]. destruct (fixed_origin_frame _ _ _ _ Ne H) as [A B]. pose proof (fixed_origin_pt _ _ _ H) as C.
    split; [intros (P & S & T & Q); unfold settled; rewrite A, B, C; auto|intros (P & S & T); unfold waiting; rewrite A, B, C; auto].
Qed.
Lemma org_loop : v_adapt x0 = false -> mine v = true -> forall vs w w', foldM org_step w vs = Ok w' ->
  (settled w -> settled w') /\ (waiting w -> if memb v vs then settled w' else waiting w').
Proof.
  intros Ad Mv. induction vs as [|u vs IH]; intros w w' H; cbn [foldM] in H; [apply Ok_inj in H as <-; cbn; auto|].
  apply bind_ok in H as (w1 & H1 & H2). destruct (org_step_case _ _ _ Ad Mv H1) as [A B]. destruct (IH _ _ H2) as [A' B']. split; [auto|].
  intros W. specialize (B W). unfold memb in *. cbn [existsb]. rewrite (Z.eqb_sym v u). destruct (u =? v)%Z; cbn [orb]; [apply A', B|apply B', B].
Qed.
Lemma org_loops : v_adapt x0 = false -> mine v = true -> forall (os : list origin) q w w', w_oq w = q ->
  foldM (fun w o => foldM org_step w (w_oq w (o_node o))) w os = Ok w' ->
  (settled w -> settled w') /\ (waiting w -> (exists o, In o os /\ In v (q (o_node o))) -> settled w').
Proof.
  intros Ad Mv. induction os as [|o os IH]; intros q w w' Q H; cbn [foldM] in H; [apply Ok_inj in H as <-; split; [auto|intros _ (o & [] & _)]|].
  apply bind_ok in H as (w1 & H1 & H2). destruct (org_loop Ad Mv _ _ _ H1) as [A B].
  assert (Q1 : w_oq w1 = q).
  { rewrite <- Q. revert H1. apply (foldM_rel (fun a b => w_oq b = w_oq a)); [auto|congruence|]. intros s u s' _ E. unfold org_step in E. destruct (mine u); [|apply Ok_inj in E as <-; reflexivity].
    apply fixed_origin_q in E. apply E. }
  destruct (IH q w1 w' Q1 H2) as [A' B']. split; [auto|]. intros W (o2 & [<-|I] & Iv).
  - apply A'. specialize (B W). rewrite Q, (proj2 (memb_In _ _) Iv) in B. exact B.
  - specialize (B W). destruct (memb v (w_oq w (o_node o))); [auto|]. apply B'; [exact B|eauto].
Qed.
Lemma lnk_loops : forall (ls : list Z) w w', foldM (fun w l => foldM (lnk_step l) w (l_fin (w_link w l))) w ls = Ok w' ->
  w_pt w' = w_pt w /\ (forall u, v_path (w_veh w' u) = v_path (w_veh w u)).
Proof.
  intros ls w w' H. revert H. apply (foldM_rel (fun a b => w_pt b = w_pt a /\ forall u, v_path (w_veh b u) = v_path (w_veh a u))).
  - auto. - intros a b c [A B] [A' B']. split; [congruence|]. intros u. rewrite B'. apply B.
  - intros s l s' _ E. revert E. apply (foldM_rel (fun a b => w_pt b = w_pt a /\ forall u, v_path (w_veh b u) = v_path (w_veh a u))).
    + auto. + intros a b c [A B] [A' B']. split; [congruence|]. intros u. rewrite B'. apply B.
    + intros a u b _ E. unfold lnk_step in E. destruct (mine u); [eapply fixed_link_pt; eauto|apply Ok_inj in E as <-; auto].
Qed.
(** a vehicle that is not [mine] *)
Definition untouched (a b : world) : Prop := w_veh b v = w_veh a v /\ w_trk b v = w_trk a v.
Lemma not_mine : mine v = false -> forall (os : list origin) (ls : list Z) w w1 w',
  foldM (fun w o => foldM org_step w (w_oq w (o_node o))) w os = Ok w1 -> foldM (fun w l => foldM (lnk_step l) w (l_fin (w_link w l))) w1 ls = Ok w' -> untouched w w'.
Proof.
  intros Mv os ls w w1 w' H1 H2.
  assert (T : forall a b c, untouched a b -> untouched b c -> untouched a c) by (unfold untouched; intros a b c [] []; split; congruence).
  assert (R : forall a, untouched a a) by (split; auto).
  apply (T w w1 w').
  - revert H1. apply foldM_rel; auto. intros s o s' _ E. revert E. apply foldM_rel; auto. intros a u b _ E. unfold org_step in E. destruct (mine u) eqn:Mu; [|apply Ok_inj in E as <-; auto].
    apply (fixed_origin_frame a u b v); [intros ->; congruence|exact E].
  - revert H2. apply foldM_rel; auto. intros s l s' _ E. revert E. apply foldM_rel; auto. intros a u b _ E. unfold lnk_step in E. destruct (mine u) eqn:Mu; [|apply Ok_inj in E as <-; auto].
    apply (fixed_link_frame l a u b v); [intros ->; congruence|exact E].
Qed.
Lemma org_loops_pt (os : list origin) w w' : foldM (fun w o => foldM org_step w (w_oq w (o_node o))) w os = Ok w' -> w_pt w' = w_pt w.
Proof.
  apply (foldM_rel (fun a b => w_pt b = w_pt a)); [auto|congruence|]. intros s o s' _. apply (foldM_rel (fun a b => w_pt b = w_pt a)); [auto|congruence|].
  intros a u b _ E. unfold org_step in E. destruct (mine u); [eapply fixed_origin_pt; eauto|apply Ok_inj in E as <-; reflexivity].
Qed.
End Loops.

(** adaptive routing leaves static vehicles and the table alone *)
Lemma adaptive_static N D w w' : adaptive_routing N D w = Ok w' ->
  w_pt w' = w_pt w /\ w_trk w' = w_trk w /\ (forall v, stat (w_veh w' v) = stat (w_veh w v)) /\ forall v, v_adapt (w_veh w v) = false -> w_veh w' v = w_veh w v.
Proof.
  set (R := fun a b => w_pt b = w_pt a /\ w_trk b = w_trk a /\ (forall v, stat (w_veh b v) = stat (w_veh a v)) /\ forall v, v_adapt (w_veh a v) = false -> w_veh b v = w_veh a v).
  assert (Rr : forall a, R a a) by (repeat split; auto).
  assert (Rt : forall a b c, R a b -> R b c -> R a c).
  { intros a b c (A1 & A2 & A3 & A4) (B1 & B2 & B3 & B4). split; [congruence|]. split; [congruence|]. split; [intros v; rewrite B3; apply A3|].
    intros v Hv. rewrite B4; [now apply A4|]. specialize (A3 v). unfold stat in A3. congruence. }
  assert (Rn : forall a v x, v_adapt (w_veh a v) = true -> R a (veh_next a v x)).
  { intros a v x Hv. split; [reflexivity|]. split; [reflexivity|]. unfold veh_next. cbn [set_vehs w_veh]. split; intros u; [|intros Hu]; destruct (Z.eq_dec u v) as [->|Ne]; rewrite ?upd_same, ?upd_other by exact Ne; auto. congruence. }
  unfold adaptive_routing. intros H. apply bind_ok in H as (w2 & H2 & H3). apply (Rt w w2 w').
  - revert H2. apply foldM_rel; auto. intros s o s' _ E. revert E. apply foldM_rel; auto. intros x v y _ G.
    unfold adaptive_origin_veh in G. destruct (v_adapt _) eqn:Ad; [|apply Ok_inj in G as <-; apply Rr].
    cbv zeta in G. apply bind_ok in G as (u & _ & G). apply bind_ok in G as (u' & _ & G). apply Ok_inj in G as <-. now apply Rn.
  - revert H3. apply foldM_rel; auto. intros s o s' _ E. revert E. apply foldM_rel; auto. intros x v y _ G.
    unfold adaptive_link_veh in G. destruct (v_adapt _) eqn:Ad; [|apply Ok_inj in G as <-; apply Rr].
    apply bind_ok in G as (u & _ & G). destruct (_ =? _)%Z; [apply Ok_inj in G as <-; now apply Rn|].
    cbv zeta in G. apply bind_ok in G as (u' & _ & G). apply bind_ok in G as (u'' & _ & G). apply Ok_inj in G as <-. now apply Rn.
Qed.
