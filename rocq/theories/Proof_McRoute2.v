(** Fixed-route vehicles of a two-class run follow their route. *)
From Verif Require Import Base Base_lemmas Model_Num Proof_Num Spec_Path Proof_Path Model_CC Spec_CC Proof_CC Model_Path Model_Link Spec_Link Spec_Node
  Proof_Link Proof_Link3 Proof_Link4 Proof_Link5 Model_World Model_Node Proof_Node Proof_Node3 Model_Sim Spec_Sim Proof_Sim1 Proof_Sim2 Proof_Sim3 Proof_Sim4 Proof_Sim5 Proof_Sim6 Spec_Route Proof_Sim7
  Model_McLink Spec_McLink Proof_McLink Model_McNode Spec_McNode Proof_McNode Model_McSim Spec_McSim Proof_McSim1 Proof_McSim2 Proof_McRoute1.
Local Open Scope Z_scope.

(** ** routing sees vehicles, queues, finished arrays, tracker and path table *)
Definition veq (x y : world) : Prop :=
  w_veh x = w_veh y /\ w_trk x = w_trk y /\ w_pt x = w_pt y /\ w_oq x = w_oq y /\ (forall l, l_fin (w_link x l) = l_fin (w_link y l)).
Definition sims {A} (f g : world -> A -> res world) (a : A) : Prop :=
  forall x y x', veq x y -> f x a = Ok x' -> exists y', g y a = Ok y' /\ veq x' y'.
Lemma veq_refl x : veq x x. Proof. repeat split. Qed.
Lemma veq_sym x y : veq x y -> veq y x.
Proof. intros (A & B & C & D & E). repeat split; auto. Qed.
Lemma foldM_sims {A} (f g : world -> A -> res world) l : (forall a, In a l -> sims f g a) -> forall x y x', veq x y -> foldM f x l = Ok x' ->
  exists y', foldM g y l = Ok y' /\ veq x' y'.
Proof.
  induction l as [|a l IH]; intros H x y x' V E; cbn [foldM] in *; [apply Ok_inj in E as <-; eauto|].
  apply bind_ok in E as (x1 & E1 & E2). destruct (H a (or_introl eq_refl) x y x1 V E1) as (y1 & F1 & V1). rewrite F1. cbn [bind].
  apply (IH (fun b Hb => H b (or_intror Hb)) x1); auto.
Qed.
Lemma register_sims D b v : sims (fun w v => register_veh D w v b) (fun w v => register_veh D w v b) v.
Proof.
  intros x y x' V H. destruct x as [xv xl xo xd xc xf xt xp], y as [yv yl yo yd yc yf yt yp]. destruct V as (A & B & C & E & F). cbn [w_veh w_trk w_pt w_oq w_link] in *. subst yv yt yp yo.
  unfold register_veh in *. cbv zeta in *. cbn [w_veh w_trk w_pt] in *. destruct (pt_find _ _) as [es|]; [|discriminate]. apply bind_ok in H as (i & Hi & H). rewrite Hi. cbn [bind].
  destruct (nth_error es i) as [e|]; [|discriminate]. apply Ok_inj in H as <-. eexists. split; [reflexivity|].
  destruct b; [destruct (xt v)|]; repeat split; auto.
Qed.
Lemma advance_sims N v : sims (advance N) (advance N) v.
Proof.
  intros x y x' V H. destruct x as [xv xl xo xd xc xf xt xp], y as [yv yl yo yd yc yf yt yp]. destruct V as (A & B & C & E & F). cbn [w_veh w_trk w_pt w_oq w_link] in *. subst yv yt yp yo.
  unfold advance in *. cbn [w_trk] in *. destruct (xt v) as [[|l r]|]; try discriminate. apply bind_ok in H as (u & Hu & H). rewrite Hu. cbn [bind]. apply Ok_inj in H as <-.
  eexists. split; [reflexivity|]. repeat split; auto.
Qed.
Lemma origin_sims N D v : sims (fixed_origin_veh N D) (fixed_origin_veh N D) v.
Proof.
  intros x y x' V H. pose proof V as (A & B & _). unfold fixed_origin_veh in *. rewrite <- A, <- B. destruct (v_adapt _).
  - destruct (v_path _); [apply Ok_inj in H as <-; eauto|]. exact (register_sims D false v x y x' V H).
  - destruct (w_trk x v); [apply Ok_inj in H as <-; eauto|]. apply bind_ok in H as (x1 & H1 & H2).
    destruct (register_sims D true v x y x1 V H1) as (y1 & E1 & V1). rewrite E1. cbn [bind]. exact (advance_sims N v x1 y1 x' V1 H2).
Qed.
Lemma next_veq x y v k : veq x y -> veq (veh_next x v k) (veh_next y v k).
Proof. intros (A & B & C & D & E). unfold veh_next. repeat split; cbn [set_vehs w_veh w_trk w_pt w_oq w_link]; auto. now rewrite A. Qed.
Lemma link_sims N l v : sims (fixed_link_veh N l) (fixed_link_veh N l) v.
Proof.
  intros x y x' V H. pose proof V as (A & B & _). unfold fixed_link_veh in *. rewrite <- A, <- B. destruct (v_adapt _); [apply Ok_inj in H as <-; eauto|].
  destruct (_ =? _).
  - destruct (w_trk x v); [|discriminate]. apply bind_ok in H as (u & Hu & H). rewrite Hu. cbn [bind]. apply Ok_inj in H as <-. eauto using next_veq.
  - destruct (w_trk x v) eqn:T; [|discriminate]. destruct (opt_eqb _ _); [|apply Ok_inj in H as <-; eauto]. exact (advance_sims N v x y x' V H).
Qed.
Lemma aorigin_sims N D n v : sims (adaptive_origin_veh N D n) (adaptive_origin_veh N D n) v.
Proof.
  intros x y x' V H. pose proof V as (A & B & _). unfold adaptive_origin_veh in *. rewrite <- A. destruct (v_adapt _); [|apply Ok_inj in H as <-; eauto]. cbv zeta in *.
  apply bind_ok in H as (u & Hu & H). rewrite Hu. cbn [bind]. apply bind_ok in H as (u2 & Hu2 & H). rewrite Hu2. cbn [bind]. apply Ok_inj in H as <-. eauto using next_veq.
Qed.
Lemma alink_sims N D l v : sims (adaptive_link_veh N D l) (adaptive_link_veh N D l) v.
Proof.
  intros x y x' V H. pose proof V as (A & B & _). unfold adaptive_link_veh in *. rewrite <- A. destruct (v_adapt _); [|apply Ok_inj in H as <-; eauto]. cbv zeta in *.
  apply bind_ok in H as (u & Hu & H). rewrite Hu. cbn [bind]. destruct (_ =? _); [apply Ok_inj in H as <-; eauto using next_veq|].
  apply bind_ok in H as (u2 & Hu2 & H). rewrite Hu2. cbn [bind]. apply bind_ok in H as (u3 & Hu3 & H). rewrite Hu3. cbn [bind]. apply Ok_inj in H as <-. eauto using next_veq.
Qed.
Lemma pt_veq x y p : veq x y -> veq (set_pt x p) (set_pt y p).
Proof. intros (A & B & C & D & E). repeat split; cbn [set_pt w_veh w_trk w_pt w_oq w_link]; auto. Qed.
(** nested loops over places and the vehicles there *)
Lemma nested_sims {B} (f : B -> world -> Z -> res world) (g : world -> B -> list Z) bs : (forall b v, sims (f b) (f b) v) -> (forall x y b, veq x y -> g x b = g y b) ->
  forall x y x', veq x y -> foldM (fun w b => foldM (f b) w (g w b)) x bs = Ok x' -> exists y', foldM (fun w b => foldM (f b) w (g w b)) y bs = Ok y' /\ veq x' y'.
Proof.
  intros F G. apply foldM_sims. intros b _ x y x' V H. rewrite <- (G x y b V). revert H. apply foldM_sims; [intros; apply F|exact V].
Qed.
Lemma fixed_sims N D t x y x' : veq x y -> fixed_routing N D t x = Ok x' -> exists y', fixed_routing N D t y = Ok y' /\ veq x' y'.
Proof.
  intros V H. unfold fixed_routing in *. apply bind_ok in H as (x1 & H1 & H). apply bind_ok in H as (x2 & H2 & H).
  assert (X : exists y1, fixed_portion N t y = Ok y1 /\ veq x1 y1).
  { unfold fixed_portion in *. destruct (_ || _); [apply Ok_inj in H1 as <-; eauto|]. apply bind_ok in H1 as (u & Hu & H1). rewrite Hu. cbn [bind].
    destruct (_ && _); [|apply Ok_inj in H1 as <-; eauto]. pose proof V as (_ & _ & P & _). rewrite <- P. apply bind_ok in H1 as (p & Hp & H1). rewrite Hp. cbn [bind].
    apply Ok_inj in H1 as <-. eauto using pt_veq. }
  destruct X as (y1 & E1 & V1). rewrite E1. cbn [bind].
  destruct (nested_sims (fun _ => fixed_origin_veh N D) (fun w o => w_oq w (o_node o)) (n_origins N) (fun b v => origin_sims N D v)) with (x := x1) (y := y1) (x' := x2) as (y2 & E2 & V2); auto.
  { intros a b o (_ & _ & _ & Q & _). now rewrite Q. }
  rewrite E2. cbn [bind].
  apply (nested_sims (fixed_link_veh N) (fun w l => l_fin (w_link w l)) (n_links N) (fun b v => link_sims N b v)) with (x := x2); auto.
  intros a b l (_ & _ & _ & _ & Q). apply Q.
Qed.
Lemma adaptive_sims N D x y x' : veq x y -> adaptive_routing N D x = Ok x' -> exists y', adaptive_routing N D y = Ok y' /\ veq x' y'.
Proof.
  intros V H. unfold adaptive_routing in *. apply bind_ok in H as (x2 & H2 & H).
  destruct (nested_sims (fun o => adaptive_origin_veh N D (o_node o)) (fun w o => w_oq w (o_node o)) (n_origins N) (fun b v => aorigin_sims N D _ v)) with (x := x) (y := y) (x' := x2) as (y2 & E2 & V2); auto.
  { intros a b o (_ & _ & _ & Q & _). now rewrite Q. }
  rewrite E2. cbn [bind].
  apply (nested_sims (adaptive_link_veh N D) (fun w l => l_fin (w_link w l)) (n_links N) (fun b v => alink_sims N D b v)) with (x := x2); auto.
  intros a b l (_ & _ & _ & _ & Q). apply Q.
Qed.
Lemma update_sims N D t x y x' : veq x y -> update_routing N D t x = Ok x' -> exists y', update_routing N D t y = Ok y' /\ veq x' y'.
Proof.
  intros V H. unfold update_routing in *. destruct (n_routing N) as [| |r]; [eapply fixed_sims; eauto|eapply adaptive_sims; eauto|].
  apply bind_ok in H as (x1 & H1 & H2). destruct (Qltb 0 r); [|apply Ok_inj in H1 as <-; cbn [bind]; eapply fixed_sims; eauto].
  destruct (adaptive_sims _ _ _ _ _ V H1) as (y1 & -> & V1). cbn [bind]. eapply fixed_sims; eauto.
Qed.
Lemma mine_sims (f : world -> Z -> res world) (b : Z -> bool) v : sims f f v -> sims (fun w v => if b v then f w v else Ok w) (fun w v => if b v then f w v else Ok w) v.
Proof. intros S x y x' V H. cbv beta in *. destruct (b v); [exact (S x y x' V H)|apply Ok_inj in H as <-; eauto]. Qed.
Lemma class_sims M D t cls k x y x' : veq x y -> class_routing M D t cls k x = Ok x' -> exists y', class_routing M D t cls k y = Ok y' /\ veq x' y'.
Proof.
  intros V H. unfold class_routing in *. cbv zeta in *. apply bind_ok in H as (x1 & H1 & H). apply bind_ok in H as (x2 & H2 & H).
  assert (X : exists y1, class_portion M t k y = Ok y1 /\ veq x1 y1).
  { unfold class_portion in *. destruct (_ || _); [apply Ok_inj in H1 as <-; eauto|]. apply bind_ok in H1 as (u & Hu & H1). rewrite Hu. cbn [bind]. cbv zeta in *.
    destruct (_ <? _); [|apply Ok_inj in H1 as <-; eauto]. pose proof V as (_ & _ & P & _). rewrite <- P. apply bind_ok in H1 as (p & Hp & H1). rewrite Hp. cbn [bind].
    apply Ok_inj in H1 as <-. eauto using pt_veq. }
  destruct X as (y1 & E1 & V1). rewrite E1. cbn [bind].
  destruct (nested_sims (fun _ w v => if Bool.eqb (cls v) k then fixed_origin_veh (seen_net M) D w v else Ok w) (fun w o => w_oq w (o_node o)) (n_origins (seen_net M))
    (fun b v => mine_sims _ _ v (origin_sims (seen_net M) D v))) with (x := x1) (y := y1) (x' := x2) as (y2 & E2 & V2); auto.
  { intros a b o (_ & _ & _ & Q & _). now rewrite Q. }
  rewrite E2. cbn [bind].
  apply (nested_sims (fun l w v => if Bool.eqb (cls v) k then fixed_link_veh (seen_net M) l w v else Ok w) (fun w l => l_fin (w_link w l)) (n_links (seen_net M))
    (fun b v => mine_sims _ _ v (link_sims (seen_net M) b v))) with (x := x2); auto.
  intros a b l (_ & _ & _ & _ & Q). apply Q.
Qed.

(** the routing of the two-class state on what single-class code sees of it *)
Definition srouting (M : mnet) (D : mdrawsI) (t : Z) (cls : Z -> bool) (w : world) : res world :=
  match mn_routing M with
  | MRBiclass rc rt =>
      do x1 <- (if Qltb 0 rc || Qltb 0 rt then adaptive_routing (seen_net M) (r_base D) w else Ok w);
      do x2 <- class_routing M (r_base D) t cls false x1;
      class_routing M (r_base D) t cls true x2
  | _ => update_routing (seen_net M) (r_base D) t w
  end.
Lemma srouting_sims M D t cls x y x' : veq x y -> srouting M D t cls x = Ok x' -> exists y', srouting M D t cls y = Ok y' /\ veq x' y'.
Proof.
  intros V H. unfold srouting in *. destruct (mn_routing M) as [| |r|rc rt]; try (eapply update_sims; eassumption).
  apply bind_ok in H as (x1 & H1 & H). apply bind_ok in H as (x2 & H2 & H).
  assert (X : exists y1, (if Qltb 0 rc || Qltb 0 rt then adaptive_routing (seen_net M) (r_base D) y else Ok y) = Ok y1 /\ veq x1 y1).
  { destruct (_ || _); [eapply adaptive_sims; eauto|apply Ok_inj in H1 as <-; eauto]. }
  destruct X as (y1 & -> & V1). cbn [bind]. destruct (class_sims _ _ _ _ _ _ _ _ V1 H2) as (y2 & -> & V2). cbn [bind]. eapply class_sims; eauto.
Qed.
Lemma srouting_q M D t cls x x' : srouting M D t cls x = Ok x' -> same_q x x'.
Proof.
  unfold srouting. intros H. destruct (mn_routing M) as [| |r|rc rt]; try (eapply update_routing_q; eassumption).
  apply bind_ok in H as (x1 & H1 & H). apply bind_ok in H as (x2 & H2 & H).
  assert (Q1 : same_q x x1) by (destruct (_ || _); [eapply adaptive_routing_q; eauto|apply Ok_inj in H1 as <-; apply same_q_refl]).
  pose proof (proj1 (class_routing_r _ _ _ _ _ _ _ H2)) as Q2. pose proof (proj1 (class_routing_r _ _ _ _ _ _ _ H)) as Q3.
  exact (same_q_trans _ _ _ Q1 (same_q_trans _ _ _ Q2 Q3)).
Qed.
Lemma view_veq w : veq (mview w) (shadow w).
Proof. repeat split. Qed.
Lemma adopt_shadow w x y : veq x y -> same_q (shadow w) y -> y = shadow (madopt w x).
Proof.
  intros (A & B & C & _ & _) (Q1 & Q2 & Q3 & Q4 & Q5). destruct y as [yv yl yo yd yc yf yt yp]. cbn [w_veh w_trk w_pt w_link w_oq w_dq w_cc w_fac shadow] in *. subst. reflexivity.
Qed.
Lemma routing_shadow M D t w w' : mupdate_routing M D t w = Ok w' -> srouting M D t (mw_cls w) (shadow w) = Ok (shadow w').
Proof.
  unfold mupdate_routing. intros H. apply bind_ok in H as (x & Hx & H). apply Ok_inj in H as <-.
  destruct (srouting_sims M D t (mw_cls w) (mview w) (shadow w) x (view_veq w) Hx) as (y & Ey & Vy). rewrite Ey. f_equal. apply adopt_shadow; [exact Vy|]. eapply srouting_q; eauto.
Qed.
Lemma routing_shadow_total M D t w y : srouting M D t (mw_cls w) (shadow w) = Ok y -> exists w', mupdate_routing M D t w = Ok w' /\ shadow w' = y.
Proof.
  intros H. destruct (srouting_sims M D t (mw_cls w) (shadow w) (mview w) y (veq_sym _ _ (view_veq w)) H) as (x & Ex & Vx).
  exists (madopt w x). split; [unfold mupdate_routing; change ((do x0 <- srouting M D t (mw_cls w) (mview w); Ok (madopt w x0)) = Ok (madopt w x)); rewrite Ex; reflexivity|].
  symmetry. apply adopt_shadow; [apply veq_sym, Vx|]. eapply srouting_q; eauto.
Qed.

(** ** release, arrivals *)
Lemma make_shadow w start ad k o d a lab : shadow (mmake_veh w start ad k o d a lab) = make_veh (shadow w) start ad o d a.
Proof. reflexivity. Qed.
Lemma oq_shadow w o l : shadow (mset_oq w o l) = set_oq (shadow w) o l.
Proof. reflexivity. Qed.
Lemma receive_veh_shadow M t n w v w' : mreceive_veh M t n w v = Ok w' -> receive_veh (snet M) t n (shadow w) v = Ok (shadow w').
Proof.
  unfold mreceive_veh, receive_veh. intros H. apply bind_ok in H as (u & G & H). cbn [shadow w_veh]. rewrite G. cbn [bind]. cbv zeta in *. apply bind_ok in H as (w2 & H2 & H).
  set (w1 := mset_vehs w (upd (mw_veh w) v (set_vfin t (mw_veh w v)))) in *.
  match goal with |- (do w2 <- ?E; _) = _ => assert (X : E = Ok (shadow w2)) end.
  { cbn [snet n_routing seen_net]. destruct (mn_routing M).
    2:{ apply Ok_inj in H2 as <-. reflexivity. }
    all: apply bind_ok in H2 as (u2 & G2 & H2); rewrite G2; cbn [bind]; cbn [set_vehs w_trk shadow]; change (mw_trk w1 v) with (mw_trk w v) in H2; destruct (mw_trk w v);
      [apply bind_ok in H2 as (u3 & G3 & H2); rewrite G3; cbn [bind]|]; apply Ok_inj in H2 as <-; reflexivity. }
  rewrite X. cbn [bind]. apply bind_ok in H as (u3 & G3 & H). apply bind_ok in H as (u4 & G4 & H). apply bind_ok in H as (u5 & G5 & H).
  apply bind_ok in H as (u6 & G6 & H). apply bind_ok in H as (u7 & G7 & H). apply Ok_inj in H as <-.
  change (w_fac (shadow w2)) with (mw_fac w2). rewrite G4. cbn [bind]. rewrite G3. cbn [bind]. rewrite G5. reflexivity.
Qed.
Lemma receive_shadow M t n w w' : mreceive M t w n = Ok w' -> receive (snet M) t (shadow w) n = Ok (shadow w').
Proof.
  unfold mreceive, receive. intros H. apply bind_ok in H as (w1 & H1 & H). apply Ok_inj in H as <-.
  assert (X : forall vs a b, foldM (mreceive_veh M t n) a vs = Ok b -> foldM (receive_veh (snet M) t n) (shadow a) vs = Ok (shadow b)).
  { induction vs as [|v vs IH]; intros a b E; cbn [foldM] in *; [apply Ok_inj in E as <-; reflexivity|]. apply bind_ok in E as (c & E1 & E2).
    rewrite (receive_veh_shadow _ _ _ _ _ _ E1). cbn [bind]. auto. }
  cbn [shadow w_dq]. rewrite (X _ _ _ H1). reflexivity.
Qed.

(** ** one vehicle through one interval *)
Section Veh.
Context (M : mnet) (K : mnet_ok M) (pt0 : ptable) (RO : routes_ok pt0) (v : Z) (q : option rpath).
Let N := snet M.
Let KN : net_ok N := snet_ok M K.
Notation vi w h := (vinv N pt0 v q (shadow w) h).

Lemma release_v D cur a w w' h : mdraws_valid D -> mrelease_all M D cur a w = Ok w' -> minv M w -> vi w h -> vi w' h.
Proof.
  intros DV H I V. unfold mrelease_all in H. apply bind_ok in H as (u & _ & H).
  destruct (_ =? 0); apply Ok_inj in H as <-; [|exact V].
  set (asg := if mn_total_assign M <=? a then -1 else a). clearbody asg.
  assert (RN : forall o k d ratio asg' j w, In (og_node o) (map og_node (mn_origins M)) -> minv M w -> vi w h -> vi (mrelease_n j D cur asg' o k d ratio w) h).
  { intros o k d ratio asg' j. induction j as [|j IH]; intros x Ho Ix Vx; [exact Vx|]. cbn [mrelease_n]. cbv zeta.
    apply IH; [exact Ho| |].
    - eapply (release_one_minv M K); eauto.
    - rewrite oq_shadow, make_shadow. apply (release1_v N pt0 v q (shadow x) h); [unfold N; rewrite snet_origins; exact Ho|apply shadow_sinv, Ix|exact Vx]. }
  assert (RD : forall o k ds ratio w w' y, In (og_node o) (map og_node (mn_origins M)) -> mrelease_dests M D cur asg o k ratio ds w = (w', y) -> minv M w -> vi w h -> vi w' h).
  { intros o k. induction ds as [|[d dem] ds IH]; intros ratio x x' y Ho E Ix Vx; cbn [mrelease_dests] in E; [injection E as <- _; exact Vx|]. cbv zeta in E.
    eapply IH; [exact Ho|exact E| |apply RN; auto]. apply release_n_minv; auto. }
  assert (X : forall os w, (forall o, In o os -> In o (mn_origins M)) -> minv M w -> vi w h -> vi (fold_left (mrelease_one M D cur asg) os w) h).
  { induction os as [|o os IH]; intros x Inc Ix Vx; [exact Vx|]. cbn [fold_left]. apply IH; [intros; apply Inc; now right| |].
    - apply release_one_origin; auto. apply Inc. now left.
    - assert (Ho : In (og_node o) (map og_node (mn_origins M))) by (apply in_map, Inc; now left). unfold mrelease_one. destruct (asg <? 0); [exact Vx|].
      destruct (mrelease_dests M D cur asg o false _ _ x) as [w1 y1] eqn:E1. destruct (mrelease_dests M D cur asg o true _ _ w1) as [w2 y2] eqn:E2.
      destruct (release_dests_minv M K D cur asg o false Ho _ _ _ _ _ E1 Ix) as [I1 _].
      rewrite oq_shadow. apply shuffle_v; [destruct DV as ((_ & _ & Hs & _) & _); apply Hs|]. eapply RD; [exact Ho|exact E2|exact I1|]. eapply RD; eauto. }
  apply X; auto.
Qed.

Lemma origins_seen {St} (f : St -> origin -> res St) (g : St -> Z -> res St) : (forall s o, f s o = g s (o_node o)) ->
  forall s, foldM f s (n_origins (seen_net M)) = foldM f s (n_origins N).
Proof.
  intros E s. cbn [seen_net n_origins N snet]. rewrite !foldM_map. revert s. generalize (mn_origins M) as l. induction l as [|o l IH]; intros s; [reflexivity|].
  cbn [foldM]. rewrite !E. cbn [o_node sorigin]. destruct (g s (og_node o)); cbn [bind]; auto.
Qed.
Lemma fixed_seen D t x : fixed_routing (seen_net M) D t x = fixed_routing N D t x.
Proof.
  unfold fixed_routing. change (fixed_portion (seen_net M) t x) with (fixed_portion N t x). destruct (fixed_portion N t x) as [y|]; [cbn [bind]|reflexivity].
  rewrite (origins_seen _ (fun w n => foldM (fixed_origin_veh (seen_net M) D) w (w_oq w n)) (fun s o => eq_refl)). reflexivity.
Qed.
Lemma adaptive_seen D x : adaptive_routing (seen_net M) D x = adaptive_routing N D x.
Proof.
  unfold adaptive_routing. rewrite (origins_seen _ (fun w n => foldM (adaptive_origin_veh (seen_net M) D n) w (w_oq w n)) (fun s o => eq_refl)). reflexivity.
Qed.
Lemma update_seen D t x : update_routing (seen_net M) D t x = update_routing N D t x.
Proof.
  unfold update_routing. change (n_routing N) with (n_routing (seen_net M)). destruct (n_routing (seen_net M)); [apply fixed_seen|apply adaptive_seen|].
  rewrite adaptive_seen. destruct (if Qltb 0 ratio then _ else _); cbn [bind]; [apply fixed_seen|reflexivity].
Qed.
Lemma class_v D t cls k x x' h : sinv N x -> class_routing M D t cls k x = Ok x' -> vinv N pt0 v q x h -> vinv N pt0 v q x' h.
Proof.
  intros I H V. unfold class_routing in H. cbv zeta in H. apply bind_ok in H as (x1 & H1 & H). apply bind_ok in H as (x2 & H2 & H3).
  assert (X1 : same_q x x1 /\ vinv N pt0 v q x1 h).
  { unfold class_portion in H1. destruct (_ || _); [apply Ok_inj in H1 as <-; split; [apply same_q_refl|exact V]|]. apply bind_ok in H1 as (u & _ & H1). cbv zeta in H1.
    destruct (_ <? _); [|apply Ok_inj in H1 as <-; split; [apply same_q_refl|exact V]]. apply bind_ok in H1 as (p & Hp & H1). apply Ok_inj in H1 as <-.
    split; [repeat split|]. apply (vinv_frame N pt0 v q x); [repeat split|reflexivity|reflexivity| |exact V]. cbn [set_pt w_pt]. eapply change_choice_routes; eauto. }
  destruct X1 as [Q1 V1]. pose proof (sinv_q _ _ _ Q1 I) as I1.
  rewrite (origins_seen _ (fun w n => foldM (fun w v => if Bool.eqb (cls v) k then fixed_origin_veh (seen_net M) D w v else Ok w) w (w_oq w n)) (fun s o => eq_refl)) in H2.
  assert (Fq : forall (f : world -> Z -> res world) (b : Z -> bool), (forall w u w', f w u = Ok w' -> same_q w w') -> forall w u w', (if b u then f w u else Ok w) = Ok w' -> same_q w w').
  { intros f b Hf w u w' E. destruct (b u); [eauto|apply Ok_inj in E as <-; apply same_q_refl]. }
  assert (V2 : vinv N pt0 v q x2 h).
  { eapply (nested_v N pt0 v q (fun o w u => if Bool.eqb (cls u) k then fixed_origin_veh N D w u else Ok w) (fun w o => w_oq w (o_node o))); [| | |exact I1|exact V1|exact H2].
    - intros b w u w'. apply (Fq (fixed_origin_veh N D) (fun u => Bool.eqb (cls u) k)). intros; eapply fixed_origin_q; eauto.
    - intros b a c (_ & Q & _). now rewrite Q.
    - intros b a u a' Hb Ia Hu E Va. destruct (Bool.eqb (cls u) k); [|apply Ok_inj in E as <-; exact Va]. eapply fixed_origin_v; eauto. now apply in_map. }
  assert (I2 : sinv N x2).
  { eapply sinv_q; [|exact I1]. eapply foldM_rel; [apply same_q_refl|apply same_q_trans| |exact H2]. intros s o s' _ E.
    eapply foldM_rel; [apply same_q_refl|apply same_q_trans| |exact E]. intros s1 u s2 _ E2. revert E2. apply (Fq (fixed_origin_veh N D) (fun u => Bool.eqb (cls u) k)). intros; eapply fixed_origin_q; eauto. }
  eapply (nested_v N pt0 v q (fun l w u => if Bool.eqb (cls u) k then fixed_link_veh N l w u else Ok w) (fun w l => l_fin (w_link w l))); [| | |exact I2|exact V2|exact H3].
  - intros b w u w'. apply (Fq (fixed_link_veh N b) (fun u => Bool.eqb (cls u) k)). intros; eapply fixed_link_q; eauto.
  - intros b a c (Q & _). now rewrite Q.
  - intros b a u a' Hb Ia Hu E Va. destruct (Bool.eqb (cls u) k); [|apply Ok_inj in E as <-; exact Va]. eapply fixed_link_v; eauto.
Qed.
Lemma routing_v D t w w' h : minv M w -> mupdate_routing M D t w = Ok w' -> vi w h -> vi w' h.
Proof.
  intros I H V. apply routing_shadow in H. pose proof (shadow_sinv M w I) as SI. unfold srouting in H.
  assert (UP : forall D t, update_routing (seen_net M) D t (shadow w) = Ok (shadow w') -> vi w' h).
  { intros D' t' E. rewrite update_seen in E. eapply update_routing_v; eauto. }
  destruct (mn_routing M) as [| |r|rc rt]; [eauto|eauto|eauto|].
  apply bind_ok in H as (x1 & H1 & H). apply bind_ok in H as (x2 & H2 & H).
  assert (X : sinv N x1 /\ vinv N pt0 v q x1 h).
  { destruct (_ || _); [|apply Ok_inj in H1 as <-; auto]. rewrite adaptive_seen in H1. split; [eapply sinv_q; [eapply adaptive_routing_q; eauto|exact SI]|]. eapply adaptive_routing_v; eauto. }
  destruct X as [I1 V1]. pose proof (class_v _ _ _ _ _ _ _ I1 H2 V1) as V2. eapply class_v; [|exact H|exact V2].
  eapply sinv_q; [|exact I1]. exact (proj1 (class_routing_r _ _ _ _ _ _ _ H2)).
Qed.

Lemma nodes_shadow_v D t w w' h : mdraws_valid D -> minv M w -> foldM (mnode_evolve (mn_fs M) (mn_pcu M) (mn_out M) (mn_in M) (r_node D) t) w (mn_nodes M) = Ok w' -> vi w h ->
  exists h', vi w' h' /\ entered N v h h' (shadow w').
Proof.
  intros DV I H V. enough (X : minv M w' /\ exists h', vi w' h' /\ entered N v h h' (shadow w')) by apply X.
  eapply (foldM_inv _ (fun x => minv M x /\ exists h', vi x h' /\ entered N v h h' (shadow x))); [|split; [exact I|exists h; split; [exact V|now left]]|exact H].
  intros nk s s' Hin (Is & h1 & V1 & E1) E. destruct (node_shadow M K D t s s' nk DV Hin E) as (e & lv & o & d & J).
  assert (Is' : minv M s').
  { destruct (node_meff M K D t s s' nk DV Hin E) as (e' & lv' & J'). eapply (meff_minv M K t); eauto. }
  split; [exact Is'|]. eapply (neff_v N KN pt0 v q t (shadow s) (shadow s')); eauto; apply shadow_sinv; assumption.
Qed.

Lemma mall_in cls l x D hn l' : mbody_inv cls (ml_body l) -> mlink_clear cls l = Ok x -> mlink_evolve cls hn D x = Ok l' -> forall u, zc u (mall l') = zc u (mall l).
Proof.
  intros B Hx Hy u.
  destruct (mlink_clear_line _ _ _ false Hx B) as (Bx & Ef & _). destruct (mlink_clear_line _ _ _ true Hx B) as (_ & Et & _).
  destruct (mlink_evolve_line _ _ _ _ _ false Hy Bx) as (By & Ef' & _). destruct (mlink_evolve_line _ _ _ _ _ true Hy Bx) as (_ & Et' & _).
  rewrite (mall_split cls l' u By), (mall_split cls l u B). congruence.
Qed.
Lemma links_shadow_v D (t : Z) w w' h : minv M w -> foldM (mlink_step D) w (mn_links M) = Ok w' -> vi w h ->
  vi w' h /\ (forall l u, In u (on_link (w_link (shadow w') l)) <-> In u (on_link (w_link (shadow w) l))).
Proof.
  intros I H V. enough (X : minv M w' /\ vi w' h /\ (forall l u, In u (on_link (w_link (shadow w') l)) <-> In u (on_link (w_link (shadow w) l)))) by apply X.
  eapply (foldM_inv _ (fun x => minv M x /\ vi x h /\ (forall l u, In u (on_link (w_link (shadow x) l)) <-> In u (on_link (w_link (shadow w) l))))); [|split; [exact I|split; [exact V|tauto]]|exact H].
  intros l s s' Hl (Is & Vs & Os) E. split; [exact (proj1 (link_step_minv M D t s l s' Hl E Is))|].
  unfold mlink_step in E. apply bind_ok in E as (x & Hx & E). apply bind_ok in E as (y & Hy & E). apply Ok_inj in E as <-.
  assert (O : forall l' u, In u (on_link (w_link (shadow (mset_link s l y)) l')) <-> In u (on_link (w_link (shadow s) l'))).
  { intros l' u. cbn [shadow w_link mset_link mw_link]. rewrite !on_shadow. destruct (Z.eq_dec l' l) as [->|Ne]; [rewrite upd_same|rewrite upd_other by exact Ne; tauto].
    rewrite !zc_In. rewrite (mall_in _ _ _ _ _ _ (n_body _ _ Is l Hl) Hx Hy u). tauto. }
  split; [|intros l' u; rewrite O; apply Os].
  destruct Vs as [P1 P2 P3 P4]. constructor; auto. intros A B. destruct (P3 A B) as [S1 S2 S3 S4].
  constructor; auto. intros l' Hl' Hv. apply O in Hv. exact (S2 l' Hl' Hv).
Qed.
Lemma dests_shadow_v t w w' h : minv M w -> foldM (mreceive M t) w (mn_dests M) = Ok w' -> vi w h -> vi w' h /\ mw_link w' = mw_link w.
Proof.
  intros I H V. enough (X : minv M w' /\ vi w' h /\ mw_link w' = mw_link w) by apply X.
  eapply (foldM_inv (mreceive M t) (fun x => minv M x /\ vi x h /\ mw_link x = mw_link w)); [|split; [exact I|split; [exact V|reflexivity]]|exact H].
  intros n s s' Hn (Is & Vs & Ls) E. split; [exact (proj1 (receive_minv M K t n s s' Hn E Is))|].
  destruct (receive_v N pt0 v q t n (shadow s) (shadow s') h Hn (shadow_sinv M s Is) (receive_shadow M t n s s' E) Vs) as [A _]. split; [exact A|].
  unfold mreceive in E. apply bind_ok in E as (s1 & E1 & E). apply Ok_inj in E as <-. cbn [mset_dq mw_link]. now rewrite (mre_link _ _ _ _ _ (mreceive_loop_eff M t n _ _ _ E1)).
Qed.
Lemma load_once_shadow_v D t a w w' h : mdraws_valid D -> minv M w -> mload_once M D t a w = Ok w' -> vi w h -> vi w' (sight h (link_of N (shadow w') v)).
Proof.
  intros DV I H V. pose proof (shadow_sinv M w' (proj1 (load_once_minv M K D t a w w' DV H I))) as I'. unfold mload_once in H.
  apply bind_ok in H as (w1 & H1 & H). apply bind_ok in H as (w2 & H2 & H). apply bind_ok in H as (w3 & H3 & H). apply bind_ok in H as (w4 & H4 & H).
  pose proof (proj1 (release_all_minv M K D t a w w1 DV H1 I)) as I1. pose proof (proj1 (routing_minv M D t w1 w2 H2 I1)) as I2.
  assert (I3 : minv M w3).
  { eapply (foldM_inv _ (minv M)); [|exact I2|exact H3]. intros nk s s' Hin Is E. destruct (node_meff M K D t s s' nk DV Hin E) as (e' & lv' & J'). eapply (meff_minv M K t); eauto. }
  assert (I4 : minv M w4).
  { eapply (foldM_inv _ (minv M)); [|exact I3|exact H4]. intros l s s' Hl Is E. exact (proj1 (link_step_minv M D t s l s' Hl E Is)). }
  pose proof (release_v _ _ _ _ _ _ DV H1 I V) as V1. pose proof (routing_v _ _ _ _ _ I1 H2 V1) as V2.
  destruct (nodes_shadow_v _ _ _ _ _ DV I2 H3 V2) as (h' & V3 & En). destruct (links_shadow_v _ t _ _ _ I3 H4 V3) as (V4 & O4). destruct (dests_shadow_v _ _ _ _ I4 H V4) as (V5 & O5).
  destruct (Z_le_gt_dec v (f_num (w_fac (shadow w')))) as [Old|New].
  - destruct (v_adapt (w_veh (shadow w') v)) eqn:Ad; [constructor; [apply V5|intros; lia|intros; congruence|apply V5]|].
    enough (E : sight h (link_of N (shadow w') v) = h') by (rewrite E; exact V5).
    pose proof (vi_st _ _ _ _ _ _ V5 Old Ad) as [S1 S2 S3 S4].
    destruct (link_of N (shadow w') v) as [l|] eqn:L; simpl.
    + apply link_of_some in L as [Hl Hon]. destruct (S2 l Hl Hon) as (p & pre & rest & _ & _ & Eh & _). destruct En as [->|(l2 & Hl2 & E2 & La & _)].
      * rewrite Eh, last_opt_snoc, Z.eqb_refl. reflexivity.
      * rewrite Eh in E2. apply app_inj_tail in E2 as [<- <-]. destruct (last_opt pre) as [y|]; [|auto].
        destruct (Z.eqb_spec y l) as [->|]; [congruence|auto].
    + destruct En as [->|(l2 & Hl2 & E2 & La & C)]; [reflexivity|exfalso]. apply (link_of_none N v (shadow w') l2 L Hl2).
      cbn [shadow w_link]. rewrite O5. apply O4. now apply on_in.
  - assert (L : link_of N (shadow w') v = None).
    { destruct (link_of N (shadow w') v) as [l|] eqn:L; [|reflexivity]. apply link_of_some in L as [Hl Hon]. pose proof (u_l_old N (shadow w') I' v l Hl Hon). lia. }
    rewrite L. cbn [sight]. destruct V5 as [P1 P2 P3 P4]. destruct (P2 ltac:(lia)) as [T E]. constructor; [exact P1| |intros; lia|exact P4]. intros _. split; [exact T|].
    destruct En as [<-|(l2 & _ & E2 & _)]; [exact E|]. rewrite E in E2. destruct h; discriminate.
Qed.
Lemma fresh_shadow_v w : mfresh_world M w -> mw_pt w = pt0 -> q = None -> vi w [].
Proof.
  intros [F1 F2 F3 F4 F5 F6 F7] E Eq. constructor.
  - cbn [shadow w_pt]. rewrite E. apply sub_refl. - intros _. split; [apply F5|reflexivity].
  - intros _ _. constructor; unfold arrived; cbn [shadow w_oq w_dq w_fac w_link]; rewrite ?F6.
    + intros n _ C. rewrite F1 in C. destruct C.
    + intros l Hl C. exfalso. destruct (F3 l Hl) as (p & Hp). destruct (fresh_mempty _ _ Hp (mw_cls w)) as (B & O & _). rewrite on_shadow in C. apply zc_In in C.
      rewrite (mall_split _ _ v B), (O false), (O true) in C. change (zc v []) with 0 in C. lia.
    + intros n _ C. rewrite F2 in C. destruct C. + intros [].
  - intros p C. congruence.
Qed.
End Veh.
