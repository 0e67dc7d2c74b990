(** Routing never fails on valid input. *)
From Verif Require Import Base Base_lemmas Model_Num Proof_Num Spec_Path Proof_Path Model_CC Spec_CC Proof_CC Model_Path Model_Link Spec_Link Spec_Node
  Proof_Link Proof_Link3 Proof_Link4 Proof_Link5 Model_World Model_Node Proof_Node Proof_Node2 Proof_Node3 Proof_Node4 Proof_Node5 Model_Sim Spec_Sim Spec_Route
  Proof_Sim1 Proof_Sim2 Proof_Sim3 Proof_Sim4 Proof_Sim5 Proof_Sim6 Proof_Sim7 Spec_Valid Proof_Safe1 Prop_Path.
Local Open Scope Z_scope.

Lemma foldM_total_post {A St} (f : St -> A -> res St) (P : St -> Prop) (Q : St -> A -> Prop) l :
  (forall s a, P s -> In a l -> exists s', f s a = Ok s' /\ P s' /\ Q s' a /\ forall b, Q s b -> Q s' b) ->
  forall s, P s -> exists s', foldM f s l = Ok s' /\ P s' /\ (forall a, In a l -> Q s' a) /\ forall b, Q s b -> Q s' b.
Proof.
  induction l as [|a l IH]; intros H s Hs; simpl.
  - exists s. repeat split; auto. intros ? [].
  - destruct (H s a Hs (or_introl eq_refl)) as (s1 & E & H1 & Q1 & M1). rewrite E. simpl.
    destruct (IH (fun s a Ps Ia => H s a Ps (or_intror Ia)) s1 H1) as (s2 & E2 & H2 & Q2 & M2). exists s2. repeat split; auto.
    intros b [<-|Hb]; auto.
Qed.
Lemma mapM_total {A B} (f : A -> res B) (R : A -> B -> Prop) l : (forall a, In a l -> exists b, f a = Ok b /\ R a b) ->
  exists l', mapM f l = Ok l' /\ Forall2 R l l'.
Proof.
  induction l as [|a l IH]; intros H; simpl; [eauto|]. destruct (H a (or_introl eq_refl)) as (b & E & Rb). rewrite E. simpl.
  destruct IH as (l' & E' & F); [intros; apply H; now right|]. rewrite E'. simpl. eauto.
Qed.
Lemma Forall2_len {A B} (R : A -> B -> Prop) l l' : Forall2 R l l' -> length l = length l'.
Proof. induction 1; simpl; congruence. Qed.
Lemma Forall2_In_r {A B} (R : A -> B -> Prop) l l' b : Forall2 R l l' -> In b l' -> exists a, In a l /\ R a b.
Proof. induction 1 as [|x y l l' H F IH]; intros []; [subst; eauto using in_eq|]. destruct IH as (a & Ia & Ra); auto. exists a. split; [now right|auto]. Qed.
Lemma Forall2_In_l {A B} (R : A -> B -> Prop) l l' a : Forall2 R l l' -> In a l -> exists b, In b l' /\ R a b.
Proof. induction 1 as [|x y l l' H F IH]; intros []; [subst; eauto using in_eq|]. destruct IH as (b & Ia & Ra); auto. exists b. split; [now right|auto]. Qed.

(** ** the path table *)
Section Table.
Context (N : net).
Definition unbuffered : Prop := n_rfreq N = -1 \/ n_rlen N = -1.
Definition all_dist (pt : ptable) : Prop := forall k es, In (k, es) pt -> distribution es.
Record tbl (pt0 : ptable) (t : Z) (pt : ptable) : Prop := {
  tb_keys : forall k es, In (k, es) pt0 -> exists es', In (k, es') pt;
  tb_full : forall k es, In (k, es) pt -> es <> [];
  tb_dist : (unbuffered /\ all_dist pt) \/
    (0 < n_rfreq N /\ 0 < n_rlen N /\ (forall k es, In (k, es) pt -> buffers_ok N es) /\ (0 < t -> all_dist pt)) }.

Lemma set_ps_p es ps : length ps = length es -> map e_p (set_ps es ps) = ps.
Proof.
  unfold set_ps. rewrite map_map. cbn [e_p]. revert ps. induction es as [|e es IH]; intros [|p ps] H; try discriminate; [reflexivity|].
  simpl. f_equal. apply IH. simpl in H. lia.
Qed.
Lemma set_ps_length es ps : length ps = length es -> length (set_ps es ps) = length es.
Proof. unfold set_ps. rewrite map_length, combine_length. lia. Qed.
Lemma set_ps_buf es ps e : In e (set_ps es ps) -> exists e0, In e0 es /\ e_buf e = e_buf e0.
Proof. unfold set_ps. intros H. apply in_map_iff in H as ([a q] & <- & H). apply in_combine_l in H. eauto. Qed.

Lemma change_choice_total col pt : 0 <= col < n_rlen N -> (forall k es, In (k, es) pt -> es <> [] /\ buffers_ok N es) ->
  exists pt', change_choice_portion col pt = Ok pt' /\
    Forall2 (fun a b => fst b = fst a /\ snd b <> [] /\ buffers_ok N (snd b) /\ distribution (snd b)) pt pt'.
Proof.
  intros Hc H. unfold change_choice_portion.
  set (R1 := fun (a b : (Z * Z) * list pentry) => fst b = fst a /\ snd b <> [] /\ buffers_ok N (snd b) /\ forall e, In e (snd b) -> (0 <= e_p e)%Q).
  destruct (mapM_total (fun x : (Z * Z) * list pentry => do es <- mapM (copy_entry col) (snd x); Ok (fst x, es)) R1 pt) as (pt1 & E1 & F1).
  { intros [k es] Hin. destruct (H k es Hin) as [Hne Hb]. cbn [fst snd].
    destruct (mapM_total (copy_entry col) (fun a b => e_buf b = e_buf a /\ (0 <= e_p b)%Q) es) as (es' & E' & F').
    { intros e He. destruct (Hb e He) as [HL Hx]. unfold copy_entry. replace (_ && _) with true.
      2:{ symmetry. apply andb_true_iff. split; [apply Z.leb_le|apply Z.ltb_lt]; lia. }
      cbn [guard bind]. eexists. split; [reflexivity|]. cbn [e_buf e_p]. split; [reflexivity|].
      apply Hx. apply nth_In. lia. }
    rewrite E'. cbn [bind]. eexists. split; [reflexivity|]. unfold R1. cbn [fst snd]. split; [reflexivity|]. split; [|split].
    - pose proof (Forall2_len _ _ _ F'). destruct es'; [destruct es; [contradiction|discriminate]|discriminate].
    - intros e He. destruct (Forall2_In_r _ _ _ e F' He) as (e0 & I0 & B0 & _). rewrite B0. auto.
    - intros e He. destruct (Forall2_In_r _ _ _ e F' He) as (e0 & I0 & _ & P0). exact P0. }
  rewrite E1. cbn [bind].
  destruct (mapM_total (fun x : (Z * Z) * list pentry => do ps <- normalize_p (map e_p (snd x)); Ok (fst x, set_ps (snd x) ps))
     (fun a b => fst b = fst a /\ snd b <> [] /\ buffers_ok N (snd b) /\ distribution (snd b)) pt1) as (pt2 & E2 & F2).
  { intros [k es] Hin. destruct (Forall2_In_r _ _ _ _ F1 Hin) as (a & Ia & (_ & Hne & Hb & Hp)). cbn [fst snd] in *.
    destruct (C28_normalised_shares (map e_p es)) as (qs & Eq & HL & Hq & Hs & _).
    { destruct es; [contradiction|discriminate]. } { intros p I. apply in_map_iff in I as (e & <- & I). auto. }
    rewrite map_length in HL. rewrite Eq. cbn [bind]. eexists. split; [reflexivity|]. cbn [fst snd]. split; [reflexivity|]. split; [|split].
    - intros C. apply (f_equal (@length pentry)) in C. rewrite set_ps_length in C by exact HL. destruct es; [contradiction|discriminate].
    - intros e He. apply set_ps_buf in He as (e0 & I0 & B0). rewrite B0. auto.
    - split; [|now rewrite set_ps_p]. intros e He. apply Hq. rewrite <- (set_ps_p es qs HL). now apply in_map. }
  exists pt2. split; [exact E2|]. clear - F1 F2. revert pt2 F2. induction F1 as [|a b l l' R F IH]; intros pt2 F2.
  - inversion F2. constructor.
  - inversion F2 as [|? c ? l2 Rc Fc]; subst. constructor; [|auto]. destruct R as (R & _), Rc as (Rc & X). split; [congruence|exact X].
Qed.
Lemma fixed_portion_total pt0 t w : 0 <= t -> tbl pt0 t (w_pt w) -> exists w1, fixed_portion N t w = Ok w1 /\ w_veh w1 = w_veh w /\ w_trk w1 = w_trk w /\
  tbl pt0 (t + 1) (w_pt w1) /\ all_dist (w_pt w1).
Proof.
  intros Ht [TK TF TD]. unfold fixed_portion. destruct TD as [[Un D]|(R1 & R2 & B & D)].
  - replace (_ || _) with true. 2:{ symmetry. apply orb_true_iff. destruct Un as [U|U]; rewrite U; [left|right]; reflexivity. }
    exists w. do 3 (split; [reflexivity|]). split; [|exact D]. constructor; auto.
  - replace (_ || _) with false. 2:{ symmetry. apply orb_false_iff. split; apply Z.eqb_neq; lia. }
    replace (n_rfreq N =? 0) with false by (symmetry; apply Z.eqb_neq; lia). cbn [negb guard bind].
    destruct (_ && _) eqn:C.
    + apply andb_true_iff in C as [C1 C2]. apply Z.ltb_lt in C2. pose proof (Z.quot_pos t (n_rfreq N) Ht R1).
      destruct (change_choice_total (Z.quot t (n_rfreq N)) (w_pt w)) as (pt' & E & F); [lia|intros k es I; split; eauto|]. rewrite E. cbn [bind]. eexists. split; [reflexivity|]. do 2 (split; [reflexivity|]).
      cbn [set_pt w_pt].
      assert (AD : all_dist pt'). { intros k es I. destruct (Forall2_In_r _ _ _ _ F I) as (a & _ & (_ & _ & _ & X)). exact X. }
      split; [|exact AD]. constructor.
      * intros k es I. destruct (TK k es I) as (es1 & I1). destruct (Forall2_In_l _ _ _ _ F I1) as ([k2 es2] & I2 & (E2 & _)). cbn [fst] in E2. subst k2. eauto.
      * intros k es I. destruct (Forall2_In_r _ _ _ _ F I) as (a & _ & (_ & X & _)). exact X.
      * right. split; [exact R1|]. split; [exact R2|]. split; [|auto]. intros k es I. destruct (Forall2_In_r _ _ _ _ F I) as (a & _ & (_ & _ & X & _)). exact X.
    + exists w. split; [reflexivity|]. do 2 (split; [reflexivity|]).
      assert (Tp : 0 < t).
      { destruct (Z.eq_dec t 0) as [->|]; [exfalso|lia]. rewrite Z.rem_0_l, Z.quot_0_l in C by lia. simpl in C. apply Z.ltb_ge in C. lia. }
      split; [|auto]. constructor; auto. right. auto.
Qed.
Lemma pt_find_some pt k es : In (k, es) pt -> exists es', pt_find pt k = Some es'.
Proof.
  induction pt as [|[k' es'] pt IH]; intros []; simpl.
  - injection H as -> ->. replace (key_eqb k k) with true; [eauto|]. symmetry. unfold key_eqb. now rewrite !Z.eqb_refl.
  - destruct (key_eqb k k'); eauto.
Qed.
Lemma register_total pt0 D w v t es : draws_valid D -> tbl pt0 t (w_pt w) -> all_dist (w_pt w) -> w_trk w v = None ->
  In ((v_org (w_veh w v), v_dst (w_veh w v)), es) pt0 -> exists w', register_veh D w v true = Ok w'.
Proof.
  intros DV [TK TF TD] AD T I. destruct (TK _ _ I) as (es' & I'). destruct (pt_find_some _ _ _ I') as (es1 & E1). unfold register_veh. cbv zeta. rewrite E1.
  pose proof (pt_find_In _ _ _ E1) as I1. destruct (AD _ _ I1) as [Dp Ds]. pose proof (TF _ _ I1) as Ne.
  destruct (C29_draw_succeeds (map e_p es1) (d_route D v)) as (i & Ei & Hi & _); auto.
  { destruct es1; [contradiction|discriminate]. } { intros p J. apply in_map_iff in J as (e & <- & J). auto. } { apply DV. }
  rewrite Ei. cbn [bind]. rewrite map_length in Hi. destruct (nth_error es1 i) eqn:En; [eauto|]. apply nth_error_None in En. lia.
Qed.
End Table.

(** ** routing *)
(** what routing needs of valid input *)
Record rvalid (N : net) (w0 : world) : Prop := {
  rv_net : net_ok N; rv_routing : n_routing N = RFixed;
  rv_ends : forall l, In l (n_links N) -> In l (n_in N (n_to N l));
  rv_orig : forall o, In o (n_origins N) -> In (o_node o, NOrigin) (n_nodes N);
  rv_dest : forall d, In d (n_dests N) -> In (d, NDest) (n_nodes N) /\ n_out N d = [];
  rv_routes : forall o d p, is_route (w_pt w0) o d p -> leads N o (r_links p) d;
  rv_demand : forall o d, In o (n_origins N) -> In d (map fst (o_demand o)) ->
    In d (n_dests N) /\ exists es, In ((o_node o, d), es) (w_pt w0) }.
Lemma rvalid_of N w0 : valid_input N w0 -> rvalid N w0.
Proof. intros VA. constructor; apply VA. Qed.
Coercion rvalid_of : valid_input >-> rvalid.
Section Routing.
Context (N : net) (w0 : world) (VA : rvalid N w0).
Let K : net_ok N := rv_net _ _ VA.
Let pt0 := w_pt w0.

Lemma leads_app u a l b v : leads N u (a ++ l :: b) v -> In l (n_links N) /\ leads N (n_to N l) b v.
Proof.
  revert u. induction a as [|x a IH]; intros u H; simpl in H.
  - destruct H as [A B]. split; [eapply no_out; eauto|exact B].
  - destruct H as [_ H]. eauto.
Qed.
Lemma kind_unique n k k' : In (n, k) (n_nodes N) -> In (n, k') (n_nodes N) -> k = k'.
Proof.
  pose proof (no_nodes N K) as ND. induction (n_nodes N) as [|[m c] l IH]; [intros []|]. simpl in ND. apply NoDup_cons_iff in ND as [Na ND].
  intros [A|A] [B|B].
  - congruence.
  - exfalso. apply Na. injection A as -> ->. change n with (fst (n, k')). now apply in_map.
  - exfalso. apply Na. injection B as -> ->. change n with (fst (n, k)). now apply in_map.
  - auto.
Qed.
Lemma valid_routes_ok : routes_ok pt0.
Proof.
  intros o d p R pre a b post E ->. pose proof (rv_routes _ _ VA o d p R) as L. rewrite E in L.
  assert (X : exists u, In b (n_out N u) /\ In b (n_out N (n_to N b))).
  { clear - L. revert o L. induction pre as [|x pre IH]; intros o L; simpl in L; [exists o; tauto|]. destruct L as [_ L]. eauto. }
  destruct X as (u & A & B). pose proof (no_out N K _ _ A) as Hl. destruct (no_around N K (n_to N b)) as (_ & _ & DJ). exact (DJ b (rv_ends _ _ VA b Hl) B).
Qed.

(** vehicles with a demanded trip *)
Definition trip_ok (x : veh) : Prop := v_adapt x = false /\ exists o, In o (n_origins N) /\ o_node o = v_org x /\ In (v_dst x) (map fst (o_demand o)).
Lemma trip_dest x : trip_ok x -> In (v_dst x) (n_dests N) /\ In (v_dst x, NDest) (n_nodes N) /\ n_out N (v_dst x) = [] /\
  (exists es, In ((v_org x, v_dst x), es) pt0) /\ v_org x <> v_dst x.
Proof.
  intros (_ & o & Ho & Eo & Hd). destruct (rv_demand _ _ VA o _ Ho Hd) as [Hn He]. destruct (rv_dest _ _ VA _ Hn) as [A B]. rewrite Eo in He.
  split; [exact Hn|]. split; [exact A|]. split; [exact B|]. split; [exact He|]. intros C. pose proof (rv_orig _ _ VA o Ho) as X. rewrite Eo, C in X.
  pose proof (kind_unique _ _ _ A X). discriminate.
Qed.

Record rinv (w : world) : Prop := {
  ri_s : sinv N w;
  ri_v : forall v, exists h, vinv N pt0 v None w h;
  ri_trip : forall v, 1 <= v <= f_num (w_fac w) -> trip_ok (w_veh w v);
  ri_oq : forall n v, In n (map o_node (n_origins N)) -> In v (w_oq w n) -> v_org (w_veh w v) = n }.
Lemma known w v : sinv N w -> (exists n, In n (map o_node (n_origins N)) /\ In v (w_oq w n)) \/ (exists l, In l (n_links N) /\ In v (on_link (w_link w l))) \/ (exists d, In d (n_dests N) /\ In v (w_dq w d)) ->
  1 <= v <= f_num (w_fac w).
Proof.
  intros I H. assert (P : 1 <= zcount N w v).
  { unfold zcount. destruct H as [(n & Hn & Hv)|[(l & Hl & Hv)|(d & Hd & Hv)]]; apply zc_In in Hv.
    - pose proof (zo_ge N w v n Hn). pose proof (zl_nn N w v). pose proof (zd_nn N w v). lia.
    - pose proof (zl_ge N w v l Hl). pose proof (zo_nn N w v). pose proof (zd_nn N w v). lia.
    - pose proof (zd_ge N w v d Hd). pose proof (zl_nn N w v). pose proof (zo_nn N w v). lia. }
  pose proof (i_count _ _ I v) as C. pose proof (zc_nonneg v (arrived w)). unfold one_if in C. destruct (_ && _) eqn:E; [|lia].
  apply andb_true_iff in E as [A B]. apply Z.leb_le in A. apply Z.leb_le in B. lia.
Qed.
Lemma rinv_veh w w' : rinv w -> rrel w w' -> (forall v, exists h, vinv N pt0 v None w' h) -> rinv w'.
Proof.
  intros [A B C E] [Q R] V. constructor; [eapply sinv_q; eauto|exact V| |]; destruct Q as (_ & Qo & _ & _ & Qf).
  - rewrite Qf. intros v Hv. destruct (C v Hv) as (X & Y). destruct (R v) as [Rv _]. unfold stat in Rv. injection Rv as R1 R2 R3 R4 R5. split; [congruence|]. now rewrite R1, R2.
  - rewrite Qo. intros n v Hn Hv. rewrite <- (E n v Hn Hv). destruct (R v) as [Rv _]. unfold stat in Rv. congruence.
Qed.

(** one vehicle at an origin *)
Lemma origin_veh_total D w n v t : draws_valid D -> rinv w -> tbl N pt0 t (w_pt w) -> all_dist (w_pt w) -> In n (map o_node (n_origins N)) -> In v (w_oq w n) ->
  exists w', fixed_origin_veh N D w v = Ok w' /\ rinv w' /\ w_pt w' = w_pt w /\ w_trk w' v <> None /\ (forall u, w_trk w u <> None -> w_trk w' u <> None) /\
    (forall u, u <> v -> w_veh w' u = w_veh w u).
Proof.
  intros DV R TB AD Hn Hv. pose proof R as [I V T O].
  pose proof (known w v I (or_introl (ex_intro _ n (conj Hn Hv)))) as Kn. destruct (T v Kn) as (Ad & _). destruct (trip_dest _ (T v Kn)) as (_ & _ & _ & (es & Hes) & NE).
  assert (X : exists w', fixed_origin_veh N D w v = Ok w' /\ w_pt w' = w_pt w /\ w_trk w' v <> None /\ (forall u, w_trk w u <> None -> w_trk w' u <> None) /\ (forall u, u <> v -> w_veh w' u = w_veh w u)).
  { unfold fixed_origin_veh. rewrite Ad. destruct (w_trk w v) eqn:E; [exists w; repeat split; auto; congruence|].
    destruct (register_total N pt0 D w v t es DV TB AD E Hes) as (w1 & E1). rewrite E1. cbn [bind].
    destruct (register_inv _ _ _ _ E1 E) as (p & Rp & ->). unfold advance. cbn [set_vehs set_trk w_trk]. rewrite upd_same.
    assert (L : leads N (v_org (w_veh w v)) (r_links p) (v_dst (w_veh w v))).
    { apply (rv_routes _ _ VA). destruct (V v) as (h & [P1 _ _ _]). apply P1, Rp. }
    destruct (r_links p) as [|l r]; [simpl in L; contradiction|]. destruct L as [L _].
    rewrite (proj2 (memb_In l (n_links N))) by (eapply no_out; eauto). cbn [guard bind]. eexists. split; [reflexivity|].
    cbn [set_trk veh_next set_vehs w_trk w_veh w_pt]. split; [reflexivity|]. rewrite upd_same. split; [discriminate|]. split.
    - intros u Hu. destruct (Z.eq_dec u v) as [->|Ne]; [rewrite upd_same; discriminate|]. now rewrite !upd_other.
    - intros u Hu. now rewrite !upd_other. }
  destruct X as (w' & E & Ep & Et & Em & Eo). exists w'. split; [exact E|]. split; [|auto]. apply (rinv_veh w); auto.
  - eapply fixed_origin_r; eauto.
  - intros u. destruct (V u) as (h & Vu). exists h. eapply (fixed_origin_v N pt0 u None D n); eauto.
Qed.
(** what is left of the route *)
Lemma on_link_state w v l : rinv w -> In l (n_links N) -> In v (on_link (w_link w l)) ->
  v_adapt (w_veh w v) = false /\ v_cur (w_veh w v) = Some l /\
  exists rest, shape N (w_veh w v) (w_trk w v) l rest /\ leads N (n_to N l) rest (v_dst (w_veh w v)) /\ (v_dst (w_veh w v) = n_to N l <-> rest = []) /\
    (forall l' r, rest = l' :: r -> In l' (n_out N (n_to N l)) /\ l' <> l).
Proof.
  intros [I V T O] Hl Hv.
  pose proof (known w v I (or_intror (or_introl (ex_intro _ l (conj Hl Hv))))) as Kn. destruct (T v Kn) as (Ad & _). destruct (trip_dest _ (T v Kn)) as (_ & _ & No & _ & _).
  destruct (V v) as (h & [P1 P2 P3 P4]). destruct (P3 (proj2 Kn) Ad) as [S1 S2 S3 S4]. destruct (S2 l Hl Hv) as (p & pre & rest & Rp & Er & _ & Ec & Sh).
  destruct Rp as [_ Rp]. pose proof (rv_routes _ _ VA _ _ _ Rp) as L. rewrite Er in L. apply leads_app in L as [_ L].
  split; [exact Ad|]. split; [exact Ec|]. exists rest. split; [exact Sh|]. split; [exact L|]. split.
  - split; [|intros ->; symmetry; exact L]. intros E. destruct rest as [|l' r]; [reflexivity|]. destruct L as [L _]. rewrite <- E, No in L. destruct L.
  - intros l' r ->. split; [apply L|]. intros ->. apply (valid_routes_ok _ _ _ Rp pre l l r Er). reflexivity.
Qed.
Definition moved_on (w : world) (v : Z) : Prop := forall l, In l (n_links N) -> In v (l_fin (w_link w l)) -> v_next (w_veh w v) <> Some l.
Lemma link_veh_total w l v : rinv w -> In l (n_links N) -> In v (l_fin (w_link w l)) ->
  exists w', fixed_link_veh N l w v = Ok w' /\ rinv w' /\ w_pt w' = w_pt w /\ moved_on w' v /\ (forall u, w_trk w u <> None -> w_trk w' u <> None) /\ (forall u, u <> v -> w_veh w' u = w_veh w u).
Proof.
  intros R Hl Hv. pose proof R as [I V T O]. assert (Hon : In v (on_link (w_link w l))) by (unfold on_link; apply in_or_app; now left).
  destruct (on_link_state w v l R Hl Hon) as (Ad & Ec & rest & Sh & L & Dst & Nxt).
  assert (X : exists w', fixed_link_veh N l w v = Ok w' /\ w_pt w' = w_pt w /\ v_next (w_veh w' v) <> Some l /\ (forall u, w_trk w u <> None -> w_trk w' u <> None) /\ (forall u, u <> v -> w_veh w' u = w_veh w u)).
  { unfold fixed_link_veh. rewrite Ad. destruct (Z.eqb_spec (v_dst (w_veh w v)) (n_to N l)) as [E|NE].
    - pose proof (proj1 Dst E) as ->. replace (w_trk w v) with (Some (@nil Z)).
      2:{ destruct Sh as [[_ B]|[(l' & r' & A & _)|(_ & _ & B & _)]]; congruence. }
      cbn [length Nat.eqb guard bind]. eexists. split; [reflexivity|]. unfold veh_next. cbn [set_vehs w_pt w_veh w_trk]. split; [reflexivity|]. rewrite upd_same. split; [discriminate|]. split; [auto|].
      intros u Hu. now rewrite upd_other.
    - destruct rest as [|l' r]; [exfalso; apply NE, Dst; reflexivity|]. destruct (Nxt l' r eq_refl) as [Ho Nl].
      destruct Sh as [[A B]|[(l2 & r2 & A & B & C & D)|(A & _)]]; [| |discriminate].
      + rewrite B. replace (opt_eqb _ _) with true by (symmetry; apply opt_eqb_spec; congruence). unfold advance. rewrite B.
        rewrite (proj2 (memb_In l' (n_links N))) by (eapply no_out; eauto). cbn [guard bind]. eexists. split; [reflexivity|].
        cbn [set_trk veh_next set_vehs w_trk w_veh w_pt]. split; [reflexivity|]. rewrite upd_same. cbn [v_next set_next]. split; [congruence|]. split.
        * intros u Hu. destruct (Z.eq_dec u v) as [->|Ne]; [rewrite upd_same; discriminate|]. now rewrite upd_other.
        * intros u Hu. now rewrite upd_other.
      + injection A as <- <-. rewrite C. replace (opt_eqb _ _) with false.
        2:{ symmetry. destruct (opt_eqb _ _) eqn:OE; [|reflexivity]. apply opt_eqb_spec in OE. congruence. }
        exists w. repeat split; auto. congruence. }
  destruct X as (w' & E & Ep & En & Em & Eo). exists w'. pose proof (fixed_link_r _ _ _ _ _ E) as RR. split; [exact E|]. split; [|split; [exact Ep|split; [|split; [exact Em|exact Eo]]]].
  - apply (rinv_veh w); auto. intros u. destruct (V u) as (h & Vu). exists h. eapply (fixed_link_v N pt0 valid_routes_ok u None l); eauto.
  - intros l2 Hl2 Hf. destruct RR as [(Ql & _) _]. rewrite Ql in Hf. rewrite (u_ll N w I v l2 l Hl2 Hl); auto. unfold on_link. apply in_or_app. now left.
Qed.

Lemma routing_total D t w : draws_valid D -> 0 <= t -> rinv w -> tbl N pt0 t (w_pt w) ->
  exists w', update_routing N D t w = Ok w' /\ rinv w' /\ tbl N pt0 (t + 1) (w_pt w') /\
    (forall n v, In n (map o_node (n_origins N)) -> In v (w_oq w' n) -> exists b, In b (n_out N n) /\ v_next (w_veh w' v) = Some b) /\
    (forall l v, In l (n_links N) -> In v (l_fin (w_link w' l)) ->
       (v_dst (w_veh w' v) = n_to N l /\ v_next (w_veh w' v) = None) \/
       (v_dst (w_veh w' v) <> n_to N l /\ exists b, In b (n_out N (n_to N l)) /\ v_next (w_veh w' v) = Some b)) /\
    (forall v, (forall n, In n (map o_node (n_origins N)) -> ~ In v (w_oq w n)) -> (forall l, In l (n_links N) -> ~ In v (l_fin (w_link w l))) -> w_veh w' v = w_veh w v).
Proof.
  intros DV Ht R TB. unfold update_routing. rewrite (rv_routing _ _ VA). unfold fixed_routing.
  destruct (fixed_portion_total N pt0 t w Ht TB) as (w1 & E1 & Ev1 & Et1 & TB1 & AD1). rewrite E1. cbn [bind].
  assert (R1 : rinv w1).
  { apply (rinv_veh w); auto; [eapply fixed_portion_r; eauto|]. intros v. destruct (ri_v _ R v) as (h & V). exists h.
    apply (vinv_frame N pt0 v None w w1); auto; [eapply fixed_portion_q; eauto|now rewrite Ev1|now rewrite Et1|].
    unfold fixed_portion in E1. destruct (_ || _); [apply Ok_inj in E1 as <-; auto using sub_refl|].
    apply bind_ok in E1 as (x & _ & E1). destruct (_ && _); [|apply Ok_inj in E1 as <-; auto using sub_refl]. apply bind_ok in E1 as (pt & E & E1). apply Ok_inj in E1 as <-.
    eapply change_choice_routes; eauto. }
  pose proof (fixed_portion_q _ _ _ _ E1) as Q1.
  (* origins *)
  set (unt := fun x : world => forall v, (forall n, In n (map o_node (n_origins N)) -> ~ In v (w_oq w n)) -> (forall l, In l (n_links N) -> ~ In v (l_fin (w_link w l))) -> w_veh x v = w_veh w v).
  set (P := fun x => rinv x /\ w_pt x = w_pt w1 /\ same_q w x /\ unt x).
  assert (P1 : P w1) by (split; [exact R1|]; split; [reflexivity|]; split; [exact Q1|intros v _ _; now rewrite Ev1]).
  destruct (foldM_total_post (fun x o => foldM (fixed_origin_veh N D) x (w_oq x (o_node o))) P (fun x o => forall v, In v (w_oq w (o_node o)) -> w_trk x v <> None) (n_origins N)) with (s := w1)
    as (w2 & E2 & (R2 & Ep2 & Q2 & U2) & T2 & _); [|exact P1|].
  { intros x o (Rx & Epx & Qx & Ux) Ho. assert (Hn : In (o_node o) (map o_node (n_origins N))) by now apply in_map.
    replace (w_oq x (o_node o)) with (w_oq w (o_node o)) by (destruct Qx as (_ & -> & _); reflexivity).
    destruct (foldM_total_post (fixed_origin_veh N D) P (fun y v => w_trk y v <> None) (w_oq w (o_node o))) with (s := x) as (y & Ey & Py & Ty & My).
    - intros y v (Ry & Epy & Qy & Uy) Hv. assert (Hv' : In v (w_oq y (o_node o))) by (destruct Qy as (_ & -> & _); exact Hv).
      destruct (origin_veh_total D y (o_node o) v (t + 1) DV Ry) as (z & Ez & Rz & Epz & Tz & Mz & Oz); auto; try (rewrite Epy; assumption).
      exists z. split; [exact Ez|]. split; [|auto]. split; [exact Rz|]. split; [congruence|]. split; [eapply same_q_trans; [exact Qy|eapply fixed_origin_q; eauto]|].
      intros u A B. rewrite Oz; [apply Uy; auto|]. intros ->. eapply A; eauto.
    - split; [exact Rx|]. auto.
    - exists y. split; [exact Ey|]. split; [exact Py|]. split; [exact Ty|]. intros b Hb v Hv. auto. }
  rewrite E2. cbn [bind].
  (* links *)
  set (P' := fun x => P x /\ forall o v, In o (n_origins N) -> In v (w_oq w (o_node o)) -> w_trk x v <> None).
  assert (P2 : P' w2).
  { split; [split; [exact R2|split; [exact Ep2|split; [exact Q2|exact U2]]]|intros o v Ho; apply (T2 o Ho)]. }
  assert (STEP : forall l y v, In l (n_links N) -> P' y -> In v (l_fin (w_link w l)) -> exists z, fixed_link_veh N l y v = Ok z /\ P' z /\ moved_on z v /\ forall u, moved_on y u -> moved_on z u).
  { intros l y v Hl ((Ry & Epy & Qy & Uy) & Ty) Hv. assert (Hv' : In v (l_fin (w_link y l))) by (destruct Qy as (-> & _); exact Hv).
    destruct (link_veh_total y l v Ry Hl Hv') as (z & Ez & Rz & Epz & Mz & Tz & Oz). exists z. split; [exact Ez|]. pose proof (fixed_link_q _ _ _ _ _ Ez) as Qz. split; [split; [|eauto]|].
    - split; [exact Rz|]. split; [congruence|]. split; [eapply same_q_trans; eauto|]. intros u A B. rewrite Oz; [apply Uy; auto|]. intros ->. eapply B; eauto.
    - split; [exact Mz|]. intros u Mu. destruct (Z.eq_dec u v) as [->|Ne]; [exact Mz|]. intros l2 Hl2 Hf. rewrite Oz by exact Ne. apply Mu; auto. destruct Qz as (Qz & _). now rewrite Qz in Hf. }
  destruct (foldM_total_post (fun x l => foldM (fixed_link_veh N l) x (l_fin (w_link x l))) P' (fun x l => forall v, In v (l_fin (w_link w l)) -> moved_on x v) (n_links N)) with (s := w2)
    as (w3 & E3 & ((R3 & Ep3 & Q3 & U3) & T3) & M3 & _); [|exact P2|].
  { intros x l Px Hl. replace (l_fin (w_link x l)) with (l_fin (w_link w l)) by (destruct Px as ((_ & _ & (-> & _) & _) & _); reflexivity).
    destruct (foldM_total_post (fixed_link_veh N l) P' moved_on (l_fin (w_link w l))) with (s := x) as (y & Ey & Py & My & Sy).
    - intros y v Py Hv. destruct (STEP l y v Hl Py Hv) as (z & Ez & Pz & Mz & Sz). eauto 8.
    - exact Px.
    - exists y. split; [exact Ey|]. split; [exact Py|]. split; [exact My|]. intros b Hb v Hv. auto. }
  exists w3. split; [exact E3|]. split; [exact R3|]. split; [now rewrite Ep3|]. pose proof R3 as [I3 V3 TR3 O3]. split; [|split; [|exact U3]].
  - intros n v Hn Hv. pose proof (known w3 v I3 (or_introl (ex_intro _ n (conj Hn Hv)))) as Kn. destruct (TR3 v Kn) as (Ad & _).
    destruct (V3 v) as (h & [A1 A2 A3 A4]). destruct (A3 (proj2 Kn) Ad) as [S1 _ _ _]. destruct (S1 n Hn Hv) as (_ & [(C & _)|(p & L & rest & Rp & Er & Nx & _)]).
    + exfalso. apply in_map_iff in Hn as (o & <- & Ho). destruct Q3 as (_ & Q3 & _). rewrite Q3 in Hv. eapply T3; eauto.
    + exists L. split; [|exact Nx]. destruct Rp as [_ Rp]. pose proof (rv_routes _ _ VA _ _ _ Rp) as LE. rewrite Er in LE. destruct LE as [LE _]. now rewrite (O3 n v Hn Hv) in LE.
  - intros l v Hl Hv. destruct (on_link_state w3 v l R3 Hl) as (Ad & Ec & rest & Sh & L & Dst & Nxt); [unfold on_link; apply in_or_app; now left|].
    assert (Mv : v_next (w_veh w3 v) <> Some l). { apply (M3 l Hl v); auto. destruct Q3 as (Q3 & _). now rewrite Q3 in Hv. }
    destruct Sh as [[A B]|[(l' & r & A & B & C & E)|(A & B & C & E)]]; [contradiction| |auto].
    right. split; [exact E|]. exists l'. split; [eapply Nxt; eauto|exact B].
Qed.
End Routing.
