(** Fixed-route vehicles follow their route. *)
From Verif Require Import Base Base_lemmas Model_Num Proof_Num Spec_Path Proof_Path Model_CC Spec_CC Proof_CC Model_Path Model_Link Spec_Link Spec_Node
  Proof_Link Proof_Link3 Proof_Link4 Proof_Link5 Model_World Model_Node Proof_Node Proof_Node2 Proof_Node3 Proof_Node4 Proof_Node5 Model_Sim Spec_Sim Spec_Route
  Proof_Sim1 Proof_Sim2 Proof_Sim3 Proof_Sim4 Proof_Sim5 Proof_Sim6.
Local Open Scope Z_scope.

(** ** a vehicle is in one place *)
Lemma sumZ_nonneg {A} (f : A -> Z) l : (forall x, In x l -> 0 <= f x) -> 0 <= sumZ (map f l).
Proof. induction l as [|a l IH]; intros H; simpl; [lia|]. pose proof (H a (or_introl eq_refl)). specialize (IH (fun x Hx => H x (or_intror Hx))). lia. Qed.
Lemma sumZ_one_le {A} (f : A -> Z) l x : (forall x, In x l -> 0 <= f x) -> In x l -> f x <= sumZ (map f l).
Proof.
  induction l as [|a l IH]; intros H I; [destruct I|]. simpl. pose proof (H a (or_introl eq_refl)).
  pose proof (sumZ_nonneg f l (fun x Hx => H x (or_intror Hx))). destruct I as [->|I]; [lia|]. specialize (IH (fun x Hx => H x (or_intror Hx)) I). lia.
Qed.
Lemma sumZ_two_le (f : Z -> Z) l x y : (forall x, In x l -> 0 <= f x) -> In x l -> In y l -> x <> y -> f x + f y <= sumZ (map f l).
Proof.
  induction l as [|a l IH]; intros H I J Ne; [destruct I|]. simpl. pose proof (H a (or_introl eq_refl)).
  assert (H' := fun x Hx => H x (or_intror Hx)). destruct I as [->|I], J as [->|J].
  - congruence. - pose proof (sumZ_one_le f l y H' J). lia. - pose proof (sumZ_one_le f l x H' I). lia. - specialize (IH H' I J Ne). lia.
Qed.

Section One.
Context (N : net) (w : world) (I : sinv N w) (v : Z).
Lemma one_le : zcount N w v + zc v (arrived w) <= 1.
Proof. rewrite (i_count _ _ I). unfold one_if. destruct (_ && _); lia. Qed.
Lemma none_new : f_num (w_fac w) < v -> zcount N w v = 0 /\ zc v (arrived w) = 0.
Proof.
  intros H. pose proof (i_count _ _ I v) as E. rewrite (proj2 (Z.leb_gt v _) H), andb_false_r in E. simpl in E.
  pose proof (zc_nonneg v (arrived w)). pose proof (zc_nonneg v (at_origins N w ++ on_links N w ++ at_dests N w)). rewrite zcount_places in *. lia.
Qed.
Lemma zo_ge n : In n (map o_node (n_origins N)) -> zc v (w_oq w n) <= zo N w v.
Proof. intros H. apply (sumZ_one_le (fun n => zc v (w_oq w n))); [intros; apply zc_nonneg|exact H]. Qed.
Lemma zl_ge l : In l (n_links N) -> zc v (on_link (w_link w l)) <= zl N w v.
Proof. intros H. apply (sumZ_one_le (fun l => zc v (on_link (w_link w l)))); [intros; apply zc_nonneg|exact H]. Qed.
Lemma zd_ge n : In n (n_dests N) -> zc v (w_dq w n) <= zd N w v.
Proof. intros H. apply (sumZ_one_le (fun n => zc v (w_dq w n))); [intros; apply zc_nonneg|exact H]. Qed.
Lemma zo_nn : 0 <= zo N w v. Proof. apply sumZ_nonneg. intros; apply zc_nonneg. Qed.
Lemma zl_nn : 0 <= zl N w v. Proof. apply sumZ_nonneg. intros; apply zc_nonneg. Qed.
Lemma zd_nn : 0 <= zd N w v. Proof. apply sumZ_nonneg. intros; apply zc_nonneg. Qed.
Lemma u_ol n l : In n (map o_node (n_origins N)) -> In l (n_links N) -> In v (w_oq w n) -> In v (on_link (w_link w l)) -> False.
Proof.
  intros Hn Hl A B. apply zc_In in A, B. pose proof (zo_ge n Hn). pose proof (zl_ge l Hl). pose proof zd_nn. pose proof one_le.
  pose proof (zc_nonneg v (arrived w)). unfold zcount in *. lia.
Qed.
Lemma u_ll a b : In a (n_links N) -> In b (n_links N) -> In v (on_link (w_link w a)) -> In v (on_link (w_link w b)) -> a = b.
Proof.
  intros Ha Hb A B. destruct (Z.eq_dec a b) as [E|Ne]; [exact E|exfalso]. apply zc_In in A, B.
  pose proof (sumZ_two_le (fun l => zc v (on_link (w_link w l))) (n_links N) a b (fun x _ => zc_nonneg _ _) Ha Hb Ne).
  pose proof zd_nn. pose proof zo_nn. pose proof one_le. pose proof (zc_nonneg v (arrived w)). unfold zcount, zl in *. lia.
Qed.
Lemma u_in_fin l : In l (n_links N) -> In v (l_in (w_link w l)) -> In v (l_fin (w_link w l)) -> False.
Proof.
  intros Hl A B. apply zc_In in A, B. pose proof (zl_ge l Hl) as G. unfold on_link in G. rewrite !zc_app in G.
  pose proof (zc_nonneg v (inside (l_body (w_link w l)))). pose proof zd_nn. pose proof zo_nn. pose proof one_le. pose proof (zc_nonneg v (arrived w)). unfold zcount in *. lia.
Qed.
Lemma u_od n d : In n (map o_node (n_origins N)) -> In d (n_dests N) -> In v (w_oq w n) -> In v (w_dq w d) -> False.
Proof.
  intros Hn Hl A B. apply zc_In in A, B. pose proof (zo_ge n Hn). pose proof (zd_ge d Hl). pose proof zl_nn. pose proof one_le.
  pose proof (zc_nonneg v (arrived w)). unfold zcount in *. lia.
Qed.
Lemma u_ld l d : In l (n_links N) -> In d (n_dests N) -> In v (on_link (w_link w l)) -> In v (w_dq w d) -> False.
Proof.
  intros Hn Hl A B. apply zc_In in A, B. pose proof (zl_ge l Hn). pose proof (zd_ge d Hl). pose proof zo_nn. pose proof one_le.
  pose proof (zc_nonneg v (arrived w)). unfold zcount in *. lia.
Qed.
Lemma u_oa n : In n (map o_node (n_origins N)) -> In v (w_oq w n) -> In v (arrived w) -> False.
Proof.
  intros Hn A B. apply zc_In in A, B. pose proof (zo_ge n Hn). pose proof zl_nn. pose proof zd_nn. pose proof one_le. unfold zcount in *. lia.
Qed.
Lemma u_la l : In l (n_links N) -> In v (on_link (w_link w l)) -> In v (arrived w) -> False.
Proof.
  intros Hn A B. apply zc_In in A, B. pose proof (zl_ge l Hn). pose proof zo_nn. pose proof zd_nn. pose proof one_le. unfold zcount in *. lia.
Qed.
Lemma u_o_old n : In n (map o_node (n_origins N)) -> In v (w_oq w n) -> v <= f_num (w_fac w).
Proof.
  intros Hn A. destruct (Z_le_gt_dec v (f_num (w_fac w))) as [|G]; [assumption|exfalso]. destruct (none_new ltac:(lia)) as [E _].
  apply zc_In in A. pose proof (zo_ge n Hn). pose proof zl_nn. pose proof zd_nn. unfold zcount in *. lia.
Qed.
Lemma u_l_old l : In l (n_links N) -> In v (on_link (w_link w l)) -> v <= f_num (w_fac w).
Proof.
  intros Hn A. destruct (Z_le_gt_dec v (f_num (w_fac w))) as [|G]; [assumption|exfalso]. destruct (none_new ltac:(lia)) as [E _].
  apply zc_In in A. pose proof (zl_ge l Hn). pose proof zo_nn. pose proof zd_nn. unfold zcount in *. lia.
Qed.
Lemma u_d_old d : In d (n_dests N) -> In v (w_dq w d) -> v <= f_num (w_fac w).
Proof.
  intros Hn A. destruct (Z_le_gt_dec v (f_num (w_fac w))) as [|G]; [assumption|exfalso]. destruct (none_new ltac:(lia)) as [E _].
  apply zc_In in A. pose proof (zd_ge d Hn). pose proof zo_nn. pose proof zl_nn. unfold zcount in *. lia.
Qed.
End One.

(** ** the path table keeps its routes *)
Definition sub_routes (pt pt' : ptable) : Prop := forall o d p, is_route pt' o d p -> is_route pt o d p.
Lemma mapM_In {A B} (f : A -> res B) : forall l l', mapM f l = Ok l' -> forall b, In b l' -> exists a, In a l /\ f a = Ok b.
Proof.
  induction l as [|a l IH]; intros l' H b Hb; simpl in H; [apply Ok_inj in H as <-; destruct Hb|].
  apply bind_ok in H as (x & Hx & H). apply bind_ok in H as (xs & Hxs & H). apply Ok_inj in H as <-.
  destruct Hb as [<-|Hb]; [exists a; split; [now left|exact Hx]|]. destruct (IH _ Hxs b Hb) as (c & Hc & E). exists c. split; [now right|exact E].
Qed.
Lemma change_choice_routes col pt pt' : change_choice_portion col pt = Ok pt' -> sub_routes pt pt'.
Proof.
  unfold change_choice_portion. intros H. apply bind_ok in H as (pt1 & H1 & H2). intros o d p (es & e & He & Ie & Ep).
  destruct (mapM_In _ _ _ H2 _ He) as ([k1 es1] & I1 & E1). cbn [fst snd] in E1. apply bind_ok in E1 as (ps & _ & E1). apply Ok_pair in E1 as [E1 E1']. subst k1 es.
  unfold set_ps in Ie. apply in_map_iff in Ie as ([e1 q] & <- & Ic). cbn [fst snd e_path] in Ep. apply in_combine_l in Ic.
  destruct (mapM_In _ _ _ H1 _ I1) as ([k0 es0] & I0 & E0). cbn [fst snd] in E0. apply bind_ok in E0 as (es2 & E2 & E0). apply Ok_pair in E0 as [E0 E0']. subst k0 es2.
  destruct (mapM_In _ _ _ E2 _ Ic) as (e0 & Ie0 & Ee). unfold copy_entry in Ee. apply bind_ok in Ee as (u & _ & Ee). apply Ok_inj in Ee as <-.
  exists es0, e0. auto.
Qed.
Lemma pt_find_In pt k es : pt_find pt k = Some es -> In (k, es) pt.
Proof.
  induction pt as [|[k' es'] pt IH]; simpl; [discriminate|]. destruct (key_eqb k k') eqn:E; [|auto].
  intros H. injection H as ->. left. unfold key_eqb in E. apply andb_true_iff in E as [E1 E2]. apply Z.eqb_eq in E1, E2.
  destruct k, k'. simpl in *. congruence.
Qed.

(** ** invariant of one vehicle *)
Section Veh.
(** [q]: a route [v] is known to have *)
Context (N : net) (K : net_ok N) (pt0 : ptable) (RO : routes_ok pt0) (v : Z) (q : option rpath).

Definition rt (x : veh) (p : rpath) : Prop := v_path x = Some p /\ is_route pt0 (v_org x) (v_dst x) p.
Definition shape (x : veh) (trk : option (list Z)) (l : Z) (rest : list Z) : Prop :=
  (v_next x = Some l /\ trk = Some rest) \/
  (exists l' rest', rest = l' :: rest' /\ v_next x = Some l' /\ trk = Some rest' /\ v_dst x <> n_to N l) \/
  (rest = [] /\ v_next x = None /\ trk = Some [] /\ v_dst x = n_to N l).
Record vstat (w : world) (h : list Z) : Prop := {
  vi_oq : forall n, In n (map o_node (n_origins N)) -> In v (w_oq w n) -> h = [] /\
    ((w_trk w v = None /\ v_next (w_veh w v) = None /\ v_path (w_veh w v) = None) \/
     (exists p L rest, rt (w_veh w v) p /\ r_links p = L :: rest /\ v_next (w_veh w v) = Some L /\ w_trk w v = Some rest));
  vi_link : forall l, In l (n_links N) -> In v (on_link (w_link w l)) -> exists p pre rest, rt (w_veh w v) p /\
    r_links p = pre ++ l :: rest /\ h = pre ++ [l] /\ v_cur (w_veh w v) = Some l /\ shape (w_veh w v) (w_trk w v) l rest;
  vi_dq : forall n, In n (n_dests N) -> In v (w_dq w n) -> exists p, rt (w_veh w v) p /\ h = r_links p;
  vi_arr : In v (arrived w) -> exists p, rt (w_veh w v) p /\ h = r_links p }.
Record vinv (w : world) (h : list Z) : Prop := {
  vi_pt : sub_routes pt0 (w_pt w);
  vi_new : f_num (w_fac w) < v -> w_trk w v = None /\ h = [];
  vi_st : v <= f_num (w_fac w) -> v_adapt (w_veh w v) = false -> vstat w h;
  vi_fix : forall p, q = Some p -> v <= f_num (w_fac w) /\ v_path (w_veh w v) = Some p }.

(** nothing about [v] changes *)
Lemma vinv_frame w w' h : same_q w w' -> w_veh w' v = w_veh w v -> w_trk w' v = w_trk w v -> sub_routes (w_pt w) (w_pt w') ->
  vinv w h -> vinv w' h.
Proof.
  intros (Ql & Qo & Qd & Qc & Qf) Ev Et Ep [P1 P2 P3 P4]. constructor.
  - intros o d p H. apply P1, Ep, H.
  - rewrite Qf, Et. exact P2.
  - rewrite Qf, Ev. intros A B. destruct (P3 A B) as [S1 S2 S3 S4]. constructor; unfold arrived; rewrite ?Ql, ?Qo, ?Qd, ?Qf, ?Ev, ?Et; auto.
  - rewrite Qf, Ev. exact P4.
Qed.
Lemma sub_refl pt : sub_routes pt pt. Proof. intros o d p H. exact H. Qed.

(** release *)
Lemma release1_v w h start ad o d a : In o (map o_node (n_origins N)) -> sinv N w -> vinv w h ->
  let w1 := make_veh w start ad o d a in vinv (set_oq w1 o (w_oq w1 o ++ [f_num (w_fac w) + 1])) h.
Proof.
  intros Ho I [P1 P2 P3 P4] w1. set (id := f_num (w_fac w) + 1) in *. constructor.
  - exact P1.
  - cbn [set_oq w1 make_veh set_fac set_vehs w_fac w_trk f_num]. fold id. intros H. apply P2. lia.
  - cbn [set_oq w1 make_veh set_fac set_vehs w_fac w_veh f_num]. fold id. intros H. destruct (Z.eq_dec v id) as [E|Ne].
    + rewrite E, upd_same. cbn [v_adapt]. intros _. destruct (P2 ltac:(lia)) as [T ->]. destruct (none_new N w I v ltac:(lia)) as [Z0 Z1].
      constructor; unfold arrived; cbn [set_oq w1 make_veh set_fac set_vehs w_fac w_veh w_oq w_dq w_link w_trk f_done]; fold id.
      * intros n _ _. split; [reflexivity|]. left. split; [exact T|]. rewrite E, upd_same. split; reflexivity.
      * intros l Hl C. exfalso. apply zc_In in C. pose proof (zl_ge N w v l Hl). pose proof (zo_nn N w v). pose proof (zd_nn N w v). unfold zcount in Z0. lia.
      * intros n Hl C. exfalso. apply zc_In in C. pose proof (zd_ge N w v n Hl). pose proof (zo_nn N w v). pose proof (zl_nn N w v). unfold zcount in Z0. lia.
      * intros C. exfalso. apply zc_In in C. unfold arrived in Z1. lia.
    + rewrite upd_other by exact Ne. intros B. destruct (P3 ltac:(lia) B) as [S1 S2 S3 S4].
      constructor; unfold arrived; cbn [set_oq w1 make_veh set_fac set_vehs w_fac w_veh w_oq w_dq w_link w_trk f_done]; fold id; rewrite ?(upd_other _ _ _ _ Ne); auto.
      intros n Hn C. apply (S1 n Hn). destruct (Z.eq_dec n o) as [->|No]; [rewrite upd_same in C|now rewrite upd_other in C].
      apply in_app_or in C as [C|[C|[]]]; [exact C|congruence].
  - cbn [set_oq w1 make_veh set_fac set_vehs w_fac w_veh f_num]. fold id. intros p Hp. destruct (P4 p Hp) as [A B]. split; [lia|]. rewrite upd_other by lia. exact B.
Qed.
Lemma release_n_v D cur assign o d ratio h : In o (map o_node (n_origins N)) ->
  forall k w, sinv N w -> vinv w h -> vinv (release_n k D cur assign o d ratio w) h.
Proof.
  intros Ho. induction k as [|k IH]; intros w I V; [exact V|]. simpl. apply IH; [|apply release1_v; assumption].
  eapply release_one_sinv; eauto.
Qed.
Lemma release_dests_v D cur assign o h : In (o_node o) (map o_node (n_origins N)) ->
  forall ds ratio w, sinv N w -> vinv w h -> vinv (release_dests N D cur assign o ratio ds w) h.
Proof.
  intros Ho. induction ds as [|[d dem] ds IH]; intros ratio w I V; [exact V|]. simpl. apply IH; [|apply release_n_v; assumption].
  apply release_n_sinv; assumption.
Qed.
Lemma shuffle_v w o l h : Permutation l (w_oq w o) -> vinv w h -> vinv (set_oq w o l) h.
Proof.
  intros P [P1 P2 P3 P4]. constructor; auto. intros A B. destruct (P3 A B) as [S1 S2 S3 S4]. constructor; auto.
  intros n Hn C. apply (S1 n Hn). cbn [set_oq w_oq] in C. destruct (Z.eq_dec n o) as [->|No]; [rewrite upd_same in C|now rewrite upd_other in C].
  eapply Permutation_in; eauto.
Qed.
Lemma release_all_v D cur assign w w' h : draws_valid D -> release_all N D cur assign w = Ok w' -> sinv N w -> vinv w h -> vinv w' h.
Proof.
  intros DV H I V. unfold release_all in H. apply bind_ok in H as (u & _ & H).
  destruct (_ =? 0); apply Ok_inj in H as <-; [|exact V].
  set (asg := if n_total_assign N <=? assign then -1 else assign). clearbody asg.
  assert (X : forall os, incl os (n_origins N) -> forall w, sinv N w -> vinv w h ->
    vinv (fold_left (release_one N D cur asg (base_ratio (n_routing N))) os w) h).
  { induction os as [|o os IH]; intros Inc x Ix Vx; [exact Vx|]. simpl.
    assert (Ho : In (o_node o) (map o_node (n_origins N))) by (apply in_map, Inc; now left).
    assert (P : shuffle (d_oshuf D (o_node o))) by apply DV.
    apply IH; [intros y Hy; apply Inc; now right| |]; unfold release_one; destruct (asg <? 0); auto; cbv zeta.
    - apply shuffle_sinv; auto. apply release_dests_sinv; assumption.
    - apply shuffle_v; [apply P|]. apply release_dests_v; assumption. }
  apply X; [apply incl_refl|exact I|exact V].
Qed.

(** routing *)
Lemma frame_veh_next u w x : u <> v -> w_veh (veh_next w u x) v = w_veh w v.
Proof. intros Ne. unfold veh_next. cbn [set_vehs w_veh]. now rewrite upd_other by congruence. Qed.
Lemma frame_advance u w w' : u <> v -> advance N w u = Ok w' -> w_veh w' v = w_veh w v /\ w_trk w' v = w_trk w v /\ w_pt w' = w_pt w.
Proof.
  intros Ne. unfold advance. destruct (w_trk w u) as [[|l r]|]; try discriminate. intros H. apply bind_ok in H as (x & _ & H). apply Ok_inj in H as <-.
  cbn [set_trk w_trk w_veh w_pt]. rewrite upd_other by congruence. split; [apply frame_veh_next, Ne|]. split; reflexivity.
Qed.
Lemma register_inv D w u w' : register_veh D w u true = Ok w' -> w_trk w u = None ->
  exists p, is_route (w_pt w) (v_org (w_veh w u)) (v_dst (w_veh w u)) p /\
    w' = set_vehs (set_trk w u (Some (r_links p))) (upd (w_veh w) u (set_path (Some p) (w_veh w u))).
Proof.
  unfold register_veh. cbv zeta. intros H T. destruct (pt_find _ _) as [es|] eqn:F; [|discriminate]. apply bind_ok in H as (i & _ & H).
  destruct (nth_error es i) as [e|] eqn:E; [|discriminate]. apply Ok_inj in H as <-. rewrite T. exists (e_path e).
  split; [|reflexivity]. exists es, e. split; [apply pt_find_In, F|]. split; [eapply nth_error_In; eauto|reflexivity].
Qed.
Lemma frame_register D b u w w' : u <> v -> register_veh D w u b = Ok w' -> w_veh w' v = w_veh w v /\ w_trk w' v = w_trk w v /\ w_pt w' = w_pt w.
Proof.
  intros Ne. unfold register_veh. cbv zeta. destruct (pt_find _ _); [|discriminate]. intros H. apply bind_ok in H as (i & _ & H).
  destruct (nth_error _ _) as [e|]; [|discriminate]. apply Ok_inj in H as <-. destruct b; [destruct (w_trk w u)|];
    cbn [set_vehs set_trk w_veh w_trk w_pt]; rewrite ?upd_other by congruence; auto.
Qed.
Lemma frame_eq w w' h : same_q w w' -> w_veh w' v = w_veh w v /\ w_trk w' v = w_trk w v /\ w_pt w' = w_pt w -> vinv w h -> vinv w' h.
Proof. intros Q (A & B & C). apply vinv_frame; auto. rewrite C. apply sub_refl. Qed.

Lemma fixed_origin_v D n w u w' h : In n (map o_node (n_origins N)) -> In u (w_oq w n) -> sinv N w -> fixed_origin_veh N D w u = Ok w' -> vinv w h -> vinv w' h.
Proof.
  intros Hn Hu I H V. pose proof (fixed_origin_q _ _ _ _ _ H) as Q. unfold fixed_origin_veh in H.
  destruct (Z.eq_dec u v) as [->|Ne].
  - pose proof (u_o_old N w I v n Hn Hu) as Old. destruct (v_adapt (w_veh w v)) eqn:Ad.
    + (* adaptive: nothing is claimed *)
      destruct (fixed_origin_r N D w v w' ltac:(unfold fixed_origin_veh; rewrite Ad; exact H)) as [_ R]. destruct V as [P1 P2 P3 P4].
      destruct Q as (Ql & Qo & Qd & Qc & Qf). constructor.
      * destruct (v_path (w_veh w v)); [apply Ok_inj in H as <-; exact P1|]. intros o d p Hp. apply P1.
        unfold register_veh in H. cbv zeta in H. destruct (pt_find _ _); [|discriminate]. apply bind_ok in H as (i & _ & H).
        destruct (nth_error _ _); [|discriminate]. apply Ok_inj in H as <-. exact Hp.
      * rewrite Qf. intros; lia.
      * intros _ C. exfalso. specialize (R v). unfold stat in R. destruct R as [R _]. congruence.
      * intros p Hp. destruct (P4 p Hp) as [A B]. rewrite Qf. split; [exact A|]. rewrite B in H. apply Ok_inj in H as <-. exact B.
    + destruct (w_trk w v) eqn:T; [apply Ok_inj in H as <-; exact V|]. apply bind_ok in H as (w1 & H1 & H2).
      destruct (register_inv _ _ _ _ H1 T) as (p & Rp & E). destruct V as [P1 P2 P3 P4]. destruct (P3 Old Ad) as [S1 S2 S3 S4].
      destruct (S1 n Hn Hu) as [-> S1']. subst w1. unfold advance in H2. cbn [set_vehs w_trk set_trk] in H2. rewrite upd_same in H2.
      destruct (r_links p) as [|L rest] eqn:EL; [discriminate|]. apply bind_ok in H2 as (x & _ & H2). apply Ok_inj in H2 as <-.
      constructor; cbn [set_trk veh_next set_vehs w_pt w_fac w_veh w_trk w_oq w_dq w_link]; auto.
      * intros; lia.
      * intros _ _. constructor; unfold arrived; cbn [set_trk veh_next set_vehs w_pt w_fac w_veh w_trk w_oq w_dq w_link]; rewrite ?upd_same; cbn [v_next set_next].
        -- intros n' _ _. split; [reflexivity|]. right. exists p, L, rest. split; [|auto]. split; [reflexivity|]. cbn [v_org v_dst set_next set_path]. apply P1, Rp.
        -- intros l Hl C. exfalso. eapply (u_ol N w I v n l); eauto.
        -- intros d Hd C. exfalso. eapply (u_od N w I v n d); eauto.
        -- intros C. exfalso. eapply (u_oa N w I v n); eauto.
      * intros p2 Hp. exfalso. destruct (P4 p2 Hp) as [_ B]. destruct S1' as [(_ & _ & C)|(p3 & L3 & r3 & _ & _ & _ & C)]; congruence.
  - apply (frame_eq w w'); auto. destruct (v_adapt (w_veh w u)).
    + destruct (v_path _); [apply Ok_inj in H as <-; auto|]. eapply frame_register; eauto.
    + destruct (w_trk w u); [apply Ok_inj in H as <-; auto|]. apply bind_ok in H as (w1 & H1 & H2).
      destruct (frame_register _ _ _ _ _ Ne H1) as (A & B & C). destruct (frame_advance _ _ _ Ne H2) as (A' & B' & C'). repeat split; congruence.
Qed.

Lemma opt_eqb_spec a b : opt_eqb a b = true <-> a = b.
Proof. destruct a, b; simpl; split; intros H; try discriminate; try reflexivity; [apply Z.eqb_eq in H; congruence|injection H as ->; apply Z.eqb_refl]. Qed.

Lemma fixed_link_v l w u w' h : In l (n_links N) -> In u (l_fin (w_link w l)) -> sinv N w -> fixed_link_veh N l w u = Ok w' -> vinv w h -> vinv w' h.
Proof.
  intros Hl Hu I H V. pose proof (fixed_link_q _ _ _ _ _ H) as Q. unfold fixed_link_veh in H.
  destruct (v_adapt (w_veh w u)) eqn:Ad; [apply Ok_inj in H as <-; exact V|].
  destruct (Z.eq_dec u v) as [->|Ne].
  - assert (Hon : In v (on_link (w_link w l))) by (unfold on_link; apply in_or_app; now left).
    pose proof (u_l_old N w I v l Hl Hon) as Old. pose proof V as [P1 P2 P3 P4]. pose proof (P3 Old Ad) as [S1 S2 S3 S4].
    destruct (S2 l Hl Hon) as (p & pre & rest & Rp & Er & Eh & Ec & Sh).
    assert (GO : forall w', same_q w w' -> w_pt w' = w_pt w -> rt (w_veh w' v) p -> v_cur (w_veh w' v) = Some l -> shape (w_veh w' v) (w_trk w' v) l rest -> vinv w' h).
    { intros y (Ql & Qo & Qd & Qc & Qf) Yp Yr Yc Ys. constructor; rewrite ?Yp; auto.
      - rewrite Qf. intros; lia.
      - intros _ _. constructor; unfold arrived; rewrite ?Ql, ?Qo, ?Qd, ?Qf.
        + intros n Hn C. exfalso. eapply (u_ol N w I v n l); eauto.
        + intros l2 Hl2 C. rewrite (u_ll N w I v l2 l Hl2 Hl C Hon). exists p, pre, rest. auto.
        + intros d Hd C. exfalso. eapply (u_ld N w I v l d); eauto.
        + intros C. exfalso. eapply (u_la N w I v l); eauto.
      - intros p2 Hp. rewrite Qf. split; [exact Old|]. destruct (P4 p2 Hp) as [_ B]. destruct Rp as [Rp _], Yr as [Yr _]. congruence. }
    destruct (Z.eqb_spec (v_dst (w_veh w v)) (n_to N l)) as [Ed|Nd].
    + destruct (w_trk w v) as [r|] eqn:T; [|discriminate]. apply bind_ok in H as (x & G & H). apply guard_ok in G. apply Nat.eqb_eq in G. destruct r; [|discriminate].
      apply Ok_inj in H as <-.
      apply GO; auto; unfold veh_next; cbn [set_vehs w_veh w_trk]; rewrite ?upd_same; auto.
      right. right. cbn [v_next v_dst set_next]. rewrite T. destruct Sh as [[A B]|[(l' & r' & A & B & C & D)|(A & B & C & D)]]; [|contradiction|auto].
      injection B as <-. auto.
    + destruct (w_trk w v) as [r|] eqn:T; [|discriminate]. destruct (opt_eqb _ _) eqn:OE.
      2:{ apply Ok_inj in H as <-. exact V. }
      apply opt_eqb_spec in OE. rewrite Ec in OE. destruct Sh as [[A B]|[(l' & r' & A & B & C & D)|(A & B & C & D)]]; [| |contradiction].
      * injection B as ->. unfold advance in H. rewrite T in H. destruct rest as [|l' rest']; [discriminate|]. apply bind_ok in H as (x & _ & H). apply Ok_inj in H as <-.
        apply GO; auto; unfold veh_next; cbn [set_trk set_vehs w_veh w_trk]; rewrite ?upd_same; auto.
        right. left. exists l', rest'. cbn [v_next v_dst set_next]. auto.
      * exfalso. rewrite B in OE. injection OE as ->. subst rest. destruct Rp as [_ Rp]. apply (RO _ _ _ Rp pre l' l' r' Er). reflexivity.
  - apply (frame_eq w w'); auto. destruct (_ =? _).
    + destruct (w_trk w u); [|discriminate]. apply bind_ok in H as (x & _ & H). apply Ok_inj in H as <-. split; [apply frame_veh_next, Ne|auto].
    + destruct (w_trk w u); [|discriminate]. destruct (opt_eqb _ _); [eapply frame_advance; eauto|apply Ok_inj in H as <-; auto].
Qed.

(** adaptive routing touches adaptive vehicles only *)
Lemma adapt_next_v u w x h : v_adapt (w_veh w u) = true -> sinv N w -> (u = v -> v <= f_num (w_fac w)) -> vinv w h -> vinv (veh_next w u x) h.
Proof.
  intros Ad I Old V. destruct (Z.eq_dec u v) as [->|Ne].
  - destruct V as [P1 P2 P3 P4]. constructor; auto; unfold veh_next; cbn [set_vehs w_veh w_fac]; rewrite ?upd_same; cbn [v_adapt v_path set_next]; [congruence|auto].
  - apply (frame_eq w); [repeat split| |exact V]. split; [apply frame_veh_next, Ne|auto].
Qed.
Lemma nested_v {B} (f : B -> world -> Z -> res world) (g : world -> B -> list Z) (bs : list B) w w' h :
  (forall b w u w', f b w u = Ok w' -> same_q w w') ->
  (forall b w w', same_q w w' -> g w' b = g w b) ->
  (forall b w u w', In b bs -> sinv N w -> In u (g w b) -> f b w u = Ok w' -> vinv w h -> vinv w' h) ->
  sinv N w -> vinv w h -> foldM (fun w b => foldM (f b) w (g w b)) w bs = Ok w' -> vinv w' h.
Proof.
  intros Fq Gq St I V H.
  enough (X : sinv N w' /\ vinv w' h) by apply X.
  eapply (foldM_inv (fun w b => foldM (f b) w (g w b)) (fun x => sinv N x /\ vinv x h)); [|split; eauto|exact H].
  intros b s s' Hb [Is Vs] E.
  enough (X : sinv N s' /\ vinv s' h /\ same_q s s') by tauto.
  eapply (foldM_inv (f b) (fun x => sinv N x /\ vinv x h /\ same_q s x)); [|split; [exact Is|split; [exact Vs|apply same_q_refl]]|exact E].
  intros u x x' Hu (Ix & Vx & Qx) Ex. pose proof (Fq _ _ _ _ Ex) as Qx'. split; [eapply sinv_q; eauto|]. split; [|eapply same_q_trans; eauto].
  eapply St; eauto. now rewrite (Gq b s x Qx).
Qed.
Lemma fixed_routing_v D t w w' h : sinv N w -> fixed_routing N D t w = Ok w' -> vinv w h -> vinv w' h.
Proof.
  intros I H V. unfold fixed_routing in H. apply bind_ok in H as (w1 & H1 & H). apply bind_ok in H as (w2 & H2 & H3).
  pose proof (fixed_portion_q _ _ _ _ H1) as Q1. pose proof (sinv_q _ _ _ Q1 I) as I1.
  assert (V1 : vinv w1 h).
  { apply (vinv_frame w w1); auto; unfold fixed_portion in H1; (destruct (_ || _); [apply Ok_inj in H1 as <-; auto using sub_refl|]);
    apply bind_ok in H1 as (x & _ & H1); (destruct (_ && _); [|apply Ok_inj in H1 as <-; auto using sub_refl]); apply bind_ok in H1 as (pt & E & H1); apply Ok_inj in H1 as <-; auto.
    eapply change_choice_routes; eauto. }
  assert (V2 : vinv w2 h).
  { eapply (nested_v (fun o => fixed_origin_veh N D) (fun w o => w_oq w (o_node o))); [| | |exact I1|exact V1|exact H2]; auto.
    - intros; eapply fixed_origin_q; eauto.
    - intros b x y (_ & Q & _). now rewrite Q.
    - intros b x u x' Hb Ix Hu E Vx. eapply fixed_origin_v; eauto. now apply in_map. }
  assert (I2 : sinv N w2).
  { eapply sinv_q; [|exact I1]. eapply foldM_rel; [apply same_q_refl|apply same_q_trans| |exact H2]. intros s o s' _ E.
    eapply foldM_rel; [apply same_q_refl|apply same_q_trans| |exact E]. intros. eapply fixed_origin_q; eauto. }
  eapply (nested_v (fixed_link_veh N) (fun w l => l_fin (w_link w l))); [| | |exact I2|exact V2|exact H3]; auto.
  - intros; eapply fixed_link_q; eauto.
  - intros b x y (Q & _). now rewrite Q.
  - intros b x u x' Hb Ix Hu E Vx. eapply fixed_link_v; eauto.
Qed.
Lemma adaptive_routing_v D w w' h : sinv N w -> adaptive_routing N D w = Ok w' -> vinv w h -> vinv w' h.
Proof.
  intros I H V. unfold adaptive_routing in H. apply bind_ok in H as (w2 & H2 & H3).
  assert (Q1 : forall o x u x', adaptive_origin_veh N D o x u = Ok x' -> x' = x \/ (v_adapt (w_veh x u) = true /\ exists k, x' = veh_next x u k)).
  { intros o x u x' E. unfold adaptive_origin_veh in E. destruct (v_adapt _) eqn:A; [|apply Ok_inj in E as <-; auto].
    cbv zeta in E. apply bind_ok in E as (a & _ & E). apply bind_ok in E as (b & _ & E). apply Ok_inj in E as <-. eauto. }
  assert (Q2 : forall l x u x', adaptive_link_veh N D l x u = Ok x' -> x' = x \/ (v_adapt (w_veh x u) = true /\ exists k, x' = veh_next x u k)).
  { intros o x u x' E. unfold adaptive_link_veh in E. destruct (v_adapt _) eqn:A; [|apply Ok_inj in E as <-; auto].
    apply bind_ok in E as (a & _ & E). destruct (_ =? _); [apply Ok_inj in E as <-; eauto|]. cbv zeta in E. apply bind_ok in E as (b & _ & E).
    apply bind_ok in E as (c & _ & E). apply Ok_inj in E as <-. eauto. }
  assert (SQ : forall x u k, same_q x (veh_next x u k)) by (intros; repeat split).
  assert (S1 : forall o x u x', adaptive_origin_veh N D o x u = Ok x' -> same_q x x').
  { intros o x u x' E. destruct (Q1 _ _ _ _ E) as [->|(_ & k & ->)]; auto using same_q_refl. }
  assert (S2 : forall o x u x', adaptive_link_veh N D o x u = Ok x' -> same_q x x').
  { intros o x u x' E. destruct (Q2 _ _ _ _ E) as [->|(_ & k & ->)]; auto using same_q_refl. }
  assert (V2 : vinv w2 h).
  { eapply (nested_v (fun o => adaptive_origin_veh N D (o_node o)) (fun w o => w_oq w (o_node o))); [| | |exact I|exact V|exact H2]; auto.
    - intros b x u x' E. eapply S1, E.
    - intros b x y (_ & Q & _). now rewrite Q.
    - intros b x u x' Hb Ix Hu E Vx. destruct (Q1 _ _ _ _ E) as [->|(A & k & ->)]; [exact Vx|]. apply adapt_next_v; auto.
      intros ->. eapply u_o_old; eauto. now apply in_map. }
  assert (I2 : sinv N w2).
  { eapply sinv_q; [|exact I]. eapply foldM_rel; [apply same_q_refl|apply same_q_trans| |exact H2]. intros s o s' _ E.
    eapply foldM_rel; [apply same_q_refl|apply same_q_trans| |exact E]. intros. eapply S1; eauto. }
  eapply (nested_v (adaptive_link_veh N D) (fun w l => l_fin (w_link w l))); [| | |exact I2|exact V2|exact H3]; auto.
  - intros b x y (Q & _). now rewrite Q.
  - intros b x u x' Hb Ix Hu E Vx. destruct (Q2 _ _ _ _ E) as [->|(A & k & ->)]; [exact Vx|]. apply adapt_next_v; auto.
    intros ->. eapply u_l_old; eauto. unfold on_link. apply in_or_app. now left.
Qed.
Lemma update_routing_v D t w w' h : sinv N w -> update_routing N D t w = Ok w' -> vinv w h -> vinv w' h.
Proof.
  intros I. unfold update_routing. destruct (n_routing N) as [| |x].
  - apply fixed_routing_v, I.
  - apply adaptive_routing_v, I.
  - intros H V. apply bind_ok in H as (w1 & H1 & H2). destruct (Qltb 0 x); [|apply Ok_inj in H1 as <-; eapply fixed_routing_v; eauto].
    eapply fixed_routing_v; [|exact H2|eapply adaptive_routing_v; eauto]. eapply sinv_q; [eapply adaptive_routing_q; eauto|exact I].
Qed.

(** nodes *)
Definition entered (h0 h : list Z) (w : world) : Prop :=
  h = h0 \/ exists l, In l (n_links N) /\ h = h0 ++ [l] /\ last_opt h0 <> Some l /\ In v (l_in (w_link w l)).
Lemma last_opt_snoc {A} (l : list A) x : last_opt (l ++ [x]) = Some x.
Proof. unfold last_opt. rewrite app_length. simpl. rewrite nth_error_app2 by lia. replace (_ - _)%nat with 0%nat by lia. reflexivity. Qed.
Lemma on_fin w l : In v (l_fin (w_link w l)) -> In v (on_link (w_link w l)).
Proof. unfold on_link. intros. apply in_or_app. now left. Qed.
Lemma on_in w l : In v (l_in (w_link w l)) -> In v (on_link (w_link w l)).
Proof. unfold on_link. intros. apply in_or_app. right. apply in_or_app. now right. Qed.
Lemma neff_v t w w' e lv o d h0 h : neff N t w w' e lv o d -> sinv N w -> sinv N w' -> vinv w h -> entered h0 h w ->
  exists h', vinv w' h' /\ entered h0 h' w'.
Proof.
  intros J I I' V En.
  destruct J as [[Jf [Jt [Jp Jv]]] Jlike Jin Jfin Jsub Joq Joqs Jdq Jen Jef Jdn Jci Jcd Jco _ _ _ Jlt Jot Jli Joi Jdi].
  assert (En' : entered h0 h w').
  { destruct En as [->|(l & Hl & A & B & C)]; [now left|]. right. exists l. repeat split; auto. rewrite Jin. apply in_or_app. now left. }
  assert (Triv : ~ (v <= f_num (w_fac w) /\ v_adapt (w_veh w v) = false) -> exists h', vinv w' h' /\ entered h0 h' w').
  { intros NT. exists h. split; [|exact En']. destruct V as [P1 P2 P3 P4]. constructor.
    - now rewrite Jp. - rewrite Jf, Jt. exact P2.
    - rewrite Jf. intros A B. exfalso. apply NT. split; [exact A|]. destruct (Jv v) as (_ & _ & Ja & _). congruence.
    - intros p Hp. rewrite Jf. destruct (P4 p Hp) as [A B]. split; [exact A|]. destruct (Jv v) as (_ & _ & _ & _ & _ & _ & _ & Ja). congruence. }
  destruct (Z_le_gt_dec v (f_num (w_fac w))) as [Old|]; [|apply Triv; lia].
  destruct (v_adapt (w_veh w v)) eqn:Ad; [apply Triv; intros [_ C]; discriminate|]. clear Triv.
  pose proof V as [P1 P2 P3 P4]. pose proof (P3 Old Ad) as [S1 S2 S3 S4].
  destruct (Jv v) as (K1 & K2 & K3 & K4 & K5 & K6 & K7 & K8).
  assert (RT : forall p, rt (w_veh w v) p -> rt (w_veh w' v) p) by (intros p [A B]; split; congruence).
  destruct (existsb (fun l => memb v (e l)) (n_links N)) eqn:Ex.
  - (* enters [l] *)
    apply existsb_exists in Ex as (l & Hl & Hv). apply memb_In in Hv.
    assert (Hon : In v (on_link (w_link w' l))) by (apply on_in; rewrite Jin; apply in_or_app; now right).
    destruct (Jef l v Hv) as [_ Src]. pose proof (Jen l v Hv) as Nx. pose proof (Jci l v Hv) as Cu.
    assert (NE : h = h0).
    { destruct En as [->|(l2 & Hl2 & _ & _ & C)]; [reflexivity|exfalso]. destruct Src as [(n & Hn & _)|(a & Ha & _)].
      - eapply (u_ol N w I v n l2); eauto; [|now apply on_in]. eapply Permutation_in; [symmetry; apply Joq|apply in_or_app; now left].
      - pose proof (proj1 (no_in N K _ _ (Jli a v Ha))) as Hal.
        assert (Hf : In v (l_fin (w_link w a))) by (eapply Permutation_in; [symmetry; apply Jfin|apply in_or_app; now left]).
        pose proof (u_ll N w I v a l2 Hal Hl2 (on_fin _ _ Hf) (on_in _ _ C)) as ->. eapply (u_in_fin N w I v l2); eauto. }
    subst h0.
    assert (GO : forall p pre rest, rt (w_veh w v) p -> r_links p = pre ++ l :: rest -> h = pre -> w_trk w v = Some rest -> last_opt h <> Some l ->
      exists h', vinv w' h' /\ entered h h' w').
    { intros p pre rest Rp Er Eh Tr La. exists (h ++ [l]). split.
      - constructor.
        + now rewrite Jp. + rewrite Jf. intros; lia.
        + intros _ _. constructor; unfold arrived; rewrite ?Jf, ?Jt.
          * intros n Hn C. exfalso. eapply (u_ol N w' I' v n l); eauto.
          * intros l2 Hl2 C. rewrite (u_ll N w' I' v l2 l Hl2 Hl C Hon). exists p, pre, rest. split; [auto|]. split; [exact Er|]. split; [now rewrite Eh|].
            split; [exact Cu|]. left. split; [congruence|exact Tr].
          * intros n Hn C. exfalso. eapply (u_ld N w' I' v l n); eauto.
          * intros C. exfalso. eapply (u_la N w' I' v l); eauto. unfold arrived. now rewrite Jf.
        + intros p2 Hp. rewrite Jf, K8. auto.
      - right. exists l. repeat split; auto. rewrite Jin. apply in_or_app. now right. }
    destruct Src as [(n & Hn & _)|(a & Ha & Hb)].
    + assert (Hq : In v (w_oq w n)) by (eapply Permutation_in; [symmetry; apply Joq|apply in_or_app; now left]).
      destruct (S1 n (Joi n v Hn) Hq) as [Eh [(_ & C & _)|(p & L & rest & Rp & Er & Nx' & Tr)]]; [congruence|].
      rewrite Nx in Nx'. injection Nx' as <-. apply (GO p [] rest); auto. rewrite Eh. discriminate.
    + assert (Hf : In v (l_fin (w_link w a))) by (eapply Permutation_in; [symmetry; apply Jfin|apply in_or_app; now left]).
      pose proof (Jli a v Ha) as Hai. pose proof (proj1 (no_in N K _ _ Hai)) as Hal.
      assert (Nal : a <> l) by (intros ->; destruct (no_around N K (n_to N l)) as (_ & _ & DJ); exact (DJ l Hai Hb)).
      destruct (S2 a Hal (on_fin _ _ Hf)) as (p & pre & rest & Rp & Er & Eh & Ec & Sh).
      destruct Sh as [[A B]|[(l' & r' & A & B & C & D)|(A & B & C & D)]]; [congruence| |congruence].
      rewrite Nx in B. injection B as <-. subst rest. apply (GO p (pre ++ [a]) r'); auto.
      * rewrite Er, <- app_assoc. reflexivity.
      * rewrite Eh, last_opt_snoc. congruence.
  - assert (NEn : forall l, ~ In v (e l)).
    { intros l C. destruct (Jef l v C) as [Hl _]. apply memb_In in C. assert (X : existsb (fun l => memb v (e l)) (n_links N) = true) by (apply existsb_exists; eauto). congruence. }
    exists h. split; [|exact En']. constructor.
    + now rewrite Jp. + rewrite Jf. intros; lia.
    + intros _ _. constructor; unfold arrived; rewrite ?Jf, ?Jt, ?K7.
      * intros n Hn C. destruct (S1 n Hn) as [Eh D]; [eapply subseq_In; [apply Joqs|exact C]|]. split; [exact Eh|].
        destruct D as [D|(p & L & rest & Rp & D)]; [rewrite K8; auto|]. right. exists p, L, rest. auto.
      * intros l Hl C.
        assert (C0 : In v (on_link (w_link w l))).
        { unfold on_link in *. destruct (Jlike l) as [_ Eb]. rewrite Eb, Jin, !in_app_iff in C. rewrite !in_app_iff. destruct C as [C|[C|[C|C]]]; auto.
          - left. eapply subseq_In; [apply Jsub|exact C]. - destruct (NEn l C). }
        destruct (S2 l Hl C0) as (p & pre & rest & Rp & Er & Eh & Ec & Sh). exists p, pre, rest. split; [auto|]. split; [exact Er|]. split; [exact Eh|]. split.
        -- rewrite Jco; auto. intros n Cd. eapply (u_ld N w' I' v l n); eauto. rewrite Jdq. apply in_or_app. now right.
        -- unfold shape in *. rewrite K7, K2. exact Sh.
      * intros n Hn C. rewrite Jdq in C. apply in_app_or in C as [C|C]; [destruct (S3 n Hn C) as (p & Rp & Eh); exists p; auto|].
        destruct (Jdn n v C) as (Nx & a & Ha & _).
        assert (Hf : In v (l_fin (w_link w a))) by (eapply Permutation_in; [symmetry; apply Jfin|apply in_or_app; now left]).
        pose proof (proj1 (no_in N K _ _ (Jli a v Ha))) as Hal.
        destruct (S2 a Hal (on_fin _ _ Hf)) as (p & pre & rest & Rp & Er & Eh & Ec & Sh).
        destruct Sh as [[A B]|[(l' & r' & A & B & D)|(A & B & _)]]; [congruence|congruence|]. exists p. split; [auto|]. subst rest. congruence.
      * intros C. destruct (S4 C) as (p & Rp & Eh). exists p. auto.
    + intros p2 Hp. rewrite Jf, K8. auto.
Qed.
Lemma nodes_v D t w w' h : draws_valid D -> sinv N w -> foldM (node_evolve N D t) w (n_nodes N) = Ok w' -> vinv w h ->
  exists h', vinv w' h' /\ entered h h' w'.
Proof.
  intros DV I H V. enough (X : sinv N w' /\ exists h', vinv w' h' /\ entered h h' w') by apply X.
  eapply (foldM_inv (node_evolve N D t) (fun x => sinv N x /\ exists h', vinv x h' /\ entered h h' x)); [|split; [exact I|exists h; split; [exact V|now left]]|exact H].
  intros nk s s' Hin (Is & h1 & V1 & E1) E. destruct (node_neff N D t s s' nk K DV (i_paired N s Is) Hin E) as (e & lv & o & d & J).
  pose proof (neff_sinv N t s s' e lv o d K J Is) as Is'. split; [exact Is'|]. eapply neff_v; eauto.
Qed.

(** links *)
Lemma link_step_on D w l w' : In l (n_links N) -> sinv N w -> link_step D w l = Ok w' ->
  (forall l', on_link (w_link w' l') = on_link (w_link w l')) /\ w_veh w' = w_veh w /\ w_oq w' = w_oq w /\ w_dq w' = w_dq w /\ w_fac w' = w_fac w /\ w_trk w' = w_trk w /\ w_pt w' = w_pt w.
Proof.
  intros Hl I H. unfold link_step in H. apply bind_ok in H as (x & Hx & H). apply bind_ok in H as (y & Hy & H).
  apply Ok_inj in H as <-. destruct (link_clear_line _ _ Hx (i_body _ _ I l Hl)) as (Bx & Ex & _).
  destruct (link_evolve_line _ _ _ _ Hy Bx) as (By & Ey & _). split; [|repeat split].
  intros l'. cbn [set_link w_link]. destruct (Z.eq_dec l' l) as [->|Ne]; [rewrite upd_same; congruence|now rewrite upd_other].
Qed.
Lemma links_v D w w' h : sinv N w -> foldM (link_step D) w (n_links N) = Ok w' -> vinv w h ->
  vinv w' h /\ (forall l, on_link (w_link w' l) = on_link (w_link w l)).
Proof.
  intros I H V. enough (X : sinv N w' /\ vinv w' h /\ (forall l, on_link (w_link w' l) = on_link (w_link w l))) by apply X.
  eapply (foldM_inv (link_step D) (fun x => sinv N x /\ vinv x h /\ (forall l, on_link (w_link x l) = on_link (w_link w l)))); [|split; [exact I|split; [exact V|reflexivity]]|exact H].
  intros l s s' Hl (Is & Vs & Os) E. split; [eapply link_step_sinv; eauto|].
  destruct (link_step_on D s l s' Hl Is E) as (O & Ev & Eo & Ed & Ef & Et & Ep). split; [|intros; congruence].
  destruct Vs as [P1 P2 P3 P4]. constructor; rewrite ?Ep, ?Ef, ?Et, ?Ev; auto. intros A B. destruct (P3 A B) as [S1 S2 S3 S4].
  constructor; unfold arrived; rewrite ?Ev, ?Eo, ?Ed, ?Ef, ?Et; auto. intros l' Hl'. rewrite O. auto.
Qed.

(** arrivals *)
Lemma receive_v t n w w' h : In n (n_dests N) -> sinv N w -> receive N t w n = Ok w' -> vinv w h -> vinv w' h /\ w_link w' = w_link w.
Proof.
  intros Hn I H V. unfold receive in H. apply bind_ok in H as (w1 & H1 & H). apply Ok_inj in H as <-.
  apply receive_loop_eff in H1. destruct H1 as [A1 A2 A3 A4 A5 A6 A7 A8 A9 A10 A11 A12 A13 A14 A15]. split; [|exact A1].
  destruct V as [P1 P2 P3 P4].
  assert (AR : forall u, In u (arrived (set_dq w1 n [])) <-> In u (arrived w) \/ In u (w_dq w n)).
  { intros u. unfold arrived. cbn [set_dq w_fac]. rewrite A7, map_app, map_map, in_app_iff. cbn [fst]. now rewrite map_id. }
  assert (RT : forall p, rt (w_veh w v) p -> rt (w_veh w1 v) p) by (intros p R; rewrite A13; destruct (memb v _); exact R).
  constructor; cbn [set_dq w_pt w_fac w_trk w_veh].
  - now rewrite A5.
  - rewrite A6. intros G. destruct (A14 v) as [->|[C _]]; [auto|]. pose proof (u_d_old N w I v n Hn C). lia.
  - rewrite A6. intros Old Ad. assert (Ad0 : v_adapt (w_veh w v) = false) by (rewrite A13 in Ad; destruct (memb v _); exact Ad).
    destruct (P3 Old Ad0) as [S1 S2 S3 S4]. destruct (in_dec Z.eq_dec v (w_dq w n)) as [D|ND].
    + constructor; cbn [set_dq w_oq w_link w_dq w_veh w_trk].
      * intros n' Hn' C. exfalso. rewrite A2 in C. eapply (u_od N w I v n' n); eauto.
      * intros l Hl C. exfalso. rewrite A1 in C. eapply (u_ld N w I v l n); eauto.
      * intros n' Hn' C. destruct (Z.eq_dec n' n) as [->|Ne]; [rewrite upd_same in C; destruct C|]. destruct (S3 n Hn D) as (p & R & E). eauto.
      * intros _. destruct (S3 n Hn D) as (p & R & E). eauto.
    + assert (Ev : w_veh w1 v = w_veh w v) by (rewrite A13, (proj2 (memb_false _ _) ND); reflexivity).
      assert (Et : w_trk w1 v = w_trk w v) by (destruct (A14 v) as [E|[C _]]; [exact E|contradiction]).
      constructor; cbn [set_dq w_oq w_link w_dq w_veh w_trk]; rewrite ?A1, ?A2, ?Ev, ?Et; auto.
      * intros n' Hn' C. destruct (Z.eq_dec n' n) as [->|Ne]; [rewrite upd_same in C; destruct C|]. rewrite upd_other, A3 in C by exact Ne. eauto.
      * intros C. apply AR in C as [C|C]; [auto|contradiction].
  - intros p Hp. rewrite A6. destruct (P4 p Hp) as [A B]. split; [exact A|]. rewrite A13. destruct (memb v _); exact B.
Qed.
Lemma dests_v t w w' h : sinv N w -> foldM (receive N t) w (n_dests N) = Ok w' -> vinv w h -> vinv w' h /\ w_link w' = w_link w.
Proof.
  intros I H V. enough (X : sinv N w' /\ vinv w' h /\ w_link w' = w_link w) by apply X.
  eapply (foldM_inv (receive N t) (fun x => sinv N x /\ vinv x h /\ w_link x = w_link w)); [|split; [exact I|split; [exact V|reflexivity]]|exact H].
  intros n s s' Hn (Is & Vs & Ls) E. split; [eapply receive_sinv; eauto|]. destruct (receive_v t n s s' h Hn Is E Vs). split; [auto|congruence].
Qed.

(** ** one interval *)
Lemma link_of_some w l : link_of N w v = Some l -> In l (n_links N) /\ In v (on_link (w_link w l)).
Proof.
  intros H. apply find_some in H as [A B]. split; [exact A|]. apply existsb_exists in B as (u & Hu & E). apply Z.eqb_eq in E. now subst.
Qed.
Lemma link_of_none w l : link_of N w v = None -> In l (n_links N) -> ~ In v (on_link (w_link w l)).
Proof.
  intros H Hl C. pose proof (find_none _ _ H l Hl) as F. cbv beta in F. assert (X : existsb (fun u => u =? v) (on_link (w_link w l)) = true).
  { apply existsb_exists. exists v. split; [exact C|apply Z.eqb_refl]. } congruence.
Qed.
Lemma load_once_v D t a w w' h : draws_valid D -> sinv N w -> load_once N D t a w = Ok w' -> vinv w h -> vinv w' (sight h (link_of N w' v)).
Proof.
  intros DV I H V. pose proof (load_once_sinv _ _ _ _ _ _ K DV H I) as I'. unfold load_once in H. apply bind_ok in H as (w1 & H1 & H). apply bind_ok in H as (w2 & H2 & H).
  apply bind_ok in H as (w3 & H3 & H). apply bind_ok in H as (w4 & H4 & H).
  pose proof (release_all_sinv _ _ _ _ _ _ K DV H1 I) as I1. pose proof (sinv_q _ _ _ (update_routing_q _ _ _ _ _ H2) I1) as I2.
  pose proof (nodes_sinv _ _ _ _ _ K DV H3 I2) as I3. pose proof (links_sinv _ _ _ _ K H4 I3) as I4.
  pose proof (release_all_v _ _ _ _ _ _ DV H1 I V) as V1. pose proof (update_routing_v _ _ _ _ _ I1 H2 V1) as V2.
  destruct (nodes_v _ _ _ _ _ DV I2 H3 V2) as (h' & V3 & En). destruct (links_v _ _ _ _ I3 H4 V3) as (V4 & O4). destruct (dests_v _ _ _ _ I4 H V4) as (V5 & O5).
  destruct (Z_le_gt_dec v (f_num (w_fac w'))) as [Old|New].
  - destruct (v_adapt (w_veh w' v)) eqn:Ad; [constructor; [apply V5|lia|congruence|apply V5]|].
    enough (E : sight h (link_of N w' v) = h') by (rewrite E; exact V5).
    pose proof (vi_st _ _ V5 Old Ad) as [S1 S2 S3 S4].
    destruct (link_of N w' v) as [l|] eqn:L; simpl.
    + apply link_of_some in L as [Hl Hon]. destruct (S2 l Hl Hon) as (p & pre & rest & _ & _ & Eh & _). destruct En as [->|(l2 & Hl2 & E2 & La & _)].
      * rewrite Eh, last_opt_snoc, Z.eqb_refl. reflexivity.
      * rewrite Eh in E2. apply app_inj_tail in E2 as [<- <-]. destruct (last_opt pre) as [y|]; [|auto].
        destruct (Z.eqb_spec y l) as [->|]; [congruence|auto].
    + destruct En as [->|(l2 & Hl2 & E2 & La & C)]; [reflexivity|exfalso]. apply (link_of_none w' l2 L Hl2). rewrite O5, O4. now apply on_in.
  - assert (L : link_of N w' v = None).
    { destruct (link_of N w' v) as [l|] eqn:L; [|reflexivity]. apply link_of_some in L as [Hl Hon]. pose proof (u_l_old N w' I' v l Hl Hon). lia. }
    rewrite L. cbn [sight]. destruct V5 as [P1 P2 P3 P4]. destruct (P2 ltac:(lia)) as [T E]. constructor; [exact P1| |lia|exact P4]. intros _. split; [exact T|].
    destruct En as [<-|(l2 & _ & E2 & _)]; [exact E|]. rewrite E in E2. destruct h; discriminate.
Qed.
Lemma fresh_v w : fresh_world N w -> w_pt w = pt0 -> q = None -> vinv w [].
Proof.
  intros [F1 F2 F3 F4 F5 F6 F7] E Eq. constructor.
  - rewrite E. apply sub_refl. - auto.
  - intros _ _. constructor; unfold arrived; rewrite ?F7.
    + intros n _ C. rewrite F1 in C. destruct C. + intros l Hl C. destruct (F3 l Hl) as (p & Hp). rewrite (proj1 (proj2 (fresh_empty _ _ Hp))) in C. destruct C.
    + intros n _ C. rewrite F2 in C. destruct C. + intros [].
  - intros p C. congruence.
Qed.
End Veh.

Lemma run_v N D w0 v : net_ok N -> fresh_world N w0 -> (forall t, draws_valid (D t)) -> routes_ok (w_pt w0) ->
  forall k s, run N D k (init_state N w0) = Ok s -> vinv N (w_pt w0) v None (s_w s) (visited N D w0 v k).
Proof.
  intros K F DV RO. induction k as [|k IH]; intros s H.
  - simpl in H. apply Ok_inj in H as <-. apply fresh_v; auto.
  - cbn [visited]. rewrite H. pose proof H as H'. apply run_S in H' as (s1 & H1 & _). destruct (st_step N D w0 F DV _ _ _ H1 H) as (E & _).
    eapply (load_once_v N K (w_pt w0) RO v None (D (Z.of_nat k))); [apply DV| |exact E|apply IH, H1].
    eapply reached_sinv; [exact K|]. exists w0. eauto.
Qed.
Lemma run_path_kept N D w0 v : net_ok N -> fresh_world N w0 -> (forall t, draws_valid (D t)) -> routes_ok (w_pt w0) ->
  forall j k s s' p, (j <= k)%nat -> run N D j (init_state N w0) = Ok s -> run N D k (init_state N w0) = Ok s' ->
  v <= f_num (w_fac (s_w s)) -> v_path (w_veh (s_w s) v) = Some p -> v_path (w_veh (s_w s') v) = Some p.
Proof.
  intros K F DV RO j k s s' p L H H' Hv Hp.
  assert (V0 : vinv N (w_pt w0) v (Some p) (s_w s) (visited N D w0 v j)).
  { destruct (run_v N D w0 v K F DV RO j s H) as [P1 P2 P3 P4]. constructor; auto. intros p' E. injection E as <-. auto. }
  enough (X : exists h, vinv N (w_pt w0) v (Some p) (s_w s') h) by (destruct X as (h & V); apply (vi_fix _ _ _ _ _ _ V p eq_refl)).
  revert s' H'. induction L as [|k L IH]; intros s' H'.
  - rewrite H in H'. apply Ok_inj in H' as <-. eauto.
  - pose proof H' as H2. apply run_S in H2 as (s1 & H1 & _). destruct (IH _ H1) as (h & V1). destruct (st_step N D w0 F DV _ _ _ H1 H') as (E & _).
    eexists. eapply (load_once_v N K (w_pt w0) RO v (Some p) (D (Z.of_nat k))); [apply DV| |exact E|exact V1].
    eapply reached_sinv; [exact K|]. exists w0. eauto.
Qed.
