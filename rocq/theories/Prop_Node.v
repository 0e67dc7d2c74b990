(** C07, C08, C09, C51: what a junction, an origin and a destination do in one interval. *)
From Verif Require Import Base Base_lemmas Model_Num Proof_Num Spec_Path Proof_Path Model_CC Spec_CC Proof_CC Model_Path Model_Link Spec_Link Spec_Node
  Proof_Link Proof_Link3 Proof_Link4 Model_World Model_Node Proof_Node Proof_Node2 Proof_Node3 Proof_Node4 Proof_Node5 Model_Sim Ex_Net.
Local Open Scope Z_scope.

(** C07: the number of vehicles a junction puts on a link never exceeds the receiving
    capacity the link reported, and from each link it takes only vehicles waiting there. *)
Theorem C07_junction_capacity : forall N D t n w w', junction_ready N D t n w -> node_evolve N D t w (n, NFwj) = Ok w' ->
  forall b s, In b (n_out N n) -> link_supply (w_link w b) = Ok s ->
  exists new, l_in (w_link w' b) = l_in (w_link w b) ++ new /\ (inject_Z (Zlen new) <= s * n_fs N)%Q /\
    (forall v, In v new -> exists a, In a (n_in N n) /\ In v (l_fin (w_link w a)) /\ v_next (w_veh w v) = Some b).
Proof.
  intros N D t n w w' [Hf Ht NL DV Pr TM HS HH] H b s Hb Es.
  destruct (junction_capacity _ _ _ _ _ _ _ Hf NL DV Pr H b s Hb Es) as (new & E & L). exists new. split; [exact E|]. split; [exact L|].
  intros v Hv. destruct (junction_passage _ _ _ _ _ _ _ NL DV Pr H) as (pass & P).
  destruct (fp_enter _ _ _ _ _ P b Hb) as (order & Po & Eo). rewrite E in Eo. apply app_inv_head in Eo. rewrite Eo in Hv.
  apply in_concat in Hv as (l & Hl & Hv). apply in_map_iff in Hl as (a & <- & Ha). exists a.
  assert (Ia : In a (n_in N n)) by (eapply Permutation_in; eauto). split; [exact Ia|].
  assert (I : In v (line w b (l_fin (w_link w a)))).
  { rewrite (fp_first _ _ _ _ _ P a b Ia Hb). apply in_or_app. now left. }
  apply filter_In in I as [I1 I2]. split; [exact I1|]. now apply goes_next.
Qed.
Print Assumptions C07_junction_capacity.

(** C07: the exception 'invalid state when moving vehicles', the 'right node' check,
    failed asserts and undefined behaviour are impossible; the only open end is the
    random trimming loop ... *)
Theorem C07_junction_never_fails : forall N D t n w e, junction_ready N D t n w ->
  node_evolve N D t w (n, NFwj) = Err e -> e = EFuel.
Proof. exact node_fwj_total. Qed.
Print Assumptions C07_junction_never_fails.

(** ... which ends whenever the random numbers keep hitting every in link. *)
Theorem C07_junction_terminates : forall N D t n w, junction_ready N D t n w ->
  (forall b, In b (n_out N n) -> fair (d_pick D n b) (length (n_in N n))) ->
  exists f0, forall f, (f0 <= f)%nat -> exists w', node_evolve N (with_fuel f D) t w (n, NFwj) = Ok w'.
Proof. exact node_fwj_terminates. Qed.
Print Assumptions C07_junction_terminates.

(** C08 (for both junction types: the flows play no role) *)
Theorem C08_junction_fifo : forall N D t n w w' kind, kind = NFwj \/ kind = NGrj ->
  node_links_ok N n -> draws_valid D -> paired (w_cc w) -> node_evolve N D t w (n, kind) = Ok w' ->
  exists pass, fifo_passage N n w w' pass.
Proof. intros N D t n w w' kind [->| ->] NL DV Pr H; eapply junction_passage; eauto. Qed.
Print Assumptions C08_junction_fifo.

(** C08, last sentence: routes, destinations and next links of all vehicles stay *)
Theorem C08_vehicles_keep_their_plans : forall N D t n w w' kind, kind = NFwj \/ kind = NGrj ->
  node_links_ok N n -> draws_valid D -> paired (w_cc w) -> node_evolve N D t w (n, kind) = Ok w' ->
  forall v, v_next (w_veh w' v) = v_next (w_veh w v) /\ v_path (w_veh w' v) = v_path (w_veh w v) /\
    v_dst (w_veh w' v) = v_dst (w_veh w v) /\ v_org (w_veh w' v) = v_org (w_veh w v) /\
    ((exists b, In b (n_out N n) /\ In v (skipn (length (l_in (w_link w b))) (l_in (w_link w' b))) /\ v_cur (w_veh w' v) = Some b) \/
     v_cur (w_veh w' v) = v_cur (w_veh w v)).
Proof.
  intros N D t n w w' kind Hk (NI & NO & DJ) DV Pr H v.
  assert (X : exists flow, junction_evolve (n_fs N) (n_in N n) (n_out N n) flow D t n w = Ok w') by (destruct Hk as [->| ->]; eexists; exact H).
  destruct X as (flow & H'). destruct DV as (_ & _ & _ & _ & _ & _ & Hsh & _).
  apply junction_ok in H' as (m & Hm & J); auto; [|intros b; apply Hsh].
  destruct (columns_ok _ _ _ _ _ _ _ _ NO Hm) as (_ & Em & _).
  destruct (je_keep _ _ _ _ _ _ _ _ J) as (_ & _ & _ & K). destruct (K v) as (K1&K2&_&_&_&_&K3&K4). repeat split; auto.
  destruct (je_cur _ _ _ _ _ _ _ _ J v) as [[E _]|(b & col & a & I & Ia & E & Iv)]; [now right|left].
  exists b. split; [rewrite <- Em; apply in_map_iff; exists (b, col); auto|]. split; [|exact E].
  rewrite (je_in _ _ _ _ _ _ _ _ J b col I). rewrite skipn_app, skipn_all, Nat.sub_diag. simpl.
  apply in_concat. eexists. split; [|exact Iv]. apply in_map_iff. exists a. split; [reflexivity|]. eapply Permutation_in; [symmetry; apply Hsh|exact Ia].
Qed.
Print Assumptions C08_vehicles_keep_their_plans.

(** C09 *)
Theorem C09_origin_sends : forall N D t n w w', origin_ready N D t n w -> node_evolve N D t w (n, NOrigin) = Ok w' ->
  exists send, origin_sends N n w w' send /\
    (forall b s, In b (n_out N n) -> link_supply (w_link w b) = Ok s ->
       (inject_Z (Zlen (send b)) < s * n_fs N + 1)%Q /\
       ((inject_Z (Zlen (line w b (w_oq w n))) <= s * n_fs N)%Q -> send b = line w b (w_oq w n))).
Proof. intros N D t n w w' [Hf Ht NL DV TM HS HH] H. eapply origin_spec; eauto. Qed.
Print Assumptions C09_origin_sends.

Theorem C09_origin_never_fails : forall N D t n w, origin_ready N D t n w -> exists w', node_evolve N D t w (n, NOrigin) = Ok w'.
Proof.
  intros N D t n w [Hf Ht NL DV TM HS HH]. cbn [node_evolve]. apply origin_total; auto.
  - intros v Hv. destruct (HH v Hv) as (b & Hb & E). exists b. split; [exact Hb|]. now apply goes_next.
  - intros b Hb. destruct (HS b Hb) as (s & E & _). eauto.
Qed.
Print Assumptions C09_origin_never_fails.

(** C51: a destination node takes every vehicle that reached the end of its links, in
    the order of the links and of their queues, and raises an exception exactly when
    one of them still has a next link. *)
Theorem C51_destination_takes_all : forall N D t n w, (0 <= t)%Z -> NoDup (n_in N n) -> timely (t + 1) (w_cc w) ->
  ((forall a v, In a (n_in N n) -> In v (l_fin (w_link w a)) -> v_next (w_veh w v) = None) <->
   (exists w', node_evolve N D t w (n, NDest) = Ok w')) /\
  forall w', node_evolve N D t w (n, NDest) = Ok w' ->
    w_dq w' n = w_dq w n ++ concat (map (fun a => l_fin (w_link w a)) (n_in N n)) /\
    (forall a, In a (n_in N n) -> w_link w' a = set_fin (w_link w a) []) /\
    (forall l, ~ In l (n_in N n) -> w_link w' l = w_link w l) /\
    (forall n', n' <> n -> w_dq w' n' = w_dq w n') /\ w_oq w' = w_oq w.
Proof.
  intros N D t n w Ht NI TM. cbn [node_evolve]. split.
  - split.
    + intros H. now apply dest_total.
    + intros (w' & H) a v Ha Hv. apply dest_ok in H; auto. eapply de_next; eauto.
  - intros w' H. apply dest_ok in H; auto. destruct H. auto.
Qed.
Print Assumptions C51_destination_takes_all.

(** * Concrete cases on the example network *)
Definition xn_veh (org : Z) (next : option Z) : veh :=
  {| v_org := org; v_dst := 4; v_adapt := false; v_start := 0; v_fin := -1; v_assign := 0; v_cur := None; v_next := next;
     v_path := None; v_miles := 0 |}.
(** vehicles 3, 2, 1 wait at the end of link 10 (2 heading for 20, the others for
    25); 4..21 wait at the end of link 50, all heading for 20, which accepts five *)
Definition xn_queue : list Z := [4;5;6;7;8;9;10;11;12;13;14;15;16;17;18;19;20;21].
Definition xn_busy : world :=
  let w := set_link (set_link xn_world 10 (set_fin (xn_link 10) [3; 2; 1])) 50 (set_fin (xn_link 50) xn_queue) in
  set_vehs w (fun v => xn_veh 1 (Some (if (v =? 3) || (v =? 1) then 25 else 20))).
Definition xn_done : world := match node_evolve xn xn_draws 2 xn_busy (2, NFwj) with Ok w => w | Err _ => xn_world end.

Lemma xn_draws_valid : draws_valid xn_draws.
Proof.
  unfold draws_valid, unit_draw, shuffle. simpl. repeat split; intros; try (destruct (Z.even _)); try (destruct (_ =? _)); try (vm_compute; discriminate);
  symmetry; apply Permutation_rev.
Qed.
Lemma xn_timely T w : 0 <= T -> w_cc w = w_cc xn_world -> timely T (w_cc w).
Proof.
  intros H ->. assert (ctime T fresh_curve) by now apply fresh_time.
  repeat split; intros l x E; simpl in E; injection E as <-; auto.
Qed.
Lemma forallb_In {A} (f : A -> bool) (P : A -> Prop) l : (forall a, f a = true -> P a) -> forallb f l = true -> forall a, In a l -> P a.
Proof. intros H F a Ha. apply H. rewrite forallb_forall in F. auto. Qed.

Example C07_C08_case : junction_ready xn xn_draws 2 2 xn_busy /\ node_evolve xn xn_draws 2 xn_busy (2, NFwj) = Ok xn_done /\
  link_supply (w_link xn_busy 20) = Ok (10 # 2)%Q /\ l_in (w_link xn_done 20) = [4; 5; 6; 7; 8] /\ l_in (w_link xn_done 25) = [3; 1] /\
  l_fin (w_link xn_done 10) = [2] /\ l_fin (w_link xn_done 50) = skipn 5 xn_queue /\
  (forall b, In b (n_out xn 2) -> fair (d_pick xn_draws 2 b) (length (n_in xn 2))).
Proof.
  split; [constructor|].
  - vm_compute. reflexivity.
  - lia.
  - split; [|split]; vm_compute; try (repeat constructor; simpl; intuition congruence).
  - apply xn_draws_valid.
  - intros l. simpl. split; discriminate.
  - apply xn_timely; [lia|reflexivity].
  - intros b [<-|[<-|[]]]; eexists; (split; [vm_compute; reflexivity|vm_compute; discriminate]).
  - intros a Ha. assert (Hn : forall v, exists b, In b (n_out xn 2) /\ v_next (w_veh xn_busy v) = Some b).
    { intros v. simpl. destruct ((v =? 3) || (v =? 1)); [exists 25|exists 20]; split; auto. }
    intros v _. apply Hn.
  - split; [vm_compute; reflexivity|]. split; [vm_compute; reflexivity|]. split; [vm_compute; reflexivity|].
    split; [vm_compute; reflexivity|]. split; [vm_compute; reflexivity|]. split; [vm_compute; reflexivity|].
    intros b _ k i Hi. exists (i + k * 2)%nat. change (length (n_in xn 2)) with 2%nat in *. split; [lia|].
    cbn [d_pick xn_draws]. rewrite Nat.mod_add by lia. apply Nat.mod_small. exact Hi.
Qed.

(** vehicles 1..4 wait at origin 1 for link 10 *)
Definition xn_orig : world := set_vehs (set_oq xn_world 1 [2; 4; 1; 3]) (fun _ => xn_veh 1 (Some 10)).
Example C09_case : origin_ready xn xn_draws 0 1 xn_orig /\
  exists w', node_evolve xn xn_draws 0 xn_orig (1, NOrigin) = Ok w' /\ l_in (w_link w' 10) = [2; 4; 1; 3] /\ w_oq w' 1 = [] .
Proof.
  split; [constructor|].
  - vm_compute. reflexivity.
  - lia.
  - repeat constructor. simpl. tauto.
  - apply xn_draws_valid.
  - apply xn_timely; [lia|reflexivity].
  - intros b [<-|[]]; eexists; (split; [vm_compute; reflexivity|vm_compute; discriminate]).
  - intros v _. exists 10. split; [now left|reflexivity].
  - eexists. split; [vm_compute; reflexivity|]. split; vm_compute; reflexivity.
Qed.
(** a slow first link (capacity 2.5 vehicles per interval) takes two or three of the four *)
Definition xn_slow : world := set_link xn_orig 10 (xn_get (make_pq (xn_par KPq (1 # 4) 100))).
Example C09_case_limited : link_supply (w_link xn_slow 10) = Ok (10 # 4)%Q /\
  exists w', node_evolve xn xn_draws 0 xn_slow (1, NOrigin) = Ok w' /\ l_in (w_link w' 10) = [2; 4] /\ w_oq w' 1 = [1; 3].
Proof. split; [vm_compute; reflexivity|]. eexists. split; [vm_compute; reflexivity|]. split; vm_compute; reflexivity. Qed.

Definition xn_arr : world := set_vehs (set_link xn_world 30 (set_fin (xn_link 30) [7; 5])) (fun _ => xn_veh 1 None).
Example C51_case : timely (3 + 1) (w_cc xn_arr) /\ exists w', node_evolve xn xn_draws 3 xn_arr (4, NDest) = Ok w' /\ w_dq w' 4 = [7; 5] /\
  l_fin (w_link w' 30) = [].
Proof. split; [apply xn_timely; [lia|reflexivity]|]. eexists. split; [vm_compute; reflexivity|]. split; vm_compute; reflexivity. Qed.
