(** C239-C246: node and link sequences, vehicles under way and in queues, averaged travel times
    and speeds. *)
From Coq Require Import Lqa.
From Verif Require Import Base Base_lemmas Model_Num Proof_Num Model_Graph Spec_Graph Proof_Graph Proof_Graph2 Model_Io Spec_Io Proof_Io3 Model_CC Model_Node Model_Grad Model_World Model_Link Model_Path Spec_Path Spec_Link
  Spec_Node Model_Sim Spec_Sim Proof_Link Proof_Link4 Proof_Sim1 Proof_Sim2 Model_McLink Spec_McLink Model_McNode Spec_McNode Model_McSim Spec_McSim
  Proof_McLink3 Proof_McSim2 Proof_McSim3 Proof_McSim5 Model_Query Spec_Query Proof_Query Ex_Net Ex_McNet Prop_Sim Prop_Grad Prop_McSim Proof_Mmp.
Local Open Scope Z_scope.

(** C239: links that lead along some nodes are translated to these nodes; nodes that can be
    followed are translated to links that lead along them, whatever the result array contained
    before; without parallel links the two translations undo each other. *)
Theorem C239_links_to_nodes : forall ops ns ls, along (gbuild ops) ns ls -> ls <> [] -> link_seq_to_node_seq (gbuild ops) ls = Ok ns.
Proof. intros. now apply links_nodes. Qed.
Print Assumptions C239_links_to_nodes.
Theorem C239_nodes_to_links : forall ops ns ls0, let g := gbuild ops in
  (forall l e, get_endpoints g l = Ok e -> 0 <= l) -> along g ns ls0 -> ls0 <> [] ->
  exists ls, along g ns ls /\ (forall mem, node_seq_to_link_seq g mem ns = Ok ls) /\ link_seq_to_node_seq g ls = Ok ns /\ (no_parallel g -> ls = ls0).
Proof.
  intros ops ns ls0 g P A N. pose proof (gbuild_rep ops) as R. fold g in R.
  destruct (nodes_links g _ (fun _ => -1) R P ns ls0 A 0) as (ls & E & A'). exists ls. split; [exact A'|].
  assert (N' : ls <> []) by (apply along_links in A, A'; destruct ls, ls0; cbn in *; congruence).
  split.
  - intros mem. destruct (nodes_links g _ mem R P ns ls0 A 0) as (ls2 & E2 & A2). unfold node_seq_to_link_seq.
    pose proof (along_nodes2 _ _ _ A N) as L. apply Nat.leb_le in L. rewrite L. cbn [guard bind]. rewrite E2. f_equal.
    destruct (nodes_links_each g _ _ R _ _ _ E) as [L1 K1]. destruct (nodes_links_each g _ _ R _ _ _ E2) as [L2 K2].
    clear -A E E2 R. revert ls ls2 E E2. generalize 0%nat as i. induction A as [n|n l m ns ls0 En A IH]; intros i ls ls2 E E2.
    { cbn in E, E2. apply Ok_inj in E as <-. now apply Ok_inj in E2 as <-. }
    change (node_seq_loop g (fun _ => -1) i (n :: m :: ns)) with
      (do ls <- connections g n Outgoing; do x <- first_to g ls m; let y := match x with Some l => l | None => -1 end in
       do _ <- guard (negb (y <? 0)) EThrow; do ys <- node_seq_loop g (fun _ => -1) (S i) (m :: ns); Ok (y :: ys)) in E.
    change (node_seq_loop g mem i (n :: m :: ns)) with
      (do ls <- connections g n Outgoing; do x <- first_to g ls m; let y := match x with Some l => l | None => mem i end in
       do _ <- guard (negb (y <? 0)) EThrow; do ys <- node_seq_loop g mem (S i) (m :: ns); Ok (y :: ys)) in E2.
    apply bind_ok in E as (cs & C & E). apply bind_ok in E as (x & F & E). rewrite C in E2. cbn [bind] in E2. rewrite F in E2. cbn [bind] in E2. cbv zeta in E, E2.
    destruct (hop g _ n m R) as (cs' & C' & [(l' & F' & _)|(_ & K)]); [apply (endpoints_node _ _ _ _ _ R En)| |elim (K l En)].
    rewrite C in C'. apply Ok_inj in C' as <-. rewrite F in F'. apply Ok_inj in F' as ->.
    apply bind_ok in E as (u & G & E). rewrite G in E2. cbn [bind] in E2. apply bind_ok in E as (ys & Y & E). apply bind_ok in E2 as (ys2 & Y2 & E2).
    apply Ok_inj in E as <-. apply Ok_inj in E2 as <-. f_equal. eapply IH; eauto.
  - split; [now apply links_nodes|]. intros U. eapply along_det; [|exact A'|exact A]. intros l l' f t E1 E2. exact (U _ _ _ E1 E2).
Qed.
Print Assumptions C239_nodes_to_links.
Definition tri : graph := gbuild [GNode 1; GNode 2; GNode 3; GNode 4; GLink 1 2 10; GLink 2 3 20; GLink 1 3 30; GLink 3 4 40].
Example C239_case : along tri [1; 2; 3; 4] [10; 20; 40] /\ link_seq_to_node_seq tri [10; 20; 40] = Ok [1; 2; 3; 4] /\
  (forall mem, node_seq_to_link_seq tri mem [1; 2; 3; 4] = Ok [10; 20; 40]).
Proof. split; [repeat (econstructor; [vm_compute; reflexivity|]); constructor|]. split; [|intros mem]; vm_compute; reflexivity. Qed.

(** C240, refuted: nodes between which there is no link are reported.  What is returned at such a
    place is what the memory of the result contained, and only a negative number there is
    noticed. *)
Theorem C240_actual : forall ops mem ns ls, let g := gbuild ops in
  node_seq_to_link_seq g mem ns = Ok ls -> (2 <= length ns)%nat /\ S (length ls) = length ns /\
  forall i u v, consecutive ns i u v -> exists l, nth_error ls i = Some l /\ 0 <= l /\ (get_endpoints g l = Ok (u, v) \/ (l = mem i /\ ~ joined g u v)).
Proof.
  intros ops mem ns ls g H. unfold node_seq_to_link_seq in H. apply bind_ok in H as ([] & G & H). apply guard_ok in G. apply Nat.leb_le in G.
  destruct (nodes_links_each g _ mem (gbuild_rep ops) _ _ _ H) as [L K]. split; [exact G|]. split; [lia|]. intros i u v C. destruct (K i u v C) as (_ & l & A). exists l. exact A.
Qed.
Print Assumptions C240_actual.
Theorem C240_missing_link_refuted :
  ~ (forall ops mem ns ls, node_seq_to_link_seq (gbuild ops) mem ns = Ok ls -> forall i u v, consecutive ns i u v -> joined (gbuild ops) u v).
Proof.
  intros H. specialize (H [GNode 1; GNode 2; GNode 3; GNode 4; GLink 1 2 10; GLink 2 3 20; GLink 1 3 30; GLink 3 4 40] (fun _ => 777) [1; 2; 4] [10; 777] ltac:(vm_compute; reflexivity) 1%nat 2 4 (conj eq_refl eq_refl)).
  destruct H as (l & E). pose proof (gbuild_rep [GNode 1; GNode 2; GNode 3; GNode 4; GLink 1 2 10; GLink 2 3 20; GLink 1 3 30; GLink 3 4 40]) as R. apply (rep_endpoints_iff _ _ _ _ _ R) in E. vm_compute in E. intuition congruence.
Qed.
Print Assumptions C240_missing_link_refuted.
(** a link with a negative ID is found but refused *)
Theorem C240_negative_id : forall mem, node_seq_to_link_seq (gbuild [GNode 1; GNode 2; GLink 1 2 (-5)]) mem [1; 2] = Err EThrow.
Proof. intros. vm_compute. reflexivity. Qed.
Print Assumptions C240_negative_id.
Example C240_case : node_seq_to_link_seq tri (fun _ => 0) [1; 2; 4] = Ok [10; 0] /\ node_seq_to_link_seq tri (fun _ => -1) [1; 2; 4] = Err EThrow /\ node_seq_to_link_seq tri (fun _ => 0) [1] = Err EThrow.
Proof. repeat split; vm_compute; reflexivity. Qed.

(** C241, refuted: links that do not join are reported.  The nodes are the tail of the first link
    and the heads of all; only unknown links are refused. *)
Theorem C241_actual : forall g ls ns, ls <> [] ->
  (link_seq_to_node_seq g ls = Ok ns <-> exists u, option_map (get_endpoints g) (hd_error ls) = Some (Ok (u, hd 0 (tl ns))) /\ hd_error ns = Some u /\ Forall2 (fun l n => exists m, get_endpoints g l = Ok (m, n)) ls (tl ns)).
Proof.
  intros g [|l ls] ns N; [contradiction|]. cbn [hd_error option_map].
  assert (X : forall ls r, mapM (fun l => do e <- get_endpoints g l; Ok (snd e)) ls = Ok r <-> Forall2 (fun l n => exists m, get_endpoints g l = Ok (m, n)) ls r).
  { clear. induction ls as [|l ls IH]; intros r; cbn [mapM].
    - split; [intros H; apply Ok_inj in H as <-; constructor|]. intros H. inversion H. reflexivity.
    - split.
      + intros H. apply bind_ok in H as (n & E & H). apply bind_ok in E as ([m n'] & E & E'). apply Ok_inj in E' as <-. apply bind_ok in H as (ns & R & H). apply Ok_inj in H as <-.
        constructor; [eauto|]. now apply IH.
      + intros H. inversion H as [|? n ? ns [m E] F]; subst. rewrite E. cbn [bind snd]. apply IH in F. rewrite F. reflexivity. }
  unfold link_seq_to_node_seq. split.
  - intros H. apply bind_ok in H as ([u v] & E & H). apply bind_ok in H as (r & R & H). apply Ok_inj in H as <-. exists u. cbn [fst hd_error tl]. apply X in R.
    split; [|split; [reflexivity|exact R]]. inversion R as [|? n ? ns' [m E'] _]; subst. cbn [hd]. congruence.
  - intros (u & E & Hn & F). injection E as E. rewrite E. cbn [bind fst]. apply X in F. destruct ns as [|n ns]; [discriminate|]. injection Hn as ->. cbn [tl] in F. rewrite F. reflexivity.
Qed.
Print Assumptions C241_actual.
Theorem C241_disjoint_links_refuted : ~ (forall ops ls ns, link_seq_to_node_seq (gbuild ops) ls = Ok ns -> along (gbuild ops) ns ls).
Proof.
  intros H. specialize (H [GNode 1; GNode 2; GNode 3; GNode 4; GLink 1 2 10; GLink 2 3 20; GLink 1 3 30; GLink 3 4 40] [10; 40] [1; 2; 4] ltac:(vm_compute; reflexivity)).
  inversion H as [|? ? ? ? ? E A]; subst. inversion A as [|? ? ? ? ? E' A']; subst. vm_compute in E'. discriminate.
Qed.
Print Assumptions C241_disjoint_links_refuted.
(** an unknown link is refused, an empty array is read outside *)
Theorem C241_unknown_link : forall ops ls l, In l ls -> (forall e, get_endpoints (gbuild ops) l <> Ok e) -> forall ns, link_seq_to_node_seq (gbuild ops) ls <> Ok ns.
Proof.
  intros ops ls l I U ns H. assert (N : ls <> []) by (intros ->; destruct I). apply (C241_actual _ _ _ N) in H as (u & _ & _ & F).
  induction F as [|l' n ls ns' [m E] F IH]; [destruct I|]. destruct I as [->|I]; [exact (U _ E)|]. destruct ls as [|l2 ls]; [destruct I|]. apply IH; [exact I|discriminate].
Qed.
Print Assumptions C241_unknown_link.
Example C241_case : link_seq_to_node_seq tri [40; 10] = Ok [3; 4; 2] /\ link_seq_to_node_seq tri [10; 99] = Err EThrow /\ link_seq_to_node_seq tri [] = Err EUB.
Proof. repeat split; vm_compute; reflexivity. Qed.

(** C242: the table of vehicles under way and in queues has one row for every loading interval:
    the vehicles at origins, on links and at destinations at its end, those that wait at the end of
    a link other than a connector when the nodes are done, and the difference, which is never
    negative. *)
Theorem C242_enroute_and_queue : forall M D w0 j x, mnet_ok M -> qreached M D w0 j x ->
  exists rows, enroute_and_queue M x = Ok rows /\ length rows = j /\
  forall i, (i < j)%nat -> exists w z, situation M D w0 i w /\ qreached M D w0 (S i) z /\
    let v := ms_w (q_run z) in
    let e := (Zlen (m_at_origins M v false) + Zlen (m_on_links M v false) + Zlen (m_at_dests M v false)) + (Zlen (m_at_origins M v true) + Zlen (m_on_links M v true) + Zlen (m_at_dests M v true)) in
    let q := Zlen (waiting M w) in
    0 <= q <= e /\ nth_error rows i = Some (inject_Z e / mn_fs M, inject_Z q / mn_fs M, inject_Z (e - q) / mn_fs M)%Q.
Proof.
  intros M D w0 j x K R. destruct (recorded M D w0 K j x R) as (L1 & L2 & _ & _ & Rec). pose proof (mreached_cur M _ _ _ (qreached_m _ _ _ _ _ R)) as Cur.
  unfold enroute_and_queue. unfold Zlen at 1 2. rewrite L1, L2, Cur, Z.eqb_refl. cbn [guard bind]. eexists. split; [reflexivity|].
  split; [rewrite map_length, combine_length, L1, L2; lia|]. intros i Hi. destruct (Rec i Hi) as (w & z & S1 & S2 & I & H & E & Q & _). exists w, z. split; [exact S1|]. split; [exact S2|]. cbv zeta.
  destruct (C98_class_counters M D (S i) (q_run z) K (qreached_m _ _ _ _ _ S2)) as (CC & _ & Enr & _).
  destruct (CC false) as (_ & _ & Cf & _). destruct (CC true) as (_ & _ & Ct & _). rewrite Cf, Ct in Enr. rewrite <- Enr, waiting_total.
  split.
  - pose proof (queue_held M w) as [Q0 Q1]. split; [exact Q0|]. rewrite <- H, held_on_links in Q1. rewrite Enr. unfold Zlen in *. lia.
  - rewrite nth_error_map. enough (X : nth_error (combine (ms_enr (q_run x)) (q_num x)) i = Some (f_enroute (mw_fac (ms_w (q_run z))), queue_total M w)) by now rewrite X.
    clear -E Q. revert i E Q. generalize (q_num x). induction (ms_enr (q_run x)) as [|a l IH]; intros [|b l'] [|i] E Q; cbn in *; try discriminate; [congruence|auto].
Qed.
Print Assumptions C242_enroute_and_queue.
(** every loading has such a table: recording does not change it *)
Theorem C242_recorded : forall M D w0 j s, mfresh_world M w0 -> (forall t, mdraws_valid (D t)) -> mrun M D j (minit M w0) = Ok s ->
  exists x, qreached M D w0 j x /\ q_run x = s.
Proof. intros M D w0 j s F V H. destruct (mrun_qrun M D w0 j s H) as (x & X & E). exists x. split; [|exact E]. split; [exact F|]. split; [exact V|exact X]. Qed.
Print Assumptions C242_recorded.
Definition narrow : mworld := mset_link ym_world 30 (ym_get (make_mpq (ym_par MKPq (1 # 5) 100))).
Lemma narrow_fresh : mfresh_world ym narrow.
Proof.
  constructor; try reflexivity; auto. intros l Hl. cbn [ym ym_net mn_links In] in Hl. unfold fresh_mlink.
  destruct Hl as [<-|[<-|[<-|[<-|[<-|[]]]]]]; [exists (ym_par MKPq (1 # 5) 100)|exists (ym_par MKPq 10 100)|exists (ym_par MKCtm (1 # 2) 300)|exists (ym_par MKPq 10 100)|exists (ym_par MKCtm (1 # 3) 150)]; vm_compute; reflexivity.
Qed.
Definition ym_q (j : nat) : qstate := match qrun ym (fun _ => ym_draws) j (qinit ym narrow) with Ok x => x | Err _ => qinit ym narrow end.
Lemma ym_qreached j : is_ok (qrun ym (fun _ => ym_draws) j (qinit ym narrow)) = true -> qreached ym (fun _ => ym_draws) narrow j (ym_q j).
Proof.
  intros H. split; [apply narrow_fresh|]. split; [intros; apply ym_draws_valid|]. unfold ym_q. destruct (qrun _ _ _ _); [reflexivity|discriminate].
Qed.
Example C242_case : mnet_ok ym /\ qreached ym (fun _ => ym_draws) narrow 8 (ym_q 8) /\
  match enroute_and_queue ym (ym_q 8) with Ok rows => map (fun r => (Qred (fst (fst r)), Qred (snd (fst r)), Qred (snd r))) rows | Err _ => [] end =
  [(9, 0, 9); (9, 0, 9); (9, 0, 9); (15, 0, 15); (14, 0, 14); (13, 3, 10); (11, 5, 6); (9, 3, 6)]%Q.
Proof. split; [apply ym_net_ok; reflexivity|]. split; [apply ym_qreached; vm_compute; reflexivity|vm_compute; reflexivity]. Qed.

(** C243: the queue of a link in an interval is the number of vehicles at its end, cars and trucks
    add up to it, and the queues of the links other than connectors add up to the total. *)
Theorem C243_queue_each_link : forall M D w0 j x links ts, mnet_ok M -> qreached M D w0 j x ->
  (forall l, In l links -> In l (mn_links M)) -> (forall t, In t ts -> 0 <= t < Z.of_nat j) ->
  exists cols, queue_each_link M x links ts = Ok cols /\
  Forall2 (fun t col => exists w, situation M D w0 (Z.to_nat t) w /\ nth_error (q_num x) (Z.to_nat t) = Some (Zlen (waiting M w)) /\
     Forall2 (fun l q => q = (inject_Z (Zlen (ml_fin (mw_link w l))) / mn_fs M)%Q /\
        forall k, nth_error (q_cmap x k l) (Z.to_nat t) = Some (Zlen (of_class (mw_cls w) k (ml_fin (mw_link w l))))) links col) ts cols.
Proof.
  intros M D w0 j x links ts K R HL HT. destruct (recorded M D w0 K j x R) as (_ & _ & _ & _ & Rec). pose proof (mreached_cur M _ _ _ (qreached_m _ _ _ _ _ R)) as Cur.
  unfold queue_each_link. rewrite Cur. induction ts as [|t ts IH]; [exists []; split; [reflexivity|constructor]|].
  destruct (IH (fun t' I => HT t' (or_intror I))) as (cols & E & F). specialize (HT t (or_introl eq_refl)). destruct (Rec (Z.to_nat t) ltac:(lia)) as (w & z & S1 & _ & _ & _ & _ & Q & M1 & C1).
  cbn [mapM]. rewrite (proj2 (Z.ltb_lt _ _)) by lia. cbn [guard bind]. destruct (Z.ltb_spec t 0); [lia|].
  assert (X : exists col, mapM (fun l => do _ <- guard (memb l (mn_links M)) EThrow; match nth_error (q_map x l) (Z.to_nat t) with Some n => Ok (inject_Z n / mn_fs M)%Q | None => Err EUB end) links = Ok col /\
    Forall2 (fun l q => q = (inject_Z (Zlen (ml_fin (mw_link w l))) / mn_fs M)%Q /\ forall k, nth_error (q_cmap x k l) (Z.to_nat t) = Some (Zlen (of_class (mw_cls w) k (ml_fin (mw_link w l))))) links col).
  { clear IH E F. induction links as [|l ls IH]; [exists []; split; [reflexivity|constructor]|]. destruct (IH (fun l' I => HL l' (or_intror I))) as (col & E & F).
    cbn [mapM]. rewrite (proj2 (memb_In l _)) by (apply HL; left; reflexivity). cbn [guard bind]. rewrite M1. cbn [bind]. rewrite E. cbn [bind]. eexists. split; [reflexivity|]. constructor; [|exact F].
    split; [reflexivity|]. intros k. apply C1. }
  destruct X as (col & E1 & F1). rewrite E1. cbn [bind]. rewrite E. cbn [bind]. eexists. split; [reflexivity|]. constructor; [|exact F].
  exists w. split; [exact S1|]. split; [rewrite waiting_total; exact Q|exact F1].
Qed.
Print Assumptions C243_queue_each_link.
Theorem C243_classes_add_up : forall M D w0 j x i l n c u, mnet_ok M -> qreached M D w0 j x ->
  nth_error (q_map x l) i = Some n -> nth_error (q_cmap x false l) i = Some c -> nth_error (q_cmap x true l) i = Some u -> n = c + u.
Proof.
  intros M D w0 j x i l n c u K R N C U. destruct (recorded M D w0 K j x R) as (_ & _ & L3 & _ & Rec).
  assert (Hi : (i < j)%nat) by (rewrite <- (L3 l); apply nth_error_Some; congruence). destruct (Rec i Hi) as (w & z & _ & _ & _ & _ & _ & _ & A & B).
  rewrite A in N. rewrite B in C. rewrite B in U. injection N as <-. injection C as <-. injection U as <-. apply class_sum_len.
Qed.
Print Assumptions C243_classes_add_up.
Example C243_case : match queue_each_link ym (ym_q 8) [20; 25] [5; 6] with Ok cols => map (map Qred) cols | Err _ => [] end = [[3; 0]; [3; 2]]%Q /\
  map (fun k => nth_error (q_cmap (ym_q 8) k 25) 6) [false; true] = [Some 1; Some 1] /\ In 25 (mn_links ym) /\ In 20 (mn_links ym).
Proof. split; [vm_compute; reflexivity|]. split; [vm_compute; reflexivity|cbn; tauto]. Qed.

(** C244, refuted: intervals outside of the loading are reported.  One that is too late is, also an
    unknown link; a negative one reads outside of the record. *)
Theorem C244_actual : forall M x links t l, In l links ->
  (ms_cur (q_run x) <= t -> queue_each_link M x links [t] = Err EThrow) /\
  (~ In l (mn_links M) -> forall r, queue_each_link M x links [t] <> Ok r) /\
  (t < 0 -> t < ms_cur (q_run x) -> (forall l', In l' links -> In l' (mn_links M)) -> queue_each_link M x links [t] = Err EUB).
Proof.
  intros M x links t l I. unfold queue_each_link. cbn [mapM]. split; [|split].
  - intros H. rewrite (proj2 (Z.ltb_ge _ _)) by lia. reflexivity.
  - intros N r H. destruct (t <? ms_cur (q_run x)); [|discriminate]. cbn [guard bind] in H. apply bind_ok in H as (col & H & _). revert col H. induction links as [|l' ls IH]; [destruct I|].
    intros col H. cbn [mapM] in H. apply bind_ok in H as (q & Hq & H). destruct I as [->|I].
    + destruct (memb l (mn_links M)) eqn:Mb; [apply memb_In in Mb; contradiction|discriminate].
    + apply bind_ok in H as (qs & H & _). exact (IH I _ H).
  - intros H0 H1 HL. rewrite (proj2 (Z.ltb_lt _ _)) by lia. cbn [guard bind]. destruct links as [|l' ls]; [destruct I|]. cbn [mapM].
    rewrite (proj2 (memb_In l' _)) by (apply HL; left; reflexivity). cbn [guard bind]. destruct (Z.ltb_spec t 0); [reflexivity|lia].
Qed.
Print Assumptions C244_actual.
Theorem C244_wrong_interval_refuted :
  ~ (forall M D w0 j x links t, mnet_ok M -> qreached M D w0 j x -> ~ 0 <= t < Z.of_nat j -> links <> [] -> queue_each_link M x links [t] = Err EThrow).
Proof.
  intros H. assert (R : qreached ym (fun _ => ym_draws) narrow 1 (ym_q 1)) by (apply ym_qreached; vm_compute; reflexivity).
  specialize (H ym _ _ _ _ [25] (-1) ltac:(apply ym_net_ok; reflexivity) R ltac:(lia) ltac:(discriminate)). vm_compute in H. discriminate.
Qed.
Print Assumptions C244_wrong_interval_refuted.
Example C244_case : queue_each_link ym (ym_q 3) [25] [3] = Err EThrow /\ queue_each_link ym (ym_q 3) [99] [2] = Err EThrow /\ queue_each_link ym (ym_q 3) [25] [-1] = Err EUB.
Proof. repeat split; vm_compute; reflexivity. Qed.

(** C245: the average travel time of a link over a window of at least one interval, with at least
    one trial, lies between the bounds of the travel times in the window, and is cut at twenty
    times the free-flow time. *)
Local Open Scope Q_scope.
Lemma mapM_each {A B} (f : A -> res B) (P : A -> B -> Prop) l : (forall a, In a l -> exists b, f a = Ok b /\ P a b) -> exists r, mapM f l = Ok r /\ Forall2 P l r.
Proof.
  induction l as [|a l IH]; intros H; [exists []; split; [reflexivity|constructor]|]. destruct (H a (or_introl eq_refl)) as (b & E & Pb). destruct (IH (fun x I => H x (or_intror I))) as (r & Er & F).
  exists (b :: r). cbn [mapM]. rewrite E. cbn [bind]. rewrite Er. split; [reflexivity|constructor; assumption].
Qed.
Theorem C245_average : forall ut cur n ls starts ends (lo hi : Q * Q -> qlink -> Q),
  (1 <= n)%Z -> length starts = length ends -> 0 < ut ->
  (forall w, In w (combine starts ends) -> fst w + 1 <= snd w /\ fst w < inject_Z cur /\ snd w <= inject_Z cur) ->
  (forall l, In l ls -> 0 <= q_len l /\ 0 < q_ffs l) ->
  (forall w l, In w (combine starts ends) -> In l ls -> lo w l * ut <= 20 * (q_len l / q_ffs l) /\
     forall t, fst w + 1 <= t -> t < snd w + 1 -> exists r, q_tt l t = Ok r /\ lo w l <= r <= hi w l) ->
  exists cols, tt_robust ut cur n false ls starts ends = Ok cols /\
    Forall2 (fun w col => Forall2 (fun l x => within (lo w l * ut) (hi w l * ut) x /\ within (lo w l * ut) (20 * (q_len l / q_ffs l)) x) ls col) (combine starts ends) cols.
Proof.
  intros ut cur n ls starts ends lo hi Hn HL U HW Hl Hb. unfold tt_robust. rewrite HL, Nat.eqb_refl. cbn [guard bind]. apply mapM_each. intros w Iw.
  destruct (HW w Iw) as (W1 & W2 & W3). unfold window_ok.
  destruct (Qleb_spec (snd w) (fst w)) as [X|_]; [lra|]. destruct (Qleb_spec (inject_Z cur) (fst w)) as [X|_]; [lra|]. destruct (Qltb_spec (inject_Z cur) (snd w)) as [X|_]; [lra|]. cbn [negb guard bind].
  apply mapM_each. intros l Il. destruct (Hl l Il) as [P1 P2]. destruct (Hb w l Iw Il) as [B0 B].
  destruct (average_between (q_tt l) (fst w + 1) (snd w + 1) n (lo w l) (hi w l) Hn ltac:(lra) B) as (q & E & Bq).
  rewrite E. cbn [bind]. eexists. split; [reflexivity|]. now apply cut_between.
Qed.
Print Assumptions C245_average.
(** refuted: every accepted window gives a number.  A window shorter than an interval, and a number
    of trials of zero, give NaN, a negative number of trials gives zero. *)
Theorem C245_no_trials : forall f s e n, s < e ->
  (e < s + 1 -> (1 <= n)%Z -> average_tt f s e n = Ok VNan) /\ (s + 1 <= e -> n = 0%Z -> average_tt f s e n = Ok VNan) /\
  ((n < 0)%Z -> exists q, average_tt f s e n = Ok (VNum q) /\ q == 0).
Proof.
  intros f s e n H. assert (T0 : (0 <= trunc (e - s))%Z) by (apply trunc_nonneg; lra). split; [|split].
  - intros H1 Hn. assert (E : trunc (e - s) = 0%Z) by (apply Z.le_antisymm; [assert (trunc (e - s) < 1)%Z by (apply trunc_lt; [lra|change (inject_Z 1) with 1; lra]); lia|exact T0]).
    unfold average_tt, robust_trials. rewrite E. destruct (Z.ltb_spec 0 n); [reflexivity|lia].
  - intros H1 ->. unfold average_tt, robust_trials. destruct (Z.ltb_spec (trunc (e - s)) 0); [lia|reflexivity].
  - intros Hn. unfold average_tt, robust_trials. destruct (Z.ltb_spec (trunc (e - s)) n); [lia|]. destruct (Z.eqb_spec n 0); [lia|].
    replace (Z.to_nat n) with 0%nat by lia. cbn [seq mapM bind]. eexists. split; [reflexivity|]. change (sumQ []) with 0. unfold Qdiv. ring.
Qed.
Print Assumptions C245_no_trials.
Theorem C245_number_refuted :
  ~ (forall ut cur n l s e, 0 < ut -> (1 <= n)%Z -> 0 <= s -> s < e -> e <= inject_Z cur -> 0 < q_len l -> 0 < q_ffs l -> (forall t, exists r, q_tt l t = Ok r) ->
     exists q, tt_robust ut cur n false [l] [s] [e] = Ok [[VNum q]]).
Proof.
  intros H. destruct (H 5 10%Z 3%Z {| q_tt := fun _ => Ok 4; q_len := 300; q_ffs := 15 |} 2 (5 # 2) ltac:(reflexivity) ltac:(lia) ltac:(discriminate) ltac:(reflexivity) ltac:(vm_compute; discriminate) ltac:(reflexivity) ltac:(reflexivity)
    (fun _ => ex_intro _ _ eq_refl)) as (q & E).
  vm_compute in E. discriminate.
Qed.
Print Assumptions C245_number_refuted.
Example C245_case : let l := {| q_tt := fun t => Ok (t + 1); q_len := 300; q_ffs := 15 |} in
  match tt_robust 5 10 3 false [l] [2; 5] [8; 9] with Ok cols => map (map (fun x => match x with VNum q => Qred q | _ => 0 end)) cols | Err _ => [] end = [[30]; [125 # 3]] /\
  tt_robust 5 10 3 false [l] [2] [5 # 2] = Ok [[VNan]] /\ tt_robust 5 10 3 false [l] [4] [3] = Err EThrow /\ tt_robust 5 10 3 false [l] [4] [11] = Err EThrow.
Proof. repeat split; vm_compute; reflexivity. Qed.

(** C246: the reported speed of a link is its length over the travel time (miles of 1600 m per
    hour), and on a link of cells, for cars, less than twice the free-flow speed. *)
Theorem C246_speed : forall ut cur ls starts cols, 0 < ut -> (forall l, In l ls -> 0 < q_len l) -> link_speed ut cur ls starts = Ok cols ->
  Forall2 (fun s col => s < inject_Z cur /\ Forall2 (fun l x => exists t, q_tt l (s + 1) = Ok t /\
    ((~ t == 0 -> exists v, x = VNum v /\ v * 1600 * (t * ut) == q_len l * 3600) /\ (t == 0 -> x = VInf))) ls col) starts cols.
Proof.
  intros ut cur ls starts cols U P H. apply mapM_nth in H. eapply Verif.Proof_Mmp.forall2_imp; [|exact H]. cbv beta. intros s col _ E.
  apply bind_ok in E as ([] & G & E). apply guard_ok in G. split; [destruct (Qleb_spec (inject_Z cur) s) as [X|X]; [discriminate|lra]|].
  clear H. revert col E. induction ls as [|l ls IH]; intros col E; cbn [mapM] in E; [apply Ok_inj in E as <-; constructor|].
  apply bind_ok in E as (x & Ex & E). apply bind_ok in E as (r & Er & E). apply Ok_inj in E as <-. apply bind_ok in Ex as (t & Et & Ex). apply Ok_inj in Ex as <-.
  constructor; [|apply IH; [intros; apply P; right; assumption|exact Er]]. exists t. split; [exact Et|]. pose proof (P l (or_introl eq_refl)) as Pl. unfold speed_of. split.
  - intros N. destruct (Qeq_bool (t * ut) 0) eqn:Z0; [apply Qeq_bool_iff in Z0; apply Qmult_integral in Z0 as [Z0|Z0]; [contradiction|lra]|].
    eexists. split; [reflexivity|]. assert (~ ut == 0) by lra. field. split; assumption.
  - intros Z0. assert (X : t * ut == 0) by (rewrite Z0; ring). apply Qeq_bool_iff in X. rewrite X. destruct (Qltb_spec 0 (q_len l)) as [_|X']; [reflexivity|contradiction].
Qed.
Print Assumptions C246_speed.
Theorem C246_speed_partial : forall l nin nout cache T ut s v fdm cs, ml_body l = MCtm fdm cs -> 0 < mp_ffs_c (ml_par l) -> 0 < ut -> mp_ut (ml_par l) = ut -> 0 < mp_len (ml_par l) ->
  link_speed ut T [class_qlink false l nin nout cache T] [s] = Ok [[v]] ->
  exists q, v = VNum q /\ 0 < q /\ q < 2 * (mp_ffs_c (ml_par l) * 3600 / 1600).
Proof.
  intros l nin nout cache T ut s v fdm cs B F U Eu L H. apply C246_speed in H; [|exact U|intros l' [<-|[]]; exact L].
  inversion H as [|? ? ? ? [_ Hc] _]; subst. inversion Hc as [|? ? ? ? (t & Et & Hn & _) _]; subst. cbn [class_qlink q_tt q_len] in *.
  unfold class_tt, mfftt_car in Et. rewrite B in Et. cbn [bind] in Et. apply bind_ok in Et as ([t' lv] & Et & X). apply Ok_inj in X. cbn [fst] in X. subst t'.
  apply C38_freeflow_floor in Et. rewrite trunc_Z in Et.
  set (ffs := mp_ffs_c (ml_par l)) in *. set (len := mp_len (ml_par l)) in *. set (ut := mp_ut (ml_par l)) in *.
  assert (Pp : 0 < ffs * ut) by nra. unfold mctm_ncells in Et. fold ffs len ut in Et.
  assert (Fl : len < (inject_Z (Qfloor (len / (ffs * ut))) + 1) * (ffs * ut)).
  { pose proof (Qlt_floor (len / (ffs * ut))) as Q0. rewrite inject_Z_plus in Q0. change (inject_Z 1) with 1 in Q0. assert (E : len / (ffs * ut) * (ffs * ut) == len) by (field; split; lra).
    rewrite <- E at 1. apply Qmult_lt_r; [exact Pp|exact Q0]. }
  assert (F0 : (0 <= Qfloor (len / (ffs * ut)))%Z). { apply (Qfloor_resp_le 0). apply Qle_shift_div_l; [exact Pp|lra]. }
  set (m := Qfloor (len / (ffs * ut))) in *.
  assert (T1 : 1 <= t /\ inject_Z m <= t).
  { destruct (Z.eqb_spec m 0) as [Z0|Z0]; cbn [Z.eqb] in Et.
    - change (inject_Z 1) with 1 in Et. rewrite Z0. change (inject_Z 0) with 0. lra.
    - assert (inject_Z 1 <= inject_Z m) by (rewrite <- Zle_Qle; lia). change (inject_Z 1) with 1 in *. lra. }
  destruct T1 as [T1 T2]. destruct (Hn ltac:(lra)) as (q & -> & E). exists q. split; [reflexivity|].
  assert (Pt : 0 < t * ut) by nra. assert (Lt : len < 2 * ffs * (t * ut)).
  { eapply Qlt_le_trans; [exact Fl|]. assert (E2 : 2 * ffs * (t * ut) == 2 * t * (ffs * ut)) by ring. rewrite E2. apply Qmult_le_compat_r; [lra|apply Qlt_le_weak; exact Pp]. }
  assert (Eq : q == len * 3600 / 1600 / (t * ut)) by (apply (Qmult_inj_r _ _ (1600 * (t * ut))); [nra|rewrite Qmult_assoc, E; field; split; lra]).
  assert (A : len * 3600 / 1600 == len * (9 # 4)) by field. assert (A' : ffs * 3600 / 1600 == ffs * (9 # 4)) by field. split.
  - rewrite Eq. apply Qlt_shift_div_l; [exact Pt|]. rewrite A. lra.
  - rewrite Eq. apply Qlt_shift_div_r; [exact Pt|]. rewrite A, A'. set (y := t * ut) in *. nra.
Qed.
Print Assumptions C246_speed_partial.
(** The same for trucks, up to a factor of four: both the number of cells and the time of trucks are
    cut down to whole intervals. *)
Theorem C246_truck_speed_partial : forall l nin nout cache T ut s v fdm cs, ml_body l = MCtm fdm cs -> 0 < mp_ffs_t (ml_par l) -> mp_ffs_t (ml_par l) <= mp_ffs_c (ml_par l) ->
  0 < ut -> mp_ut (ml_par l) = ut -> 0 < mp_len (ml_par l) ->
  link_speed ut T [class_qlink true l nin nout cache T] [s] = Ok [[v]] ->
  exists q, v = VNum q /\ 0 < q /\ q < 4 * (mp_ffs_t (ml_par l) * 3600 / 1600).
Proof.
  intros l nin nout cache T ut s v fdm cs B Ft Fc U Eu L H. apply C246_speed in H; [|exact U|intros l' [<-|[]]; exact L].
  inversion H as [|? ? ? ? [_ Hc] _]; subst. inversion Hc as [|? ? ? ? (t & Et & Hn & _) _]; subst. cbn [class_qlink q_tt q_len] in *.
  unfold class_tt, mfftt_truck in Et. rewrite B in Et. cbn [bind] in Et. apply bind_ok in Et as ([t' lv] & Et & X). apply Ok_inj in X. cbn [fst] in X. subst t'.
  apply C38_freeflow_floor in Et. rewrite trunc_Z in Et.
  set (ffs := mp_ffs_c (ml_par l)) in *. set (fft := mp_ffs_t (ml_par l)) in *. set (len := mp_len (ml_par l)) in *. set (ut := mp_ut (ml_par l)) in *.
  assert (Pf : 0 < ffs) by lra. assert (Pp : 0 < ffs * ut) by nra. assert (Pq : 0 < fft * ut) by nra.
  set (n := mctm_ncells (ml_par l)) in *.
  assert (Fl : 1 <= inject_Z n /\ len < 2 * inject_Z n * (ffs * ut)).
  { subst n. unfold mctm_ncells. fold ffs len ut.
    assert (Fl : len < (inject_Z (Qfloor (len / (ffs * ut))) + 1) * (ffs * ut)).
    { pose proof (Qlt_floor (len / (ffs * ut))) as Q0. rewrite inject_Z_plus in Q0. change (inject_Z 1) with 1 in Q0. assert (E : len / (ffs * ut) * (ffs * ut) == len) by (field; split; lra).
      rewrite <- E at 1. apply Qmult_lt_r; [exact Pp|exact Q0]. }
    assert (F0 : (0 <= Qfloor (len / (ffs * ut)))%Z). { apply (Qfloor_resp_le 0). apply Qle_shift_div_l; [exact Pp|lra]. }
    set (m := Qfloor (len / (ffs * ut))) in *. cbv zeta. destruct (Z.eqb_spec m 0) as [Z0|Z0].
    - rewrite Z0 in Fl. change (inject_Z 0) with 0 in Fl. change (inject_Z 1) with 1. lra.
    - assert (M1 : inject_Z 1 <= inject_Z m) by (rewrite <- Zle_Qle; lia). change (inject_Z 1) with 1 in M1. split; [exact M1|].
      eapply Qlt_le_trans; [exact Fl|]. apply Qmult_le_compat_r; [lra|apply Qlt_le_weak; exact Pp]. }
  destruct Fl as [N1 Fl]. set (x := inject_Z n * ffs / fft) in *.
  assert (X1 : 1 <= x). { apply Qle_shift_div_l; [exact Ft|]. nra. }
  assert (Ex : x * fft == inject_Z n * ffs) by (unfold x; field; lra).
  assert (T1 : 1 <= inject_Z (trunc x) /\ x < inject_Z (trunc x) + 1).
  { split; [change 1 with (inject_Z 1); rewrite <- Zle_Qle; apply trunc_ge1; exact X1|apply trunc_hi; lra]. }
  destruct T1 as [T1 T2].
  assert (Tt : 1 <= t /\ x < 2 * t) by (split; lra). destruct Tt as [T3 T4].
  destruct (Hn ltac:(lra)) as (q & -> & E). exists q. split; [reflexivity|].
  assert (Pt : 0 < t * ut) by nra. assert (Lt : len < 4 * fft * (t * ut)).
  { eapply Qlt_trans; [exact Fl|]. assert (E1 : 2 * inject_Z n * (ffs * ut) == 2 * x * (fft * ut)).
    { assert (E0 : 2 * x * (fft * ut) == 2 * (x * fft) * ut) by ring. rewrite E0, Ex. ring. }
    assert (E2 : 4 * fft * (t * ut) == 2 * (2 * t) * (fft * ut)) by ring. rewrite E1, E2. apply Qmult_lt_r; [exact Pq|lra]. }
  assert (Eq : q == len * 3600 / 1600 / (t * ut)) by (apply (Qmult_inj_r _ _ (1600 * (t * ut))); [nra|rewrite Qmult_assoc, E; field; split; lra]).
  assert (A : len * 3600 / 1600 == len * (9 # 4)) by field. assert (A' : fft * 3600 / 1600 == fft * (9 # 4)) by field. split.
  - rewrite Eq. apply Qlt_shift_div_l; [exact Pt|]. rewrite A. lra.
  - rewrite Eq. apply Qlt_shift_div_r; [exact Pt|]. rewrite A, A'. set (y := t * ut) in *. nra.
Qed.
Print Assumptions C246_truck_speed_partial.
(** refuted: never above the free-flow speed.  An empty link of cells whose length is not a
    multiple of the length of a cell is passed faster; trucks are faster even on one of exactly one
    cell. *)
Definition slow_par (len : Q) : mparam := ym_par MKCtm (1 # 2) len.
Theorem C246_freeflow_speed_refuted :
  ~ (forall k p l T s v, make_mctm p = Ok l -> link_speed (mp_ut p) T [class_qlink k l (Some fresh_curve) (Some fresh_curve) (-1) T] [s] = Ok [[VNum v]] ->
     v <= (if k then mp_ffs_t (ml_par l) else mp_ffs_c (ml_par l)) * 3600 / 1600).
Proof.
  intros H. specialize (H false (slow_par 145) (ym_get (make_mctm (slow_par 145))) 10%Z 2). cbn [link_speed] in H.
  specialize (H (145 / (inject_Z 1 * 5) * 3600 / 1600) ltac:(vm_compute; reflexivity) ltac:(vm_compute; reflexivity)). vm_compute in H. apply H. reflexivity.
Qed.
Print Assumptions C246_freeflow_speed_refuted.
Example C246_case : let get k len := match link_speed 5 10 [class_qlink k (ym_get (make_mctm (slow_par len))) (Some fresh_curve) (Some fresh_curve) (-1) 10] [2] with Ok [[VNum v]] => Qred v | _ => 0 end in
  (get false 145, Qred (15 * 3600 / 1600)) = (261 # 4, 135 # 4) /\ (get true 75, Qred (10 * 3600 / 1600)) = (135 # 4, 45 # 2) /\ get false 150 = 135 # 4 /\ get true 150 = 45 # 2.
Proof. repeat split; vm_compute; reflexivity. Qed.
