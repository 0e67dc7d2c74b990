(** Property theorems: graph storage (C17), neighbours (C18), reversal (C48). *)
From Verif Require Import Base Base_lemmas Model_Graph Spec_Graph Proof_Graph Proof_Graph2.

(** C17: after any sequence of calls, the graph answers exactly like the two
    lists of the specification; a call is accepted exactly when it should be. *)
Theorem C17_graph_stores_what_was_added : forall ops,
  let g := gbuild ops in let a := a_build ops in
  g_nids g = a_nodes a /\ g_lids g = map fst (a_links a) /\
  (forall n d, In n (a_nodes a) -> connections g n d = Ok (a_connections a n d)) /\
  (forall n d, ~ In n (a_nodes a) -> connections g n d = Err EThrow) /\
  (forall n d l, In l (a_connections a n d) <-> exists e, In (l, e) (a_links a) /\ listed_at d e = n) /\
  (forall n d, NoDup (a_connections a n d)) /\
  (forall l f t, get_endpoints g l = Ok (f, t) <-> In (l, (f, t)) (a_links a)).
Proof.
  intros ops g a. pose proof (gbuild_rep ops) as R. fold g in R. fold a in R.
  split; [apply (rep_nids _ _ R)|]. split; [apply (rep_lids _ _ R)|].
  split; [intros n d Hn; rewrite (rep_connections _ _ _ _ R), (proj2 (memb_In _ _) Hn); reflexivity|].
  split; [intros n d Hn; rewrite (rep_connections _ _ _ _ R), (proj2 (memb_false _ _) Hn); reflexivity|].
  split; [intros; apply a_connections_In|]. split; [intros; eapply a_connections_NoDup; eauto|].
  intros. now apply rep_endpoints_iff.
Qed.
Print Assumptions C17_graph_stores_what_was_added.

Theorem C17_accepts_exactly_valid_calls : forall ops o,
  match gcall (gbuild ops) o with
  | Ok _ => a_accepts (a_build ops) o = true
  | Err e => e = EThrow /\ a_accepts (a_build ops) o = false /\ gstep (gbuild ops) o = gbuild ops
  end.
Proof.
  intros ops o. pose proof (gcall_rep _ _ o (gbuild_rep ops)) as H.
  unfold gstep. destruct (gcall (gbuild ops) o); [apply H|]. destruct H as [H1 H2]. auto.
Qed.
Print Assumptions C17_accepts_exactly_valid_calls.

(** the undirected variant lists the links of a node in both directions *)
Theorem C17_undirected_connections : forall ops n, In n (a_nodes (a_build ops)) ->
  connections_und (gbuild ops) n =
  Ok (a_connections (a_build ops) n Incoming ++ a_connections (a_build ops) n Outgoing).
Proof. intros ops n. apply rep_connections_und. apply gbuild_rep. Qed.
Print Assumptions C17_undirected_connections.

Definition C17_ops := [GNode 1; GNode 2; GNode 3; GLink 1 2 10; GLink 1 3 11; GLink 2 2 12; GLink 1 2 10; GLink 2 3 13; GLink 1 9 14].
Example C17_case : connections (gbuild C17_ops) 1 Outgoing = Ok [11; 10] /\ connections (gbuild C17_ops) 3 Incoming = Ok [13; 11]
  /\ g_lids (gbuild C17_ops) = [10; 11; 13].
Proof. repeat split. Qed.

(** C18: the English claim is false for the code *)
Theorem C18_neighbors_complete_refuted : exists ops n d m l,
  In l (a_connections (a_build ops) n d) /\ (exists e, In (l, e) (a_links (a_build ops)) /\ other_end d e = m) /\
  exists ns, neighbors (gbuild ops) n d = Ok ns /\ ~ In m ns.
Proof.
  exists C17_ops, 1, Outgoing, 2, 10. split; [vm_compute; auto|]. split; [exists (1, 2); vm_compute; auto|].
  exists [3]. split; [reflexivity|]. simpl. intros [H|[]]. discriminate.
Qed.
Print Assumptions C18_neighbors_complete_refuted.

(** what the code does instead: at most the far end of the newest link *)
Theorem C18_neighbors_only_newest : forall ops n d, In n (a_nodes (a_build ops)) ->
  exists ns, neighbors (gbuild ops) n d = Ok ns /\
  match a_connections (a_build ops) n d with
  | [] => ns = []
  | l :: _ => exists f t, In (l, (f, t)) (a_links (a_build ops)) /\ ns = [other_end d (f, t)]
  end.
Proof.
  intros ops n d Hn. pose proof (gbuild_rep ops) as R. eexists. split; [eapply neighbors_first_only; eauto|].
  destruct (a_connections (a_build ops) n d) as [|l ls] eqn:E; [reflexivity|].
  assert (Hl : In l (a_connections (a_build ops) n d)) by (rewrite E; left; reflexivity).
  apply a_connections_In in Hl. destruct Hl as ([f t] & Hin & _). exists f, t. split; [exact Hin|].
  apply (rep_links _ _ R) in Hin. destruct Hin as (r & Hr & <- & <-). rewrite Hr. destruct d; reflexivity.
Qed.
Print Assumptions C18_neighbors_only_newest.

(** C48 *)
Theorem C48_reverse_graph : forall ops nids lids,
  let g := gbuild ops in
  Permutation nids (g_nids g) -> Permutation lids (g_lids g) ->
  exists g', reverse_graph g nids lids = Ok g' /\
    g_nids g' = nids /\ g_lids g' = lids /\
    (forall l f t, get_endpoints g l = Ok (f, t) <-> get_endpoints g' l = Ok (t, f)) /\
    (forall u ls v, route g u ls v <-> route g' v (rev ls) u) /\
    (forall nids2 lids2, Permutation nids2 nids -> Permutation lids2 lids ->
       exists g2, reverse_graph g' nids2 lids2 = Ok g2 /\
         forall l f t, get_endpoints g2 l = Ok (f, t) <-> get_endpoints g l = Ok (f, t)).
Proof.
  intros ops nids lids g Pn Pl. pose proof (gbuild_rep ops) as R. fold g in R.
  destruct (reverse_rep _ _ _ _ R Pn Pl) as (g' & a' & E & R' & En & Hl & El).
  assert (Hends : forall l f t, get_endpoints g l = Ok (f, t) <-> get_endpoints g' l = Ok (t, f)).
  { intros l f t. rewrite (rep_endpoints_iff _ _ _ _ _ R), (rep_endpoints_iff _ _ _ _ _ R'). symmetry. apply Hl. }
  exists g'. split; [exact E|]. split; [rewrite (rep_nids _ _ R'); exact En|]. split; [rewrite (rep_lids _ _ R'); exact El|].
  split; [exact Hends|]. split.
  - intros u ls v. split; intros H.
    + eapply route_rev; [|exact H]. intros l f t. apply Hends.
    + rewrite <- (rev_involutive ls). eapply route_rev; [|exact H]. intros l f t. apply Hends.
  - intros nids2 lids2 Pn2 Pl2.
    destruct (reverse_rep g' a' nids2 lids2 R') as (g2 & a2 & E2 & R2 & _ & Hl2 & _).
    { rewrite (rep_nids _ _ R'), En. exact Pn2. }
    { rewrite (rep_lids _ _ R'), El. exact Pl2. }
    exists g2. split; [exact E2|]. intros l f t.
    rewrite (rep_endpoints_iff _ _ _ _ _ R2), Hl2, Hl, (rep_endpoints_iff _ _ _ _ _ R). reflexivity.
Qed.
Print Assumptions C48_reverse_graph.
Example C48_case : exists g', reverse_graph (gbuild C17_ops) [3;1;2] [13;10;11] = Ok g' /\ connections g' 3 Outgoing = Ok [11; 13].
Proof. eexists. split; reflexivity. Qed.
