(** Vocabulary for route generation. *)
From Verif Require Import Base Base_lemmas Model_Num Model_Graph Spec_Graph Model_SP Spec_SP Model_Pathset.
Local Open Scope Q_scope.

(** a well-formed input: the graph comes from insertions, origins and destinations are nodes, every
    link of the graph is known to the link factory, times and tolls are not negative *)
Record pnet_ok (P : pnet) : Prop := {
  po_graph : exists ops, pn_g P = gbuild ops;
  po_os : forall o, In o (pn_os P) -> In o (g_nids (pn_g P));
  po_ds : forall d, In d (pn_ds P) -> In d (g_nids (pn_g P));
  po_nos : NoDup (pn_os P);
  po_nds : NoDup (pn_ds P);
  po_m1 : ~ In (-1)%Z (g_lids (pn_g P));
  po_ids : forall l e, get_endpoints (pn_g P) l = Ok e -> In l (pn_ids P);
  po_tt : forall l, 0 <= pn_tt P l;
  po_toll : forall l, 0 <= pn_toll P l }.

(** the node can be reached *)
Definition connected (P : pnet) (o d : Z) : Prop := exists ls, route (pn_g P) o ls d.
(** generalised cost of a link: value of time times travel time plus toll *)
Definition link_cost (P : pnet) (vot : Q) (l : Z) : option Q := Some (vot * pn_tt P l + pn_toll P l).
Definition route_length (P : pnet) (ls : list Z) : Q := sumQ (map (pn_len P) ls).

(** a stored path is a route from [o] to [d] that visits no node twice and is longer than [minlen] *)
Record good_path (P : pnet) (minlen : Q) (o d : Z) (p : path) : Prop := {
  gp_route : route (pn_g P) o (snd p) d;
  gp_nodes : visits (pn_g P) o (snd p) (fst p);
  gp_simple : NoDup (fst p);
  gp_long : minlen < route_length P (snd p) }.

(** [ls] costs no more than any other route from [o] to [d] *)
Definition cheapest (P : pnet) (cost : Z -> option Q) (o d : Z) (ls : list Z) : Prop :=
  route (pn_g P) o ls d /\
  exists c, total_cost cost ls = Some c /\
  forall ls' c', route (pn_g P) o ls' d -> total_cost cost ls' = Some c' -> c <= c'.
