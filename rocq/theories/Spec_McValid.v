(** Valid fixed-route input of a two-class run, in terms of the network, the demand of
    both classes and the path table. *)
From Verif Require Import Base Spec_Path Model_CC Model_Path Model_Link Spec_Link Model_World Spec_Node Model_Sim Spec_Sim Spec_Route Spec_Valid
  Model_McLink Spec_McLink Model_McNode Spec_McNode Model_McSim Spec_McSim.

(** The links lead head to tail from node [u] to node [v]. *)
Fixpoint mleads (M : mnet) (u : Z) (links : list Z) (v : Z) : Prop :=
  match links with
  | [] => u = v
  | l :: r => In l (mn_out M u) /\ mleads M (mn_to M l) r v
  end.
(** Shares of the routes of one OD pair: a distribution, or read from per-interval
    buffers of the configured length. *)
Definition mshares_ok (M : mnet) (pt : ptable) : Prop :=
  ((mn_rfreq M = -1 \/ mn_rlen M = -1) /\ forall k es, In (k, es) pt -> distribution es) \/
  (0 < mn_rfreq M /\ 0 < mn_rlen M /\ forall k es, In (k, es) pt -> forall e, In e es ->
     (mn_rlen M <= Z.of_nat (length (e_buf e)))%Z /\ forall x, In x (e_buf e) -> (0 <= x)%Q).

(** A consistent network with fixed routing for everybody, either with the same shares
    for both classes or with shares per class (then the buffers, if used, have a column
    for each class), links that are point queues or cell-transmission links, point
    queues next to origins and destinations, and a connected route for all demand of
    both classes. *)
Record mvalid_input (M : mnet) (w : mworld) : Prop := {
  mv_net : mnet_ok M; mv_fresh : mfresh_world M w;
  mv_freq : 0 < mn_freq M; mv_pcu : (0 < mn_pcu M)%Q;
  mv_routing : mn_routing M = MRFixed \/ mn_routing M = MRBiclass 0 0;
  mv_columns : mn_routing M <> MRFixed -> mn_rlen M <> 1;
  mv_ratio : forall o k d, In o (mn_origins M) -> og_ratio o k d = None;
  mv_ends : forall l, In l (mn_links M) -> In l (mn_in M (mn_to M l));
  mv_orig : forall o, In o (mn_origins M) -> In (og_node o, MNOrigin) (mn_nodes M);
  mv_dest : forall d, In d (mn_dests M) -> In (d, MNDest) (mn_nodes M) /\ mn_out M d = [];
  mv_link : forall l, In l (mn_links M) -> exists p, fresh_mlink p (mw_link w l) /\ mp_kind p <> MKLq /\
    (0 < mp_pcu p)%Q /\ (0 < mp_ut p)%Q /\ (0 <= mp_flow_c p)%Q;
  mv_from_origin : forall o b, In o (mn_origins M) -> In b (mn_out M (og_node o)) -> is_point_queue (mw_link w b);
  mv_to_dest : forall d a, In d (mn_dests M) -> In a (mn_in M d) -> is_point_queue (mw_link w a);
  mv_routes : forall o d p, is_route (mw_pt w) o d p -> mleads M o (r_links p) d;
  mv_shares : mshares_ok M (mw_pt w);
  mv_filled : forall k es, In (k, es) (mw_pt w) -> es <> [];
  mv_demand : forall o k d, In o (mn_origins M) -> In d (map fst (og_demand o k)) ->
    In d (mn_dests M) /\ exists es, In ((og_node o, d), es) (mw_pt w) }.
