(** Valid fixed-route input, in terms of the network, the demand and the path table. *)
From Verif Require Import Base Spec_Path Model_CC Model_Path Model_Link Spec_Link Model_World Spec_Node Model_Sim Spec_Sim Spec_Route.

(** The links lead head to tail from node [u] to node [v]. *)
Fixpoint leads (N : net) (u : Z) (links : list Z) (v : Z) : Prop :=
  match links with
  | [] => u = v
  | l :: r => In l (n_out N u) /\ leads N (n_to N l) r v
  end.

(** Shares of the routes of one OD pair: a distribution, or read from per-interval
    buffers of the configured length (buffer_length, route_frq). *)
Definition distribution (es : list pentry) : Prop :=
  (forall e, In e es -> (0 <= e_p e)%Q) /\ (sumQ (map e_p es) == 1)%Q.
Definition buffers_ok (N : net) (es : list pentry) : Prop :=
  forall e, In e es -> (n_rlen N <= Z.of_nat (length (e_buf e)))%Z /\ forall x, In x (e_buf e) -> (0 <= x)%Q.
Definition shares_ok (N : net) (pt : ptable) : Prop :=
  ((n_rfreq N = -1 \/ n_rlen N = -1) /\ forall k es, In (k, es) pt -> distribution es) \/
  (0 < n_rfreq N /\ 0 < n_rlen N /\ forall k es, In (k, es) pt -> buffers_ok N es).

(** A consistent network with only fixed routing, junctions of the default type, links
    that are point queues, cell-transmission links or stable link queues, and routes for
    all demand. *)
Record valid_network (N : net) (w : world) : Prop := {
  va_net : net_ok N; va_fresh : fresh_world N w;
  va_freq : 0 < n_freq N;
  va_routing : n_routing N = RFixed;
  va_ratio : forall o d, In o (n_origins N) -> o_ratio o d = None;
  va_kinds : forall n k, In (n, k) (n_nodes N) -> k = NFwj \/ k = NOrigin \/ k = NDest;
  va_ends : forall l, In l (n_links N) -> In l (n_in N (n_to N l));
  va_orig : forall o, In o (n_origins N) -> In (o_node o, NOrigin) (n_nodes N) /\ n_in N (o_node o) = [];
  va_dest : forall d, In d (n_dests N) -> In (d, NDest) (n_nodes N) /\ n_out N d = [];
  va_link : forall l, In l (n_links N) -> exists p, params_ok p /\ p_fs p = n_fs N /\ fresh_link p (w_link w l) /\
    (p_kind p = KLq -> lq_stable (l_par (w_link w l)));
  va_routes : forall o d p, is_route (w_pt w) o d p -> leads N o (r_links p) d;
  va_shares : shares_ok N (w_pt w);
  va_filled : forall k es, In (k, es) (w_pt w) -> es <> [];
  va_demand : forall o d, In o (n_origins N) -> In d (map fst (o_demand o)) ->
    In d (n_dests N) /\ exists es, In ((o_node o, d), es) (w_pt w) }.

(** The links that leave an origin are point queues. *)
Record valid_input (N : net) (w : world) : Prop := {
  va_base :> valid_network N w;
  va_connector : forall o b, In o (n_origins N) -> In b (n_out N (o_node o)) -> p_kind (l_par (w_link w b)) = KPq }.
