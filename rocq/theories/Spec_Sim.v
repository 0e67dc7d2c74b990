(** Observable state of a loading run, independently of how the steps compute. *)
From Verif Require Import Base Spec_Path Model_CC Model_Path Model_Link Spec_Link Model_World Spec_Node Model_Sim.

(** A consistent network: every object is listed once, a link runs from at most one
    node into one node, no loops, node classes agree with the OD tables. *)
Record net_ok (N : net) : Prop := {
  no_fs : (0 < n_fs N)%Q;
  no_nodes : NoDup (map fst (n_nodes N)); no_links : NoDup (n_links N);
  no_origins : NoDup (map o_node (n_origins N)); no_dests : NoDup (n_dests N);
  no_around : forall n, node_links_ok N n;
  no_in : forall n l, In l (n_in N n) -> In l (n_links N) /\ n_to N l = n;
  no_out : forall n l, In l (n_out N n) -> In l (n_links N);
  no_from : forall n n' l, In l (n_out N n) -> In l (n_out N n') -> n = n';
  no_orig_nodes : forall n, In (n, NOrigin) (n_nodes N) -> In n (map o_node (n_origins N));
  no_dest_nodes : forall n, In (n, NDest) (n_nodes N) -> In n (n_dests N) }.

(** The state after MNM_Dta::hook_up_node_and_link and pre_loading: nothing released,
    all queues empty, curves empty or not installed. *)
Record fresh_world (N : net) (w : world) : Prop := {
  fw_oq : forall n, w_oq w n = []; fw_dq : forall n, w_dq w n = [];
  fw_link : forall l, In l (n_links N) -> exists p, fresh_link p (w_link w l);
  fw_cc : forall l, (cc_Nin (w_cc w) l = None /\ cc_Nout (w_cc w) l = None) \/
                    (cc_Nin (w_cc w) l = Some fresh_curve /\ cc_Nout (w_cc w) l = Some fresh_curve);
  fw_trees : forall l, (cc_Tin (w_cc w) l = None \/ cc_Tin (w_cc w) l = Some []) /\
                       (cc_Tout (w_cc w) l = None \/ cc_Tout (w_cc w) l = Some []);
  fw_trk : forall v, w_trk w v = None;
  fw_fac : w_fac w = {| f_live := []; f_num := 0; f_enroute := 0; f_finished := 0; f_tt := 0%Q; f_done := [] |} }.

(** The state after [k] loading intervals of a run on a fresh world, whatever the
    random numbers and hash orders. *)
Definition reached (N : net) (D : Z -> draws) (k : nat) (s : lstate) : Prop :=
  exists w0, fresh_world N w0 /\ (forall t, draws_valid (D t)) /\ run N D k (init_state N w0) = Ok s.

(** Everybody on the network. *)
Definition at_origins (N : net) (w : world) : list Z := concat (map (fun o => w_oq w (o_node o)) (n_origins N)).
Definition on_links (N : net) (w : world) : list Z := concat (map (fun l => on_link (w_link w l)) (n_links N)).
Definition at_dests (N : net) (w : world) : list Z := concat (map (w_dq w) (n_dests N)).
(** Vehicles that finished their trip, with start and finish interval. *)
Definition arrived (w : world) : list Z := map fst (f_done (w_fac w)).
(** The IDs given out so far: 1, 2, ..., n. *)
Definition ids (n : Z) : list Z := map Z.of_nat (seq 1 (Z.to_nat n)).

(** Vehicles released between two states: consecutive IDs. *)
Definition new_ids (w w' : world) : list Z :=
  map (fun i => f_num (w_fac w) + 1 + Z.of_nat i)%Z (seq 0 (Z.to_nat (f_num (w_fac w') - f_num (w_fac w)))).
Definition released_for (o d : Z) (w w' : world) : list Z :=
  filter (fun v => (v_org (w_veh w' v) =? o)%Z && (v_dst (w_veh w' v) =? d)%Z) (new_ids w w').
(** Each origin has one demand row per destination. *)
Definition demands_ok (N : net) : Prop := forall o, In o (n_origins N) -> NoDup (map fst (o_demand o)).
(** The assignment interval served by loading interval [k]. *)
Definition assign_at (N : net) (k : nat) : Z := (n_start_assign N + Z.of_nat k / n_freq N)%Z.
Definition release_time (N : net) (k : nat) : Prop :=
  (Z.of_nat k mod n_freq N = 0)%Z /\ (0 <= assign_at N k < n_total_assign N)%Z.
