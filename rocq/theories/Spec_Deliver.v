(** Observable effects of a loading with delivery vehicles. *)
From Verif Require Import Base Spec_Path Model_CC Model_Path Model_Link Spec_Link Model_World Spec_Node Model_Sim Spec_Sim Model_Deliver.
Local Open Scope Z_scope.

(** A consistent network: every origin has its own node, and the tours start at the origin
    that releases them and visit origins of the network only (the reader looks every ID
    up). *)
Record dnet_ok (DN : dnet) : Prop := {
  dk_net : net_ok (dn_net DN);
  dk_gate : forall o, In o (map o_node (n_origins (dn_net DN))) -> In (o, NOrigin) (n_nodes (dn_net DN));
  dk_tours : forall o sq dem, In o (map o_node (n_origins (dn_net DN))) -> In (sq, dem) (dn_tours DN o) -> sq <> [] ->
    fst (hd (0, 0) sq) = o /\ Forall (fun od => In (fst od) (map o_node (n_origins (dn_net DN)))) sq }.

(** The state after [k] intervals of a loading from an empty network, whatever the random
    numbers and hash orders. *)
Definition dreached (DN : dnet) (D : Z -> ddraws) (k : nat) (s : dstate) : Prop :=
  exists w0, fresh_world (dn_net DN) w0 /\ (forall t, draws_valid (dd_base (D t))) /\ drun DN D k (dinit DN w0) = Ok s.

(** Where and when vehicle [v] has stopped at a destination, in order. *)
Definition stops (d : dworld) (v : Z) : list (Z * Z) := map snd (filter (fun e => fst e =? v) (dw_log d)).
Definition places (d : dworld) (v : Z) : list Z := map snd (stops d v).
(** The destinations of a tour. *)
Definition route_of (sq : list (Z * Z)) : list Z := map snd sq.
(** Delivery vehicles among the vehicles released so far. *)
Definition deliveries (d : dworld) : list Z :=
  filter (fun v => match dw_tour d v with Some _ => true | None => false end) (ids (f_num (w_fac (dw_w d)))).
(** Vehicle [v] has not yet entered the road from the origin: it is in the queue of an
    origin or at the entrance of a link that leaves an origin. *)
Definition at_gate (N : net) (w : world) (v : Z) : Prop :=
  (exists o, In o (n_origins N) /\ In v (w_oq w (o_node o))) \/
  (exists n l, In (n, NOrigin) (n_nodes N) /\ In l (n_out N n) /\ In v (l_in (w_link w l))).
(** Every link that leaves an origin is a point queue. *)
Definition gates_pq (N : net) (w : world) : Prop :=
  forall n l, In (n, NOrigin) (n_nodes N) -> In l (n_out N n) -> exists m q vol, l_body (w_link w l) = BPq m q vol.

(** What a vehicle was released for, when: an origin and a destination, or a tour. *)
Inductive purpose := Car (start o d : Z) | Tour (start : Z) (sq : list (Z * Z)).
Definition purpose_of (d : dworld) (v : Z) : purpose :=
  let x := w_veh (dw_w d) v in
  match dw_tour d v with None => Car (v_start x) (v_org x) (v_dst x) | Some tr => Tour (v_start x) (tr_seq tr) end.
(** [n] is [x] rounded up or down; a whole number is kept. *)
Definition rounded (x : Q) (n : Z) : Prop :=
  (0 <= x)%Q -> (x - 1 < inject_Z n < x + 1)%Q /\ forall z, (x == inject_Z z)%Q -> n = z.
(** [n i] copies of [f x] for every [x] at place [i] of [l] *)
Definition copies {A} (f : A -> purpose) (n : nat -> Z) (l : list A) : list purpose :=
  concat (map (fun ix => repeat (f (snd ix)) (Z.to_nat (n (fst ix)))) (combine (seq 0 (length l)) l)).
(** The vehicles of one release: [nd o i] for the i-th demand row and [nt o i] for the i-th
    tour of every origin. *)
Definition release_list (DN : dnet) (start : Z) (nd nt : origin -> nat -> Z) : list purpose :=
  concat (map (fun o => copies (fun row => Car start (o_node o) (fst row)) (nd o) (o_demand o) ++
                        copies (fun row => Tour start (fst row)) (nt o) (dn_tours DN (o_node o)))
    (n_origins (dn_net DN))).
