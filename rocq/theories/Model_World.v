(** Dynamic state of one single-class simulation (class MNM_Dta, src/dta.h) and the
    static network it runs on.  Pointers to links, nodes, origins, destinations
    and vehicles are their integer IDs; an origin / destination object is
    identified with its node (MNM_Origin::m_origin_node, src/od.h:57). *)
From Verif Require Import Base Model_Num Model_CC Model_Path Model_Link.

(** src/path.h [MNM_Path]: identity and link sequence (the node sequence, share and
    buffer are kept in [pentry]). *)
Record rpath := { r_id : Z; r_links : list Z }.

(** One path of the path table: m_p and buffer[0..m_buffer_length) *)
Record pentry := { e_path : rpath; e_p : Q; e_buf : list Q }.

(** src/path.h [Path_Table]: origin node -> destination node -> m_path_vec *)
Definition ptable := list ((Z * Z) * list pentry).

(** src/vehicle.h [MNM_Veh]; null pointers are [None].  Fields that only the
    multiclass, multimodal or visualisation code uses are left out. *)
Record veh := {
  v_org : Z; v_dst : Z; v_adapt : bool; v_start : Z; v_fin : Z; v_assign : Z;
  v_cur : option Z; v_next : option Z; v_path : option rpath; v_miles : Q }.

Definition set_cur (x : option Z) (v : veh) : veh :=
  {| v_org := v_org v; v_dst := v_dst v; v_adapt := v_adapt v; v_start := v_start v; v_fin := v_fin v;
     v_assign := v_assign v; v_cur := x; v_next := v_next v; v_path := v_path v; v_miles := v_miles v |}.
Definition set_next (x : option Z) (v : veh) : veh :=
  {| v_org := v_org v; v_dst := v_dst v; v_adapt := v_adapt v; v_start := v_start v; v_fin := v_fin v;
     v_assign := v_assign v; v_cur := v_cur v; v_next := x; v_path := v_path v; v_miles := v_miles v |}.
Definition set_path (x : option rpath) (v : veh) : veh :=
  {| v_org := v_org v; v_dst := v_dst v; v_adapt := v_adapt v; v_start := v_start v; v_fin := v_fin v;
     v_assign := v_assign v; v_cur := v_cur v; v_next := v_next v; v_path := x; v_miles := v_miles v |}.
Definition set_vfin (x : Z) (v : veh) : veh :=
  {| v_org := v_org v; v_dst := v_dst v; v_adapt := v_adapt v; v_start := v_start v; v_fin := x;
     v_assign := v_assign v; v_cur := v_cur v; v_next := v_next v; v_path := v_path v; v_miles := v_miles v |}.
Definition add_miles (x : Q) (v : veh) : veh :=
  {| v_org := v_org v; v_dst := v_dst v; v_adapt := v_adapt v; v_start := v_start v; v_fin := v_fin v;
     v_assign := v_assign v; v_cur := v_cur v; v_next := v_next v; v_path := v_path v; v_miles := v_miles v + x |}.

(** Cumulative curves of the links (src/dlink.h:96-101); [None]: not installed. *)
Record curves := {
  cc_Nin : Z -> option curve; cc_Nout : Z -> option curve;
  cc_Tin : Z -> option cctree; cc_Tout : Z -> option cctree }.

(** src/factory.h [MNM_Veh_Factory]; [f_live] are the keys of m_veh_map.  [f_done]
    is not in the code: it lists every vehicle handed to remove_finished_veh, with
    its start and finish times, so that statements can speak about arrivals. *)
Record factory := {
  f_live : list Z; f_num : Z; f_enroute : Z; f_finished : Z; f_tt : Q;
  f_done : list (Z * (Z * Z)) }.

(** m_tracker of MNM_Routing_Fixed (src/routing.h:128): links still to travel *)
Record world := {
  w_veh : Z -> veh; w_link : Z -> link; w_oq : Z -> list Z; w_dq : Z -> list Z;
  w_cc : curves; w_fac : factory; w_trk : Z -> option (list Z); w_pt : ptable }.

Definition set_vehs (w : world) (x : Z -> veh) : world :=
  {| w_veh := x; w_link := w_link w; w_oq := w_oq w; w_dq := w_dq w; w_cc := w_cc w;
     w_fac := w_fac w; w_trk := w_trk w; w_pt := w_pt w |}.
Definition set_link (w : world) (l : Z) (x : link) : world :=
  {| w_veh := w_veh w; w_link := upd (w_link w) l x; w_oq := w_oq w; w_dq := w_dq w; w_cc := w_cc w;
     w_fac := w_fac w; w_trk := w_trk w; w_pt := w_pt w |}.
Definition set_oq (w : world) (n : Z) (x : list Z) : world :=
  {| w_veh := w_veh w; w_link := w_link w; w_oq := upd (w_oq w) n x; w_dq := w_dq w; w_cc := w_cc w;
     w_fac := w_fac w; w_trk := w_trk w; w_pt := w_pt w |}.
Definition set_dq (w : world) (n : Z) (x : list Z) : world :=
  {| w_veh := w_veh w; w_link := w_link w; w_oq := w_oq w; w_dq := upd (w_dq w) n x; w_cc := w_cc w;
     w_fac := w_fac w; w_trk := w_trk w; w_pt := w_pt w |}.
Definition set_cc (w : world) (x : curves) : world :=
  {| w_veh := w_veh w; w_link := w_link w; w_oq := w_oq w; w_dq := w_dq w; w_cc := x;
     w_fac := w_fac w; w_trk := w_trk w; w_pt := w_pt w |}.
Definition set_fac (w : world) (x : factory) : world :=
  {| w_veh := w_veh w; w_link := w_link w; w_oq := w_oq w; w_dq := w_dq w; w_cc := w_cc w;
     w_fac := x; w_trk := w_trk w; w_pt := w_pt w |}.
Definition set_trk (w : world) (v : Z) (x : option (list Z)) : world :=
  {| w_veh := w_veh w; w_link := w_link w; w_oq := w_oq w; w_dq := w_dq w; w_cc := w_cc w;
     w_fac := w_fac w; w_trk := upd (w_trk w) v x; w_pt := w_pt w |}.
Definition set_pt (w : world) (x : ptable) : world :=
  {| w_veh := w_veh w; w_link := w_link w; w_oq := w_oq w; w_dq := w_dq w; w_cc := w_cc w;
     w_fac := w_fac w; w_trk := w_trk w; w_pt := x |}.

Definition set_Nin (c : curves) (l : Z) (x : option curve) : curves :=
  {| cc_Nin := upd (cc_Nin c) l x; cc_Nout := cc_Nout c; cc_Tin := cc_Tin c; cc_Tout := cc_Tout c |}.
Definition set_Nout (c : curves) (l : Z) (x : option curve) : curves :=
  {| cc_Nin := cc_Nin c; cc_Nout := upd (cc_Nout c) l x; cc_Tin := cc_Tin c; cc_Tout := cc_Tout c |}.
Definition set_Tin (c : curves) (l : Z) (x : option cctree) : curves :=
  {| cc_Nin := cc_Nin c; cc_Nout := cc_Nout c; cc_Tin := upd (cc_Tin c) l x; cc_Tout := cc_Tout c |}.
Definition set_Tout (c : curves) (l : Z) (x : option cctree) : curves :=
  {| cc_Nin := cc_Nin c; cc_Nout := cc_Nout c; cc_Tin := cc_Tin c; cc_Tout := upd (cc_Tout c) l x |}.

(** [_veh -> set_...] for every vehicle of a list, in order *)
Definition on_vehs (f : veh -> veh) (vs : list Z) (m : Z -> veh) : Z -> veh :=
  fold_left (fun m v => upd m v (f (m v))) vs m.

(** Node classes built by MNM_Node_Factory::make_node (src/factory.cpp:86-110) *)
Inductive nkind := NFwj | NGrj | NOrigin | NDest.

(** src/od.h:35-66 [MNM_Origin]: demand per destination and assignment interval,
    optional time-dependent adaptive ratios; m_flow_scalar and m_frequency are those
    of the configuration for every origin (src/io.cpp:183-263 build_od_factory). *)
Record origin := { o_node : Z; o_demand : list (Z * (Z -> Q)); o_ratio : Z -> option (Z -> Q) }.

(** routing_type of the configuration (src/dta.cpp:574-634) *)
Inductive rtype := RFixed | RAdaptive | RHybrid (ratio : Q).

(** Static network and configuration.  [n_nodes], [n_links], [n_origins], [n_dests]
    are iteration orders of hash maps and therefore arbitrary.  [n_out]/[n_in] are
    m_out_link_array / m_in_link_array. *)
Record net := {
  n_fs : Q; n_nodes : list (Z * nkind); n_out : Z -> list Z; n_in : Z -> list Z;
  n_links : list Z; n_to : Z -> Z; n_origins : list origin; n_dests : list Z;
  n_freq : Z; n_total_assign : Z; n_start_assign : Z; n_total_int : Z;
  n_routing : rtype; n_rfreq : Z; n_rlen : Z }.

(** Everything random or unordered in one loading interval, indexed by the place
    where it is drawn; see DESIGN.md section 2.  [d_tree d n] is the next link ID
    stored for node n in the shortest path tree of destination d. *)
Record draws := {
  d_rel : Z -> Z -> Q;                        (* origin node, destination: demand rounding *)
  d_adapt : Z -> Q;                           (* vehicle: adaptive or static *)
  d_oshuf : Z -> list Z -> list Z;            (* origin node: shuffle of the queue *)
  d_route : Z -> Q;                           (* vehicle: route draw *)
  d_orig : Z -> Z -> Q;                       (* origin node, out link: volume rounding *)
  d_node : Z -> Z -> Z -> Q;                  (* node, in link, out link: flow rounding *)
  d_pick : Z -> Z -> nat -> nat;              (* node, out link: rand () of the trim loop *)
  d_fuel : nat;                               (* bound on the trim loop *)
  d_inshuf : Z -> Z -> list Z -> list Z;      (* node, out link: shuffle of the in links *)
  d_grj : Z -> Z -> Z -> Q;                   (* node, in link, out link: GRJ flow *)
  d_cell : Z -> nat -> Q;                     (* link: cell rounding *)
  d_tree : Z -> Z -> Z;                       (* destination, node: routing tree entry *)
  d_any : Z -> nat }.                         (* vehicle: random out link *)
