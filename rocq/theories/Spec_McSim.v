(** Observable state of a two-class loading run, independently of how the steps compute. *)
From Verif Require Import Base Spec_Path Model_CC Model_Path Model_Link Spec_Link Model_World Spec_Node Model_Sim Spec_Sim
  Model_McLink Spec_McLink Model_McNode Spec_McNode Model_McSim.

(** A consistent network, as [net_ok]. *)
Record mnet_ok (M : mnet) : Prop := {
  mno_fs : (0 < mn_fs M)%Q;
  mno_nodes : NoDup (map fst (mn_nodes M)); mno_links : NoDup (mn_links M);
  mno_origins : NoDup (map og_node (mn_origins M)); mno_dests : NoDup (mn_dests M);
  mno_around : forall n, around_ok (mn_in M n) (mn_out M n);
  mno_in : forall n l, In l (mn_in M n) -> In l (mn_links M) /\ mn_to M l = n;
  mno_out : forall n l, In l (mn_out M n) -> In l (mn_links M);
  mno_from : forall n n' l, In l (mn_out M n) -> In l (mn_out M n') -> n = n';
  mno_orig_nodes : forall n, In (n, MNOrigin) (mn_nodes M) -> In n (map og_node (mn_origins M));
  mno_dest_nodes : forall n, In (n, MNDest) (mn_nodes M) -> In n (mn_dests M) }.

(** What random numbers and shuffles may be. *)
Definition mdraws_valid (D : mdrawsI) : Prop :=
  draws_valid (r_base D) /\ (forall k o d, unit_draw (r_rel D k o d)) /\ (forall v, unit_draw (r_label D v)) /\
  (forall n b, unit_draw (mn_orig (r_node D) n b)) /\ (forall n b, shuffle (mn_shuf (r_node D) n b)) /\ (forall l, mdraws_ok (r_link D l)).

(** Nothing released, all queues empty, curves empty or not installed. *)
Record mfresh_world (M : mnet) (w : mworld) : Prop := {
  mf_oq : forall n, mw_oq w n = []; mf_dq : forall n, mw_dq w n = [];
  mf_link : forall l, In l (mn_links M) -> exists p, fresh_mlink p (mw_link w l);
  mf_cc : forall k l, (mk_Nin (mw_cc w) k l = None \/ mk_Nin (mw_cc w) k l = Some fresh_curve) /\
                      (mk_Nout (mw_cc w) k l = None \/ mk_Nout (mw_cc w) k l = Some fresh_curve) /\
                      (mk_Tin (mw_cc w) k l = None \/ mk_Tin (mw_cc w) k l = Some []);
  mf_trk : forall v, mw_trk w v = None;
  mf_fac : mw_fac w = {| f_live := []; f_num := 0; f_enroute := 0; f_finished := 0; f_tt := 0%Q; f_done := [] |};
  mf_cf : forall k, mw_cf w k = {| cf_num := 0; cf_enroute := 0; cf_finished := 0; cf_tt := 0%Q |} }.

(** The state after [j] loading intervals of a run on a fresh world. *)
Definition mreached (M : mnet) (D : Z -> mdrawsI) (j : nat) (s : mlstate) : Prop :=
  exists w0, mfresh_world M w0 /\ (forall t, mdraws_valid (D t)) /\ mrun M D j (minit M w0) = Ok s.

(** Where the vehicles of class [k] are. *)
Definition m_at_origins (M : mnet) (w : mworld) (k : bool) : list Z :=
  concat (map (fun o => of_class (mw_cls w) k (mw_oq w (og_node o))) (mn_origins M)).
Definition m_on_links (M : mnet) (w : mworld) (k : bool) : list Z :=
  concat (map (fun l => on_mlink (mw_cls w) k (mw_link w l)) (mn_links M)).
Definition m_at_dests (M : mnet) (w : mworld) (k : bool) : list Z :=
  concat (map (fun n => of_class (mw_cls w) k (mw_dq w n)) (mn_dests M)).
(** Finished trips of class [k]: ID, start and finish interval. *)
Definition m_trips (w : mworld) (k : bool) : list (Z * (Z * Z)) :=
  filter (fun d => Bool.eqb (mw_cls w (fst d)) k) (f_done (mw_fac w)).
Definition m_arrived (w : mworld) (k : bool) : list Z := map fst (m_trips w k).
(** The IDs of class [k] given out so far. *)
Definition m_ids (w : mworld) (k : bool) : list Z := of_class (mw_cls w) k (ids (f_num (mw_fac w))).

(** IDs given out between two states, those of class [k] from [o] to [d] among them *)
Definition m_new (w w' : mworld) : list Z :=
  map (fun i => f_num (mw_fac w) + 1 + Z.of_nat i)%Z (seq 0 (Z.to_nat (f_num (mw_fac w') - f_num (mw_fac w)))).
Definition m_released (k : bool) (o d : Z) (w w' : mworld) : list Z :=
  filter (fun v => Bool.eqb (mw_cls w' v) k && (v_org (mw_veh w' v) =? o) && (v_dst (mw_veh w' v) =? d)) (m_new w w').
(** Each origin has one demand row per class and destination. *)
Definition mdemands_ok (M : mnet) : Prop := forall o k, In o (mn_origins M) -> NoDup (map fst (og_demand o k)).
(** The assignment interval served by loading interval [j]. *)
Definition m_assign_at (M : mnet) (j : nat) : Z := (mn_start_assign M + Z.of_nat j / mn_freq M)%Z.
Definition m_release_time (M : mnet) (j : nat) : Prop :=
  (Z.of_nat j mod mn_freq M = 0)%Z /\ (0 <= m_assign_at M j < mn_total_assign M)%Z.
