(** A concrete network used by the examples in the Prop files: origins 1 and 5,
    junctions 2 and 3, destination 4; connectors 10, 50 and 30 (point queues),
    link 20 (CTM) and link 25 (link queue) in parallel.  Models no code. *)
From Verif Require Import Base Model_Num Model_CC Model_Path Model_Link Model_World Model_Node Model_Sim.

Definition xn_par (k : lkind) (cap len : Q) : lparam :=
  {| p_kind := k; p_hold := 1 # 8; p_flow := cap; p_lanes := 2; p_len := len; p_ffs := 15; p_ut := 5; p_fs := 1 |}.
Definition xn_get (r : res link) : link :=
  match r with Ok l => l | Err _ => {| l_par := xn_par KLq 1 1; l_in := []; l_fin := []; l_body := BLq [] 0 |} end.
Definition xn_link (l : Z) : link :=
  if l =? 20 then xn_get (make_ctm (xn_par KCtm (1 # 2) 300))
  else if l =? 25 then xn_get (make_lq (xn_par KLq (1 # 2) 300))
  else xn_get (make_pq (xn_par KPq 10 100)).

Definition xn_demand (k0 k1 : Q) : Z -> Q := fun i => if i =? 0 then k0 else if i =? 1 then k1 else 0%Q.
Definition xn : net :=
  {| n_fs := 1; n_nodes := [(3, NFwj); (1, NOrigin); (4, NDest); (2, NFwj); (5, NOrigin)];
     n_out := fun n => if n =? 1 then [10] else if n =? 5 then [50] else if n =? 2 then [20; 25] else if n =? 3 then [30] else [];
     n_in := fun n => if n =? 2 then [10; 50] else if n =? 3 then [20; 25] else if n =? 4 then [30] else [];
     n_links := [30; 10; 20; 50; 25];
     n_to := fun l => if (l =? 10) || (l =? 50) then 2 else if (l =? 20) || (l =? 25) then 3 else 4;
     n_origins := [{| o_node := 1; o_demand := [(4, xn_demand (7 # 2) 2)]; o_ratio := fun _ => None |};
                   {| o_node := 5; o_demand := [(4, xn_demand 2 1)]; o_ratio := fun _ => None |}];
     n_dests := [4]; n_freq := 3; n_total_assign := 2; n_start_assign := 0; n_total_int := -1;
     n_routing := RFixed; n_rfreq := 3; n_rlen := 2 |}.

Definition xn_pt : ptable :=
  [((1, 4), [{| e_path := {| r_id := 0; r_links := [10; 20; 30] |}; e_p := 0%Q; e_buf := [1; 1]%Q |};
             {| e_path := {| r_id := 1; r_links := [10; 25; 30] |}; e_p := 0%Q; e_buf := [1; 3]%Q |}]);
   ((5, 4), [{| e_path := {| r_id := 2; r_links := [50; 20; 30] |}; e_p := 0%Q; e_buf := [1; 1]%Q |}])].

Definition xn_draws : draws :=
  {| d_rel := fun _ _ => (1 # 4)%Q; d_adapt := fun _ => 0%Q; d_oshuf := fun _ l => rev l;
     d_route := fun v => if Z.even v then (1 # 10)%Q else (9 # 10)%Q; d_orig := fun _ _ => (1 # 2)%Q;
     d_node := fun _ _ _ => (1 # 10)%Q; d_pick := fun _ _ k => k; d_fuel := 100;
     d_inshuf := fun _ _ l => rev l; d_grj := fun _ _ _ => 0%Q; d_cell := fun l _ => if l =? 25 then 0%Q else (1 # 2)%Q;
     d_tree := fun _ _ => -1; d_any := fun _ => 0%nat |}.

Definition xn_fac : factory := {| f_live := []; f_num := 0; f_enroute := 0; f_finished := 0; f_tt := 0; f_done := [] |}.
Definition xn_world : world :=
  {| w_veh := fun _ => {| v_org := 0; v_dst := 0; v_adapt := false; v_start := 0; v_fin := -1; v_assign := -1;
                          v_cur := None; v_next := None; v_path := None; v_miles := 0 |};
     w_link := xn_link; w_oq := fun _ => []; w_dq := fun _ => [];
     w_cc := {| cc_Nin := fun _ => Some fresh_curve; cc_Nout := fun _ => Some fresh_curve;
                cc_Tin := fun _ => Some []; cc_Tout := fun _ => Some [] |};
     w_fac := xn_fac; w_trk := fun _ => None; w_pt := xn_pt |}.

(** state after [k] intervals *)
Definition xn_run (k : nat) : res lstate := run xn (fun _ => xn_draws) k (init_state xn xn_world).
Definition xn_at (k : nat) : lstate := match xn_run k with Ok s => s | Err _ => init_state xn xn_world end.
