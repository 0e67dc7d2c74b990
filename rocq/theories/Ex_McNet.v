(** A concrete two-class network used by the examples: origins 1 and 5, junctions 2
    and 3, destination 4; connectors 10, 50, 30 (point queues), link 20 (CTM) and link
    25 (shorter, CTM) in parallel.  Models no code. *)
From Verif Require Import Base Model_Num Model_CC Model_Path Model_Link Model_World Model_Node Model_Sim Ex_Net Model_McLink Model_McNode Model_McSim.

Definition ym_par (k : mkind) (flow len : Q) : mparam :=
  {| mp_kind := k; mp_lanes := 2; mp_len := len; mp_hold_c := 1 # 8; mp_hold_t := 1 # 16; mp_flow_c := flow; mp_flow_t := flow / 2;
     mp_ffs_c := 15; mp_ffs_t := 10; mp_ut := 5; mp_pcu := 2; mp_fs := 1 |}.
Definition ym_get (r : res mlink) : mlink :=
  match r with
  | Ok l => l
  | Err _ => {| ml_par := ym_par MKLq 1 1; ml_in := []; ml_fin := []; ml_body := MPq 0 [] 0 0; ml_wait := 0; ml_wait_c := 0; ml_wait_t := 0; ml_spill := false |}
  end.
Definition ym_link (l : Z) : mlink :=
  if l =? 20 then ym_get (make_mctm (ym_par MKCtm (1 # 2) 300))
  else if l =? 25 then ym_get (make_mctm (ym_par MKCtm (1 # 3) 150))
  else ym_get (make_mpq (ym_par MKPq 10 100)).

(** one origin row: cars and trucks for destination 4 *)
Definition ym_origin (n : Z) (c0 c1 t0 t1 : Q) : morigin :=
  {| og_node := n; og_demand := fun k => [(4, if k then xn_demand t0 t1 else xn_demand c0 c1)]; og_ratio := fun _ _ => None;
     og_labels := fun k => if k then [] else [1 # 4; 3 # 4]%Q |}.
Definition ym_net (r : mrtype) (os : list morigin) : mnet :=
  {| mn_fs := 1; mn_pcu := 2; mn_nodes := [(3, MNFwj); (1, MNOrigin); (4, MNDest); (2, MNFwj); (5, MNOrigin)];
     mn_out := fun n => if n =? 1 then [10] else if n =? 5 then [50] else if n =? 2 then [20; 25] else if n =? 3 then [30] else [];
     mn_in := fun n => if n =? 2 then [10; 50] else if n =? 3 then [20; 25] else if n =? 4 then [30] else [];
     mn_links := [30; 10; 20; 50; 25];
     mn_to := fun l => if (l =? 10) || (l =? 50) then 2 else if (l =? 20) || (l =? 25) then 3 else 4;
     mn_origins := os; mn_dests := [4]; mn_freq := 3; mn_total_assign := 2; mn_start_assign := 0; mn_total_int := -1;
     mn_routing := r; mn_rfreq := 3; mn_rlen := 2 |}.
Definition ym_os : list morigin := [ym_origin 1 (7 # 2) 2 2 1; ym_origin 5 2 1 1 2].
Definition ym : mnet := ym_net (MRBiclass 0 0) ym_os.

(** cars take link 20, trucks link 25 *)
Definition ym_pt : ptable :=
  [((1, 4), [{| e_path := {| r_id := 0; r_links := [10; 20; 30] |}; e_p := 0%Q; e_buf := [1; 0]%Q |};
             {| e_path := {| r_id := 1; r_links := [10; 25; 30] |}; e_p := 0%Q; e_buf := [0; 1]%Q |}]);
   ((5, 4), [{| e_path := {| r_id := 2; r_links := [50; 20; 30] |}; e_p := 0%Q; e_buf := [1; 1]%Q |}])].
Definition ym_draws : mdrawsI :=
  {| r_base := xn_draws; r_rel := fun _ _ _ => (1 # 4)%Q; r_label := fun v => if Z.even v then (1 # 10)%Q else (9 # 10)%Q;
     r_node := {| mn_orig := fun _ _ => (1 # 2)%Q; mn_shuf := fun _ _ l => rev l |};
     r_link := fun _ => {| md_car := fun _ => (1 # 2)%Q; md_truck := fun _ => (1 # 2)%Q; md_mix := fun i => if Nat.even i then (1 # 10)%Q else (9 # 10)%Q |} |}.
Definition ym_world : mworld :=
  {| mw_veh := fun _ => {| v_org := 0; v_dst := 0; v_adapt := false; v_start := 0; v_fin := -1; v_assign := -1;
                          v_cur := None; v_next := None; v_path := None; v_miles := 0 |};
     mw_cls := fun _ => false; mw_lab := fun _ => -1; mw_link := ym_link; mw_oq := fun _ => []; mw_dq := fun _ => [];
     mw_cc := {| mk_Nin := fun _ _ => Some fresh_curve; mk_Nout := fun _ _ => Some fresh_curve; mk_Tin := fun _ _ => Some [] |};
     mw_fac := xn_fac; mw_cf := fun _ => {| cf_num := 0; cf_enroute := 0; cf_finished := 0; cf_tt := 0 |};
     mw_trk := fun _ => None; mw_pt := ym_pt |}.
Definition ym_run (M : mnet) (k : nat) : res mlstate := mrun M (fun _ => ym_draws) k (minit M ym_world).
Definition ym_at (M : mnet) (k : nat) : mlstate := match ym_run M k with Ok s => s | Err _ => minit M ym_world end.

(** half of the trucks adaptive, along link 20 *)
Definition ym_draws_tree : mdrawsI :=
  {| r_base := {| d_rel := d_rel xn_draws; d_adapt := fun v => if Z.even v then (1 # 10)%Q else (9 # 10)%Q; d_oshuf := d_oshuf xn_draws;
                  d_route := d_route xn_draws; d_orig := d_orig xn_draws; d_node := d_node xn_draws; d_pick := d_pick xn_draws; d_fuel := 100;
                  d_inshuf := d_inshuf xn_draws; d_grj := d_grj xn_draws; d_cell := d_cell xn_draws;
                  d_tree := fun _ n => if n =? 1 then 10 else if n =? 5 then 50 else if n =? 2 then 20 else 30; d_any := d_any xn_draws |};
     r_rel := r_rel ym_draws; r_label := r_label ym_draws; r_node := r_node ym_draws; r_link := r_link ym_draws |}.
Definition ym_half : mnet := ym_net (MRBiclass 0 (1 # 2)) ym_os.
Definition ym_half_run (k : nat) : res mlstate := mrun ym_half (fun _ => ym_draws_tree) k (minit ym_half ym_world).
Definition ym_half_at (k : nat) : mlstate := match ym_half_run k with Ok s => s | Err _ => minit ym_half ym_world end.

(** everybody adaptive, but the cars have a share of their own: none *)
Definition ym_leak_os : list morigin :=
  map (fun o => {| og_node := og_node o; og_demand := og_demand o; og_ratio := fun k _ => if k then None else Some (fun _ => 0%Q); og_labels := og_labels o |}) ym_os.
Definition ym_leak : mnet := ym_net (MRHybrid 1) ym_leak_os.
