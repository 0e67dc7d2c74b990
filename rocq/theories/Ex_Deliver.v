(** A concrete network with delivery tours, used by the examples of Prop_Deliver.v: depot
    with origin 1 and destination 2, customer with origin 4 and destination 5, junction 3.
    Models no code. *)
From Verif Require Import Base Model_Num Model_CC Model_Path Model_Link Model_World Model_Node Model_Sim Ex_Net Model_Deliver.

(** [gate] is the link from the customer's origin to the junction *)
Definition tn_link (gate : link) (l : Z) : link := if l =? 14 then gate else xn_get (make_pq (xn_par KPq 10 100)).
Definition tn_wide : link := xn_get (make_pq (xn_par KPq 10 100)).
(** one vehicle per interval *)
Definition tn_narrow : link := xn_get (make_pq (xn_par KPq (1 # 10) 100)).
Definition tn_lq : link := xn_get (make_lq (xn_par KLq 10 300)).
(** [dem] is the demand of ordinary vehicles from the customer to the depot *)
Definition tn_net (dem : Z -> Q) : net :=
  {| n_fs := 1; n_nodes := [(3, NFwj); (1, NOrigin); (4, NOrigin); (2, NDest); (5, NDest)];
     n_out := fun n => if n =? 1 then [11] else if n =? 4 then [14] else if n =? 3 then [12; 13] else [];
     n_in := fun n => if n =? 3 then [11; 14] else if n =? 2 then [12] else if n =? 5 then [13] else [];
     n_links := [11; 12; 13; 14];
     n_to := fun l => if (l =? 11) || (l =? 14) then 3 else if l =? 12 then 2 else 5;
     n_origins := [{| o_node := 1; o_demand := []; o_ratio := fun _ => None |};
                   {| o_node := 4; o_demand := [(2, dem)]; o_ratio := fun _ => None |}];
     n_dests := [2; 5]; n_freq := 5; n_total_assign := 2; n_start_assign := 0; n_total_int := -1;
     n_routing := RHybrid 0; n_rfreq := 100; n_rlen := 1 |}.
Definition tn_pt : ptable :=
  map (fun x => (fst x, [{| e_path := {| r_id := fst (snd x); r_links := snd (snd x) |}; e_p := 0%Q; e_buf := [1]%Q |}]))
    [((1, 5), (0, [11; 13])); ((4, 2), (1, [14; 12])); ((4, 5), (2, [14; 13])); ((1, 2), (3, [11; 12]))].
Definition tn_world (gate : link) : world :=
  {| w_veh := w_veh xn_world; w_link := tn_link gate; w_oq := fun _ => []; w_dq := fun _ => []; w_cc := w_cc xn_world;
     w_fac := xn_fac; w_trk := fun _ => None; w_pt := tn_pt |}.
Definition tn_draws : ddraws :=
  {| dd_base := {| d_rel := d_rel xn_draws; d_adapt := fun _ => (1 # 2)%Q; d_oshuf := d_oshuf xn_draws; d_route := d_route xn_draws; d_orig := d_orig xn_draws;
       d_node := d_node xn_draws; d_pick := d_pick xn_draws; d_fuel := d_fuel xn_draws; d_inshuf := d_inshuf xn_draws; d_grj := d_grj xn_draws;
       d_cell := d_cell xn_draws; d_tree := d_tree xn_draws; d_any := d_any xn_draws |};
     dd_rel := fun _ _ => (1 # 4)%Q |}.
(** two vehicles drive the tour [sq] and wait [W] intervals before each leg after the first *)
Definition tn (sq : list (Z * Z)) (dem : Z -> Q) (W : Z) : dnet :=
  {| dn_net := tn_net dem; dn_tours := fun o => if o =? 1 then [(sq, xn_demand 2 0)] else []; dn_pickup := fun _ => W |}.
Definition tn_run (sq : list (Z * Z)) (dem : Z -> Q) (W : Z) (gate : link) (k : nat) : res dstate :=
  drun (tn sq dem W) (fun _ => tn_draws) k (dinit (tn sq dem W) (tn_world gate)).
Definition tn_at (sq : list (Z * Z)) (dem : Z -> Q) (W : Z) (gate : link) (k : nat) : dstate :=
  match tn_run sq dem W gate k with Ok s => s | Err _ => dinit (tn sq dem W) (tn_world gate) end.
(** out and back; the same twice; two stops at the customer in a row; one leg *)
Definition tn_back : list (Z * Z) := [(1, 5); (4, 2)].
Definition tn_twice : list (Z * Z) := [(1, 5); (4, 2); (1, 5); (4, 2)].
Definition tn_stay : list (Z * Z) := [(1, 5); (4, 5); (4, 2)].
Definition tn_single : list (Z * Z) := [(1, 5)].
