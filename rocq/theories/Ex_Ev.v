(** A concrete charging station used by the examples of Prop_Ev: in link 1, out link 2,
    node 9.  Every vehicle is an adaptive electric vehicle on link 1 that is sent to the
    station; who arrives when is given by a schedule.  Models no code. *)
From Verif Require Import Base Model_Num Model_CC Model_Path Model_Link Model_World Model_Node Model_Ev Spec_Ev Ex_Net.
Local Open Scope Z_scope.

Definition ex_ev : ev := {| e_full := 100; e_range := 8; e_after := 3; e_timer := -1; e_road := true; e_at := Some 9; e_tour := false |}.
Definition ex_world : world :=
  {| w_veh := fun _ => {| v_org := 0; v_dst := 0; v_adapt := true; v_start := 0; v_fin := -1; v_assign := -1;
                          v_cur := Some 1; v_next := Some 2; v_path := None; v_miles := 3 |};
     w_link := fun _ => xn_link 25; w_oq := fun _ => []; w_dq := fun _ => [];
     w_cc := {| cc_Nin := fun _ => Some fresh_curve; cc_Nout := fun _ => Some fresh_curve;
                cc_Tin := fun _ => None; cc_Tout := fun _ => None |};
     w_fac := xn_fac; w_trk := fun _ => None; w_pt := [] |}.
Definition ex_feed (x : sworld) (vs : list Z) : sworld :=
  sset_w x (set_link (sw_w x) 1 (set_fin (w_link (sw_w x) 1) vs)).

Section Ex.
Variables (slots time : Z) (sched : nat -> list Z).
Definition ex_start : sworld := {| sw_w := ex_world; sw_ev := fun _ => Some ex_ev; sw_st := new_station 9 1 5 slots time 2 |}.
Definition ex_after (k : nat) (x : sworld) : sworld := match station_evolve [1] [2] (10 + Z.of_nat k) x with Ok y => y | Err _ => x end.
Fixpoint ex_b (k : nat) : sworld :=
  match k with O => ex_feed ex_start (sched O) | S j => ex_feed (ex_after j (ex_b j)) (sched k) end.
Definition ex_a (k : nat) : sworld := ex_after k (ex_b k).

Fixpoint distinct (l : list Z) : bool := match l with [] => true | v :: r => negb (memb v r) && distinct r end.
Definition ex_check (k : nat) : bool :=
  match station_evolve [1] [2] (10 + Z.of_nat k) (ex_b k) with Ok _ => true | Err _ => false end &&
  distinct (at_station (ex_b k) ++ arriving [1] (ex_b k)) &&
  forallb (fun v => match sw_ev (ex_b k) v with Some e => e_timer e <=? 0 | None => true end) (arriving [1] (ex_b k)).
End Ex.

(** two slots of two intervals; 1 arrives first, 2 one interval later, 3 and 4 two later *)
Definition ex_two : nat -> list Z := fun k => match k with 0%nat => [1] | 1%nat => [2] | 3%nat => [3; 4] | _ => [] end.
(** one slot; three vehicles at once, one more in interval 2, one more in interval 9 *)
Definition ex_one : nat -> list Z := fun k => match k with 0%nat => [1; 2; 3] | 2%nat => [4] | 9%nat => [5] | _ => [] end.
