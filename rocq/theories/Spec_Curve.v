(** Who enters and leaves a link during a run, from the positions of the vehicles alone. *)
From Verif Require Import Base Spec_Path Model_CC Model_Path Model_Link Spec_Link Model_World Spec_Node Model_Sim Spec_Sim.
Local Open Scope Z_scope.

(** Vehicles on link [l] now that were not there before, and the other way round. *)
Definition newcomers (w w' : world) (l : Z) : list Z :=
  filter (fun v => negb (existsb (Z.eqb v) (on_link (w_link w l)))) (on_link (w_link w' l)).
Definition leavers (w w' : world) (l : Z) : list Z := newcomers w' w l.

(** The route (its ID, -1 if none) and the departure interval of a vehicle. *)
Definition label (w : world) (v : Z) : Z * Z :=
  (match v_path (w_veh w v) with Some p => r_id p | None => -1 end, v_assign (w_veh w v)).

(** What [f] sees of the step from the end of interval j-1 to the end of interval j, for j < k *)
Fixpoint during {A} (N : net) (D : Z -> draws) (w0 : world) (f : world -> world -> list A) (k : nat) : list A :=
  match k with
  | O => []
  | S j => during N D w0 f j ++
      match run N D j (init_state N w0), run N D k (init_state N w0) with
      | Ok s, Ok s' => f (s_w s) (s_w s')
      | _, _ => []
      end
  end.
(** All entries to link [l] in the first [k] intervals; all exits *)
Definition entered (N : net) (D : Z -> draws) (w0 : world) (l : Z) : nat -> list Z :=
  during N D w0 (fun w w' => newcomers w w' l).
Definition exited (N : net) (D : Z -> draws) (w0 : world) (l : Z) : nat -> list Z :=
  during N D w0 (fun w w' => leavers w w' l).
(** ... as (route, departure interval) *)
Definition entered_labels (N : net) (D : Z -> draws) (w0 : world) (l : Z) : nat -> list (Z * Z) :=
  during N D w0 (fun w w' => map (label w') (newcomers w w' l)).
Definition exited_labels (N : net) (D : Z -> draws) (w0 : world) (l : Z) : nat -> list (Z * Z) :=
  during N D w0 (fun w w' => map (label w') (leavers w w' l)).
(** How often [k] occurs *)
Definition times_seen (k : Z * Z) (ls : list (Z * Z)) : Z :=
  Z.of_nat (length (filter (fun x => (fst k =? fst x) && (snd k =? snd x)) ls)).

(** Links whose upstream node is an origin node / whose downstream node is a destination node. *)
Definition origin_fed (N : net) (l : Z) : Prop := exists n, In (n, NOrigin) (n_nodes N) /\ In l (n_out N n).
Definition dest_bound (N : net) (l : Z) : Prop := exists n, In (n, NDest) (n_nodes N) /\ In l (n_in N n).
