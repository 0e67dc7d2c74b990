(** Vocabulary for the Python interface. *)
From Verif Require Import Base Model_Num Model_CC Spec_CC Model_Link Model_World Model_Node Model_Sim Model_Grad Spec_Grad Model_Api.
Local Open Scope Z_scope.

(** the elements of a numpy array: element [i] is [i] strides after the first *)
Definition nd_list {A} (a : ndarray A) : list A := map (fun i => nd_mem a (nd_off a + nd_stride a * Z.of_nat i)) (seq 0 (nd_len a)).

(** [p] occurs in [ids] at position [j] and not before *)
Definition first_at (ids : list Z) (p : Z) (j : nat) : Prop :=
  nth_error ids j = Some p /\ forall i, (i < j)%nat -> nth_error ids i <> Some p.

(** a window of simulated time *)
Definition good_window (cur : Z) (w : Z * Z) : Prop := fst w < snd w <= cur.

(** flow counted by curve [c] from [s] to [e]; flows up to DBL_EPSILON are taken as none *)
Definition window_flow (c : curve) (w : Z * Z) (x : Q) : Prop := link_flow_between (Some c) (inject_Z (fst w)) (inject_Z (snd w)) = Ok x.
(** flow of path [p] departing in interval [a] counted by tree [t] in window [w] *)
Definition path_flow (t : cctree) (p a : Z) (w : Z * Z) (x : Q) : Prop :=
  (exists c, In ((p, a), c) t /\ exists y, window_flow c w y /\ ((dbl_eps < y /\ x = y) \/ (y <= dbl_eps /\ x = 0))%Q) \/
  ((forall c, ~ In ((p, a), c) t) /\ x = 0%Q).

(** trees as a loading leaves them: one curve per path and departure interval, intervals
    from 0 to [n] - 1 *)
Definition good_tree (n : Z) (t : cctree) : Prop :=
  NoDup (map fst t) /\ forall p a c, In ((p, a), c) t -> recorded_curve c /\ 0 <= a < n.
(** [f] gives a flow that is not zero for every registered path and departure interval
    that occurs in the trees *)
Definition covers (ids : list Z) (trees : list cctree) (f : list Q) : Prop :=
  forall t p a c j, In t trees -> In ((p, a), c) t -> nth_error ids j = Some p ->
    exists x, nth_error f (Z.to_nat (Z.of_nat j + Zlen ids * a)) = Some x /\ ~ (x == 0)%Q.

(** vehicles in the network and those that have arrived, with the time each has spent *)
Definition time_spent (cur : Z) (w : world) : Z :=
  sumZ (map (fun d => snd (snd d) - fst (snd d)) (f_done (w_fac w))) + sumZ (map (fun v => cur - v_start (w_veh w v)) (f_live (w_fac w))).
