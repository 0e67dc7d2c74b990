(** What is said about the tables made from passenger paths. *)
From Verif Require Import Base Model_SP Model_Split Model_Mmp Spec_Mmp Model_Conv.
Local Open Scope Q_scope.

Definition same_links (a b : list Z) : {a = b} + {a <> b} := list_eq_dec Z.eq_dec a b.
Definition same_park (a b : Z * list Z * list Z) : {a = b} + {a <> b}.
Proof. decide equality; [apply same_links|decide equality; [apply same_links|apply Z.eq_dec]]. Defined.
(** cars and trucks leaving on a sequence of links in an interval, in a driving path set *)
Definition cars_on (s : dset) (links : list Z) (c : nat) : Q := sumQ (map (fun e => if same_links (fst e) links then fst (snd e) c else 0) s).
Definition trucks_on (s : dset) (links : list Z) (c : nat) : Q := sumQ (map (fun e => if same_links (fst e) links then snd (snd e) c else 0) s).
(** passengers on park and ride, and on the bus *)
Definition park_on (s : rset) (k : Z * list Z * list Z) (c : nat) : Q := sumQ (map (fun e => if same_park (fst e) k then snd e c else 0) s).
Definition bus_on (s : bset) (links : list Z) (c : nat) : Q := sumQ (map (fun e => if same_links (fst e) links then snd e c else 0) s).
(** the cars needed for the passengers of a path that drive along these links *)
Definition cars_of (links : list Z) (c : nat) (p : ppath) : Q :=
  match pp_key p with KDrive n _ l => if same_links l links then pp_flow p c / inject_Z n else 0 | _ => 0 end.
Definition parkers_of (k : Z * list Z * list Z) (c : nat) (p : ppath) : Q :=
  match pp_key p with KPnr lot d b => if same_park (lot, d, b) k then pp_flow p c else 0 | _ => 0 end.
Definition riders_of (links : list Z) (c : nat) (p : ppath) : Q :=
  match pp_key p with KBus l => if same_links l links then pp_flow p c else 0 | _ => 0 end.
(** the passenger paths of a pair, of all modes *)
Definition all_paths (o : odset) : list ppath := concat (map snd o).
(** the set of a pair in a table *)
Definition has {S} (t : tabof S) (od : pair) (s : S) : Prop := In (od, s) t.
(** the mode is on and connects the pair *)
Definition offered (mo : modes) (od : pair) (m : mode) : Prop := mo_on mo m = true /\ mo_conn mo od m = Some true.
(** every pair has its entries on connections *)
Definition connections_known (mo : modes) (pt : list (pair * odset)) : Prop :=
  forall od o m, In (od, o) pt -> mo_on mo m = true -> mo_conn mo od m <> None.
(** a table of passenger paths: one entry per pair, paths filed by mode *)
Definition proper (pt : list (pair * odset)) : Prop := NoDup (map fst pt) /\ forall od o, In (od, o) pt -> filed o.
(** a table of trucks: one entry per pair, no cars *)
Definition only_trucks (tr : option (tabof dset)) : Prop :=
  match tr with None => True | Some t => NoDup (map fst t) /\ forall od s e c, In (od, s) t -> In e s -> fst (snd e) c == 0 end.
Definition truck_set (tr : option (tabof dset)) (od : pair) (s : dset) : Prop :=
  match tr with None => s = [] | Some t => In (od, s) t \/ (s = [] /\ forall s', ~ In (od, s') t) end.
(** all cars of a set in an interval; the cars needed for the passengers of a path *)
Definition total_cars (s : dset) (c : nat) : Q := sumQ (map (fun e => fst (snd e) c) s).
Definition cars_needed (c : nat) (p : ppath) : Q := match pp_key p with KDrive n _ _ => pp_flow p c / inject_Z n | _ => 0 end.
