(** From passenger paths to the path tables the loading uses (src/multimodal.cpp:17539-18155,
    [clear_multimodal_path_table_buffer] and [passenger_path_table_to_multimodal_path_table]). *)
From Verif Require Import Base Model_Num Model_SP Model_Node Model_Split Model_Mmp.
Local Open Scope Q_scope.

(** a path set of the driving table: links and the two halves of m_buffer, cars and trucks; of
    the park-and-ride table: lot, links by car and by bus (the middle destination node belongs
    to the lot); of the bus table: links.  Node vectors and path IDs are not modelled. *)
Definition dset := list (list Z * ((nat -> Q) * (nat -> Q))).
Definition rset := list ((Z * list Z * list Z) * (nat -> Q)).
Definition bset := list (list Z * (nat -> Q)).
(** an OD pair, and a table: the sets by pair *)
Definition pair := (Z * Z)%type.
Definition pair_eqb (a b : pair) : bool := ((fst a =? fst b) && (snd a =? snd b))%Z.
Definition tabof (S : Type) := list (pair * S).

(** the search and the branch on _is_in, 17837-17873, 17887-17938, 17985-18050, 18097-18146: the
    first path that is equal is changed, or a new one goes to the end *)
Fixpoint merge_in {K V} (same : K -> K -> bool) (k : K) (fresh : V) (join : V -> V) (s : list (K * V)) : list (K * V) :=
  match s with
  | [] => [(k, fresh)]
  | e :: r => if same (fst e) k then (fst e, join (snd e)) :: r else e :: merge_in same k fresh join r
  end.
(** MNM_PnR_Path::is_equal, 5264-5282 *)
Definition same_pnr (a b : Z * list Z * list Z) : bool :=
  ((fst (fst a) =? fst (fst b))%Z && links_eqb (snd (fst a)) (snd (fst b)) && links_eqb (snd a) (snd b)).
Definition plus_flow (f g : nat -> Q) : nat -> Q := fun c => f c + g c.

(** one truck path, 17835-17874: trucks are added to an equal path; a new path copies both halves *)
Definition add_truck (s : dset) (e : list Z * ((nat -> Q) * (nat -> Q))) : dset :=
  merge_in links_eqb (fst e) (snd e) (fun v => (fst v, plus_flow (snd v) (snd (snd e)))) s.
(** one driving passenger path, 17880-17939; another kind of path in the set is a failed cast *)
Definition add_driver (s : dset) (p : ppath) : res dset :=
  match pp_key p with
  | KDrive n _ links =>
    let f := fun c => pp_flow p c / inject_Z n in
    Ok (merge_in links_eqb links (f, fun _ => 0) (fun v => (plus_flow (fst v) f, snd v)) s)
  | _ => Err EUB
  end.
(** one park-and-ride passenger path, 17978-18053; its driving part is for one person, 12167-12172 *)
Definition add_pnr (s : rset) (p : ppath) : res rset :=
  match pp_key p with
  | KPnr lot d b => Ok (merge_in same_pnr (lot, d, b) (pp_flow p) (fun v => plus_flow v (pp_flow p)) s)
  | _ => Err EUB
  end.
(** one bus passenger path, 18092-18148 *)
Definition add_bus (s : bset) (p : ppath) : res bset :=
  match pp_key p with
  | KBus links => Ok (merge_in links_eqb links (pp_flow p) (fun v => plus_flow v (pp_flow p)) s)
  | _ => Err EUB
  end.

(** find in a table; the branches that insert a new map or set, 17798-17819, 17952-17973, 18065-18088 *)
Fixpoint find_pair {S} (od : pair) (t : tabof S) : option S :=
  match t with [] => None | e :: r => if pair_eqb (fst e) od then Some (snd e) else find_pair od r end.
Fixpoint put_pair {S} (od : pair) (s : S) (t : tabof S) : tabof S :=
  match t with
  | [] => [(od, s)]
  | e :: r => if pair_eqb (fst e) od then (fst e, s) :: r else e :: put_pair od s r
  end.
Definition found {S} (od : pair) (t : tabof (list S)) : list S := match find_pair od t with Some s => s | None => [] end.

(** the three tables of the loading *)
Record tabs := TB { tb_drive : tabof dset; tb_pnr : tabof rset; tb_bus : tabof bset }.
(** m_mode_vec and m_od_mode_connectivity; no entry is a dereferenced end iterator *)
Record modes := MO { mo_on : mode -> bool; mo_conn : pair -> mode -> option bool }.
(** 17791-17796, 17945-17950, 18058-18063 *)
Definition usable_mode (mo : modes) (od : pair) (m : mode) : res bool :=
  if mo_on mo m then match mo_conn mo od m with Some b => Ok b | None => Err EUB end else Ok false.
(** the passenger paths of a mode, none without a set: 17877, 17975, 18089 *)
Definition of_mode (o : odset) (m : mode) : list ppath := match set_of o m with Some ps => ps | None => [] end.

(** 17788-18150, one OD pair.  [trucks]: m_truck_path_table, [None] if it is null;
    [shared]: it is the driving table itself *)
Definition convert_pair (mo : modes) (shared : bool) (trucks : option (tabof dset)) (t : tabs) (e : pair * odset) : res tabs :=
  let od := fst e in let o := snd e in
  do d <- usable_mode mo od Driving;
  do t <- if d then
            let s0 := found od (tb_drive t) in
            let tr := if shared then s0 else match trucks with Some tr => found od tr | None => [] end in
            do s <- foldM add_driver (fold_left add_truck tr s0) (of_mode o Driving);
            Ok (TB (put_pair od s (tb_drive t)) (tb_pnr t) (tb_bus t))
          else Ok t;
  do r <- usable_mode mo od Pnr;
  do t <- if r then
            do s <- foldM add_pnr (found od (tb_pnr t)) (of_mode o Pnr);
            Ok (TB (tb_drive t) (put_pair od s (tb_pnr t)) (tb_bus t))
          else Ok t;
  do b <- usable_mode mo od Transit;
  if b then
    do s <- foldM add_bus (found od (tb_bus t)) (of_mode o Transit);
    Ok (TB (tb_drive t) (tb_pnr t) (put_pair od s (tb_bus t)))
  else Ok t.

(** routing_type *)
Inductive rtype := HybridNew | Hybrid | DueNew | DueFixed.
(** which tables there are when the function is called: the loading given is the one of the
    equilibrium itself; the car and truck routing has a table; m_truck_path_table, and whether
    it is that table; the park-and-ride and bus tables exist *)
Record before := BF { bf_same : bool; bf_fixed : bool; bf_trucks : option (tabof dset); bf_shared : bool; bf_pnr : bool; bf_bus : bool }.
Definition is_some {A} (x : option A) : bool := match x with Some _ => true | None => false end.
(** 17646-17773: the asserts; in the result the truck table and whether it is the driving table.
    Cleared at 17780, a truck table that is the driving table has lost its paths. *)
Definition prepare (rt : rtype) (b : before) : res (option (tabof dset) * bool) :=
  match rt with
  | HybridNew =>
    do _ <- guard (negb (bf_fixed b) && negb (is_some (bf_trucks b)) && bf_same b && negb (bf_pnr b) && negb (bf_bus b)) EAssert;
    Ok (Some [], true)
  | DueNew =>
    do _ <- guard (Bool.eqb (bf_fixed b) (is_some (bf_trucks b)) && negb (bf_same b) && negb (bf_shared b)) EAssert;
    Ok (bf_trucks b, false)
  | Hybrid =>
    do _ <- guard (bf_fixed b && is_some (bf_trucks b) && bf_same b && bf_shared b && bf_pnr b && bf_bus b) EAssert;
    Ok (Some [], true)
  | DueFixed =>
    do _ <- guard (bf_fixed b && is_some (bf_trucks b) && negb (bf_same b) && negb (bf_shared b) && bf_pnr b && bf_bus b) EAssert;
    Ok (bf_trucks b, false)
  end.
(** the whole function; the tables of the loading are cleared first (17539-17613, 17780-17784) *)
Definition convert (mo : modes) (rt : rtype) (b : before) (old : tabs) (pt : list (pair * odset)) : res tabs :=
  do p <- prepare rt b;
  foldM (convert_pair mo (snd p) (fst p)) (TB [] [] []) pt.
(** the tables there are afterwards: 17657-17664, 17690-17700, 17731-17763 *)
Definition after (rt : rtype) (b : before) (t : tabs) : before :=
  match rt with
  | HybridNew | Hybrid => BF (bf_same b) true (Some (tb_drive t)) true true true
  | DueNew | DueFixed => BF (bf_same b) true (bf_trucks b) (bf_shared b) true true
  end.
