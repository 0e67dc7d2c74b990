(** Pre-determined routing: src/pre_routing.cpp (class MNM_Pre_Routing, the table of route
    flows) and src/so_routing.cpp (class MNM_Routing_Predetermined, which hands the flows to
    vehicles).  Destinations are identified with their node ids. *)
From Verif Require Import Base Model_Node.
Local Open Scope Z_scope.

(** src/pre_routing.h: [routing_table], origin node -> destination node -> path index -> flow
    array.  The two outer hash maps are one list of (origin, destination) entries; the inner
    one a list of (path index, flow array).  Arrays are lists of their allocated length. *)
Definition flows := list (Z * list Q).
Definition rtable := list ((Z * Z) * flows).
Definition od_eqb (a b : Z * Z) : bool := (fst a =? fst b) && (snd a =? snd b).
(** [find]/[at] on the two outer maps *)
Fixpoint find_od (T : rtable) (o d : Z) : option flows :=
  match T with
  | [] => None
  | (k, f) :: T' => if od_eqb k (o, d) then Some f else find_od T' o d
  end.
(** [find] on the inner map *)
Fixpoint find_path (f : flows) (p : Z) : option (list Q) :=
  match f with
  | [] => None
  | (q, a) :: f' => if q =? p then Some a else find_path f' p
  end.
(** array read [a[i]]; outside the allocation it is undefined behaviour *)
Definition read (a : list Q) (i : Z) : res Q :=
  if i <? 0 then Err EUB else match nth_error a (Z.to_nat i) with Some x => Ok x | None => Err EUB end.
(** array write at a valid index *)
Fixpoint put (a : list Q) (i : nat) (v : Q) : list Q :=
  match a, i with
  | [], _ => []
  | _ :: a', O => v :: a'
  | x :: a', S i' => x :: put a' i' v
  end.

(** An origin as seen by the constructor: its node, [m_max_assign_interval], [m_demand] *)
Record porigin := { po_node : Z; po_max : nat; po_demand : list (Z * list Q) }.
Fixpoint find_demand (l : list (Z * list Q)) (d : Z) : option (list Q) :=
  match l with
  | [] => None
  | (x, a) :: l' => if x =? d then Some a else find_demand l' d
  end.
(** src/pre_routing.cpp:45-49: copy [size_demand] entries; reading past the array is UB *)
Definition copy_demand (n : nat) (a : list Q) : res (list Q) :=
  if (length a <? n)%nat then Err EUB else Ok (firstn n a).
(** src/pre_routing.cpp:58-76 and 88-106: path 0 gets the demand, paths 1 .. size-1 zeros *)
Definition initial_flows (n : nat) (dem : list Q) (size : nat) : flows :=
  (0, dem) :: map (fun k => (Z.of_nat k, repeat 0%Q n)) (seq 1 (size - 1)).
(** src/pre_routing.cpp:33-114: one origin and destination; [sizes] are the sizes of
    [m_path_vec] in the path table ([at] throws when the pair is missing).  [insert] keeps an
    existing entry. *)
Definition build_pair (sizes : Z -> Z -> option nat) (o : porigin) (d : Z) (T : rtable) : res rtable :=
  match find_demand (po_demand o) d with
  | None => Ok T
  | Some a =>
      do dem <- copy_demand (po_max o) a;
      match sizes (po_node o) d with
      | None => Err EThrow
      | Some n =>
          match find_od T (po_node o) d with
          | Some _ => Ok T
          | None => Ok (T ++ [((po_node o, d), initial_flows (po_max o) dem n)])
          end
      end
  end.
(** src/pre_routing.cpp:9-117, the constructor; [dests] and [origins] in hash order *)
Definition build_table (sizes : Z -> Z -> option nat) (dests : list Z) (origins : list porigin) : res rtable :=
  foldM (fun T d => foldM (fun T o => build_pair sizes o d T) T origins) [] dests.

(** src/pre_routing.cpp:146-151 *)
Definition total_flow (f : flows) (i : Z) : res Q :=
  foldM (fun acc p => do x <- read (snd p) i; Ok (acc + x)%Q) 0%Q f.
(** src/pre_routing.cpp:157-172 *)
Definition shift_path (p i : Z) (lam total : Q) (e : Z * list Q) : res (Z * list Q) :=
  do x <- read (snd e) i;
  Ok (fst e, put (snd e) (Z.to_nat i)
        (if fst e =? p then (1 - lam) * x + lam * total else (1 - lam) * x)%Q).
Fixpoint set_od (T : rtable) (o d : Z) (f : flows) : rtable :=
  match T with
  | [] => []
  | (k, g) :: T' => if od_eqb k (o, d) then (k, f) :: T' else (k, g) :: set_od T' o d f
  end.
(** src/pre_routing.cpp:137-176 [reassign_routing]; [at] throws for an unknown pair *)
Definition reassign (T : rtable) (o d p i : Z) (lam : Q) : res rtable :=
  match find_od T o d with
  | None => Err EThrow
  | Some f =>
      do total <- total_flow f i;
      do f' <- mapM (shift_path p i lam total) f;
      Ok (set_od T o d f')
  end.

(** A route: src/path.h [m_link_vec].  [routes o d]: [m_path_vec] of the pair in the path table *)
Definition routes := Z -> Z -> option (list (list Z)).
(** src/so_routing.cpp:82-91: the local variables of the loop over the queue *)
Record cursor := { c_dest : Z; c_this : Q; c_path : Z; c_remain : Q }.
(** the repeated look-up [routing_table -> find (o) -> find (d) -> find (path) [ass]];
    dereferencing [end ()] is undefined behaviour *)
Definition planned (T : rtable) (o d p ass : Z) : res Q :=
  match find_od T o d with
  | None => Err EUB
  | Some f => match find_path f p with None => Err EUB | Some a => read a ass end
  end.
(** [m_demand.find (dest) -> second [ass]] *)
Definition demand_of (o : porigin) (d ass : Z) : res Q :=
  match find_demand (po_demand o) d with None => Err EUB | Some a => read a ass end.
(** src/so_routing.cpp:82-91: [m_demand.begin ()] of an origin without demand is UB *)
Definition first_cursor (T : rtable) (o : porigin) (ass : Z) : res cursor :=
  match po_demand o with
  | [] => Err EUB
  | (d, a) :: _ =>
      do x <- read a ass;
      do r <- planned T (po_node o) d 0 ass;
      Ok {| c_dest := d; c_this := x; c_path := 0; c_remain := r |}
  end.
(** src/so_routing.cpp:97-132: choice of the path index for a vehicle to [vd] *)
Definition choose (T : rtable) (o : porigin) (ass : Z) (vd : Z) (c : cursor) : res cursor :=
  if negb (vd =? c_dest c) && Qle_bool (c_remain c) 0 then
    do r <- planned T (po_node o) vd (c_path c) ass;
    do x <- demand_of o vd ass;
    Ok {| c_dest := vd; c_this := x; c_path := 0; c_remain := r |}
  else if Qle_bool (c_remain c) 0 && negb (Qle_bool (c_this c) 0) then
    do r <- planned T (po_node o) (c_dest c) (c_path c + 1) ass;
    Ok {| c_dest := c_dest c; c_this := c_this c; c_path := c_path c + 1; c_remain := r |}
  else if negb (Qle_bool (c_remain c) 0) && negb (Qle_bool 0 (c_this c)) then Err EThrow
  else Ok c.
(** src/so_routing.cpp:133-134 *)
Definition use_one (c : cursor) : cursor :=
  {| c_dest := c_dest c; c_this := c_this c - 1; c_path := c_path c; c_remain := c_remain c - 1 |}.
(** src/so_routing.cpp:135-144: the links of the chosen path of the vehicle's own pair *)
Definition route_of (R : routes) (o d p : Z) : res (list Z) :=
  match R o d with
  | None => Err EUB
  | Some ps => if p <? 0 then Err EUB else match nth_error ps (Z.to_nat p) with Some r => Ok r | None => Err EUB end
  end.
(** The state of the router: [m_tracker] and the next link of every vehicle *)
Record tracker := { tr_left : Z -> option (list Z); tr_next : Z -> option Z }.
(** src/so_routing.cpp:145-146: [insert] keeps the entry of a vehicle already there *)
Definition track (tr : tracker) (v : Z) (r : list Z) : tracker :=
  match tr_left tr v with
  | Some _ => tr
  | None => {| tr_left := upd (tr_left tr) v (Some r); tr_next := tr_next tr |}
  end.
(** src/so_routing.cpp:93-147; [dest] gives the destination node of a vehicle.  All vehicles
    in the queue of an origin node have that origin. *)
Definition register (T : rtable) (R : routes) (o : porigin) (ass : Z) (dest : Z -> Z)
    (s : cursor * tracker) (v : Z) : res (cursor * tracker) :=
  do c <- choose T o ass (dest v) (fst s);
  do r <- route_of R (po_node o) (dest v) (c_path c);
  Ok (use_one c, track (snd s) v r).
(** src/so_routing.cpp:151-155: [front]/[pop_front] of an empty deque is UB; [known] is the set
    of link ids, [get_link] throws otherwise (src/factory.cpp:192-202) *)
Definition send (known : Z -> bool) (tr : tracker) (v : Z) : res tracker :=
  match tr_left tr v with
  | Some (l :: r) =>
      do _ <- guard (known l) EThrow;
      Ok {| tr_left := upd (tr_left tr) v (Some r); tr_next := upd (tr_next tr) v (Some l) |}
  | _ => Err EUB
  end.
(** src/so_routing.cpp:74-158: one origin with queue [q] at a release time *)
Definition update_origin (T : rtable) (R : routes) (known : Z -> bool) (dest : Z -> Z) (ass : Z)
    (o : porigin) (q : list Z) (tr : tracker) : res tracker :=
  do c <- first_cursor T o ass;
  do s <- foldM (register T R o ass dest) (c, tr) q;
  foldM (send known) (snd s) q.
(** src/so_routing.cpp:56-160: the first half of [update_routing]; [freq] is the release
    frequency of the first origin, [queues] the queue of every origin *)
Definition update_origins (T : rtable) (R : routes) (known : Z -> bool) (dest : Z -> Z) (freq t : Z)
    (origins : list porigin) (queues : Z -> list Z) (tr : tracker) : res tracker :=
  if Z.rem t freq =? 0 then
    foldM (fun tr o => update_origin T R known dest (Z.quot t freq) o (queues (po_node o)) tr) tr origins
  else Ok tr.
(** src/so_routing.cpp:174-208: a vehicle at the end of a link; [at_dest]: the link ends at its
    destination node, [cur]: the link it is on *)
Definition update_finished (known : Z -> bool) (at_dest : Z -> bool) (cur : Z -> option Z)
    (tr : tracker) (v : Z) : res tracker :=
  if at_dest v then
    match tr_left tr v with
    | None => Err EUB
    | Some (_ :: _) => Err EThrow
    | Some [] => Ok {| tr_left := tr_left tr; tr_next := upd (tr_next tr) v None |}
    end
  else
    match tr_left tr v with
    | None => Err EThrow
    | Some r =>
        if match cur v, tr_next tr v with Some a, Some b => a =? b | None, None => true | _, _ => false end then
          match r with
          | [] => Err EUB
          | l :: r' =>
              do _ <- guard (negb (l =? -1)) EThrow;
              do _ <- guard (known l) EThrow;
              Ok {| tr_left := upd (tr_left tr) v (Some r'); tr_next := upd (tr_next tr) v (Some l) |}
          end
        else Ok tr
    end.
