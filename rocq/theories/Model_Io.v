(** The network, demand and path table readers of src/io.cpp and the path table writer of
    src/path.cpp.  [stod] stands for [std::stod]: any function from texts to numbers or an
    exception.  Each reader takes the content of its file; [None] is a missing file. *)
From Coq Require Import Ascii String.
From Verif Require Import Base Model_Num Model_Graph Model_Text.
Local Open Scope list_scope.

(** [unordered_map::insert] keeps the old value of an existing key *)
Fixpoint lookup {V} (m : list (Z * V)) (k : Z) : option V :=
  match m with
  | [] => None
  | (k', v) :: m => if (k' =? k)%Z then Some v else lookup m k
  end.
Definition insert {V} (m : list (Z * V)) (k : Z) (v : V) : list (Z * V) :=
  match lookup m k with Some _ => m | None => m ++ [(k, v)] end.

Fixpoint text_eqb (a b : text) : bool :=
  match a, b with
  | [], [] => true
  | x :: a, y :: b => Ascii.eqb x y && text_eqb a b
  | _, _ => false
  end.
Definition word (ws : list text) (i : nat) : text := nth i ws [].

(** ** nodes: src/io.cpp:6-78, src/factory.cpp:86-110 *)
Inductive nkind := NFwj | NGrj | NOrigin | NDest.
Definition node_kind (t : text) : option nkind :=
  if text_eqb t (txt "FWJ") then Some NFwj
  else if text_eqb t (txt "GRJ") then Some NGrj
  else if text_eqb t (txt "DMOND") then Some NOrigin
  else if text_eqb t (txt "DMDND") then Some NDest
  else None.
Definition nodes := list (Z * nkind).
Definition node_row (m : nodes) (l : text) : res nodes :=
  let ws := split l ch_space in
  if (2 <=? length ws)%nat then
    do id <- stoi (word ws 0);
    match node_kind (trim (word ws 1)) with
    | Some k => Ok (insert m id k)
    | None => Err EThrow
    end
  else Err EThrow.
(** a file that cannot be opened is skipped: [if (_node_file.is_open ())] *)
Definition read_file {A} (f : A -> text -> res A) (fuel : nat) (n : Z) (file : option text) (a : A) : res A :=
  match file with
  | None => Ok a
  | Some _ => do r <- read_rows f fuel (Z.to_nat n) (open_file file) [] a; Ok (fst r)
  end.
Definition build_node_factory (fuel : nat) (num_of_node : Z) (file : option text) : res nodes :=
  read_file node_row fuel num_of_node file [].

(** ** links: src/io.cpp:80-181, src/factory.cpp:155-190.  Only the constructor arguments are
    recorded (the constructors are modelled in Model_Link and Model_Ltm). *)
Inductive fkind := FPq | FCtm | FLq | FLtm.
Definition link_kind (t : text) : option fkind :=
  if text_eqb t (txt "PQ") then Some FPq
  else if text_eqb t (txt "CTM") then Some FCtm
  else if text_eqb t (txt "LQ") then Some FLq
  else if text_eqb t (txt "LTM") then Some FLtm
  else None.
Record link_args := { la_kind : fkind; la_hold : Q; la_flow : Q; la_lanes : Z; la_len : Q; la_ffs : Q }.
Definition links := list (Z * link_args).
Definition link_row (stod : text -> res Q) (m : links) (l : text) : res links :=
  let ws := split l ch_space in
  if (7 <=? length ws)%nat then
    do id <- stoi (word ws 0);
    do len <- stod (word ws 2);
    do ffs <- stod (word ws 3);
    do flow <- stod (word ws 4);
    do hold <- stod (word ws 5);
    do lanes <- stoi (word ws 6);
    match link_kind (trim (word ws 1)) with
    | Some k => Ok (insert m id {| la_kind := k; la_hold := hold / 1600; la_flow := flow / 3600; la_lanes := lanes;
                                   la_len := len * 1600; la_ffs := ffs * 1600 / 3600 |})
    | None => Err EThrow
    end
  else Err EThrow.
Definition build_link_factory (stod : text -> res Q) (fuel : nat) (num_of_link : Z) (file : option text) : res links :=
  read_file (link_row stod) fuel num_of_link file [].

(** ** origins and destinations: src/io.cpp:183-263 (with hook-up).  Maps from origin and
    destination ids to node ids.  The casts at 230-232 and 255-257 of a node of another kind are
    undefined behaviour; a row without exactly two words is skipped. *)
Definition od := (list (Z * Z) * list (Z * Z))%type.
Definition origin_row (ns : nodes) (x : od) (l : text) : res od :=
  let ws := split l ch_space in
  if (length ws =? 2)%nat then
    do id <- stoi (word ws 0);
    do n <- stoi (word ws 1);
    match lookup ns n with
    | Some NOrigin => Ok (insert (fst x) id n, snd x)
    | Some _ => Err EUB
    | None => Err EThrow
    end
  else Ok x.
Definition dest_row (ns : nodes) (x : od) (l : text) : res od :=
  let ws := split l ch_space in
  if (length ws =? 2)%nat then
    do id <- stoi (word ws 0);
    do n <- stoi (word ws 1);
    match lookup ns n with
    | Some NDest => Ok (fst x, insert (snd x) id n)
    | Some _ => Err EUB
    | None => Err EThrow
    end
  else Ok x.
Definition build_od_factory (fuel : nat) (ns : nodes) (num_of_O num_of_D : Z) (file : option text) : res od :=
  match file with
  | None => Ok ([], [])
  | Some _ =>
      do r <- read_rows (origin_row ns) fuel (Z.to_nat num_of_O) (open_file file) [] ([], []);
      do r' <- read_rows (dest_row ns) fuel (Z.to_nat num_of_D) (fst (snd r)) (snd (snd r)) (fst r);
      Ok (fst r')
  end.

(** ** network: src/io.cpp:536-594.  The file is not checked for being open; a row without exactly
    three words is skipped; [add_node] of a known node is caught.  The assert at 592 on the
    number of links is [EAssert] (it is absent in release builds). *)
Definition graph_row (g : graph) (l : text) : res graph :=
  let ws := split l ch_space in
  if (length ws =? 3)%nat then
    do id <- stoi (word ws 0);
    do f <- stoi (word ws 1);
    do t <- stoi (word ws 2);
    add_link (gstep (gstep g (GNode f)) (GNode t)) f t id
  else Ok g.
Definition build_graph (fuel : nat) (num_of_link : Z) (file : option text) : res graph :=
  do r <- read_rows graph_row fuel (Z.to_nat num_of_link) (open_file file) [] empty_graph;
  do _ <- guard (Z.of_nat (length (g_lids (fst r))) =? num_of_link)%Z EAssert;
  Ok (fst r).

(** ** demand: src/io.cpp:596-653, src/od.cpp:47-57.  The map of an origin keeps the first demand
    of a destination.  Keys: origin and destination ids. *)
Definition demand := Z -> Z -> option (list Q).
Fixpoint mapR {A B} (f : A -> res B) (l : list A) : res (list B) :=
  match l with
  | [] => Ok []
  | x :: l => do y <- f x; do r <- mapR f l; Ok (y :: r)
  end.
Definition demand_row (stod : text -> res Q) (max_interval : Z) (x : od) (D : demand) (l : text) : res demand :=
  let ws := split l ch_space in
  if (max_interval + 2 <=? Z.of_nat (length ws))%Z then
    do o <- stoi (word ws 0);
    do d <- stoi (word ws 1);
    do v <- mapR stod (firstn (Z.to_nat max_interval) (skipn 2 ws));
    match lookup (fst x) o, lookup (snd x) d with
    | Some _, Some _ =>
        match D o d with
        | Some _ => Ok D
        | None => Ok (fun o' d' => if (o' =? o)%Z && (d' =? d)%Z then Some v else D o' d')
        end
    | _, _ => Err EThrow
    end
  else Err EThrow.
Definition build_demand (stod : text -> res Q) (fuel : nat) (max_interval OD_pair : Z) (x : od) (file : option text) : res demand :=
  read_file (demand_row stod max_interval x) fuel OD_pair file (fun _ _ => None).

(** ** path table: src/io.cpp:818-961 without buffer.  [lt_link] is the variable [_link_ID], declared at 855
    without a value; using it unset is undefined behaviour. *)
Record lpath := { lp_id : Z; lp_nodes : list Z; lp_links : list Z }.
Definition ptable := Z -> Z -> option (list lpath).
Record ltable := { lt_table : ptable; lt_count : Z; lt_link : option Z }.
(** src/io.cpp:915-924: the first outgoing link that leads to [t] *)
Fixpoint first_to (g : graph) (ls : list Z) (t : Z) : res (option Z) :=
  match ls with
  | [] => Ok None
  | l :: ls => do e <- get_endpoints g l; if (snd e =? t)%Z then Ok (Some l) else first_to g ls t
  end.
(** src/io.cpp:911-926 *)
Fixpoint path_links (g : graph) (cur : option Z) (ns : list Z) : res (list Z * option Z) :=
  match ns with
  | f :: ((t :: _) as r) =>
      do cs <- connections g f Outgoing;
      do h <- first_to g cs t;
      let cur' := match h with Some l => Some l | None => cur end in
      match cur' with
      | None => Err EUB
      | Some l => do q <- path_links g cur' r; Ok (l :: fst q, snd q)
      end
  | _ => Ok ([], cur)
  end.
(** src/io.cpp:882-942 *)
Definition path_row (g : graph) (T : ltable) (l : text) : res ltable :=
  let ws := split l ch_space in
  if (2 <=? length ws)%nat then
    do o <- stoi (word ws 0);
    do d <- stoi (last ws []);
    do ns <- mapR stoi ws;
    do q <- path_links g (lt_link T) ns;
    let p := {| lp_id := lt_count T; lp_nodes := ns; lp_links := fst q |} in
    let old := match lt_table T o d with Some ps => ps | None => [] end in
    Ok {| lt_table := fun o' d' => if (o' =? o)%Z && (d' =? d)%Z then Some (old ++ [p]) else lt_table T o' d';
          lt_count := lt_count T + 1; lt_link := snd q |}
  else Ok T.
Definition no_paths : ltable := {| lt_table := fun _ _ => None; lt_count := 0; lt_link := None |}.
(** [None]: the null pointer returned for [num_path <= 0]; a missing file is an exception *)
Definition load_path_table (fuel : nat) (g : graph) (num_path : Z) (file : option text) : res (option ptable) :=
  if (num_path <=? 0)%Z then Ok None
  else match file with
       | None => Err EThrow
       | Some _ => do r <- read_rows (path_row g) fuel (Z.to_nat num_path) (open_file file) [] no_paths;
                   Ok (Some (lt_table (fst r)))
       end.

(** src/path.cpp:95-106 [node_vec_to_string]; [pop_back] of an empty string is undefined *)
Definition node_vec_to_string (ns : list Z) : res text :=
  match ns with
  | [] => Err EUB
  | _ => Ok (removelast (concat (map (fun n => to_string n ++ [ch_space]) ns)) ++ [ch_newline])
  end.
(** src/path.cpp:703-780 [save_path_table] without buffer and cost; [keys]: the OD pairs in the
    order of the hash maps *)
Definition save_path_table (keys : list (Z * Z)) (T : ptable) : res text :=
  do ls <- mapR (fun p => node_vec_to_string (lp_nodes p))
             (concat (map (fun k => match T (fst k) (snd k) with Some ps => ps | None => [] end) keys));
  Ok (concat ls).
