(** src/graph.h: class Graph<NId, LId, NData, LData, directed> with
    NId = LId = int; node and link data are not modelled (macposts::Graph uses
    [Empty], src/common.h:12-20).  Pointers to nodes/links are their ids. *)
From Verif Require Import Base.

(** src/graph.h:37-41 *)
Inductive direction := Incoming | Outgoing.
(** src/graph.h:43-54 [invert] (the throw after the switch is unreachable) *)
Definition invert (d : direction) : direction :=
  match d with Incoming => Outgoing | Outgoing => Incoming end.

(** src/graph.h:118-141 [Node]: heads of the two intrusive link lists *)
Record gnode := { nd_next : direction -> option Z }.
(** src/graph.h:143-167 [Link]: endpoints and successors in the two lists *)
Record glink := { lk_end : direction -> Z; lk_next : direction -> option Z }.
(** src/graph.h:675-676; [g_nids]/[g_lids] are the key sets of the two maps in
    insertion order (real iteration order is unspecified). *)
Record graph := {
  g_node : Z -> option gnode; g_link : Z -> option glink;
  g_nids : list Z; g_lids : list Z }.

(** src/graph.h:483 *)
Definition empty_graph : graph :=
  {| g_node := fun _ => None; g_link := fun _ => None; g_nids := []; g_lids := [] |}.

Definition set_next (f : direction -> option Z) (d : direction) (l : Z) : direction -> option Z :=
  fun d' => match d, d' with
            | Incoming, Incoming | Outgoing, Outgoing => Some l
            | _, _ => f d'
            end.

(** src/graph.h:486-496 [add_node] *)
Definition add_node (g : graph) (id : Z) : res graph :=
  match g_node g id with
  | Some _ => Err EThrow
  | None => Ok {| g_node := upd (g_node g) id (Some {| nd_next := fun _ => None |});
                  g_link := g_link g; g_nids := g_nids g ++ [id]; g_lids := g_lids g |}
  end.

(** src/graph.h:505-537 [add_link] by ids: [get_node] on both ends throws
    std::out_of_range first (532-537), then the duplicate and self-loop checks. *)
Definition add_link (g : graph) (from to id : Z) : res graph :=
  match g_node g from, g_node g to with
  | Some nf, Some nt =>
      match g_link g id with
      | Some _ => Err EThrow
      | None =>
          if from =? to then Err EThrow
          else
            let lk := {| lk_end := fun d => match d with Incoming => from | Outgoing => to end;
                         lk_next := fun d => match d with Incoming => nd_next nt Incoming
                                                        | Outgoing => nd_next nf Outgoing end |} in
            let nf' := {| nd_next := set_next (nd_next nf) Outgoing id |} in
            let nt' := {| nd_next := set_next (nd_next nt) Incoming id |} in
            Ok {| g_node := upd (upd (g_node g) from (Some nf')) to (Some nt');
                  g_link := upd (g_link g) id (Some lk);
                  g_nids := g_nids g; g_lids := g_lids g ++ [id] |}
      end
  | _, _ => Err EThrow
  end.

(** src/graph.h:646-672 [get_endpoints] by id; unknown id throws (538). *)
Definition get_endpoints (g : graph) (id : Z) : res (Z * Z) :=
  match g_link g id with
  | Some l => Ok (lk_end l Incoming, lk_end l Outgoing)
  | None => Err EThrow
  end.

(** Walking an intrusive list: src/graph.h:412-425 [Connections::Iterator_::step]
    iterated until the null pointer. A dangling pointer is [EUB]; [EFuel] when
    the list is longer than the number of links. *)
Fixpoint walk (fuel : nat) (g : graph) (d : direction) (cur : option Z) : res (list Z) :=
  match cur with
  | None => Ok []
  | Some l =>
      match fuel with
      | O => Err EFuel
      | S fuel' =>
          match g_link g l with
          | None => Err EUB
          | Some r => do ls <- walk fuel' g d (lk_next r d); Ok (l :: ls)
          end
      end
  end.

(** src/graph.h:602-644 [connections (id, direction)] of a directed graph *)
Definition connections (g : graph) (n : Z) (d : direction) : res (list Z) :=
  match g_node g n with
  | None => Err EThrow
  | Some nd => walk (S (length (g_lids g))) g d (nd_next nd d)
  end.

(** src/graph.h:452-467, 412-425: undirected [connections (id)]; starts with
    [Incoming] (or the other list when that one is empty), then the refill list. *)
Definition connections_und (g : graph) (n : Z) : res (list Z) :=
  match g_node g n with
  | None => Err EThrow
  | Some nd =>
      let d := match nd_next nd Incoming with Some _ => Incoming | None => Outgoing end in
      let fuel := S (length (g_lids g)) in
      do l1 <- walk fuel g d (nd_next nd d);
      do l2 <- walk fuel g (invert d) (nd_next nd (invert d));
      Ok (l1 ++ l2)
  end.

(** src/graph.h:245-274 [Neighbors::Iterator_::step].  State: current link,
    direction, nodes seen, refill.  Result: the new state.  The assert at 252
    is [EAssert]. *)
Record nstate := { ns_cur : option Z; ns_dir : direction; ns_seen : list Z; ns_refill : option Z }.
Fixpoint nstep_loop (fuel : nat) (g : graph) (s : nstate) : res nstate :=
  match fuel with
  | O => Err EFuel
  | S fuel' =>
      match ns_cur s, ns_refill s with
      | None, None => Ok s
      | None, Some r =>
          let d := invert (ns_dir s) in
          match g_link g r with
          | None => Err EUB
          | Some lk =>
              if memb (lk_end lk d) (ns_seen s)
              then nstep_loop fuel' g {| ns_cur := lk_next lk d; ns_dir := d; ns_seen := ns_seen s; ns_refill := None |}
              else Ok {| ns_cur := Some r; ns_dir := d; ns_seen := ns_seen s; ns_refill := None |}
          end
      | Some l, rf =>
          let d := ns_dir s in
          match g_link g l with
          | None => Err EUB
          | Some lk =>
              let seen := lk_end lk d :: ns_seen s in
              if memb (lk_end lk d) seen
              then nstep_loop fuel' g {| ns_cur := lk_next lk d; ns_dir := d; ns_seen := seen; ns_refill := rf |}
              else Ok {| ns_cur := Some l; ns_dir := d; ns_seen := seen; ns_refill := rf |}
          end
      end
  end.
Definition nstep (g : graph) (s : nstate) : res nstate :=
  do _ <- match ns_cur s with
          | None => Ok tt
          | Some l => match g_link g l with
                      | None => Err EUB
                      | Some lk => guard (negb (memb (lk_end lk (ns_dir s)) (ns_seen s))) EAssert
                      end
          end;
  nstep_loop (2 * S (length (g_lids g))) g s.
(** range-for over [neighbors]: dereference (276-279) then step until the end *)
Fixpoint niter (fuel : nat) (g : graph) (s : nstate) : res (list Z) :=
  match ns_cur s with
  | None => match ns_refill s with None => Ok [] | Some _ => Err EUB end
  | Some l =>
      match fuel with
      | O => Err EFuel
      | S fuel' =>
          match g_link g l with
          | None => Err EUB
          | Some lk =>
              do s' <- nstep g s;
              do r <- niter fuel' g s';
              Ok (lk_end lk (ns_dir s) :: r)
          end
      end
  end.
(** src/graph.h:306-322, 564-601 [neighbors (id, direction)], directed graph *)
Definition neighbors (g : graph) (n : Z) (d : direction) : res (list Z) :=
  match g_node g n with
  | None => Err EThrow
  | Some nd => niter (S (length (g_lids g))) g
                 {| ns_cur := nd_next nd d; ns_dir := d; ns_seen := []; ns_refill := None |}
  end.
(** undirected [neighbors (id)]: starts with [Outgoing] *)
Definition neighbors_und (g : graph) (n : Z) : res (list Z) :=
  match g_node g n with
  | None => Err EThrow
  | Some nd =>
      let d := match nd_next nd Outgoing with Some _ => Outgoing | None => Incoming end in
      niter (S (length (g_lids g))) g
        {| ns_cur := nd_next nd d; ns_dir := d; ns_seen := []; ns_refill := nd_next nd (invert d) |}
  end.

(** one call of the public interface; a call that throws leaves the graph as it
    was (all checks precede the first mutation) *)
Inductive gop := GNode (id : Z) | GLink (from to id : Z).
Definition gcall (g : graph) (o : gop) : res graph :=
  match o with GNode id => add_node g id | GLink f t id => add_link g f t id end.
Definition gstep (g : graph) (o : gop) : graph :=
  match gcall g o with Ok g' => g' | Err _ => g end.
Definition gbuild (ops : list gop) : graph := fold_left gstep ops empty_graph.

(** src/ults.cpp:132-147 [reverse_graph].  [nids]/[lids]: iteration orders of the
    two hash maps. *)
Definition reverse_graph (g : graph) (nids lids : list Z) : res graph :=
  do g1 <- foldM add_node empty_graph nids;
  foldM (fun g' l => do e <- get_endpoints g l; add_link g' (snd e) (fst e) l) g1 lids.
