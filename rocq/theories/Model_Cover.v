(** Routes for observed links: macposts/_ext/dta.cpp:1301-1605
    [generate_paths_to_cover_registered_links]. *)
From Verif Require Import Base Model_Num Model_Graph Model_SP Model_Node Model_Pathset.
Local Open Scope Z_scope.

(** src/path.cpp:34-50 [is_link_in]; the cached set of links is not modelled (the links of a
    path do not change) *)
Definition on_path (p : path) (l : Z) : res bool :=
  do _ <- guard (negb (Nat.eqb (length (snd p)) 0)) EAssert;
  Ok (memb l (snd p)).

(** macposts/_ext/dta.cpp:1320-1328, 1556-1564: mark the links of the path [p] *)
Definition mark (p : path) (links : list Z) (cov : list bool) : res (list bool) :=
  mapM (fun lb : Z * bool => if snd lb then Ok true else on_path p (fst lb)) (combine links cov).
Definition all_true (cov : list bool) : bool := forallb (fun b : bool => b) cov.
(** macposts/_ext/dta.cpp:1301-1343 [check_registered_links_in_registered_paths]: which of the
    registered [links] lie on the registered paths [ps]; stops when all do *)
Fixpoint mark_all (ps : list path) (links : list Z) (cov : list bool) : res (list bool) :=
  match ps with
  | [] => Ok cov
  | p :: ps => do c <- mark p links cov; if all_true c then Ok c else mark_all ps links c
  end.
Definition check_covered (ps : list path) (links : list Z) : res (list bool) :=
  mark_all ps links (repeat false (length links)).

(** macposts/_ext/dta.cpp:1491-1498: [find (...)->second]; a missing key dereferences end() *)
Definition tree_at (t : Z -> option Z) (n : Z) : res Z :=
  match t n with Some x => Ok x | None => Err EUB end.
(** macposts/_ext/dta.cpp:1456-1515: the first pair of an origin and a destination with demand
    between them that are connected to the link; [pairs] are these pairs in the random order
    of lines 1468 and 1486 *)
Fixpoint first_pair (t1 t2 : Z -> option Z) (pairs : list (Z * Z)) : res (option (Z * Z)) :=
  match pairs with
  | [] => Ok None
  | (o, d) :: r =>
      do x <- tree_at t1 o;
      if x =? -1 then first_pair t1 t2 r
      else do y <- tree_at t2 d;
           if y =? -1 then first_pair t1 t2 r else Ok (Some (o, d))
  end.

(** the trees of macposts/_ext/dta.cpp:1418-1455: towards the node [n] in [g]; empty when [n]
    itself is an origin (destination) node *)
Definition side_tree (fuel : nat) (P : pnet) (g : graph) (own : Z -> bool) (n : Z) : res (Z -> option Z) :=
  if own n then Ok (fun _ => None)
  else do s <- all_to_one_FIFO fuel g n (tt_cost P) (fun _ => None); Ok (s_out s).
(** macposts/_ext/dta.cpp:1427-1428, 1446-1447, 1518-1531; a null pointer is dereferenced at
    1534-1542 *)
Definition side_path (P : pnet) (g : graph) (own : Z -> bool) (n : Z) (t : Z -> option Z) (from : Z) : res path :=
  if own n then Ok ([n], [])
  else do p <- extract_path (length (g_nids (pn_g P))) g n t from;
       match p with Some p => Ok p | None => Err EUB end.

(** macposts/_ext/dta.cpp:1413-1542: a route through the link [l]; [gr] is the reversed graph,
    [isO]/[isD] tell origin and destination nodes (MNM_DMOND, MNM_DMDND) *)
Definition cover_link (fuel : nat) (P : pnet) (gr : graph) (isO isD : Z -> bool) (pairs : list (Z * Z)) (l : Z)
  : res (option ((Z * Z) * path)) :=
  do e <- get_endpoints (pn_g P) l;
  do t1 <- side_tree fuel P (pn_g P) isO (fst e);
  do t2 <- side_tree fuel P gr isD (snd e);
  do r <- first_pair t1 t2 pairs;
  match r with
  | None => Ok None
  | Some od =>
      do p1 <- side_path P (pn_g P) isO (fst e) t1 (fst od);
      do p2 <- side_path P gr isD (snd e) t2 (snd od);
      Ok (Some (od, (fst p1 ++ rev (fst p2), snd p1 ++ l :: rev (snd p2))))
  end.

(** macposts/_ext/dta.cpp:1409-1573: table, registered paths and marks; [pairs i] is the order
    drawn for the i-th link.  Breaking out of the loop when all links are marked (1565-1571)
    equals going on: nothing is done for marked links. *)
Definition cstate := (table * (list path * list bool))%type.
Definition cover_step (fuel : nat) (P : pnet) (gr : graph) (isO isD : Z -> bool) (pairs : nat -> list (Z * Z)) (links : list Z)
    (st : cstate) (i : nat) : res cstate :=
  let '(T, (ps, cov)) := st in
  match nth_error links i, nth_error cov i with
  | Some l, Some false =>
      do r <- cover_link fuel P gr isO isD (pairs i) l;
      match r with
      | None => Ok st
      | Some (od, p) =>
          do T' <- add_path T (fst od) (snd od) p;
          do c <- mark p links cov;
          Ok (T', (ps ++ [p], c))
      end
  | _, _ => Ok st
  end.
(** macposts/_ext/dta.cpp:1364-1604 [generate_paths_to_cover_registered_links]: [nids], [lids]
    are the orders in which the hash maps of the graph are walked; the result is the flag "table updated", the marks, and the state left behind; the
    buffers of the path and the file written at 1586-1589 are not modelled *)
Definition generate_cover (fuel : nat) (P : pnet) (nids lids : list Z) (isO isD : Z -> bool) (pairs : nat -> list (Z * Z)) (links : list Z) (ps : list path) (T : table)
  : res (bool * cstate) :=
  do cov <- check_covered ps links;
  if all_true cov then Ok (false, (T, (ps, cov)))
  else
    do gr <- reverse_graph (pn_g P) nids lids;
    do st <- foldM (cover_step fuel P gr isO isD pairs links) (T, (ps, cov)) (seq 0 (length links));
    if all_true (snd (snd st)) then Ok (true, st) else Err EThrow.
