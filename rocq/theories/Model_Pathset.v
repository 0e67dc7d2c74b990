(** Route generation: src/path.cpp:416-701.  A path is its (node sequence, link sequence). *)
From Verif Require Import Base Model_Num Model_Graph Model_SP.
Local Open Scope Q_scope.

Definition path := (list Z * list Z)%type.
(** [Path_Table]: origin node -> destination node -> path set; [None] = no entry *)
Definition table := Z -> Z -> option (list path).

(** what the functions read: the origin and destination nodes in the order of the hash maps, the
    OD pairs with demand, and travel time, toll and length of the links of the link factory *)
Record pnet := {
  pn_g : graph; pn_os : list Z; pn_ds : list Z; pn_dem : Z -> Z -> bool;
  pn_ids : list Z; pn_tt : Z -> Q; pn_toll : Z -> Q; pn_len : Z -> Q }.

(** src/path.h:40-51 [operator==] and src/path.cpp:291-300 [is_in]: link sequences are compared *)
Fixpoint same_links (a b : list Z) : bool :=
  match a, b with
  | [], [] => true
  | x :: a, y :: b => (x =? y)%Z && same_links a b
  | _, _ => false
  end.
Definition is_in (ps : list path) (p : path) : bool := existsb (fun q => same_links (snd q) (snd p)) ps.

(** src/path.cpp:81-93 [get_path_length]; [get_link] throws for an unknown link,
    src/factory.cpp:192-202 *)
Definition path_length (P : pnet) (ls : list Z) : res Q :=
  foldM (fun acc l => if memb l (pn_ids P) then Ok (acc + pn_len P l) else Err EThrow) 0 ls.

(** [_path_table->find (o)->second->find (d)->second->m_path_vec.push_back]; a missing entry
    dereferences end(): [EUB] *)
Definition add_path (T : table) (o d : Z) (p : path) : res table :=
  match T o d with
  | Some ps => Ok (fun o' d' => if (o' =? o)%Z && (d' =? d)%Z then Some (ps ++ [p])%list else T o' d')
  | None => Err EUB
  end.
(** src/path.cpp:568-577, 638-650: only paths longer than the minimum are kept (the buffer
    allocated at 570-573 is not modelled) *)
Definition add_long (P : pnet) (minlen : Q) (T : table) (o d : Z) (p : path) : res table :=
  do len <- path_length P (snd p);
  if Qltb minlen len then add_path T o d p else Ok T.

(** src/path.cpp:500-524: entries for the OD pairs with demand *)
Definition empty_table (P : pnet) : table :=
  fun o d => if memb o (pn_os P) && memb d (pn_ds P) && pn_dem P o d then Some [] else None.

(** src/path.cpp:540-548: [vot * tt + toll] for the links of the factory *)
Definition free_cost (P : pnet) (vot : Q) : cost_map :=
  fun l => if memb l (pn_ids P) then Some (Some (vot * pn_tt P l + pn_toll P l)) else None.

(** src/path.cpp:557-586: the best paths to one destination.  [fuel] bounds the tree search; the
    extraction needs at most as many steps as there are nodes. *)
Definition best_origin (P : pnet) (minlen : Q) (d : Z) (out : Z -> option Z) (T : table) (o : Z) : res table :=
  if pn_dem P o d then
    do p <- extract_path (length (g_nids (pn_g P))) (pn_g P) d out o;
    match p with
    | None => Err EThrow
    | Some p => add_long P minlen T o d p
    end
  else Ok T.
Definition best_dest (fuel : nat) (P : pnet) (cm : cost_map) (minlen : Q) (st : table * (Z -> option Z)) (d : Z)
  : res (table * (Z -> option Z)) :=
  do s <- all_to_one_FIFO fuel (pn_g P) d cm (snd st);
  do T <- foldM (best_origin P minlen d (s_out s)) (fst st) (pn_os P);
  Ok (T, s_out s).

(** src/path.cpp:599-619: the cost of every link used by a stored path is set to
    [vot * tt * scale + toll].  The order of the assignments does not matter. *)
Definition penalise (P : pnet) (vot scale : Q) (cm : cost_map) (l : Z) : res cost_map :=
  if memb l (pn_ids P) then Ok (upd cm l (Some (Some (vot * pn_tt P l * scale + pn_toll P l)))) else Err EThrow.
Definition all_paths (P : pnet) (T : table) : list path :=
  concat (map (fun o => concat (map (fun d => match T o d with Some ps => ps | None => [] end) (pn_ds P))) (pn_os P)).
Definition penalise_table (P : pnet) (vot scale : Q) (T : table) (cm : cost_map) : res cost_map :=
  foldM (penalise P vot scale) cm (concat (map snd (all_paths P T))).

(** src/path.cpp:644-663, 665-684: an alternative path; a null pointer is skipped *)
Definition add_new (P : pnet) (minlen : Q) (T : table) (o d : Z) (p : option path) : res table :=
  match p with
  | None => Ok T
  | Some p =>
      match T o d with
      | None => Err EUB
      | Some ps => if is_in ps p then Ok T else add_long P minlen T o d p
      end
  end.
(** src/path.cpp:631-686 *)
Definition alt_origin (P : pnet) (minlen : Q) (d : Z) (om oh : Z -> option Z) (T : table) (o : Z) : res table :=
  if pn_dem P o d then
    do pm <- extract_path (length (g_nids (pn_g P))) (pn_g P) d om o;
    do ph <- extract_path (length (g_nids (pn_g P))) (pn_g P) d oh o;
    do T1 <- add_new P minlen T o d pm;
    add_new P minlen T1 o d ph
  else Ok T.
(** src/path.cpp:620-687 *)
Definition alt_dest (fuel : nat) (P : pnet) (cmid cheavy : cost_map) (minlen : Q)
    (st : table * ((Z -> option Z) * (Z -> option Z))) (d : Z) : res (table * ((Z -> option Z) * (Z -> option Z))) :=
  do sm <- all_to_one_FIFO fuel (pn_g P) d cmid (fst (snd st));
  do sh <- all_to_one_FIFO fuel (pn_g P) d cheavy (snd (snd st));
  do T <- foldM (alt_origin P minlen d (s_out sm) (s_out sh)) (fst st) (pn_os P);
  Ok (T, (s_out sm, s_out sh)).

(** src/path.cpp:595-689: the trials.  State: table, both cost maps, both trees. *)
Definition pstate := (table * ((cost_map * cost_map) * ((Z -> option Z) * (Z -> option Z))))%type.
Definition trial (fuel : nat) (P : pnet) (vot mid heavy minlen : Q) (st : pstate) : res pstate :=
  let '(T, ((cm, ch), outs)) := st in
  do cm' <- penalise_table P vot mid T cm;
  do ch' <- penalise_table P vot heavy T ch;
  do r <- foldM (alt_dest fuel P cm' ch' minlen) (T, outs) (pn_ds P);
  Ok (fst r, ((cm', ch'), snd r)).
Fixpoint trials (fuel : nat) (P : pnet) (vot mid heavy minlen : Q) (n : nat) (st : pstate) : res pstate :=
  match n with
  | O => Ok st
  | S n => do st' <- trial fuel P vot mid heavy minlen st; trials fuel P vot mid heavy minlen n st'
  end.

(** src/path.cpp:486-701 [build_pathset] *)
Definition build_pathset (fuel : nat) (P : pnet) (minlen : Q) (maxiter : nat) (vot mid heavy : Q) : res table :=
  do _ <- guard (Qltb 0 vot) EAssert;
  let fc := free_cost P vot in
  do r <- foldM (best_dest fuel P fc minlen) (empty_table P, fun _ => None) (pn_ds P);
  do st <- trials fuel P vot mid heavy minlen maxiter (fst r, ((fc, fc), (fun _ => None, fun _ => None)));
  Ok (fst st).

(** src/path.cpp:416-484 [build_shortest_pathset]: all OD pairs, no minimal length, cost [tt] *)
Definition tt_cost (P : pnet) : cost_map :=
  fun l => if memb l (pn_ids P) then Some (Some (pn_tt P l)) else None.
Definition shortest_origin (P : pnet) (d : Z) (out : Z -> option Z) (T : table) (o : Z) : res table :=
  do p <- extract_path (length (g_nids (pn_g P))) (pn_g P) d out o;
  match p with
  | None => Err EThrow
  | Some p => add_path T o d p
  end.
Definition shortest_dest (fuel : nat) (P : pnet) (st : table * (Z -> option Z)) (d : Z) : res (table * (Z -> option Z)) :=
  do s <- all_to_one_FIFO fuel (pn_g P) d (tt_cost P) (snd st);
  do T <- foldM (shortest_origin P d (s_out s)) (fst st) (pn_os P);
  Ok (T, s_out s).
Definition build_shortest_pathset (fuel : nat) (P : pnet) : res table :=
  do r <- foldM (shortest_dest fuel P)
    (fun o d => if memb o (pn_os P) && memb d (pn_ds P) then Some [] else None, fun _ => None) (pn_ds P);
  Ok (fst r).
