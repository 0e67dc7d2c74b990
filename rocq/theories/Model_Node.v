(** Node models: src/dnode.cpp (MNM_DMOND, MNM_DMDND, MNM_Dnode_Inout,
    MNM_Dnode_FWJ).  Flow matrices are indexed by (in link ID, out link ID) instead
    of positions; the in and out link arrays of a node hold each link once.
    The flows of MNM_Dnode_GRJ are an arbitrary matrix here ([d_grj]); its
    compute_flow is modelled in Model_GRJ.v. *)
From Verif Require Import Base Model_Num Model_CC Model_Path Model_Link Model_World.

(** The test [get_next_link () == _out_link] of a vehicle *)
Definition goes (w : world) (b : Z) (v : Z) : bool :=
  match v_next (w_veh w v) with Some k => k =? b | None => false end.

Definition count_if (f : Z -> bool) (l : list Z) : Z := Zlen (filter f l).

(** Extraction loops src/dnode.cpp:78-103 and 407-448: scan the queue, take the
    first [n] vehicles satisfying [f]; returns taken, rest, number not found. *)
Fixpoint pull (f : Z -> bool) (n : Z) (q : list Z) : list Z * list Z * Z :=
  match q with
  | [] => ([], [], n)
  | v :: q' =>
      if 0 <? n then
        if f v then let '(t, r, m) := pull f (n - 1) q' in (v :: t, r, m)
        else let '(t, r, m) := pull f n q' in (t, v :: r, m)
      else ([], q, n)
  end.

(** [m_N_in -> add_increment ((timestamp + 1, x))] *)
Definition inc_in (w : world) (l : Z) (t : Z) (x : Q) : res world :=
  match cc_Nin (w_cc w) l with
  | None => Err EUB
  | Some c => do c' <- add_increment c (inject_Z (t + 1), x); Ok (set_cc w (set_Nin (w_cc w) l (Some c')))
  end.
Definition inc_out (w : world) (l : Z) (t : Z) (x : Q) : res world :=
  match cc_Nout (w_cc w) l with
  | None => Err EUB
  | Some c => do c' <- add_increment c (inject_Z (t + 1), x); Ok (set_cc w (set_Nout (w_cc w) l (Some c')))
  end.

(** * Origin node *)

(** src/dnode.cpp:56-71: number of vehicles that may enter out link [b] *)
Definition origin_volume (fs r : Q) (w : world) (n b : Z) : res Z :=
  do s <- link_supply (w_link w b);
  let c := count_if (goes w b) (w_oq w n) in
  Ok (if Qltb (s * fs) (inject_Z c) then rround r (s * fs) else c).

(** src/dnode.cpp:72-105: one iteration of the loop over the out links *)
Definition origin_move (fs : Q) (t n : Z) (w : world) (bk : Z * Z) : res world :=
  let '(b, k) := bk in
  do w1 <- match cc_Nin (w_cc w) b with
           | Some _ => if 0 <? k then inc_in w b t (inject_Z k / fs) else Ok w
           | None => Ok w
           end;
  let '(vs, rest, _) := pull (goes w1 b) k (w_oq w1 n) in
  let w2 := set_oq w1 n rest in
  let w3 := set_link w2 b (set_in (w_link w2 b) (l_in (w_link w2 b) ++ vs)) in
  Ok (set_vehs w3 (on_vehs (set_cur (Some b)) vs (w_veh w3))).

Fixpoint mapM {A B} (f : A -> res B) (l : list A) : res (list B) :=
  match l with
  | [] => Ok []
  | a :: l' => do b <- f a; do bs <- mapM f l'; Ok (b :: bs)
  end.

(** src/dnode.cpp:36-108 [MNM_DMOND::evolve]; a vehicle whose next link is not an
    out link dereferences [m_out_volume.end ()]: [EUB]. *)
Definition origin_evolve (fs : Q) (outs : list Z) (r : Z -> Q) (t n : Z) (w : world) : res world :=
  do _ <- guard (forallb (fun v => existsb (fun b => goes w b v) outs) (w_oq w n)) EUB;
  do ks <- mapM (fun b => do k <- origin_volume fs (r b) w n b; Ok (b, k)) outs;
  foldM (origin_move fs t n) w ks.

(** * Destination node *)

(** src/dnode.cpp:157-179: one in link *)
Definition dest_step (fs : Q) (t n : Z) (w : world) (a : Z) : res world :=
  let fin := l_fin (w_link w a) in
  do w1 <- match cc_Nout (w_cc w) a with
           | Some _ => if 0 <? Zlen fin then inc_out w a t (inject_Z (Zlen fin) / fs) else Ok w
           | None => Ok w
           end;
  do _ <- guard (forallb (fun v => match v_next (w_veh w1 v) with None => true | Some _ => false end) fin) EThrow;
  let w2 := set_dq w1 n (w_dq w1 n ++ fin) in
  let w3 := set_vehs w2 (on_vehs (set_cur None) fin (w_veh w2)) in
  Ok (set_link w3 a (set_fin (w_link w3 a) [])).

(** src/dnode.cpp:150-181 [MNM_DMDND::evolve] *)
Definition dest_evolve (fs : Q) (ins : list Z) (t n : Z) (w : world) : res world :=
  foldM (dest_step fs t n) w ins.

(** * Junctions *)

(** src/dnode.cpp:234-286 [prepare_supplyANDdemand]: the check, then
    [m_demand] and [m_supply] *)
Definition demand (fs : Q) (w : world) (a b : Z) : Q :=
  (inject_Z (count_if (goes w b) (l_fin (w_link w a))) / fs)%Q.
Definition right_node (w : world) (ins outs : list Z) : bool :=
  forallb (fun a => forallb (fun v => existsb (fun b => goes w b v) outs) (l_fin (w_link w a))) ins.

(** src/dnode.cpp:514-539 [MNM_Dnode_FWJ::compute_flow], one entry *)
Definition fwj_flow (dem : Z -> Z -> Q) (ins : list Z) (supply : Q) (a b : Z) : Q :=
  Qmin (dem a b) (divide (dem a b) (sumQ (map (fun i => dem i b) ins)) * supply).

(** src/dnode.cpp:303-324: trim loop of [round_flow_to_vehicle] on the column of
    one out link; [picks k] is the k-th rand ().  With no in link [rand () % 0] is
    undefined. *)
Fixpoint trim (fuel : nat) (picks : nat -> nat) (k : nat) (lim : Q) (col : list Z) : res (list Z) :=
  if negb (Qltb lim (inject_Z (sumZ col))) then Ok col
  else match fuel with
       | O => Err EFuel
       | S fuel' =>
           if (length col =? 0)%nat then Err EUB
           else
             let i := (picks k mod length col)%nat in
             let x := nth i col 0 in
             let col' := if 1 <=? x then firstn i col ++ [x - 1] ++ skipn (S i) col else col in
             trim fuel' picks (S k) lim col'
       end.

(** src/dnode.cpp:288-326 [round_flow_to_vehicle]: the column of out link [b], in
    the order of the in link array *)
Definition round_column (fs : Q) (r : Z -> Q) (fuel : nat) (picks : nat -> nat) (flow : Z -> Q)
    (supply : Q) (ins : list Z) : res (list Z) :=
  trim fuel picks 0 (supply * fs) (map (fun a => rround (r a) (flow a * fs)) ins).

(** m_veh_tomove as one column per out link *)
Definition tomove := list (Z * list Z).
Fixpoint assoc (k : Z) (l : list (Z * Z)) : Z :=
  match l with [] => 0 | (x, y) :: l' => if x =? k then y else assoc k l' end.
Definition mv (ins : list Z) (col : list Z) (a : Z) : Z := assoc a (combine ins col).

(** src/dnode.cpp:328-378 [record_cumulative_curve]: the test looks at m_N_out for
    an out link and m_N_in for an in link, as in the code *)
Definition record_out (fs : Q) (t : Z) (w : world) (bc : Z * list Z) : res world :=
  let s := sumZ (snd bc) in
  match cc_Nout (w_cc w) (fst bc) with
  | Some _ => if 0 <? s then inc_in w (fst bc) t (inject_Z s / fs) else Ok w
  | None => Ok w
  end.
Definition record_in (fs : Q) (t : Z) (ins : list Z) (m : tomove) (w : world) (a : Z) : res world :=
  let s := sumZ (map (fun bc => mv ins (snd bc) a) m) in
  match cc_Nin (w_cc w) a with
  | Some _ => if 0 <? s then inc_out w a t (inject_Z s / fs) else Ok w
  | None => Ok w
  end.
Definition record_curves (fs : Q) (t : Z) (ins : list Z) (m : tomove) (w : world) : res world :=
  do w1 <- foldM (record_out fs t) w m;
  foldM (record_in fs t ins m) w1 ins.

(** src/dnode.cpp:424-438: path-based curves, one vehicle; a null m_path is key -1 *)
Definition path_key (v : veh) : Z := match v_path v with Some r => r_id r | None => -1 end.
Definition tree_inc (fs : Q) (t a b : Z) (w : world) (v : Z) : res world :=
  let x := w_veh w v in
  do w1 <- match cc_Tin (w_cc w) b with
           | Some tr => do tr' <- add_flow tr (inject_Z (t + 1)) (1 / fs) (path_key x) (v_assign x);
                        Ok (set_cc w (set_Tin (w_cc w) b (Some tr')))
           | None => Ok w
           end;
  match cc_Tout (w_cc w1) a with
  | Some tr => do tr' <- add_flow tr (inject_Z (t + 1)) (1 / fs) (path_key x) (v_assign x);
               Ok (set_cc w1 (set_Tout (w_cc w1) a (Some tr')))
  | None => Ok w1
  end.

(** src/vehicle.cpp:93-101 [update_miles_traveled] *)
Definition miles_of (l : link) : Q :=
  match p_kind (l_par l) with KPq => 0%Q | _ => (p_len (l_par l) / 1600)%Q end.

(** src/dnode.cpp:404-452: move [k] vehicles from in link [a] to out link [b] *)
Definition move_pair (fs : Q) (t a b k : Z) (w : world) : res world :=
  let '(vs, rest, lft) := pull (goes w b) k (l_fin (w_link w a)) in
  let w1 := set_link w a (set_fin (w_link w a) rest) in
  let w2 := set_link w1 b (set_in (w_link w1 b) (l_in (w_link w1 b) ++ vs)) in
  let w3 := set_vehs w2 (on_vehs (fun v => add_miles (miles_of (w_link w a)) (set_cur (Some b) v)) vs (w_veh w2)) in
  do w4 <- foldM (tree_inc fs t a b) w3 vs;
  do _ <- guard (lft =? 0) EThrow;
  Ok w4.

(** src/dnode.cpp:380-457 [move_vehicle] *)
Definition move_column (fs : Q) (t : Z) (ins order : list Z) (w : world) (bc : Z * list Z) : res world :=
  foldM (fun w a => move_pair fs t a (fst bc) (mv ins (snd bc) a) w) w order.
Definition move_vehicles (fs : Q) (t : Z) (ins : list Z) (shuf : Z -> list Z -> list Z) (m : tomove) (w : world)
  : res world :=
  foldM (fun w bc => move_column fs t ins (shuf (fst bc) ins) w bc) w m.

(** src/dnode.cpp:479-495 [MNM_Dnode_Inout::evolve]; [flow supply a b] is the entry
    that compute_flow stores *)
Definition junction_columns (fs : Q) (ins outs : list Z) (flow : (Z -> Q) -> Z -> Z -> Q) (D : draws) (n : Z)
    (w : world) : res tomove :=
  do _ <- guard (right_node w ins outs) EThrow;
  do sup <- mapM (fun b => do s <- link_supply (w_link w b); Ok (b, s)) outs;
  let supply := fun b => match find (fun x => fst x =? b) sup with Some x => snd x | None => 0%Q end in
  mapM (fun b => do c <- round_column fs (fun a => d_node D n a b) (d_fuel D) (d_pick D n b)
                                      (fun a => flow supply a b) (supply b) ins;
                 Ok (b, c)) outs.
Definition junction_evolve (fs : Q) (ins outs : list Z) (flow : (Z -> Q) -> Z -> Z -> Q) (D : draws) (t n : Z)
    (w : world) : res world :=
  do m <- junction_columns fs ins outs flow D n w;
  do w1 <- record_curves fs t ins m w;
  move_vehicles fs t ins (d_inshuf D n) m w1.

(** [_node->evolve (load_int)], src/dta.cpp:645-652 *)
Definition node_evolve (N : net) (D : draws) (t : Z) (w : world) (nk : Z * nkind) : res world :=
  let '(n, k) := nk in
  let fs := n_fs N in
  match k with
  | NOrigin => origin_evolve fs (n_out N n) (d_orig D n) t n w
  | NDest => dest_evolve fs (n_in N n) t n w
  | NFwj => junction_evolve fs (n_in N n) (n_out N n)
              (fun supply a b => fwj_flow (demand fs w) (n_in N n) (supply b) a b) D t n w
  | NGrj => junction_evolve fs (n_in N n) (n_out N n) (fun _ a b => d_grj D n a b) D t n w
  end.
