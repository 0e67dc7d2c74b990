(** The single-class Python interface: macposts/_ext/dta.cpp:786-846 and 1213-2264.
    Registered links and paths are their IDs; printing is left out. *)
From Verif Require Import Base Model_Num Model_CC Model_Link Model_World Model_Node Model_Sim Model_Grad Model_Dso.
Local Open Scope Z_scope.

(** * Arrays *)

(** A one-dimensional numpy array as handed over by pybind11 (py::array_t<T> without
    c_style): a data pointer [nd_off] into memory, a stride in elements, a length.  An
    array of the right element type is passed on without copying, whatever its stride. *)
Record ndarray (A : Type) := { nd_mem : Z -> A; nd_off : Z; nd_stride : Z; nd_len : nat }.
Arguments nd_mem {A}. Arguments nd_off {A}. Arguments nd_stride {A}. Arguments nd_len {A}.
(** macposts/_ext/dta.cpp:1231-1236, 1274-1278, 1646-1655, 2019-2021, 2211-2214: elements are
    read as ptr[0], ..., ptr[shape[0] - 1] *)
Definition nd_read {A} (a : ndarray A) : list A := map (fun i => nd_mem a (nd_off a + Z.of_nat i)) (seq 0 (nd_len a)).

(** * Registration *)

(** macposts/_ext/dta.cpp:1233-1249: the loop of register_links; [known] are the links of
    the network (get_link throws otherwise, src/factory.cpp:193-202); returns the
    registered links and the exception *)
Fixpoint reg_links (known : Z -> bool) (acc ids : list Z) : list Z * option err :=
  match ids with
  | [] => (acc, None)
  | l :: r => if known l then if memb l acc then (acc, Some EThrow) else reg_links known (acc ++ [l]) r
              else (acc, Some EThrow)
  end.
(** macposts/_ext/dta.cpp:1213-1251 [register_links], [old] the links registered before *)
Definition register_links (known : Z -> bool) (old ids : list Z) : list Z * option err :=
  reg_links known (match old with [] => old | _ => [] end) ids.

(** m_path_vec and m_path_map (path to index; [insert] keeps an existing entry) *)
Record registered := { g_vec : list Z; g_map : list (Z * Z) }.
Definition map_insert (m : list (Z * Z)) (k v : Z) : list (Z * Z) :=
  match find (fun e => fst e =? k) m with Some _ => m | None => m ++ [(k, v)] end.
(** macposts/_ext/dta.cpp:1280-1296: the loop of register_paths from index [i] *)
Fixpoint reg_paths (known : Z -> bool) (g : registered) (i : Z) (ids : list Z) : registered * option err :=
  match ids with
  | [] => (g, None)
  | p :: r => if known p then reg_paths known {| g_vec := g_vec g ++ [p]; g_map := map_insert (g_map g) p i |} (i + 1) r
              else (g, Some EThrow)
  end.
(** macposts/_ext/dta.cpp:1264-1299 [register_paths] *)
Definition register_paths (known : Z -> bool) (old : registered) (ids : list Z) : registered * option err :=
  reg_paths known (match g_vec old with [] => old | _ => {| g_vec := []; g_map := [] |} end) 0 ids.
(** path_map.find (src/dta_gradient_utls.cpp:415) *)
Definition path_index (m : list (Z * Z)) (p : Z) : option Z :=
  match find (fun e => fst e =? p) m with Some e => Some (snd e) | None => None end.

(** * Matrices *)

(** macposts/_ext/dta.cpp:1658-1675 (and 2032-2050, 2137-2153, 2230-2250) *)
Definition check_window (cur : Z) (w : Z * Z) : res unit :=
  if snd w <=? fst w then Err EThrow
  else if cur <=? fst w then Err EThrow
  else if cur <? snd w then Err EThrow
  else Ok tt.
(** macposts/_ext/dta.cpp:1744-1749, 1872-1877, 1933-1938 *)
Definition check_start (cur s : Z) : res unit := if cur <=? s then Err EThrow else Ok tt.

(** The loops of macposts/_ext/dta.cpp:1656-1685, 1742-1780: time steps outside, links
    inside, entry [i * l + t] of the row-major result (initially unspecified, here
    [blank]); [entry] may change a state of type [S] *)
Definition fill_matrix {A S} (check : Z -> res unit) (entry : S -> Z -> Z -> res (S * A)) (nl l : nat) (blank : A) (s : S) : res (S * list A) :=
  foldM (fun x t => do _ <- check t;
                    foldM (fun y i => do z <- entry (fst y) i t; do r <- row_set (snd y) (i * Z.of_nat l + t) (snd z); Ok (fst z, r)) x (ints 0 nl))
        (s, repeat blank (nl * l)) (ints 0 l).

(** macposts/_ext/dta.cpp:1630-1690 [get_link_inflow]; [cs] are the arrival curves of the
    registered links *)
Definition inflow_matrix (cur : Z) (cs : list (option curve)) (starts ends : list Z) : res (list Q) :=
  do _ <- guard (Nat.eqb (length starts) (length ends)) EThrow;
  let w := combine starts ends in
  do x <- fill_matrix (fun t => do p <- row_at w t; check_window cur p)
            (fun _ i t => do c <- row_at cs i; do p <- row_at w t;
                          do x <- link_flow_between c (inject_Z (fst p)) (inject_Z (snd p)); Ok (tt, x))
            (length cs) (length w) 0%Q tt;
  Ok (snd x).

(** macposts/_ext/utils.h:17 *)
Definition tt_upper_bound : Q := 20.
(** macposts/_ext/dta.cpp:1755-1777: travel time [t] in intervals of a link; [None] is
    infinity *)
Definition reported_tt (ut len ffs : Q) (return_inf : bool) (t : Q) : option Q :=
  let x := (t * ut)%Q in
  let b := (tt_upper_bound * len / ffs)%Q in
  if Qltb b x then (if return_inf then None else Some b) else Some x.
(** what get_link_tt looks at in a link: curves, free-flow time in intervals, length,
    speed *)
Record tt_link := { k_in : option curve; k_out : option curve; k_ff : Q; k_len : Q; k_ffs : Q }.
(** macposts/_ext/dta.cpp:1728-1783 [get_link_tt]; the state is m_last_valid_time of each
    link *)
Definition tt_matrix (ut : Q) (cur : Z) (return_inf : bool) (cache : Z -> Q) (ks : list tt_link) (starts : list Z) : res ((Z -> Q) * list (option Q)) :=
  fill_matrix (fun t => do s <- row_at starts t; check_start cur s)
    (fun ca i t => do k <- row_at ks i; do s <- row_at starts t;
                   do x <- travel_time (k_in k) (k_out k) (k_ff k) (ca i) (inject_Z (s + 1)) cur;
                   Ok (upd ca i (snd x), reported_tt ut (k_len k) (k_ffs k) return_inf (fst x)))
    (length ks) (length starts) None cache.

(** macposts/_ext/dta.cpp:1910-1960 [get_path_tt], first row, of the path [links]; [tabs]
    is m_link_tt_map *)
Definition path_tt_row (ut : Q) (cur : Z) (tabs : table) (links : list Z) (starts : list Z) : res (list Q) :=
  mapM (fun s => do _ <- check_start cur s; do x <- path_travel_time tabs cur links (inject_Z s); Ok (x * ut)%Q) starts.

(** * Assignment ratios *)

(** the loops of macposts/_ext/dta.cpp:2027-2056, 2126-2160, 2226-2258: links outside,
    windows inside *)
Definition over_windows {S} (cur : Z) (nl : nat) (w : list (Z * Z)) (f : S -> Z -> Z -> Z * Z -> res S) (s : S) : res S :=
  foldM (fun x i => foldM (fun y t => do p <- row_at w t; do _ <- check_window cur p; f y i t p) x (ints 0 (length w))) s (ints 0 nl).

(** macposts/_ext/dta.cpp:2003-2077 [get_dar_matrix]: one row per record; [ls] are the
    registered links with their trees *)
Definition dar_matrix (cur : Z) (g : registered) (ls : list (Z * option cctree)) (starts ends : list Z) : res (list dar) :=
  do _ <- guard (Nat.eqb (length starts) (length ends)) EThrow;
  over_windows cur (length ls) (combine starts ends)
    (fun acc i t p => do l <- row_at ls i;
       add_dar_records acc (fun q => match path_index (g_map g) q with Some _ => true | None => false end) (fst l) (snd l) (inject_Z (fst p)) (inject_Z (snd p))) [].

(** Eigen's SparseMatrix::setFromTriplets for a matrix of [rows] x [cols]: repeated
    entries are added up; an index outside is not checked in release builds: [EUB] *)
Definition from_triplets (rows cols : Z) (ts : list (Z * Z * Q)) : res (Z -> Z -> Q) :=
  do _ <- guard (forallb (fun e => let '(x, y, _) := e in (0 <=? x) && (x <? rows) && (0 <=? y) && (y <? cols)) ts) EUB;
  Ok (fun x y => sumQ (map (fun e => let '(x', y', v) := e in if (x' =? x) && (y' =? y) then v else 0%Q) ts)).
(** macposts/_ext/dta.cpp:2187-2264 [get_complete_dar_matrix] *)
Definition complete_triplets (cur : Z) (g : registered) (trees : list (option cctree)) (starts ends : list Z) (f : list Q) : res (list (Z * Z * Q)) :=
  do _ <- guard (Nat.eqb (length starts) (length ends)) EThrow;
  over_windows cur (length trees) (combine starts ends)
    (fun acc i t p => do tr <- row_at trees i;
       add_dar_records_eigen acc (path_index (g_map g)) tr (inject_Z (fst p)) (inject_Z (snd p)) i t (Zlen trees) (Zlen (g_map g)) f) [].
Definition complete_dar (cur : Z) (g : registered) (trees : list (option cctree)) (starts ends : list Z) (n : Z) (f : list Q) : res (Z -> Z -> Q) :=
  do ts <- complete_triplets cur g trees starts ends f;
  from_triplets (n * Zlen trees) (n * Zlen (g_map g)) ts.

(** macposts/_ext/dta.cpp:2079-2185 [save_dar_matrix]: the lines row, column, value written
    to the file, without rounding; the column is computed from the path's ID; a zero
    flow (written as inf) is [EUB] as in [add_dar_records_eigen] *)
Definition save_line (np : Z) (f : list Q) (x : Z) (r : dar) : res (Z * Z * Q) :=
  let y := da_path r + np * da_int r in
  do fy <- row_at f y;
  do _ <- guard (negb (Qeq_bool fy 0)) EUB;
  Ok (x, y, (da_flow r / fy)%Q).
Definition save_dar (cur : Z) (g : registered) (ls : list (Z * option cctree)) (starts ends : list Z) (f : list Q) : res (list (Z * Z * Q)) :=
  do _ <- guard (Nat.eqb (length starts) (length ends)) EThrow;
  over_windows cur (length ls) (combine starts ends)
    (fun acc i t p => do l <- row_at ls i;
       do rs <- add_dar_records [] (fun q => match path_index (g_map g) q with Some _ => true | None => false end) (fst l) (snd l) (inject_Z (fst p)) (inject_Z (snd p));
       do lines <- mapM (save_line (Zlen (g_map g)) f (i + Zlen ls * t)) rs;
       Ok (acc ++ lines)) [].

(** * Totals *)

(** macposts/_ext/dta.cpp:810-846 [get_travel_stats] after [cur] intervals: released
    vehicles, hours, vehicles en route, finished vehicles *)
Definition travel_stats (N : net) (ut : Q) (cur : Z) (w : world) : res (Q * Q * Q * Q) :=
  do _ <- guard (forallb (fun v => v_fin (w_veh w v) <? 0) (f_live (w_fac w))) EAssert;
  let n := f_finished (w_fac w) + Zlen (f_live (w_fac w)) in
  let h := fold_left (fun h v => (h + inject_Z (cur - v_start (w_veh w v)) * ut / 3600)%Q) (f_live (w_fac w)) (f_tt (w_fac w) * ut / 3600)%Q in
  Ok ((inject_Z n / n_fs N)%Q, (h / n_fs N)%Q, (inject_Z (f_enroute (w_fac w)) / n_fs N)%Q, (inject_Z (f_finished (w_fac w)) / n_fs N)%Q).
