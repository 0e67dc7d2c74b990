(** The Python class Tdsp (macposts/_ext/tdsp.cpp) and the time-dependent
    shortest path tree with movement costs (src/shortest_path.cpp:680-785,
    821-876).  Printing is left out. *)
From Verif Require Import Base Model_Num Model_Graph Model_SP Model_TDSP.

(** in link -> out link -> array over intervals (node_cost_map, node_tt_map) *)
Definition td_move := Z -> Z -> option (Z -> Q).

(** src/shortest_path.cpp:717-780: one link in the backward loop at interval t.
    Both lookups of round_time use the link's own travel time; a movement in
    node_cost_map but not in node_tt_map dereferences end(): [EUB].  Movement
    costs and times are finite. *)
Definition td_step_nc (dest M : Z) (g : graph) (cost : td_cost) (nc : td_move) (tt : td_tt) (ntt : td_move)
    (t : Z) (s : tdtree) (l : Z) : res tdtree :=
  do e <- get_endpoints g l;
  match cost l, tt l with
  | Some c, Some w =>
      match c t with
      | None => Ok s
      | Some k =>
          do kx <- (if snd e =? dest then Ok (k, w t) else
                    do a <- round_time M t (w t);
                    let o := td_tree s (snd e) a in
                    if o =? -1 then Ok (k, w t) else
                    match nc l o with
                    | None => Ok (k, w t)
                    | Some f => match ntt l o with
                                | None => Err EUB
                                | Some h => Ok ((k + f a)%Q, (w t + h a)%Q)
                                end
                    end);
          do a <- round_time M t (snd kx);
          let temp := eadd (Some (fst kx)) (td_dist s (snd e) a) in
          if eltb temp (td_dist s (fst e) t)
          then Ok {| td_dist := set2 (td_dist s) (fst e) t temp; td_tree := set2 (td_tree s) (fst e) t l |}
          else Ok s
      end
  | _, _ => Err EUB
  end.

(** src/shortest_path.cpp:717-783: the loop t = M-2 .. 0 *)
Fixpoint td_back_nc (n : nat) (dest M : Z) (g : graph) (lids : list Z) (cost : td_cost) (nc : td_move) (tt : td_tt)
    (ntt : td_move) (s : tdtree) : res tdtree :=
  match n with
  | O => Ok s
  | S n' => do s' <- foldM (td_step_nc dest M g cost nc tt ntt (Z.of_nat n')) s lids;
            td_back_nc n' dest M g lids cost nc tt ntt s'
  end.

(** src/shortest_path.cpp:680-785 [update_tree] with movement costs *)
Definition update_tree_nc (fuel : nat) (g : graph) (lids : list Z) (dest M : Z) (cost : td_cost) (nc : td_move)
    (tt : td_tt) (ntt : td_move) : res tdtree :=
  do _ <- guard (1 <=? M) EUB;
  do s <- all_to_one_FIFO_nc fuel g dest (fun l => match cost l with Some c => Some (c (M - 1)) | None => None end)
            (fun i o => match nc i o with Some f => Some (f (M - 1)) | None => None end) (fun _ => Some (-1));
  td_back_nc (Z.to_nat (M - 1)) dest M g lids cost nc tt ntt
    {| td_dist := fun n t => if t =? M - 1 then s_dist s n else init_dist dest n;
       td_tree := fun n t => if t =? M - 1 then match s_out s n with Some l => l | None => -1 end else -1 |}.

(** int (ceil (x)) of src/shortest_path.cpp:860-863 *)
Definition ceil (x : Q) : Z := - (Qnum (- x)%Q / Zpos (Qden (- x)%Q)).

(** src/shortest_path.cpp:821-876 [get_tdsp] with movement times.  [prev] is the
    last link of the path before the current one ([None] for the first). *)
Fixpoint td_follow_nc (fuel : nat) (g : graph) (dest M : Z) (tt : td_tt) (ntt : td_move) (s : tdtree) (src : Z)
  (cur t : Z) (prev : option Z) (acc : Q) (ns ls : list Z) : res (Q * (list Z * list Z)) :=
  if cur =? dest then Ok (acc, (ns ++ [dest], ls))
  else
    match fuel with
    | O => Err EFuel
    | S fuel' =>
        let l := td_tree s cur t in
        if l =? -1 then Ok ((-1)%Q, (ns ++ [cur], ls))
        else
          let mv := match prev with
                    | Some p => if cur =? src then None else ntt p l
                    | None => None
                    end in
          let acc1 := match mv with Some h => (acc + h t)%Q | None => acc end in
          let t1 := match mv with Some h => let e := t + ceil (h t) in if e <? M then e else M - 1 | None => t end in
          do _ <- guard (0 <=? t1) EUB;
          match tt l with
          | None => Err EUB
          | Some w =>
              do t' <- round_time M t1 (w t1);
              do e <- get_endpoints g l;
              td_follow_nc fuel' g dest M tt ntt s src (snd e) t' (Some l) (acc1 + w t1)%Q (ns ++ [cur]) (ls ++ [l])
          end
    end.
Definition get_tdsp_nc (fuel : nat) (g : graph) (dest M : Z) (tt : td_tt) (ntt : td_move) (s : tdtree) (src time : Z)
  : res (Q * (list Z * list Z)) :=
  do _ <- guard (0 <=? time) EUB;
  td_follow_nc fuel g dest M tt ntt s src src (if time <? M then time else M - 1) None 0%Q [] [].

(** an array allocated with [new double[m_max_interval]()] and its length *)
Record tab (A : Type) := { tb_len : Z; tb_val : Z -> A }.
Arguments tb_len {A}. Arguments tb_val {A}.

(** macposts/_ext/tdsp.cpp:206-223 (and 260-283): the row's array, allocated at
    its first row, receives m_max_interval values; writing behind the end of a
    shorter array is [EUB].  [d] is zero. *)
Definition write_row {A} (d : A) (M : Z) (old : option (tab A)) (vals : list A) : res (tab A) :=
  let a := match old with Some a => a | None => {| tb_len := M; tb_val := fun _ => d |} end in
  do _ <- guard (M <=? tb_len a) EUB;
  Ok {| tb_len := tb_len a;
        tb_val := fun j => if (0 <=? j) && (j <? M) then nth (Z.to_nat j) vals d else tb_val a j |}.

(** macposts/_ext/tdsp.cpp:181-228 [read_td_link_cost]: a row is its first
    column and the others; ndim = 2 is not modelled *)
Definition read_links {A} (d : A) (M nl : Z) (t : Z -> option (tab A)) (rows : list (Q * list A)) : res (Z -> option (tab A)) :=
  do _ <- guard ((Z.of_nat (length rows) =? nl) && forallb (fun r => Z.of_nat (length (snd r)) =? M) rows) EThrow;
  foldM (fun t r => do a <- write_row d M (t (trunc (fst r))) (snd r); Ok (upd t (trunc (fst r)) (Some a))) t rows.

(** macposts/_ext/tdsp.cpp:230-289 [read_td_node_cost]: the first of the three
    leading columns is not looked at *)
Definition read_moves (M nn : Z) (t : Z -> Z -> option (tab Q)) (rows : list (Q * Q * Q * list Q)) : res (Z -> Z -> option (tab Q)) :=
  do _ <- guard ((Z.of_nat (length rows) =? nn) && forallb (fun r => Z.of_nat (length (snd r)) =? M) rows) EThrow;
  foldM (fun t r => let i := trunc (snd (fst (fst r))) in let o := trunc (snd (fst r)) in
                    do a <- write_row 0%Q M (t i o) (snd r); Ok (set2 t i o (Some a))) t rows.

(** src/io.cpp:1258-1320 [read_td_link_cost]: the arrays read before are filled
    with zeros first.  The lines are taken as already split into numbers; a
    missing line or another number of words throws; rows beyond num_rows are not
    read. *)
Definition zero_tabs {A} (d : A) (M : Z) (t : Z -> option (tab A)) : Z -> option (tab A) :=
  fun l => match t l with
           | Some a => Some {| tb_len := tb_len a; tb_val := fun j => if (0 <=? j) && (j <? M) then d else tb_val a j |}
           | None => None
           end.
Definition read_links_txt {A} (d : A) (M nl : Z) (t : Z -> option (tab A)) (rows : list (Q * list A)) : res (Z -> option (tab A)) :=
  do _ <- guard (nl <=? Z.of_nat (length rows)) EThrow;
  read_links d M (Z.max nl 0) (zero_tabs d M t) (firstn (Z.to_nat nl) rows).

(** the object: macposts/_ext/tdsp.cpp:45-54.  [td_tr]: destination, number of
    intervals, nodes and contents of the tree. *)
Record tdsp := { td_g : graph; td_M : Z; td_nl : Z; td_nn : Z;
  td_ltt : Z -> option (tab Q); td_lcost : Z -> option (tab ext);
  td_ntt : Z -> Z -> option (tab Q); td_ncost : Z -> Z -> option (tab Q);
  td_tr : option (Z * Z * list Z * tdtree) }.

(** macposts/_ext/tdsp.cpp:69-85 *)
Definition new_tdsp : tdsp :=
  {| td_g := empty_graph; td_M := -1; td_nl := -1; td_nn := -1; td_ltt := fun _ => None; td_lcost := fun _ => None;
     td_ntt := fun _ _ => None; td_ncost := fun _ _ => None; td_tr := None |}.

(** macposts/_ext/tdsp.cpp:119-135 [initialize]; [g] is the graph of the folder *)
Definition td_init (g : graph) (M nl nn : Z) (o : tdsp) : tdsp :=
  {| td_g := g; td_M := M; td_nl := nl; td_nn := nn; td_ltt := td_ltt o; td_lcost := td_lcost o;
     td_ntt := td_ntt o; td_ncost := td_ncost o; td_tr := td_tr o |}.

(** macposts/_ext/tdsp.cpp:167-191 [read_td_cost_py] *)
Definition td_read (ltt : list (Q * list Q)) (lcost : list (Q * list ext)) (ntt ncost : list (Q * Q * Q * list Q)) (o : tdsp) : res tdsp :=
  do a <- read_links 0%Q (td_M o) (td_nl o) (td_ltt o) ltt;
  do b <- read_links (A := ext) (Some 0%Q) (td_M o) (td_nl o) (td_lcost o) lcost;
  do c <- (if td_nn o =? -1 then Ok (td_ntt o) else read_moves (td_M o) (td_nn o) (td_ntt o) ntt);
  do d <- (if td_nn o =? -1 then Ok (td_ncost o) else read_moves (td_M o) (td_nn o) (td_ncost o) ncost);
  Ok {| td_g := td_g o; td_M := td_M o; td_nl := td_nl o; td_nn := td_nn o; td_ltt := a; td_lcost := b;
        td_ntt := c; td_ncost := d; td_tr := td_tr o |}.

(** macposts/_ext/tdsp.cpp:137-165 [read_td_cost_txt] without movements
    (num_rows_node_file = -1) *)
Definition td_read_txt (ltt : list (Q * list Q)) (lcost : list (Q * list ext)) (o : tdsp) : res tdsp :=
  do a <- read_links_txt 0%Q (td_M o) (td_nl o) (td_ltt o) ltt;
  do b <- read_links_txt (A := ext) (Some 0%Q) (td_M o) (td_nl o) (td_lcost o) lcost;
  Ok {| td_g := td_g o; td_M := td_M o; td_nl := td_nl o; td_nn := td_nn o; td_ltt := a; td_lcost := b;
        td_ntt := td_ntt o; td_ncost := td_ncost o; td_tr := td_tr o |}.

(** the maps m_td_* as update_tree and get_tdsp see them
    (macposts/_ext/tdsp.cpp:304-314, 340-349): pointers to arrays *)
Definition arr {A} (t : Z -> option (tab A)) : Z -> option (Z -> A) :=
  fun l => match t l with Some a => Some (tb_val a) | None => None end.
Definition arr2 (t : Z -> Z -> option (tab Q)) : td_move := fun i => arr (t i).
(** the array of [l] has [M] places (macposts/_ext/tdsp.cpp:208, new double[m_max_interval]) *)
Definition long_enough {A} (M : Z) (t : Z -> option (tab A)) (l : Z) : bool :=
  match t l with Some a => M <=? tb_len a | None => true end.

(** macposts/_ext/tdsp.cpp:291-316 [build_tdsp_tree]; [lids] is the iteration
    order of the links.  An array shorter than the number of intervals is read
    behind its end: [EUB] (movement arrays: the lengths are not looked at). *)
Definition td_build (fuel : nat) (lids : list Z) (dest : Z) (o : tdsp) : res tdsp :=
  do _ <- guard (forallb (fun l => long_enough (td_M o) (td_ltt o) l && long_enough (td_M o) (td_lcost o) l) lids) EUB;
  do s <- (if td_nn o =? -1 then update_tree fuel (td_g o) lids dest (td_M o) (arr (td_lcost o)) (arr (td_ltt o))
           else update_tree_nc fuel (td_g o) lids dest (td_M o) (arr (td_lcost o)) (arr2 (td_ncost o)) (arr (td_ltt o)) (arr2 (td_ntt o)));
  Ok {| td_g := td_g o; td_M := td_M o; td_nl := td_nl o; td_nn := td_nn o; td_ltt := td_ltt o; td_lcost := td_lcost o;
        td_ntt := td_ntt o; td_ncost := td_ncost o; td_tr := Some (dest, td_M o, g_nids (td_g o), s) |}.

(** one row of the result: node, link, cost, travel time *)
Definition td_row := (Z * Z * ext * Q)%type.
(** macposts/_ext/tdsp.cpp:353-379: the result array *)
Fixpoint out_rows (ns ls : list Z) (c : ext) (x : Q) : res (list td_row) :=
  match ns with
  | [] => Ok []
  | n :: ns' =>
      match ns' with
      | [] => Ok [(n, -1, c, x)]
      | _ => match ls with
             | [] => Err EUB
             | l :: ls' => do r <- out_rows ns' ls' (Some (-1)%Q) (-1)%Q; Ok ((n, l, c, x) :: r)
             end
      end
  end.

(** macposts/_ext/tdsp.cpp:318-382 [extract_tdsp]; without a tree a null
    pointer is dereferenced: [EUB] *)
Definition td_extract (fuel : nat) (origin time : Z) (o : tdsp) : res (list td_row) :=
  do _ <- guard ((time <? td_M o) && (0 <=? time)) EAssert;
  match td_tr o with
  | None => Err EUB
  | Some (dest, M, nids, s) =>
      do _ <- guard (memb origin nids) EAssert;
      let c := td_dist s origin (if time <? M then time else M - 1) in
      do r <- (if td_nn o =? -1 then get_tdsp fuel (td_g o) dest M (arr (td_ltt o)) s origin time
               else get_tdsp_nc fuel (td_g o) dest M (arr (td_ltt o)) (arr2 (td_ntt o)) s origin time);
      out_rows (fst (snd r)) (snd (snd r)) c (fst r)
  end.
