(** Lowest-cost path queries of the two-class API: macposts/_ext/mcdta.cpp:1281-1430. *)
From Verif Require Import Base Model_Num Model_Graph Model_SP Model_TDSP Model_Path Model_Due.

(** macposts/_ext/mcdta.cpp:1303-1310, the tree of one destination.  [len] is the
    number of entries of the arrays of m_link_cost_map and m_link_tt_map
    (macposts/_ext/mcdta.cpp:874-882: the loading intervals at the first call);
    entries up to [M - 1] are read, so shorter arrays are read outside: [EUB].
    Simplification: reading outside is also assumed when [len = M - 1] and no link
    enters the destination. *)
Definition lc_tree (fuel : nat) (g : graph) (lids : list Z) (M len : Z) (cost : td_cost) (tt : td_tt) (dest : Z) : res tdtree :=
  do _ <- guard ((M <=? len) || match lids with [] => true | _ => false end) EUB;
  update_tree fuel g lids dest M cost tt.

(** macposts/_ext/mcdta.cpp:1281-1313 [update_tdsp_tree]: trees by destination
    node; a later tree of the same node is not inserted *)
Definition lc_insert (m : Z -> option tdtree) (d : Z) (s : tdtree) : Z -> option tdtree :=
  match m d with Some _ => m | None => upd m d (Some s) end.
Definition lc_update (fuel : nat) (g : graph) (lids : list Z) (ai mx len : Z) (cost : td_cost) (tt : td_tt) (dests : list Z)
  : res (Z -> option tdtree) :=
  foldM (fun m d => do s <- lc_tree fuel g lids (ai * mx) len cost tt d; Ok (lc_insert m d s)) (fun _ => None) dests.

(** macposts/_ext/mcdta.cpp:1402-1428: the four rows *)
Definition lc_rows (exist : bool) (cost : Z) (ns ls : list Z) : list (list Z) :=
  let pad := repeat (-1) (length ns - 1) in
  [ (if exist then 1 else 0) :: pad; cost :: pad; ns; ls ++ [-1] ].

(** macposts/_ext/mcdta.cpp:1316-1430 [get_lowest_cost_path].  [ps o d] is the
    car path set of the pair; [None] when the table has none.  A destination
    without a tree dereferences end(): [EUB]. *)
Definition lc_get (fuel : nat) (g : graph) (ai mx : Z) (tt : td_tt) (trees : Z -> option tdtree)
  (ps : Z -> Z -> option (list dpath)) (start o d : Z) : res (list (list Z)) :=
  do _ <- guard (start + ai <=? ai * mx) EAssert;
  match ps o d with
  | None => Err EAssert
  | Some pset =>
      match trees d with
      | None => Err EUB
      | Some s =>
          do r <- get_tdsp fuel g d (ai * mx) tt s o start;
          do _ <- guard (Qltb 0 (fst r)) EAssert;
          do q <- eliminate_cycles (fst (snd r)) (snd (snd r));
          match td_dist s o (if start <? ai * mx then start else ai * mx - 1) with
          | None => Err EAssert
          | Some c => Ok (lc_rows (is_in pset (snd q)) (trunc c) (fst q) (snd q))
          end
      end
  end.
