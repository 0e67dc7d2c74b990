(** src/dnode.cpp:541-720: flow computation of the general road junction
    (MNM_Dnode_GRJ).  Quantities are indexed by link ID instead of position.  The
    divisions of get_theta are unguarded, so results are IEEE values. *)
From Verif Require Import Base Model_Num Model_CC Model_Path Model_Link Model_World Model_Node.

(** Values of a C++ double: exact rationals (no rounding), infinities, not-a-number. *)
Inductive ieee := Fin (q : Q) | PInf | MInf | NaN.

(** [a / b] for finite a, b; every zero is +0 (src/dnode.cpp:706) *)
Definition idiv (a b : Q) : ieee :=
  if Qeq_bool b 0 then (if Qeq_bool a 0 then NaN else if Qltb 0 a then PInf else MInf) else Fin (a / b).

(** [x < y] *)
Definition ilt (x y : ieee) : bool :=
  match x, y with
  | Fin a, Fin b => Qltb a b
  | MInf, Fin _ | MInf, PInf | Fin _, PInf => true
  | _, _ => false
  end.

(** [x * q] for finite q *)
Definition imul (x : ieee) (q : Q) : ieee :=
  match x with
  | Fin a => Fin (a * q)
  | NaN => NaN
  | PInf => if Qeq_bool q 0 then NaN else if Qltb 0 q then PInf else MInf
  | MInf => if Qeq_bool q 0 then NaN else if Qltb 0 q then MInf else PInf
  end.

(** [std::min (x, y)]: [(y < x) ? y : x] *)
Definition imin (x y : ieee) : ieee := if ilt y x then y else x.

(** [*std::max_element]: the first element is kept unless a later one is larger;
    reading through the end iterator of an empty vector is undefined: [None]. *)
Definition imax (l : list ieee) : option ieee :=
  match l with [] => None | x :: r => Some (fold_left (fun m y => if ilt m y then y else m) r x) end.

(** src/dnode.cpp:617-652 getOnLocations, powerSet: subset number i (in binary)
    contains the elements at the positions of the one bits, so the subsets with the
    k-th element follow all subsets of the first k ones.  (More than 30 in-links
    overflow the counter; not modelled.) *)
Definition power_set (l : list Z) : list (list Z) :=
  fold_left (fun acc x => acc ++ map (fun s => s ++ [x]) acc) l [[]].

(** src/dnode.cpp:603-615 prepare_outflux *)
Definition outflux (fs : Q) (w : world) (a : Z) : Q := (inject_Z (Zlen (l_fin (w_link w a))) / fs)%Q.
Definition outcap (fs : Q) (w : world) (a : Z) : res Q :=
  do s <- link_supply (w_link w a);
  Ok (if Qltb (outflux fs w a) s then s else outflux fs w a).

Section Theta.
  (** demand per in-link [d], capacity [C], turning demand [m], supply [s] *)
  Variables (d C : Z -> Q) (m : Z -> Z -> Q) (s : Z -> Q).

  (** [MNM_Ults::divide (m_demand[i * _offset + j], m_supply[j])] *)
  Definition ratio (a b : Z) : Q := divide (m a b) (s b).

  (** src/dnode.cpp:679-706: the bound of out-link [b] for the subset [A] *)
  Definition subset_bound (ins : list Z) (b : Z) (A : list Z) : ieee :=
    idiv (s b - sumQ (map (fun a => if memb a A then 0%Q else (d a * ratio a b)%Q) ins))
         (sumQ (map (fun a => if memb a A then (C a * ratio a b)%Q else 0%Q) ins)).

  (** src/dnode.cpp:675-708: the bound of one out-link; the maximum over non-empty subsets *)
  Definition out_bound (ins : list Z) (b : Z) : option ieee :=
    imax (map (subset_bound ins b) (filter (fun A => negb (Zlen A =? 0)) (power_set ins))).

  Fixpoint all_some (l : list (option ieee)) : option (list ieee) :=
    match l with
    | [] => Some []
    | Some x :: r => match all_some r with Some k => Some (x :: k) | None => None end
    | None :: _ => None
    end.

  (** src/dnode.cpp:654-720 get_theta *)
  Definition get_theta (ins outs : list Z) : res ieee :=
    match imax (map (fun a => Fin (divide (d a) (C a))) ins), all_some (map (out_bound ins) outs) with
    | Some e1, Some bs => match imax bs with Some e2 => Ok (imin e1 e2) | None => Err EUB end
    | _, _ => Err EUB
    end.

  (** src/dnode.cpp:575-601 compute_flow; without in-links or out-links the flow
      matrix is empty *)
  Definition grj_flow (ins outs : list Z) : res (Z -> Z -> ieee) :=
    if (Zlen ins =? 0) || (Zlen outs =? 0) then Ok (fun _ _ => Fin 0)
    else do th <- get_theta ins outs;
         Ok (fun a b => imul (imin (Fin (d a)) (imul th (C a))) (ratio a b)).
End Theta.

(** The value of a flow; the conversion to a number of vehicles (src/dnode.cpp:295)
    of an infinite or undefined value is undefined behaviour. *)
Definition finite (x : ieee) : res Q := match x with Fin q => Ok q | _ => Err EUB end.

(** src/dnode.cpp:479-495 evolve of a general junction: the flows are computed from
    the state [w], then rounded, recorded and moved as for every junction. *)
Definition grj_evolve (fs : Q) (ins outs : list Z) (D : draws) (t n : Z) (w : world) : res world :=
  do sup <- mapM (fun b => do s <- link_supply (w_link w b); Ok (b, s)) outs;
  do cap <- mapM (fun a => do c <- outcap fs w a; Ok (a, c)) ins;
  let look l := fun x => match find (fun p => fst p =? x) l with Some p => snd p | None => 0%Q end in
  do fl <- grj_flow (outflux fs w) (look cap) (demand fs w) (look sup) ins outs;
  do _ <- mapM (fun a => mapM (fun b => finite (fl a b)) outs) ins;
  junction_evolve fs ins outs (fun _ a b => match fl a b with Fin q => q | _ => 0%Q end) D t n w.
