(** Two-class loading with time-dependent link attributes and tolls. *)
From Verif Require Import Base Model_Num Model_Link Model_World Model_Sim Model_McLink Model_McNode Model_McSim Model_Text Model_Io Model_Mio.
Local Open Scope Z_scope.

(** the links of the factory are those of the network; [a_toll]: m_toll, m_toll_car and m_toll_truck
    of src/link.h:66 and src/multiclass.h:34-35 *)
Record astate := { a_s : mlstate; a_toll : Z -> tolls }.

(** src/multiclass.cpp:3499-3513: one row.  The element found for a link that is not there is the end
    of the map and is used. *)
Definition attr_row (M : mnet) (s : mworld * (Z -> tolls)) (x : Z * tdrow) : res (mworld * (Z -> tolls)) :=
  let '(w, tl) := s in
  do _ <- guard (memb (fst x) (mn_links M)) EUB;
  do l' <- mlink_modify (mw_link w (fst x)) (td_prop (snd x));
  let c := td_toll (snd x) in
  Ok (mset_link w (fst x) l', upd tl (fst x) {| tl_all := c; tl_car := c; tl_truck := c |}).
(** src/multiclass.cpp:3491-3518 [update_link_attribute]; [ord]: the order of the hash map *)
Definition attr_update (M : mnet) (ord : list (Z * tdrow) -> list (Z * tdrow)) (T : tdtable) (t : Z) (w : mworld) (tl : Z -> tolls) : res (mworld * (Z -> tolls)) :=
  foldM (attr_row M) (w, tl) (ord (T t)).
(** src/dta.cpp:538-689 [load_once] with its first statement (547) *)
Definition attr_once (M : mnet) (ord : list (Z * tdrow) -> list (Z * tdrow)) (T : tdtable) (D : mdrawsI) (t assign : Z) (w : mworld) (tl : Z -> tolls) : res (mworld * (Z -> tolls)) :=
  do s <- attr_update M ord T t w tl;
  do w' <- mload_once M D t assign (fst s);
  Ok (w', snd s).
(** src/dta.cpp:692-718: the body of the loop, as [mloop_body] *)
Definition attr_body (M : mnet) (ord : list (Z * tdrow) -> list (Z * tdrow)) (T : tdtable) (D : Z -> mdrawsI) (a : astate) : res astate :=
  let s := a_s a in
  do x <- attr_once M ord T (D (ms_cur s)) (ms_cur s) (ms_assign s) (ms_w s) (a_toll a);
  let cur := ms_cur s + 1 in
  Ok {| a_s := {| ms_cur := cur; ms_assign := if Z.rem cur (mn_freq M) =? 0 then ms_assign s + 1 else ms_assign s;
                  ms_w := fst x; ms_enr := ms_enr s ++ [f_enroute (mw_fac (fst x))] |};
        a_toll := snd x |}.
(** [k] iterations *)
Fixpoint attr_run (M : mnet) (ord : list (Z * tdrow) -> list (Z * tdrow)) (T : tdtable) (D : Z -> mdrawsI) (k : nat) (a : astate) : res astate :=
  match k with
  | O => Ok a
  | S k' => do a1 <- attr_run M ord T D k' a; attr_body M ord T D a1
  end.
(** src/dta.cpp:692-729 [loading], at most [fuel] iterations *)
Fixpoint attr_loading (M : mnet) (ord : list (Z * tdrow) -> list (Z * tdrow)) (T : tdtable) (D : Z -> mdrawsI) (fuel : nat) (a : astate) : res astate :=
  if mloop_cond M (a_s a)
  then match fuel with
       | O => Err EFuel
       | S fuel' => do a1 <- attr_body M ord T D a; attr_loading M ord T D fuel' a1
       end
  else Ok a.
