(** Average waiting times at intersections after a two-class run. *)
From Verif Require Import Base Model_Num Model_CC Model_Path Model_Link Model_World Model_Node Model_McLink Model_McNode Model_McSim.
Local Open Scope Q_scope.

(** m_tot_wait_time_at_intersection_car / _truck of a link (src/multiclass.h:71-73) *)
Definition wait_k (k : bool) (l : mlink) : Q := if k then ml_wait_t l else ml_wait_c l.
(** [m_recorder.back ().second]; an empty record is undefined behaviour *)
Definition last_count (c : curve) : res Q := match c with [] => Err EUB | _ => Ok (snd (last c (0, 0))) end.
(** src/multiclass.cpp:4714-4753 [get_average_waiting_time_at_intersection_car] (_truck: [k] is [true]) *)
Definition avg_wait_k (w : mworld) (k : bool) (l : Z) : res Q :=
  match mk_Nin (mw_cc w) k l with
  | None => Err EThrow
  | Some c => do n <- last_count c; Ok (wait_k k (mw_link w l) / (n + (1 # 1000000)))
  end.
(** src/multiclass.cpp:4687-4712 [get_average_waiting_time_at_intersection] *)
Definition avg_wait (w : mworld) (l : Z) : res Q :=
  match mk_Nin (mw_cc w) false l, mk_Nin (mw_cc w) true l with
  | Some c, Some c' =>
      do n <- last_count c; do n' <- last_count c';
      Ok (ml_wait (mw_link w l) / (n + n' + (1 # 1000000)))
  | _, _ => Err EThrow
  end.
(** macposts/_ext/mcdta.cpp:1431-1477: the arrays of [get_waiting_time_at_intersections] and of its
    _car and _truck variants, one number per registered link *)
Definition report_wait (w : mworld) (links : list Z) : res (list Q) := mapM (avg_wait w) links.
Definition report_wait_k (w : mworld) (k : bool) (links : list Z) : res (list Q) := mapM (avg_wait_k w k) links.
