(** Vocabulary for the link transmission model. *)
From Verif Require Import Base Model_Link Model_Ltm.
Local Open Scope Q_scope.

(** A history of a link: in every interval the nodes take the front [taken] of the vehicles
    ready to leave and deliver [inc]; the random draw is arbitrary.  [entered] and [left]
    list the vehicles that came in and went out, in order. *)
Inductive fifo_run : ltm -> list Z -> list Z -> ltm -> Prop :=
| fifo_start x : fifo_run x [] [] x
| fifo_step x r taken stay inc y entered gone z :
    lt_fin x = (taken ++ stay)%list -> lt_interval r stay inc x = Ok y ->
    fifo_run y entered gone z ->
    fifo_run x (inc ++ entered)%list (taken ++ gone)%list z.

(** Any history: [(r, keep, inc)] is an interval in which the nodes leave the vehicles chosen by
    [keep] and deliver [inc]. *)
Definition event := (Q * (Z -> bool) * list Z)%type.
Fixpoint ltm_run (es : list event) (x : ltm) : res ltm :=
  match es with
  | [] => Ok x
  | (r, keep, inc) :: es =>
      do y <- lt_interval r (filter keep (lt_fin x)) inc x;
      ltm_run es y
  end.
Definition entering (es : list event) : list Z := concat (map snd es).
(** the random draws are not negative *)
Definition draws_nonneg (es : list event) : Prop := forall e, In e es -> 0 <= fst (fst e).
(** physical parameters *)
Definition physical (p : lparam) : Prop :=
  0 < p_ut p /\ 0 < p_fs p /\ 0 < p_ffs p /\ 0 <= p_len p /\ 0 <= p_hold p /\ 0 <= p_flow p /\ (0 <= p_lanes p)%Z.
