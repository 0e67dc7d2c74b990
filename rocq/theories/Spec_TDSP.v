(** Independent vocabulary for time-dependent shortest paths. *)
From Verif Require Import Base Model_Num Model_Graph Spec_Graph.

(** interval at which the far end of a link is reached when the link is entered
    at interval [t] with travel time [x]: rounded up (C34), capped at the last *)
Definition next_interval (M t : Z) (x : Q) (t' : Z) : Prop :=
  exists n, round_up_time x tol = Ok n /\ t' = Z.min (t + n) (M - 1).

(** [td_way g cost tt M u t ls v c x]: leaving [u] at interval [t] along [ls]
    leads to [v]; [c] sums the costs and [x] the travel times of the links at the
    intervals at which they are entered. *)
Inductive td_way (g : graph) (cost : Z -> Z -> option Q) (tt : Z -> Z -> Q) (M : Z) : Z -> Z -> list Z -> Z -> Q -> Q -> Prop :=
| td_nil u t : td_way g cost tt M u t [] u 0 0
| td_cons u t l w t' ls v k c x : get_endpoints g l = Ok (u, w) -> cost l t = Some k ->
    next_interval M t (tt l t) t' -> td_way g cost tt M w t' ls v c x ->
    td_way g cost tt M u t (l :: ls) v (k + c) (tt l t + x).

(** least cost of any way, [None] when there is no way *)
Definition td_least g cost tt M u t v (d : option Q) : Prop :=
  match d with
  | None => forall ls c x, ~ td_way g cost tt M u t ls v c x
  | Some d => (exists ls c x, td_way g cost tt M u t ls v c x /\ (c == d)%Q) /\
              (forall ls c x, td_way g cost tt M u t ls v c x -> (d <= c)%Q)
  end.

Definition td_tables_ok (g : graph) (M : Z) (cost : Z -> option (Z -> option Q)) (tt : Z -> option (Z -> Q)) : Prop :=
  forall l e, get_endpoints g l = Ok e -> (exists w, tt l = Some w) /\
    exists c, cost l = Some c /\ forall t, 0 <= t < M -> match c t with Some q => (0 <= q)%Q | None => True end.
Definition cost_at (cost : Z -> option (Z -> option Q)) (l t : Z) : option Q :=
  match cost l with Some c => c t | None => None end.
Definition tt_at (tt : Z -> option (Z -> Q)) (l t : Z) : Q :=
  match tt l with Some w => w t | None => 0%Q end.
