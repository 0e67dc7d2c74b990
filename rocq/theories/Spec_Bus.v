(** What the properties about passengers and buses say, without the functions of the model. *)
From Verif Require Import Base Model_Num Model_Bus.

(** passenger [p] is in exactly one container, once; in none *)
Definition once (at_ : place -> list Z) (p : Z) : Prop :=
  exists x, cnt p (at_ x) = 1%nat /\ forall y, y <> x -> ~ In p (at_ y).
Definition nowhere (at_ : place -> list Z) (p : Z) : Prop := forall x, ~ In p (at_ x).

(** Every passenger made so far is either in exactly one container or has been received,
    once; nobody else is anywhere *)
Definition accounted (y : sys) : Prop :=
  0 <= y_num y /\ forall p,
    (1 <= p <= y_num y ->
       (once (w_at (y_w y)) p /\ ~ In p (y_gone y)) \/ (nowhere (w_at (y_w y)) p /\ cnt p (y_gone y) = 1%nat)) /\
    (~ 1 <= p <= y_num y -> nowhere (w_at (y_w y)) p /\ ~ In p (y_gone y)).

(** orders and shuffles are orders and shuffles *)
Definition shuffle (f : list Z -> list Z) : Prop := forall l, Permutation l (f l).
Definition fair (e : event) : Prop :=
  match e with EEvolve _ _ ord => shuffle ord | EDrive _ sh _ _ _ _ => shuffle sh | _ => True end.

(** No bus carries more than its capacity, in passengers of the demand: one simulated
    passenger is 1 / flow_scalar of them *)
Definition within_capacity (n : tnet) (w : tw) : Prop :=
  forall b, (inject_Z (Z.of_nat (length (w_at w (PBus b)))) <= inject_Z (b_cap (w_bus w b)) * k_fs n)%Q.

(** passenger [p] aboard a bus at stop [s] gets off there: the next link is the alighting
    link of the stop; passenger [p] waits there for route [r] *)
Definition gets_off (n : tnet) (w : tw) (s p : Z) : Prop :=
  exists x, p_next (w_pas w p) = Some x /\ s_alight (w_stop w s) = Some x /\ k_kind n x = Alighting.
Definition waits_for (n : tnet) (w : tw) (r p : Z) : Prop :=
  exists x, p_next (w_pas w p) = Some x /\ k_kind n x = Riding r.

(** bus [b] is at stop [s], it is its turn to stop, all four links of the stop exist, those
    aboard go on or get off, those in line board *)
Definition orderly (n : tnet) (f b s : Z) (w : tw) : Prop :=
  let r := w_bus w b in let st := w_stop w s in
  b_route r <> -1 /\ b_route r = s_route st /\ In b (s_queue st) /\ 0 <= b_stopped r /\
  (b_stopped r = 0 -> s_count st = f - 1) /\ (0 < b_stopped r -> s_count st = f) /\
  exists il ol bl al,
    s_in st = Some il /\ s_out st = Some ol /\ s_board st = Some bl /\ s_alight st = Some al /\ bl <> al /\
    k_kind n ol = Riding (b_route r) /\ k_kind n al = Alighting /\
    (forall p, In p (w_at w (PBus b)) -> p_next (w_pas w p) = Some al \/ p_next (w_pas w p) = Some ol) /\
    (forall p, In p (w_at w (PDone bl)) -> p_next (w_pas w p) = Some ol).

(** [k] intervals in which the bus is held at the stop, boarding and alighting *)
Inductive stays (n : tnet) (f : Z) (sh : list Z -> list Z) (b s : Z) : nat -> tw -> tw -> Prop :=
| stays_0 w : stays n f sh b s 0 w w
| stays_S k w w1 w2 : at_stop n f sh b s w = Ok (true, w1) -> stays n f sh b s k w1 w2 -> stays n f sh b s (S k) w w2.

(** what others do between two updates of link [l] does not touch [p] *)
Definition elsewhere (p l : Z) (w w' : tw) : Prop :=
  (forall q, once (w_at w') q \/ nowhere (w_at w') q) /\
  cnt p (w_at w' (PIn l)) = cnt p (w_at w (PIn l)) /\ cnt p (w_at w' (PWay l)) = cnt p (w_at w (PWay l)) /\
  cnt p (w_at w' (PDone l)) = cnt p (w_at w (PDone l)) /\ w_age w' p = w_age w p /\ w_pas w' p = w_pas w p.
(** [k] updates of a walking link *)
Inductive walks (l stamp p : Z) : nat -> tw -> tw -> Prop :=
| walks_0 w : walks l stamp p 0 w w
| walks_S k w w1 w2 w3 ord : walks l stamp p k w w1 -> elsewhere p l w1 w2 -> clear_walk l w2 = Ok w3 -> shuffle ord ->
    walks l stamp p (S k) w (evolve_link l stamp ord w3).

(** [l] is made of [a] and [b], each in the same order *)
Inductive interleaved {A} : list A -> list A -> list A -> Prop :=
| inter_nil : interleaved [] [] []
| inter_l x l a b : interleaved l a b -> interleaved (x :: l) (x :: a) b
| inter_r x l a b : interleaved l a b -> interleaved (x :: l) a (x :: b).
