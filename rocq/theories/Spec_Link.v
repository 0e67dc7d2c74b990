(** What an observer of a link can see, independently of how the link computes. *)
From Verif Require Import Base Spec_Path Model_Link.

(** All vehicles on a link, read from its exit back to its entrance. *)
Definition inside (b : body) : list Z :=
  match b with
  | BCtm cs => concat (rev (map c_q cs))
  | BPq _ q _ => map fst q
  | BLq q _ => q
  end.
Definition on_link (l : link) : list Z := l_fin l ++ inside (l_body l) ++ l_in l.

(** One loading interval as a link sees it: some of the vehicles waiting at the
    exit are taken away ([rest] stay, in order), [arr] arrive at the entrance,
    then the link runs its two update methods with random draws [r]. *)
Definition draws_ok (r : nat -> Q) : Prop := forall i, (0 <= r i <= 1)%Q.
Definition offered (l : link) (rest arr : list Z) : link := set_in (set_fin l rest) (l_in l ++ arr).
Definition interval (l : link) (arr : list Z) (l' : link) : Prop :=
  exists rest r has_next l1, subseq rest (l_fin l) /\ draws_ok r /\
    link_clear (offered l rest arr) = Ok l1 /\ link_evolve r has_next l1 = Ok l'.

(** [s 0 .. s N]: states of a link over N intervals with arrivals [arr 0 .. arr (N-1)] *)
Definition history (N : nat) (s : nat -> link) (arr : nat -> list Z) : Prop :=
  forall i, (i < N)%nat -> interval (s i) (arr i) (s (S i)).
Definition arrivals (n : nat) (arr : nat -> list Z) : list Z := concat (map arr (seq 0 n)).

(** Parameters a user would call valid. *)
Definition params_ok (p : lparam) : Prop :=
  (0 < p_hold p)%Q /\ (0 < p_flow p)%Q /\ (1 <= p_lanes p)%Z /\ (0 < p_len p)%Q /\
  (0 < p_ffs p)%Q /\ (0 < p_ut p)%Q /\ (0 < p_fs p)%Q.

(** Jam storage (vehicles, before scaling) of cell [j] of [n]: lanes x length of
    the cell x lane jam density, the density capped at 300 vehicles per mile as
    the link does; the last cell takes the remainder of the link. *)
Definition cell_length (p : lparam) (n j : nat) : Q :=
  let std := (p_ffs p * p_ut p)%Q in
  if (S j =? n)%nat then Qmax (p_len p - inject_Z (Z.of_nat j) * std) std else std.
Definition jam_storage (p : lparam) (n j : nat) : Q :=
  (inject_Z (p_lanes p) * cell_length p n j * Qmin (p_hold p) (300 # 1600))%Q.
(** vehicles in cell [j] of [n]; those waiting at the exit belong to the last cell *)
Definition in_cell (l : link) (n j : nat) (c : cell) : Z :=
  Zlen (c_q c) + (if (S j =? n)%nat then Zlen (l_fin l) else 0).
(** free-flow traversal time in intervals *)
Definition freeflow_intervals (p : lparam) : Z := Z.max 1 (Qfloor (p_len p / (p_ffs p * p_ut p))).

(** "Every cell can pass all its vehicles on": in this interval no cell but the last
    holds more vehicles than it can send and than the next cell can receive. *)
Definition uncongested (l : link) (arr : list Z) : Prop :=
  forall cs j c c', l_body l = BCtm cs -> nth_error cs j = Some c -> nth_error cs (S j) = Some c' ->
    let n := Zlen (c_q c ++ match j with O => l_in l ++ arr | _ => [] end) in
    (inject_Z n <= c_flow c * p_fs (l_par l) /\ inject_Z n <= cell_supply (p_fs (l_par l)) c' * p_fs (l_par l))%Q.

(** u comes before v in l *)
Definition precedes (u v : Z) (l : list Z) : Prop := exists a b c, l = a ++ u :: b ++ v :: c.

(** a link as its constructor leaves it *)
Definition fresh_link (p : lparam) (l : link) : Prop :=
  match p_kind p with KCtm => make_ctm p | KPq => make_pq p | KLq => make_lq p end = Ok l.

(** "The step is stable" for a link queue, in its effective parameters: congested
    branch well formed, capacity inflow on top of critical density fits, and the
    backward wave does not cross the link within one interval. *)
Definition lq_stable (p : lparam) : Prop :=
  (0 < p_len p /\ 0 < p_ut p /\ 0 < p_fs p /\ 0 < p_ffs p /\ 0 <= p_flow p /\
   p_flow p / p_ffs p < p_hold p /\
   (p_flow p * p_ut p + p_flow p / p_ffs p * p_len p <= p_hold p * p_len p) /\
   p_flow p / (p_hold p - p_flow p / p_ffs p) * p_ut p <= p_len p)%Q.

(** a congestible link for the density-based travel time *)
Definition tt_ok (p : lparam) : Prop :=
  ((1 <= p_lanes p)%Z /\ 0 < p_len p /\ 0 < p_ffs p /\ 0 < p_flow p /\ p_flow p / p_ffs p < p_hold p)%Q.
(** density per lane, and the volume at critical density *)
Definition density (p : lparam) (flow : Q) : Q := (flow / inject_Z (p_lanes p) / p_len p)%Q.
Definition critical (p : lparam) : Q := (p_flow p / p_ffs p * p_len p * inject_Z (p_lanes p))%Q.
