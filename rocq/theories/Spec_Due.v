(** Independent vocabulary for equilibrium iterations on a path table. *)
From Verif Require Import Base Model_Num Model_Graph Model_Due Spec_Graph Spec_TDSP.
Local Open Scope Q_scope.

(** flow of a set of paths in assignment interval [c]; over all intervals *)
Definition flow (ps : list dpath) (c : Z) : Q := sumQ (map (fun p => dp_buf p c) ps).
Definition flow_all (n : nat) (ps : list dpath) : Q := sumQ (map (fun c => flow ps (Z.of_nat c)) (seq 0 n)).
Definition interval (n : nat) (c : Z) : Prop := (0 <= c < Z.of_nat n)%Z.
Definition no_negative_flow (n : nat) (ps : list dpath) : Prop := forall p c, In p ps -> interval n c -> 0 <= dp_buf p c.
Definition table_no_negative_flow (n : nat) (t : ptable) : Prop := forall o d ps, t o d = Some ps -> no_negative_flow n ps.

(** the same OD pairs, related pair by pair *)
Definition pairwise (R : list dpath -> list dpath -> Prop) (t t' : ptable) : Prop :=
  forall o d, match t o d, t' o d with Some ps, Some ps' => R ps ps' | None, None => True | _, _ => False end.
Definition same_flow_per_interval (n : nat) (ps ps' : list dpath) : Prop := forall c, interval n c -> flow ps' c == flow ps c.
Definition same_total_flow (n : nat) (ps ps' : list dpath) : Prop := flow_all n ps' == flow_all n ps.
(** every route that was in the set is still there *)
Definition keeps_routes (ps ps' : list dpath) : Prop := forall ls, In ls (map dp_links ps) -> In ls (map dp_links ps').

(** disutility of path [p] in interval [c] *)
Definition has_dis (p : dpath) (c : Z) (x : Q) : Prop := nth_error (dp_dis p) (Z.to_nat c) = Some x.
Definition costs_known (n : nat) (ps : list dpath) : Prop := forall p, In p ps -> (n <= length (dp_dis p))%nat.

(** user equilibrium: no used path and interval is worse than another of its pair *)
Definition equilibrium (n : nat) (ps : list dpath) : Prop :=
  forall p c p' c' x x', In p ps -> In p' ps -> interval n c -> interval n c' -> 0 < dp_buf p c ->
    has_dis p c x -> has_dis p' c' x' -> x <= x'.
(** the same with the departure interval given *)
Definition equilibrium_per_interval (n : nat) (ps : list dpath) : Prop :=
  forall p p' c x x', In p ps -> In p' ps -> interval n c -> 0 < dp_buf p c ->
    has_dis p c x -> has_dis p' c x' -> x <= x'.

(** disutility of leaving at [i] and travelling [w] intervals: value of time,
    plus a penalty per interval early or late with respect to the target *)
Definition disutility (k : due_conf) (i w x : Q) : Prop :=
  (target k <= i + w /\ x == vot k * w + late k * (i + w - target k)) \/
  (i + w <= target k /\ x == vot k * w + early k * (target k - (i + w))).
