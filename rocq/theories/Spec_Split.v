(** Independent vocabulary for the split of travellers over modes, minutes and paths. *)
From Verif Require Import Base Model_SP Model_Split.
Local Open Scope Q_scope.

(** a share table gives mode [m] the share [s] *)
Definition gets (l : list (mode * Q)) (m : mode) (s : Q) : Prop := In (m, s) l.
(** exp in floating point: never negative, never decreasing; positive if it does not underflow *)
Definition exp_like (ex : Q -> Q) : Prop := (forall x, 0 <= ex x) /\ (forall x y, x <= y -> ex x <= ex y) /\ (forall x y, x == y -> ex x == ex y).

(** demand of mode [m] in minute [i], and over the [n] minutes of an assignment interval *)
Definition in_minute (p : opair) (m : mode) (i : nat) : Q := match op_dem p m with Some v => v i | None => 0 end.
Definition in_interval (n inter : nat) (p : opair) (m : mode) : Q := sumQ (map (fun k => in_minute p m (inter * n + k)) (seq 0 n)).
(** travellers of a pair released in an interval, all modes *)
Definition released (n inter : nat) (p : opair) : Q := in_interval n inter p Driving + in_interval n inter p Transit + in_interval n inter p Pnr.
(** the minutes of an interval *)
Definition minute_of (n inter i : nat) : Prop := (inter * n <= i < inter * n + n)%nat.

(** a mode that travellers of the pair can use *)
Definition usable (cf : sconf) (p : opair) (m : mode) : Prop := sc_modes cf m = true /\ op_conn p m = Some true.

(** flow of a list of paths in an interval *)
Definition flow (ps : list mpath) (c : nat) : Q := sumQ (map (fun p => mp_flow p c) ps).
(** disutility of a path in an interval, and a path used in an interval *)
Definition dis_at (p : mpath) (c : nat) (x : Q) : Prop := nth_error (mp_dis p) c = Some x.
Definition used (p : mpath) (c : nat) : Prop := 0 < mp_flow p c.
(** every used path and interval has a disutility *)
Definition costs_known (total : nat) (pairs : list (list mpath)) : Prop :=
  forall ps p c, In ps pairs -> In p ps -> (c < total)%nat -> used p c -> exists x, dis_at p c x.
(** used paths and intervals of a pair are equally good; the same for each interval *)
Definition balanced (total : nat) (ps : list mpath) : Prop :=
  forall p c p' c' x x', In p ps -> In p' ps -> (c < total)%nat -> (c' < total)%nat -> used p c -> used p' c' ->
    dis_at p c x -> dis_at p' c' x' -> x == x'.
Definition balanced_per_interval (total : nat) (ps : list mpath) : Prop :=
  forall p p' c x x', In p ps -> In p' ps -> (c < total)%nat -> used p c -> used p' c ->
    dis_at p c x -> dis_at p' c x' -> x == x'.
(** equilibrium: a used path and interval is not worse than any other *)
Definition no_better (total : nat) (ps : list mpath) : Prop :=
  forall p c p' c' x x', In p ps -> In p' ps -> (c < total)%nat -> (c' < total)%nat -> used p c ->
    dis_at p c x -> dis_at p' c' x' -> x <= x'.

(** what a connectivity table says of a pair and mode *)
Definition says (t : ctable) (k : Z * Z) (m : mode) (b : bool) : Prop := exists c, In (k, c) t /\ c m = Some b.
