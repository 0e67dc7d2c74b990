(** Choosing among alternatives with given shares. *)
From Verif Require Import Base Spec_Path Model_World.
Local Open Scope Q_scope.

(** Cut the unit interval into pieces as long as the shares: [r] is in the piece of
    alternative [i], up to one part in ten thousand. *)
Definition in_slice (ps : list Q) (r : Q) (i : nat) : Prop :=
  (i < length ps)%nat /\ ((0 < i)%nat -> sumQ (firstn i ps) < r) /\ r <= sumQ (firstn (S i) ps) + (1 # 10000).
(** Shares in proportion to flows; equal shares when all flows are zero. *)
Definition shares (ws : list Q) : list Q :=
  if Qeq_bool (sumQ ws) 0 then map (fun _ => 1 / inject_Z (Z.of_nat (length ws))) ws else map (fun x => x / sumQ ws) ws.
(** The flow of a route in column [col] of the path buffer. *)
Definition flow_in (col : Z) (e : pentry) : Q := nth (Z.to_nat col) (e_buf e) 0.
(** [p] is the route from [o] to [d] that random number [r] picks when the routes of the table have flows [f]. *)
Definition picked (pt : ptable) (f : pentry -> Q) (o d : Z) (r : Q) (p : option rpath) : Prop :=
  exists es e i, In ((o, d), es) pt /\ nth_error es i = Some e /\ in_slice (shares (map f es)) r i /\ p = Some (e_path e).
(** The routes and buffers of a path table, without its current shares. *)
Definition plan (pt : ptable) : list ((Z * Z) * list (rpath * list Q)) :=
  map (fun x => (fst x, map (fun e => (e_path e, e_buf e)) (snd x))) pt.
