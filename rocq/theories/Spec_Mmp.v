(** What is said about passenger paths and the updates of their flows. *)
From Verif Require Import Base Model_Num Model_SP Model_Node Model_Split Model_Mmp.
Local Open Scope Q_scope.

(** the paths of the table, whatever their mode *)
Definition listed_path (o : odset) (p : ppath) : Prop := exists m ps, In (m, ps) o /\ In p ps.
(** passengers leaving in an assignment interval, over all paths; and over all intervals *)
Definition leaving (o : odset) (c : nat) : Q := sumQ (map (fun s => sumQ (map (fun p => pp_flow p c) (snd s))) o).
Definition travellers (n : nat) (o : odset) : Q := sumQ (map (leaving o) (seq 0 n)).
(** no path carries a negative number of passengers *)
Definition no_negative (n : nat) (o : odset) : Prop := forall p c, listed_path o p -> (c < n)%nat -> 0 <= pp_flow p c.
(** same modes, paths in the same places, each related by R *)
Definition path_by_path (R : ppath -> ppath -> Prop) (o o' : odset) : Prop :=
  Forall2 (fun s s' => fst s' = fst s /\ Forall2 R (snd s) (snd s')) o o'.
(** the table itself, or the table with one more path, k, without passengers *)
Definition perhaps_with (k : pkey) (o o1 : odset) : Prop :=
  o1 = o \/ exists a m ps b d, o = a ++ (m, ps) :: b /\ o1 = a ++ (m, ps ++ [PP k (fun _ => 0) d]) :: b /\ m = key_mode k.
(** the same itinerary: people, parking lot and links of a car trip, links of a bus trip, links
    by car and by bus of a park-and-ride trip *)
Definition same_trip (a b : pkey) : Prop :=
  match a, b with
  | KDrive n l p, KDrive n' l' p' => n = n' /\ l = l' /\ p = p'
  | KBus p, KBus p' => p = p'
  | KPnr _ d b, KPnr _ d' b' => d = d' /\ b = b'
  | _, _ => False
  end.
(** no two places of the table hold the same itinerary *)
Definition all_different (o : odset) : Prop := forall a p b q c, concat (map snd o) = a ++ p :: b ++ q :: c -> ~ same_trip (pp_key p) (pp_key q).
(** every path is filed under its mode, one set per mode *)
Definition filed (o : odset) : Prop := NoDup (map fst o) /\ (forall m ps p, In (m, ps) o -> In p ps -> key_mode (pp_key p) = m).

(** travel: the time of a link when entered at t is the table's entry for t, or the last one
    run; whole intervals, at least one, never a whole interval too many *)
Definition link_time (tab : Z -> option (list ext)) (now l t : Z) (q : Q) : Prop :=
  exists row, tab l = Some row /\ nth_error row (Z.to_nat (Z.min t (now - 1))) = Some (Some q).
Definition whole_intervals (q : Q) (d : Z) : Prop :=
  (1 <= d)%Z /\ (0 <= q -> q - (1 # 10000) * q <= inject_Z d) /\ (inject_Z d < q + 1 \/ d = 1%Z).
(** links one after the other, each taking an acceptable time, from t to t' *)
Inductive rides (fine : Q -> Prop) (tab : Z -> option (list ext)) (now : Z) : Z -> list Z -> Z -> Prop :=
| Rides_end : forall t, rides fine tab now t [] t
| Rides_link : forall t l q d r t', link_time tab now l t q -> fine q -> whole_intervals q d -> rides fine tab now (t + d) r t' -> rides fine tab now t (l :: r) t'.
Definition any_time (q : Q) : Prop := True.
Definition within_run (now : Z) (q : Q) : Prop := q <= inject_Z now.
(** a bus journey gets stuck: some link, when reached, takes longer than the whole run *)
Inductive stuck (tab : Z -> option (list ext)) (now : Z) : Z -> list Z -> Prop :=
| Stuck_slow : forall t l r q, link_time tab now l t q -> inject_Z now < q -> stuck tab now t (l :: r)
| Stuck_never : forall t l r row, tab l = Some row -> nth_error row (Z.to_nat (Z.min t (now - 1))) = Some None -> stuck tab now t (l :: r)
| Stuck_later : forall t l r q d, link_time tab now l t q -> q <= inject_Z now -> whole_intervals q d -> stuck tab now (t + d) r -> stuck tab now t (l :: r).

(** the disutility of a path when leaving in loading interval i, with the passengers of its own
    mode leaving in that interval's column *)
Definition valued (de : denv) (o : odset) (p : ppath) (i : Z) (d : Q) : Prop :=
  exists c ps, path_cost (de_cost de) (pp_key p) i = Ok c /\ In (key_mode (pp_key p), ps) o /\
    d == c + (de_alpha de (key_mode (pp_key p)) + de_log de (sumQ (map (fun q => pp_flow q (column de i)) ps) + (1 # 1000000000))) / de_beta de.
(** the loading intervals of the run *)
Definition in_run (de : denv) (i : Z) : Prop := (0 <= i < Z.of_nat (de_inter de))%Z.
(** the paths weighed against each other in an interval: the best one and those in use *)
Definition weighed (k : pkey) (c : nat) (p : ppath) : Prop := same_trip (pp_key p) k \/ 0 < pp_flow p c.
(** how many paths satisfy P, and the sum of their disutilities for the interval *)
Inductive tally (P : ppath -> Prop) (c : nat) : list ppath -> nat -> Q -> Prop :=
| Tally_nil : tally P c [] 0 0
| Tally_in : forall p d l n s, P p -> nth_error (pp_dis p) c = Some d -> tally P c l n s -> tally P c (p :: l) (S n) (d + s)
| Tally_out : forall p l n s, ~ P p -> tally P c l n s -> tally P c (p :: l) n s.
(** the average disutility of the paths weighed *)
Definition average (k : pkey) (c : nat) (o : odset) (avg : Q) : Prop :=
  exists n s, tally (weighed k c) c (concat (map snd o)) n s /\ (0 < n)%nat /\ avg * inject_Z (Z.of_nat n) == s.
(** all paths weighed are equally good *)
Definition settled (k : pkey) (c : nat) (o : odset) : Prop :=
  forall p q d e, listed_path o p -> listed_path o q -> weighed k c p -> weighed k c q -> nth_error (pp_dis p) c = Some d -> nth_error (pp_dis q) c = Some e -> d == e.
(** the tables say how long every link takes at every time of the run *)
Definition covers (tab : Z -> option (list ext)) (now : Z) (links : list Z) : Prop :=
  forall l, In l links -> exists row, tab l = Some row /\ (Z.to_nat now <= length row)%nat /\ (forall x, In x row -> x <> None).
