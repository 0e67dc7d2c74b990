(** Vocabulary for link-travel-time gradients. *)
From Verif Require Import Base Model_Num Model_CC Spec_CC Spec_Grad Model_Link Model_Grad Model_Ltg.
Local Open Scope Z_scope.

(** a vehicle that arrives at [t] leaves at [t']: the travel time of the interval (of the
    last one, from interval [cur - 1] on) in whole intervals *)
Definition leaves (tb : gtabs) (cur t t' : Z) : Prop :=
  0 <= Z.min t (cur - 1) /\
  exists x n, nth_error (t_tt tb) (Z.to_nat (Z.min t (cur - 1))) = Some x /\ round_up_time x tol = Ok n /\ t' = t + n.
(** entry [i] of a table *)
Definition entry {A} (r : list A) (i : Z) (x : A) : Prop := 0 <= i /\ nth_error r (Z.to_nat i) = Some x.
(** whole intervals of the free-flow time *)
Definition free_time (tb : gtabs) (f : Z) : Prop := round_up_time (inject_Z (t_ff tb)) tol = Ok f.

(** where an extra vehicle stands: when it leaves the last link and when its effect does
    ([-1] before the first link) *)
Definition place := (Z * Z)%type.
(** when the effect reaches link [l]: with the vehicle on a point-queue link, with the
    effect on the link before on a cell link *)
Definition effect_at (l : glink) (x : place) (a : Z) : Prop :=
  (g_kind l = GPq /\ a = fst x) \/ (g_kind l = GCtm /\ 0 <= snd x /\ a = snd x).
(** the effect is followed while it comes before the threshold and within the time for
    which [lv] says that travel times are known *)
Definition followed (lv : Q) (thr a : Z) : Prop := a <= cround (lv - 1) /\ a < thr.
(** the extra vehicle goes from [x] over link [l] to [y], its effect reaching the link at
    [a]; the effect leaves when the queue it meets is gone and a free-flow time later *)
Definition over (c : cls) (cur thr : Z) (l : glink) (x : place) (a : Z) (y : place) : Prop :=
  effect_at l x a /\ followed (g_lv l) thr a /\ leaves (tabs_of c l) cur (fst x) (fst y) /\
  exists d f, entry (t_diss (tabs_of c l)) a d /\ free_time (tabs_of c l) f /\ snd y = d + f.
(** the same over several links *)
Inductive along (c : cls) (cur thr : Z) (net : Z -> option glink) : list Z -> place -> place -> Prop :=
| along_nil x : along c cur thr net [] x x
| along_cons i l ids x a y z : net i = Some l -> over c cur thr l x a y -> along c cur thr net ids y z -> along c cur thr net (i :: ids) x z.

(** vehicles that left by curve [c] from interval [j] to interval [k]: none after its last
    record *)
Definition left_in (c : curve) (j k : Z) (x : Q) : Prop :=
  exists e, last_opt c = Some e /\
    ((fst e < inject_Z j /\ x == 0)%Q \/
     (inject_Z j <= fst e)%Q /\ exists a b, get_result c (inject_Z j) = Ok a /\ get_result c (inject_Z k) = Ok b /\ (x == b - a)%Q).

(** an effect that reaches link [l] at [a] lasts to before [v] and costs [g] seconds per
    vehicle: the link is congested at [a], and [v] is when the queue is gone or, if that is
    later, the end of the known travel times; [g] is the mean headway of the vehicles that
    leave from [p] (arriving with the effect) to [q] (arriving when it ends) *)
Definition lasts (tb : gtabs) (lv ut : Q) (cur a v : Z) (g : Q) : Prop :=
  entry (t_cong tb) a true /\
  exists p d f e o x, leaves tb cur a p /\ entry (t_diss tb) a d /\ free_time tb f /\ p < d + f /\
    ((d <= cround (lv - 1) /\ v = d /\ e = d + f) \/ (cround (lv - 1) < d /\ v = cround lv /\ leaves tb cur (v - 1) e)) /\
    let q := Z.min e (cur - 1) in
    p < q /\ t_out tb = Some o /\ left_in o p (q + 1) x /\ (dbl_eps * inject_Z (q + 1 - p) < x)%Q /\ (g == ut * inject_Z (q + 1 - p) / x)%Q.

(** the extra vehicle that takes path [p] in interval [s] delays those that arrive at link
    [l] in interval [t] by [g] *)
Definition delays (c : cls) (ut : Q) (cur thr : Z) (links : list Z) (net : Z -> option glink) (paths : list gpath) (p s l t : Z) (g : Q) : Prop :=
  exists pre post lk x a y v, In (p, pre ++ l :: post) paths /\ In l links /\ net l = Some lk /\
    along c cur thr net pre (s, -1) x /\ over c cur thr lk x a y /\
    lasts (tabs_of c lk) (g_lv lk) ut cur a v g /\ a <= t < v.

(** tables over [cur] intervals from which gradients can be computed: vehicles that arrive
    later do not leave earlier, a queue is gone after a congested interval and not before an
    uncongested one, and who arrives while travel times are known leaves no later than a
    free-flow time after the queue is gone *)
Record consistent (tb : gtabs) (lv : Q) (cur : Z) : Prop := {
  co_tt : Zlen (t_tt tb) = cur;
  co_cong : Zlen (t_cong tb) = cur;
  co_diss : Zlen (t_diss tb) = cur;
  co_valid : (0 < lv <= inject_Z cur)%Q;
  co_order : forall t u t' u', 0 <= t <= u -> leaves tb cur t t' -> leaves tb cur u u' -> t' <= u';
  co_gone : forall t d, entry (t_diss tb) t d -> t <= d /\ (entry (t_cong tb) t true -> t < d);
  co_clear : forall t d f p, entry (t_diss tb) t d -> t <= cround (lv - 1) -> free_time tb f -> leaves tb cur t p -> p <= d + f;
  co_out : exists o, t_out tb = Some o /\ recorded_curve o }.
(** a path that starts on a point-queue link and continues on point-queue and cell links
    with such tables *)
Definition traceable (c : cls) (cur : Z) (net : Z -> option glink) (ids : list Z) : Prop :=
  (forall i, In i ids -> exists l, net i = Some l /\ (g_kind l = GPq \/ g_kind l = GCtm) /\ consistent (tabs_of c l) (g_lv l) cur) /\
  exists i l r, ids = i :: r /\ net i = Some l /\ g_kind l = GPq.
