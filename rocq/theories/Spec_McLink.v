(** What an observer of a two-class link can see, independently of how it computes. *)
From Verif Require Import Base Spec_Path Model_Num Model_Link Spec_Link Model_McLink.

(** the vehicles of a list that belong to a class ([true]: trucks), in order *)
Definition of_class (cls : Z -> bool) (trk : bool) (l : list Z) : list Z :=
  filter (fun v => Bool.eqb (cls v) trk) l.
(** the vehicles of one class on a link, from its exit back to its entrance *)
Definition minside (cls : Z -> bool) (trk : bool) (b : mbody) : list Z :=
  match b with
  | MCtm _ cs => concat (rev (map (fun c => if trk then mc_qt c else mc_qc c) cs))
  | MLq _ qc qt _ _ _ => if trk then qt else qc
  | MPq _ pool _ _ => of_class cls trk (map fst pool)
  end.
Definition on_mlink (cls : Z -> bool) (trk : bool) (l : mlink) : list Z :=
  of_class cls trk (ml_fin l) ++ minside cls trk (ml_body l) ++ of_class cls trk (ml_in l).

(** One loading interval as a link sees it: of the vehicles waiting at the exit
    [rest] stay, [arr] arrive at the entrance, then the link runs its two update
    methods with random draws [D]. *)
Definition mdraws_ok (D : mdraws) : Prop :=
  forall i, (0 <= md_car D i <= 1 /\ 0 <= md_truck D i <= 1 /\ 0 <= md_mix D i <= 1)%Q.
Definition moffered (l : mlink) (rest arr : list Z) : mlink := with_body l (ml_in l ++ arr) rest (ml_body l).
Definition minterval (cls : Z -> bool) (l : mlink) (arr : list Z) (l' : mlink) : Prop :=
  exists rest has_next D l1, subseq rest (ml_fin l) /\ mdraws_ok D /\
    mlink_clear cls (moffered l rest arr) = Ok l1 /\ mlink_evolve cls has_next D l1 = Ok l'.
Definition mhistory (cls : Z -> bool) (N : nat) (s : nat -> mlink) (arr : nat -> list Z) : Prop :=
  forall i, (i < N)%nat -> minterval cls (s i) (arr i) (s (S i)).

(** a link as its constructor leaves it *)
Definition fresh_mlink (p : mparam) (l : mlink) : Prop :=
  match mp_kind p with MKCtm => make_mctm p | MKLq => make_mlq p | MKPq => make_mpq p end = Ok l.

(** length over free-flow speed of cars, in whole intervals, at least one *)
Definition mfreeflow_intervals (p : mparam) : Z := Z.max 1 (Qfloor (mp_len p / (mp_ffs_c p * mp_ut p))).

(** a consistent pair of triangular diagrams: both congested branches end at the
    jam density, [rho1] is where cars move at the free-flow speed of trucks *)
Definition fd_ok (f : fd) : Prop :=
  (0 < cr_c f /\ cr_c f < K_c f /\ 0 < cr_t f /\ cr_t f < K_t f /\ 0 < vf_t f /\ 0 < vf_c f /\
   cap_c f == vf_c f * cr_c f /\ cap_t f == vf_t f * cr_t f /\
   w_c f * (K_c f - cr_c f) == cap_c f /\ w_t f * (K_t f - cr_t f) == cap_t f /\
   rho1 f * (vf_t f + w_c f) == K_c f * w_c f)%Q.
(** densities of cars and of trucks *)
Definition kden (fs len : Q) (v : Z) : Q := (inject_Z v / fs / len)%Q.
(** share of the jam storage in use *)
Definition fill (f : fd) (kc kt : Q) : Q := (kc / K_c f + kt / K_t f)%Q.
(** both classes at free flow: shares of the critical densities add up to at most one *)
Definition at_free_flow (f : fd) (kc kt : Q) : Prop := (kc / cr_c f + kt / cr_t f <= 1)%Q.
(** speed on a triangular diagram at a density *)
Definition speed_at (vf w K k : Q) : Q := if Qle_bool k 0 then vf else Qmin vf (w * (K - k) / k).

(** vehicles of a class in cell [j] of [n] when an interval begins with [arr]
    arriving; those waiting at the exit belong to the last cell *)
Definition queue_of (k : bool) (c : mcell) : list Z := if k then mc_qt c else mc_qc c.
Definition cell_load (cls : Z -> bool) (k : bool) (l : mlink) (arr : list Z) (n j : nat) (c : mcell) : Z :=
  (Zlen (queue_of k c) + (if (j =? 0)%nat then Zlen (of_class cls k (ml_in l ++ arr)) else 0)
   + (if (S j =? n)%nat then Zlen (of_class cls k (ml_fin l)) else 0))%Z.
(** "free flow on the whole link" in the interval that starts in [l] with arrivals [arr] *)
Definition link_free (cls : Z -> bool) (l : mlink) (arr : list Z) : Prop :=
  forall f cs j c, ml_body l = MCtm f cs -> nth_error cs j = Some c ->
    at_free_flow f (kden (mp_fs (ml_par l)) (mc_len c) (cell_load cls false l arr (length cs) j c))
                   (kden (mp_fs (ml_par l)) (mc_len c) (cell_load cls true l arr (length cs) j c)).

(** what may happen to a link between construction and now: loading intervals and
    accepted property changes *)
Inductive mreach (cls : Z -> bool) (p : mparam) : mlink -> Prop :=
| mreach_new l : fresh_mlink p l -> mreach cls p l
| mreach_step l arr l' : mreach cls p l -> minterval cls l arr l' -> mreach cls p l'
| mreach_mod l a l' : mreach cls p l -> mlink_modify l a = Ok l' -> mreach cls p l'.

(** vehicles of class [k] in cell [j] when the interval moves them *)
Definition mload (cls : Z -> bool) (k : bool) (l : mlink) (arr : list Z) (j : nat) (c : mcell) : list Z :=
  (queue_of k c ++ if (j =? 0)%nat then of_class cls k (ml_in l ++ arr) else [])%list.
(** [m] of [n] is the given ratio of [n], up to less than one vehicle *)
Definition moved (n m : Z) (ratio : Q) : Prop := (inject_Z n * ratio - 1 < inject_Z m < inject_Z n * ratio + 1)%Q.

(** number of class-[k] vehicles that have passed the entrance and not left *)
Definition passed (cls : Z -> bool) (k : bool) (l : mlink) : Z := Zlen (of_class cls k (ml_fin l) ++ minside cls k (ml_body l)).
(** capacity, jam density and wave speed of all lanes, from the effective lane values *)
Definition m_capacity (p : mparam) : Q := (inject_Z (mp_lanes p) * mp_flow_c p)%Q.
Definition m_jam (p : mparam) : Q := (inject_Z (mp_lanes p) * mp_hold_c p)%Q.
Definition m_wave (p : mparam) : Q := (mp_flow_c p / (mp_hold_c p - mp_flow_c p / mp_ffs_c p))%Q.
(** passenger-car equivalents of the vehicles on a link *)
Definition pcu_load (cls : Z -> bool) (l : mlink) : Q :=
  (inject_Z (passed cls false l) + mp_pcu (ml_par l) * inject_Z (passed cls true l))%Q.
