(** Property theorems: cycle elimination (C27), shares (C28), route draw (C29, draw part). *)
From Verif Require Import Base Base_lemmas Model_Num Proof_Num Model_Graph Spec_Graph Proof_Graph Spec_SP Model_Path Spec_Path Proof_Path.

(** C27: [visits g u links nodes] says that links lead head to tail from u through nodes. *)
Theorem C27_eliminate_cycles : forall g u nodes links, visits g u links nodes ->
  exists nodes' links', eliminate_cycles nodes links = Ok (nodes', links') /\
    visits g u links' nodes' /\ NoDup nodes' /\ last nodes' 0 = last nodes 0 /\
    subseq nodes' nodes /\ subseq links' links /\
    (forall v, route g u links v -> route g u links' v) /\
    (NoDup nodes -> nodes' = nodes /\ links' = links).
Proof.
  intros g u nodes links V. pose proof (visits_len _ _ _ _ V) as HL. destruct (eliminate_ok nodes links HL) as (ns & ls & E & Hc).
  destruct (cut_props _ _ _ _ Hc) as (H1 & H2 & H3 & H4 & H5 & H6). exists ns, ls. split; [exact E|].
  pose proof (H6 g u V) as V'. split; [exact V'|]. split; [exact H1|]. split; [exact H4|]. split; [exact H2|].
  split; [apply H3; lia|]. split.
  - intros v R. assert (v = last nodes 0).
    { pose proof (visits_last_nth _ _ _ _ V) as R'. clear - R R'. induction R; inversion R'; subst; [reflexivity|]. apply IHR. replace w with w0 by congruence. assumption. }
    subst v. rewrite <- H4. now apply visits_last_nth.
  - intros N. eapply cut_NoDup; eauto.
Qed.
Print Assumptions C27_eliminate_cycles.

(** a path whose numbers of nodes and links do not match is rejected *)
Theorem C27_malformed_rejected : forall nodes links, length nodes <> S (length links) -> eliminate_cycles nodes links = Err EAssert.
Proof. intros nodes links H. unfold eliminate_cycles. apply Nat.eqb_neq in H. rewrite H. reflexivity. Qed.
Print Assumptions C27_malformed_rejected.

Definition C27_g := gbuild [GNode 1; GNode 2; GNode 3; GNode 4; GLink 1 2 10; GLink 2 3 11; GLink 3 2 12; GLink 3 4 13].
Example C27_case : visits C27_g 1 [10; 11; 12; 11; 13] [1; 2; 3; 2; 3; 4] /\
  eliminate_cycles [1; 2; 3; 2; 3; 4] [10; 11; 12; 11; 13] = Ok ([1; 2; 3; 4], [10; 11; 13]).
Proof. split; [repeat (econstructor; [reflexivity|]); constructor|reflexivity]. Qed.

Open Scope Q_scope.
(** C28 *)
Theorem C28_normalised_shares : forall ps, ps <> [] -> (forall p, In p ps -> 0 <= p) ->
  exists qs, normalize_p ps = Ok qs /\ length qs = length ps /\ (forall q, In q qs -> 0 <= q) /\ sumQ qs == 1 /\
    (~ sumQ ps == 0 -> forall i, (i < length ps)%nat -> nth i qs 0 == nth i ps 0 / sumQ ps) /\
    (sumQ ps == 0 -> forall i, (i < length ps)%nat -> nth i qs 0 == 1 / inject_Z (Z.of_nat (length ps))).
Proof.
  intros ps Hne Hp. rewrite (normalize_ok ps Hp). eexists. split; [reflexivity|].
  pose proof (fold_minus0 ps 0) as E0. pose proof (fold_plus ps 0) as E1. pose proof (sumQ_nonneg ps Hp) as Hs.
  assert (Hlen : 0 < inject_Z (Z.of_nat (length ps))). { change 0 with (inject_Z 0). rewrite <- Zlt_Qlt. destruct ps; [contradiction|simpl; lia]. }
  destruct (Qeq_bool (fold_left (fun t p => t + (p - 0)) ps 0) 0) eqn:Eb.
  - apply Qeq_bool_iff in Eb. split; [now rewrite map_length|]. split.
    { intros q Hq. apply in_map_iff in Hq. destruct Hq as (_ & <- & _). apply Qle_shift_div_l; lra. }
    split. { rewrite sumQ_const. field. lra. }
    split; [intros C; exfalso; apply C; lra|]. intros _ i Hi. rewrite (nth_indep _ 0 (1 / inject_Z (Z.of_nat (length ps)))) by (rewrite map_length; exact Hi).
    generalize (1 / inject_Z (Z.of_nat (length ps))). clear - Hi. revert i Hi. induction ps as [|p ps IH]; intros i Hi q; [simpl in Hi; lia|]. destruct i as [|i]; simpl; [lra|]. apply IH. simpl in Hi. lia.
  - apply Qeq_bool_neq in Eb. split; [now rewrite map_length|].
    set (t := fold_left (fun t p => t + p) ps 0) in *. assert (Ht : 0 < t). { assert (~ sumQ ps == 0) by (intros C; apply Eb; lra). lra. }
    split. { intros q Hq. apply in_map_iff in Hq. destruct Hq as (p & <- & Hin). apply Qle_shift_div_l; [lra|]. specialize (Hp p Hin). lra. }
    split. { rewrite sumQ_div by lra. setoid_replace (sumQ ps) with t by lra. field. lra. }
    split; [|intros C; exfalso; apply Eb; lra].
    intros _ i Hi. rewrite (nth_indep _ 0 (0 / t)) by (rewrite map_length; exact Hi). rewrite (map_nth (fun p => p / t)).
    setoid_replace t with (sumQ ps) by lra. reflexivity.
Qed.
Print Assumptions C28_normalised_shares.

Theorem C28_negative_share_rejected : forall ps p, In p ps -> p < 0 -> normalize_p ps = Err EThrow.
Proof.
  intros ps p Hin Hp. unfold normalize_p. replace (existsb (fun p => Qltb p 0) ps) with true; [reflexivity|].
  symmetry. apply existsb_exists. exists p. split; [exact Hin|]. destruct (Qltb_spec p 0); [reflexivity|lra].
Qed.
Print Assumptions C28_negative_share_rejected.
Example C28_case : normalize_p [1; 0; 3] = Ok [1 / 4; 0 / 4; 3 / 4] /\ normalize_p [0; 0] = Ok [1 / 2; 1 / 2].
Proof. split; reflexivity. Qed.

(** C29: the draw with normalised shares succeeds, gives a route of the set, and
    gives a route with positive share unless the random number is exactly 0 *)
Theorem C29_draw_succeeds : forall ps r, ps <> [] -> (forall p, In p ps -> 0 <= p) -> sumQ ps == 1 -> 0 <= r <= 1 ->
  exists i, draw ps r = Ok i /\ (i < length ps)%nat /\ (0 < r -> 0 < nth i ps 0).
Proof. intros ps r Hne Hp Hs [H0 H1]. apply draw_ok; auto. lra. Qed.
Print Assumptions C29_draw_succeeds.

(** normalising and then drawing, from any nonnegative flows *)
Theorem C29_draw_after_normalise : forall ps r, ps <> [] -> (forall p, In p ps -> 0 <= p) -> 0 <= r <= 1 ->
  exists qs i, normalize_p ps = Ok qs /\ draw qs r = Ok i /\ (i < length ps)%nat.
Proof.
  intros ps r Hne Hp Hr. destruct (C28_normalised_shares ps Hne Hp) as (qs & E & HL & Hq & Hs & _).
  assert (qs <> []) by (destruct qs; [destruct ps; [contradiction|discriminate]|discriminate]).
  destruct (C29_draw_succeeds qs r) as (i & Ei & Hi & _); auto. exists qs, i. rewrite <- HL. auto.
Qed.
Print Assumptions C29_draw_after_normalise.
Example C29_case : draw [1 # 2; 0; 1 # 2] (3 # 4) = Ok 2%nat.
Proof. reflexivity. Qed.

(** the tolerance of the comparison covers shares that miss 1 by rounding: it is
    enough that nonzero shares are not tiny compared with the error *)
Theorem C29_draw_tolerates_rounding : forall ps r d e, 0 < d -> 0 <= e -> e <= tol * d ->
  (forall p, In p ps -> p == 0 \/ d <= p) -> (exists p, In p ps /\ d <= p) -> 1 - e <= sumQ ps -> 0 <= r <= 1 ->
  exists i, draw ps r = Ok i /\ (i < length ps)%nat.
Proof. intros ps r d e Hd He Hed Hp Hex Hs [H0 H1]. apply (draw_robust d e); auto. lra. Qed.
Print Assumptions C29_draw_tolerates_rounding.
Example C29_rounding_case : draw [1 # 3; 33333 # 100000; 33332 # 100000; 0] 1 = Ok 2%nat.
Proof. reflexivity. Qed.
(** and when they are tiny, the draw can throw *)
Theorem C29_tiny_shares_refuted : exists ps r, (forall p, In p ps -> 0 <= p) /\ 1 - (1 # 1000000000000) <= sumQ ps <= 1 /\
  0 <= r <= 1 /\ draw ps r = Err EThrow.
Proof.
  exists [9998 # 10000; 19996 # 100000000; 39992 # 1000000000000; 79984 # 10000000000000000], 1. split.
  - simpl. intros p [<-|[<-|[<-|[<-|[]]]]]; discriminate.
  - split; [split; vm_compute; discriminate|]. split; [split; discriminate|]. vm_compute. reflexivity.
Qed.
Print Assumptions C29_tiny_shares_refuted.
