(** Property theorems: cumulative curves (C11-C14, C16 (data structure), C49). *)
From Verif Require Import Base Base_lemmas Model_Num Model_CC Spec_CC Proof_CC Proof_CC2 Proof_CC3.
Local Open Scope Q_scope.

(** C11 *)
Theorem C11_curve_monotone_and_exact_total : forall incs c,
  (forall r, In r incs -> 0 <= snd r) ->
  foldM add_increment fresh_curve incs = Ok c ->
  times_increase c /\ values_nondecrease c /\
  exists b, last_opt c = Some b /\ snd b == total_amount incs.
Proof.
  intros incs c Hp E.
  destruct (curve_run _ _ _ fresh_sorted fresh_values Hp E) as (A & B & C).
  split; [exact A|]. split; [exact B|].
  destruct (last_opt c) as [b|] eqn:L.
  - exists b. split; [reflexivity|]. unfold last_value in C. rewrite L in C. simpl in C. rewrite C. lra.
  - exfalso. assert (Hne : forall incs c0 c1, c0 <> [] -> foldM add_increment c0 incs = Ok c1 -> c1 <> []).
    { clear. induction incs as [|r incs IH]; simpl; intros c0 c1 Hn E; [congruence|].
      apply bind_ok in E. destruct E as (c2 & E1 & E2). eapply IH; [|exact E2].
      apply add_increment_inv in E1. destruct E1 as [[-> ->]|(l & b & -> & [[_ ->]|[_ [_ ->]]])]; [discriminate| |].
      - destruct l; discriminate.
      - destruct l; discriminate. }
    apply Hne in E; [|discriminate]. destruct c as [|c0 x _] using rev_ind; [congruence|]. rewrite last_opt_snoc in L. discriminate.
Qed.
Print Assumptions C11_curve_monotone_and_exact_total.

Theorem C11_never_backwards_is_accepted : forall c r,
  (forall b, last_opt c = Some b -> fst b <= fst r) -> exists c', add_increment c r = Ok c'.
Proof. intros c r H. apply add_increment_accepts. intros b Hb. apply not_approx_lt_ge. auto. Qed.
Print Assumptions C11_never_backwards_is_accepted.

Theorem C11_clearly_earlier_is_rejected : forall c r b,
  last_opt c = Some b -> separated (fst r) (fst b) -> fst r < fst b -> add_increment c r = Err EThrow.
Proof. intros c r b Hb Hs Hl. unfold add_increment. rewrite Hb, (sep_lt _ _ Hs Hl). reflexivity. Qed.
Print Assumptions C11_clearly_earlier_is_rejected.

Example C11_case : exists c, foldM add_increment fresh_curve [(1,2);(1,3);(4,1)] = Ok c /\ length c = 3%nat.
Proof. eexists; split; reflexivity. Qed.

(** C12 *)
Theorem C12_lookup_is_amount_until : forall incs,
  times_nondecreasing incs -> (forall r, In r incs -> whole_time (fst r)) ->
  exists c, foldM add_increment fresh_curve incs = Ok c /\
    (forall t, whole_time t -> exists v, get_result c t = Ok v /\ v == amount_until incs t) /\
    (forall t, t <= 0 -> exists v, get_result c t = Ok v /\ v == amount_until incs 0) /\
    (forall t, (forall r, In r incs -> fst r <= t) -> 0 <= t ->
       exists v, get_result c t = Ok v /\ v == total_amount incs).
Proof. exact curve_lookup. Qed.
Print Assumptions C12_lookup_is_amount_until.

(** From interval 10000 on, two different intervals are merged. *)
Theorem C12_beyond_tolerance_refuted : exists incs c v,
  times_nondecreasing incs /\ foldM add_increment fresh_curve incs = Ok c /\
  get_result c 10000 = Ok v /\ ~ v == amount_until incs 10000.
Proof.
  exists [(10000,1);(10001,1)]. eexists. eexists. split.
  - intros i k ri rk L Ei Ek. destruct i as [|[|i]]; destruct k as [|[|[|k]]]; simpl in *; try lia; try discriminate.
    injection Ei as <-. injection Ek as <-. simpl. lra.
  - split; [vm_compute; reflexivity|]. split; [vm_compute; reflexivity|]. vm_compute. discriminate.
Qed.
Print Assumptions C12_beyond_tolerance_refuted.

Example C12_case : times_nondecreasing [(1,2);(3,5)] /\ (forall r, In r [(1,2);(3,5)] -> whole_time (fst r)).
Proof.
  split.
  - intros i k ri rk L Ei Ek. destruct i as [|[|i]]; destruct k as [|[|[|k]]]; simpl in *; try lia; try discriminate.
    injection Ei as <-. injection Ek as <-. simpl. lra.
  - intros r [<-|[<-|[]]]; [exists 1%Z|exists 3%Z]; (split; [lia|reflexivity]).
Qed.

(** C13 *)
Theorem C13_interpolation_between_neighbours : forall c t x l,
  c = x :: l -> times_increase c -> values_nondecrease c ->
  exists v, get_approximated_result c t = Ok v /\
    ((t <= fst x /\ v == snd x) \/
     (exists l1 p y l2, c = l1 ++ p :: y :: l2 /\ fst p < t <= fst y /\
        snd p <= v <= snd y /\ (fst y == t -> v == snd y) /\
        v * (fst y - fst p) == snd p * (fst y - t) + snd y * (t - fst p)) \/
     (exists b, last_opt c = Some b /\ fst b < t /\ v == snd b)).
Proof. exact approx_result_between. Qed.
Print Assumptions C13_interpolation_between_neighbours.

Theorem C13_interpolation_monotone : forall c t t' v v',
  times_increase c -> values_nondecrease c -> t <= t' ->
  get_approximated_result c t = Ok v -> get_approximated_result c t' = Ok v' -> v <= v'.
Proof. exact approx_result_mono. Qed.
Print Assumptions C13_interpolation_monotone.

Example C13_case : exists v, get_approximated_result [(0,0);(2,4);(5,10)] 3 = Ok v /\ v == 6.
Proof. eexists; split; [reflexivity|]. reflexivity. Qed.
Example C13_case_hyps : times_increase [(0,0);(2,4);(5,10)] /\ values_nondecrease [(0,0);(2,4);(5,10)].
Proof.
  split; intros i k ri rk L Ei Ek; destruct i as [|[|[|i]]]; destruct k as [|[|[|[|k]]]]; simpl in *; try lia; try discriminate;
    injection Ei as <-; injection Ek as <-; simpl; lra.
Qed.

(** C14: all recorded values and the asked value are vehicle counts divided by
    the flow scalar [f]. *)
Theorem C14_inverse_lookup : forall f c n x l,
  0 < f -> c = x :: l -> values_nondecrease c ->
  (forall r, In r c -> vehicle_amount f (snd r)) -> vehicle_amount f n ->
  let q := get_time c n false in
  (n <= snd x -> q = Ok (-1 # 1)) /\
  ((forall r, In r c -> snd r < n) -> q = Ok (-1 # 1)) /\
  (snd x < n -> (exists r, In r c /\ n <= snd r) ->
     exists i ri, nth_error c i = Some ri /\ q = Ok (fst ri) /\ snd ri <= n /\
       (forall r, In r c -> snd r <= n -> snd r <= snd ri) /\
       (forall k rk, (k < i)%nat -> nth_error c k = Some rk -> snd rk < snd ri)).
Proof.
  intros f c n x l Hf Hc Hv Ha Hn. apply (get_time_spec c n x l Hc Hv).
  - intros r Hr. apply (vehicle_sep f); auto.
  - intros r r' Hr Hr'. apply (vehicle_sep f); auto.
Qed.
Print Assumptions C14_inverse_lookup.

(** with [rounding_up] an unreached count reads past the end of the records *)
Theorem C14_rounding_up_out_of_range_refuted :
  exists c n, values_nondecrease c /\ get_time c n true = Err EUB.
Proof.
  exists [(0,0);(1,1)], 2. split; [|reflexivity].
  intros i k ri rk L Ei Ek; destruct i as [|[|i]]; destruct k as [|[|[|k]]]; simpl in *; try lia; try discriminate.
  injection Ei as <-; injection Ek as <-; simpl; lra.
Qed.
Print Assumptions C14_rounding_up_out_of_range_refuted.

Example C14_case : get_time [(0,0);(3,2);(5,2);(7,6)] 4 false = Ok 3 /\ get_time [(0,0);(3,2);(5,2);(7,6)] 6 false = Ok 7
  /\ get_time [(0,0);(3,2);(5,2);(7,6)] 7 false = Ok (-1#1).
Proof. repeat split. Qed.
Example C14_case_hyps : vehicle_amount (1#2) 4 /\ vehicle_amount (1#2) 6.
Proof. split; [exists 2%Z|exists 3%Z]; (split; [lia|reflexivity]). Qed.

(** C16 (data structure part): the tree keeps one curve per (path, departing
    interval); each is the curve of exactly the movements with that key, and the
    curves add up to all movements. *)
Theorem C16_tree_separates_keys : forall ops t,
  foldM apply_op [] ops = Ok t ->
  NoDup (map fst t) /\
  (forall k, In k (map fst t) <-> exists o, In o ops /\ fst o = k) /\
  (forall k c, tree_find t k = Some c -> foldM add_increment fresh_curve (ops_of k ops) = Ok c).
Proof. exact tree_inv. Qed.
Print Assumptions C16_tree_separates_keys.

Theorem C16_tree_adds_up : forall ops t tq,
  foldM apply_op [] ops = Ok t ->
  times_nondecreasing (map snd ops) -> (forall o, In o ops -> whole_time (fst (snd o))) -> whole_time tq ->
  exists vs, Forall2 (fun (e : (Z*Z) * curve) v => get_result (snd e) tq = Ok v /\
      v == amount_until (ops_of (fst e) ops) tq) t vs /\
    sumQ vs == amount_until (map snd ops) tq.
Proof. exact tree_total. Qed.
Print Assumptions C16_tree_adds_up.

Example C16_case : exists t, foldM apply_op [] [((1,0)%Z,(1,2)); ((2,0)%Z,(1,1)); ((1,0)%Z,(3,4))] = Ok t /\ length t = 2%nat.
Proof. eexists; split; reflexivity. Qed.

(** C49: shrinking keeps the *oldest* records, so the English claim is false *)
Theorem C49_shrink_keeps_oldest : forall c n, times_increase c -> (0 <= n)%Z ->
  shrink c n = Ok (firstn (Z.to_nat n) c).
Proof. exact shrink_keeps_oldest. Qed.
Print Assumptions C49_shrink_keeps_oldest.
Theorem C49_shrink_keeps_newest_refuted : exists c c' b b',
  times_increase c /\ shrink c 2 = Ok c' /\ last_opt c = Some b /\ last_opt c' = Some b' /\ ~ fst b' == fst b.
Proof.
  exists [(0,0);(2,4);(5,10)]. eexists. eexists. eexists.
  split; [apply C13_case_hyps|]. split; [reflexivity|]. split; [reflexivity|]. split; [reflexivity|].
  vm_compute. discriminate.
Qed.
Print Assumptions C49_shrink_keeps_newest_refuted.
