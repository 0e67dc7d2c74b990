(** C57: a junction does not hold vehicles back. *)
From Verif Require Import Base Base_lemmas Model_Num Proof_Num Model_CC Model_Path Model_Link Spec_Node
  Model_World Model_Node Model_GRJ Proof_Node Proof_Node2 Proof_Node3 Proof_Node4 Proof_Node5 Proof_GRJ Model_Sim Ex_Net Prop_Node Prop_GRJ.
From Verif Require Import Proof_Link.
From Coq Require Import Lqa Permutation.
Local Open Scope Q_scope.

Lemma trim_cases picks lim : forall fuel k col col', trim fuel picks k lim col = Ok col' ->
  col' = col \/ lim < inject_Z (sumZ col' + 1).
Proof.
  induction fuel as [|fuel IH]; intros k col col' H; simpl in H; destruct (Qltb_spec lim (inject_Z (sumZ col))) as [L|L]; simpl in H.
  - discriminate.
  - apply Ok_inj in H as <-. auto.
  - destruct (length col =? 0)%nat eqn:E0; [discriminate|]. apply Nat.eqb_neq in E0.
    set (i := (picks k mod length col)%nat) in *.
    assert (Hi : (i < length col)%nat) by (apply Nat.mod_upper_bound; lia).
    destruct (Z.leb_spec 1 (nth i col 0%Z)) as [G|G].
    + apply IH in H as [E|E]; [|auto]. right. rewrite E.
      pose proof (sumZ_upd i (nth i col 0%Z) col Hi eq_refl) as U.
      change (lim < inject_Z (sumZ (firstn i col ++ [(nth i col 0 - 1)%Z] ++ skipn (S i) col) + 1)).
      replace (sumZ (firstn i col ++ [(nth i col 0 - 1)%Z] ++ skipn (S i) col) + 1)%Z with (sumZ col) by (clear - U; lia). exact L.
    + apply IH in H. exact H.
  - apply Ok_inj in H as <-. auto.
Qed.

(** number of vehicles of in-link [a] waiting for [b] *)
Definition waits (w : world) (b a : Z) : Z := Zlen (line w b (l_fin (w_link w a))).

Lemma demand_waits fs w a b : demand fs w a b = inject_Z (waits w b a) / fs.
Proof. reflexivity. Qed.
Lemma waits_nonneg w b a : (0 <= waits w b a)%Z. Proof. unfold waits, Zlen. lia. Qed.
Lemma sumQ_demand fs w b ins : ~ fs == 0 -> sumQ (map (fun i => demand fs w i b) ins) == inject_Z (sumZ (map (waits w b) ins)) / fs.
Proof.
  intros F. induction ins as [|a l IH]; [cbn; unfold Qdiv; ring|]. sq. cbn [sumZ fold_right map]. fold (sumZ (map (waits w b) l)).
  rewrite IH, inject_Z_plus, demand_waits. field. exact F.
Qed.
Lemma sum_waits_nonneg w b l : (0 <= sumZ (map (waits w b) l))%Z.
Proof. induction l as [|a l IH]; [reflexivity|]. cbn [map sumZ fold_right]. fold (sumZ (map (waits w b) l)). pose proof (waits_nonneg w b a). lia. Qed.
Lemma waits_le_sum w b l a : In a l -> (waits w b a <= sumZ (map (waits w b) l))%Z.
Proof.
  induction l as [|x l IH]; intros []; cbn [map sumZ fold_right]; fold (sumZ (map (waits w b) l)).
  - subst. pose proof (sum_waits_nonneg w b l). lia.
  - specialize (IH H). pose proof (waits_nonneg w b x). lia.
Qed.

(** enough room: the flow is the demand *)
Lemma fwj_room fs w ins s a b : 0 < fs -> In a ins -> inject_Z (sumZ (map (waits w b) ins)) <= s * fs ->
  fwj_flow (demand fs w) ins s a b == demand fs w a b.
Proof.
  intros F I L. unfold fwj_flow. apply Q.min_l. unfold divide.
  pose proof (waits_nonneg w b a) as W0. pose proof (waits_le_sum w b ins a I) as W1.
  destruct (Qeq_bool (demand fs w a b) 0) eqn:E0.
  { apply Qeq_bool_iff in E0. rewrite E0. lra. }
  assert (~ demand fs w a b == 0) as Nz by (intros G; apply Qeq_bool_iff in G; congruence). clear E0.
  rewrite demand_waits in Nz.
  assert (0 < waits w b a)%Z as Wp.
  { destruct (Z.eq_dec (waits w b a) 0) as [E|]; [|lia]. exfalso. apply Nz. rewrite E. unfold Qdiv. change (inject_Z 0) with 0. ring. }
  assert (0 < inject_Z (sumZ (map (waits w b) ins))) as Sp by (change 0 with (inject_Z 0); rewrite <- Zlt_Qlt; lia).
  assert (0 < sumQ (map (fun i => demand fs w i b) ins)) as Dp.
  { rewrite sumQ_demand by lra. apply Qlt_shift_div_l; lra. }
  destruct (Qeq_bool _ 0) eqn:E1. { apply Qeq_bool_iff in E1. lra. }
  assert (sumQ (map (fun i => demand fs w i b) ins) <= s) as Le.
  { rewrite sumQ_demand by lra. apply Qle_shift_div_r; [lra|]. exact L. }
  set (S0 := sumQ (map (fun i => demand fs w i b) ins)) in *. clearbody S0.
  assert (0 <= demand fs w a b) as D0. { rewrite demand_waits. apply Qle_shift_div_l; [lra|]. rewrite Qmult_0_l. change 0 with (inject_Z 0). rewrite <- Zle_Qle. lia. }
  set (x := demand fs w a b) in *. clearbody x.
  assert (x / S0 * S0 <= x / S0 * s) as M.
  { rewrite !(Qmult_comm (x / S0)). apply Qmult_le_compat_r; [exact Le|]. apply Qle_shift_div_l; lra. }
  assert (x / S0 * S0 == x) by (field; lra). lra.
Qed.

Lemma map_ext_rr l (r : Z -> Q) (f g : Z -> Q) : (forall a, In a l -> f a == g a) -> map (fun a => rround (r a) (f a)) l = map (fun a => rround (r a) (g a)) l.
Proof. intros H. apply map_ext_in. intros a Ha. apply rround_comp. auto. Qed.

(** C57: if a link can receive every vehicle waiting for it at the end of the links
    into the junction, all of them move. *)
Theorem C57_nobody_waits_with_room : forall N D t n w w' b s,
  junction_ready N D t n w -> node_evolve N D t w (n, NFwj) = Ok w' ->
  In b (n_out N n) -> link_supply (w_link w b) = Ok s ->
  inject_Z (sumZ (map (fun a => Zlen (line w b (l_fin (w_link w a)))) (n_in N n))) <= s * n_fs N ->
  forall a v, In a (n_in N n) -> In v (l_fin (w_link w' a)) -> v_next (w_veh w v) <> Some b.
Proof.
  intros N D t n w w' b s R H Hb Es Room a v Ha Hv E. destruct R as [Hf Ht (NI & NO & DJ) DV Pr TM HS HH].
  pose proof DV as (_ & _ & _ & _ & _ & Hd & Hsh & _). cbn [node_evolve] in H.
  apply junction_ok in H as (m & Hm & J); auto; [|intros b'; apply Hsh].
  destruct (columns_ok _ _ _ _ _ _ _ _ NO Hm) as (_ & Em & supply & Hsup & Hc).
  assert (Hb' := Hb). rewrite <- Em in Hb'. apply in_map_iff in Hb' as ([b' col] & Eb & I). cbn [fst] in Eb. subst b'.
  destruct (Hc _ _ I) as [Lc Hr]. rewrite (Hsup b Hb) in Es. apply Ok_inj in Es. rewrite Es in Hr.
  change (fun a => Zlen (line w b (l_fin (w_link w a)))) with (waits w b) in Room.
  assert (Hcol : map (fun a => rround (d_node D n a b) (fwj_flow (demand (n_fs N) w) (n_in N n) s a b * n_fs N)) (n_in N n) = map (waits w b) (n_in N n)).
  { apply map_ext_in. intros x Hx. rewrite <- (rround_int (d_node D n x b) (waits w b x)); [|apply Hd]. apply rround_comp.
    rewrite fwj_room; auto. rewrite demand_waits. field. lra. }
  unfold round_column in Hr. rewrite Hcol in Hr.
  assert (col = map (waits w b) (n_in N n)) as Ec.
  { destruct (d_fuel D); simpl in Hr; destruct (Qltb_spec (s * n_fs N) (inject_Z (sumZ (map (waits w b) (n_in N n))))) as [L|L]; simpl in Hr; try lra; now apply Ok_inj in Hr. }
  pose proof (je_fin_part _ _ _ _ _ _ _ _ J b col a I Ha) as Fp.
  assert (mv (n_in N n) col a = waits w b a) as Mv.
  { apply In_nth_error in Ha as (i & Hi). rewrite (mv_nth (n_in N n) col i a NI Lc Hi), Ec. apply nth_error_nth.
    now apply map_nth_error. }
  rewrite Mv in Fp. unfold waits, line in Fp. change (headed w b) with (goes w b) in Fp. rewrite skipn_all2 in Fp.
  2:{ unfold Zlen. rewrite Nat2Z.id. apply Nat.le_refl. }
  assert (In v (filter (goes w b) (l_fin (w_link w' a)))) as G by (apply filter_In; split; [auto|now apply goes_next]).
  rewrite Fp in G. exact G.
Qed.
Print Assumptions C57_nobody_waits_with_room.

(** otherwise the flows add up to the supply *)
Lemma fwj_full fs w ins s b : 0 < fs -> 0 <= s -> s * fs < inject_Z (sumZ (map (waits w b) ins)) ->
  sumQ (map (fun a => fwj_flow (demand fs w) ins s a b) ins) == s.
Proof.
  intros F S0 L. set (T := sumQ (map (fun i => demand fs w i b) ins)).
  assert (s < T) as Lt. { unfold T. rewrite sumQ_demand by lra. apply Qlt_shift_div_l; lra. }
  assert (forall l, sumQ (map (fun a => fwj_flow (demand fs w) ins s a b) l) == sumQ (map (fun i => demand fs w i b) l) / T * s) as G.
  { induction l as [|a l IH]; [cbn; unfold Qdiv; ring|]. sq. rewrite IH. unfold fwj_flow. fold T.
    assert (0 <= demand fs w a b) as D0. { rewrite demand_waits. apply Qle_shift_div_l; [lra|]. rewrite Qmult_0_l. change 0 with (inject_Z 0). rewrite <- Zle_Qle. apply waits_nonneg. }
    assert (divide (demand fs w a b) T == demand fs w a b / T) as -> by (apply div_pos; lra).
    set (x := demand fs w a b) in *. clearbody x.
    rewrite Q.min_r; [field; lra|]. assert (x / T * s <= x / T * T) as M.
    { rewrite !(Qmult_comm (x / T)). apply Qmult_le_compat_r; [lra|]. apply Qle_shift_div_l; lra. }
    assert (x / T * T == x) by (field; lra). lra. }
  rewrite G. fold T. field. lra.
Qed.

Lemma sum_rround l (r f : Z -> Q) : (forall a, In a l -> 0 <= f a) -> l <> [] ->
  sumQ (map f l) < inject_Z (sumZ (map (fun a => rround (r a) (f a)) l) + Zlen l).
Proof.
  intros H. induction l as [|a l IH]; intros Ne; [congruence|]. sq. cbn [map sumZ fold_right].
  fold (sumZ (map (fun a => rround (r a) (f a)) l)).
  pose proof (rround_gt (r a) (f a) (H a (or_introl eq_refl))) as G.
  replace (rround (r a) (f a) + sumZ (map (fun a => rround (r a) (f a)) l) + Zlen (a :: l))%Z
    with ((rround (r a) (f a) + 1) + (sumZ (map (fun a => rround (r a) (f a)) l) + Zlen l))%Z by (unfold Zlen; cbn [length]; lia).
  rewrite inject_Z_plus, (inject_Z_plus (rround _ _)). change (inject_Z 1) with 1.
  destruct l as [|a' l'].
  - cbn [map sumZ fold_right]. rewrite sumQ_n. change (inject_Z (0 + Zlen (@nil Z))) with 0. lra.
  - assert (sumQ (map f (a' :: l')) < inject_Z (sumZ (map (fun a => rround (r a) (f a)) (a' :: l')) + Zlen (a' :: l'))) as G2.
    { apply IH; [intros; apply H; now right|discriminate]. } lra.
Qed.

(** C57: if more vehicles wait than fit, the capacity is used up to less than one
    vehicle per incoming link. *)
Theorem C57_capacity_is_used : forall N D t n w w' b s,
  junction_ready N D t n w -> node_evolve N D t w (n, NFwj) = Ok w' ->
  In b (n_out N n) -> link_supply (w_link w b) = Ok s ->
  s * n_fs N < inject_Z (sumZ (map (fun a => Zlen (line w b (l_fin (w_link w a)))) (n_in N n))) ->
  exists new, l_in (w_link w' b) = (l_in (w_link w b) ++ new)%list /\
    s * n_fs N < inject_Z (Zlen new + Zlen (n_in N n)) /\ inject_Z (Zlen new) <= s * n_fs N.
Proof.
  intros N D t n w w' b s R H Hb Es Full. destruct R as [Hf Ht NL DV Pr TM HS HH].
  destruct (junction_capacity _ _ _ _ _ _ _ Hf NL DV Pr H b s Hb Es) as (new & En & Ln).
  exists new. split; [exact En|]. split; [|exact Ln]. destruct NL as (NI & NO & DJ).
  pose proof DV as (_ & _ & _ & _ & _ & Hd & Hsh & _). cbn [node_evolve] in H.
  apply junction_ok in H as (m & Hm & J); auto; [|intros b'; apply Hsh].
  destruct (columns_ok _ _ _ _ _ _ _ _ NO Hm) as (_ & Em & supply & Hsup & Hc).
  assert (Hb' := Hb). rewrite <- Em in Hb'. apply in_map_iff in Hb' as ([b' col] & Eb & I). cbn [fst] in Eb. subst b'.
  destruct (Hc _ _ I) as [Lc Hr]. pose proof Es as Es'. rewrite (Hsup b Hb) in Es. apply Ok_inj in Es. rewrite Es in Hr.
  change (fun a => Zlen (line w b (l_fin (w_link w a)))) with (waits w b) in Full.
  assert (0 <= s) as Sp. { destruct (HS b Hb) as (s' & E1 & P). rewrite E1 in Es'. apply Ok_inj in Es'. now subst. }
  pose proof (je_in _ _ _ _ _ _ _ _ J b col I) as Ei. rewrite En in Ei. apply app_inv_head in Ei.
  assert (Zlen new = sumZ col) as Ez.
  { rewrite Ei. replace (sumZ col) with (sumZ (map (mv (n_in N n) col) (n_in N n))) by (f_equal; now apply mv_list).
    rewrite <- (sumZ_perm _ _ (Permutation_map (mv (n_in N n) col) (Hsh n b (n_in N n)))).
    assert (Hn : forall a, In a (d_inshuf D n b (n_in N n)) -> (0 <= mv (n_in N n) col a <= count_if (goes w b) (l_fin (w_link w a)))%Z).
    { intros a Ha. apply (je_num _ _ _ _ _ _ _ _ J b col a I). eapply Permutation_in; [apply Hsh|exact Ha]. }
    clear - Hn. induction (d_inshuf D n b (n_in N n)) as [|a l IH]; [reflexivity|].
    cbn [map concat sumZ fold_right]. rewrite Zlen_app, IH by (intros; apply Hn; now right).
    fold (sumZ (map (mv (n_in N n) col) l)). f_equal. pose proof (Hn a (or_introl eq_refl)) as B. unfold count_if in B.
    apply Zlen_firstn_le; lia. }
  rewrite Ez. unfold round_column in Hr.
  assert (n_in N n <> []) as Ne.
  { intros G. rewrite G in Full. cbn in Full. change (inject_Z 0) with 0 in Full. assert (0 <= s * n_fs N) by (apply Qmult_le_0_compat; lra). lra. }
  assert (1 <= Zlen (n_in N n))%Z as L1. { destruct (n_in N n); [congruence|]. unfold Zlen. cbn [length]. lia. }
  apply trim_cases in Hr as [Hr|Hr].
  - rewrite Hr.
    pose proof (sum_rround (n_in N n) (fun a => d_node D n a b) (fun a => fwj_flow (demand (n_fs N) w) (n_in N n) s a b * n_fs N)) as G.
    assert (sumQ (map (fun a => fwj_flow (demand (n_fs N) w) (n_in N n) s a b * n_fs N) (n_in N n)) == s * n_fs N) as Tot.
    { rewrite <- (fwj_full (n_fs N) w (n_in N n) s b Hf Sp Full). rewrite Qmult_comm, <- sumQ_scale. apply sumQ_eq. intros. ring. }
    rewrite Tot in G. apply G; auto. intros a Ha. apply Qmult_le_0_compat; [|lra]. apply fwj_range; auto.
  - eapply Qlt_le_trans; [exact Hr|]. rewrite <- Zle_Qle. lia.
Qed.
Print Assumptions C57_capacity_is_used.

(** General junctions do hold vehicles back: at a merge in front of a link with room
    for a hundred vehicles, five vehicles wait and one of them moves. *)
Theorem C57_general_junction_refuted : junction_ready xn xn_draws 2 3 gj_merge /\
  link_supply (w_link gj_merge 30) = Ok 100 /\
  (forall v, In v [1; 2; 3; 4]%Z -> In v (l_fin (w_link gj_merge 20)) /\ v_next (w_veh gj_merge v) = Some 30%Z) /\
  grj_evolve (n_fs xn) (n_in xn 3) (n_out xn 3) xn_draws 2 3 gj_merge <> Err EThrow /\
  l_in (w_link gj_after 30) = [1]%Z /\ l_fin (w_link gj_after 20) = [2; 3; 4]%Z.
Proof.
  destruct C50_case as (A & _ & _ & _ & B & C). split; [exact A|]. split; [vm_compute; reflexivity|]. split.
  { intros v Hv. split; [exact Hv|reflexivity]. }
  split; [|split; assumption].
  assert (forall r : res world, match r with Ok _ => true | Err _ => false end = true -> r <> Err EThrow) as G by (intros [?|?]; discriminate).
  apply G. vm_compute. reflexivity.
Qed.
Print Assumptions C57_general_junction_refuted.

(** Cases: in the state [xn_busy] link 25 has room for both vehicles waiting for it and
    link 20 has not for the nineteen waiting for it. *)
Example C57_case : junction_ready xn xn_draws 2 2 xn_busy /\ node_evolve xn xn_draws 2 xn_busy (2%Z, NFwj) = Ok xn_done /\
  (exists s, link_supply (w_link xn_busy 25) = Ok s /\ inject_Z (sumZ (map (fun a => Zlen (line xn_busy 25 (l_fin (w_link xn_busy a)))) (n_in xn 2))) <= s * n_fs xn) /\
  (exists s, link_supply (w_link xn_busy 20) = Ok s /\ s * n_fs xn < inject_Z (sumZ (map (fun a => Zlen (line xn_busy 20 (l_fin (w_link xn_busy a)))) (n_in xn 2)))).
Proof.
  destruct C07_C08_case as (A & B & _). split; [exact A|]. split; [exact B|].
  split; eexists; (split; [vm_compute; reflexivity|vm_compute; congruence]).
Qed.
