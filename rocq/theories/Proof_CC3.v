(** Per-path curve trees; vehicle-count scaling; shrink. *)
From Verif Require Import Base Base_lemmas Model_Num Proof_Num Model_CC Spec_CC Proof_CC Proof_CC2.
Local Open Scope Q_scope.

Lemma key_eqb_spec a b : reflect (a = b) (key_eqb a b).
Proof.
  unfold key_eqb. destruct a as [a1 a2], b as [b1 b2]; simpl.
  destruct (Z.eqb_spec a1 b1); destruct (Z.eqb_spec a2 b2); simpl; constructor; congruence.
Qed.
Lemma tree_find_set t k c k' : tree_find (tree_set t k c) k' = if key_eqb k' k then Some c else tree_find t k'.
Proof.
  induction t as [|[k0 c0] t IH]; simpl.
  - destruct (key_eqb k' k); reflexivity.
  - destruct (key_eqb_spec k k0) as [->|N]; simpl.
    + destruct (key_eqb_spec k' k0); reflexivity.
    + destruct (key_eqb_spec k' k0) as [->|N'].
      * destruct (key_eqb_spec k0 k); [congruence|reflexivity].
      * exact IH.
Qed.
Lemma tree_find_In t k c : NoDup (map fst t) -> (In (k, c) t <-> tree_find t k = Some c).
Proof.
  induction t as [|[k0 c0] t IH]; simpl; intros Hn; [split; [intros []|discriminate]|].
  inversion_clear Hn as [|? ? Hni Hn'].
  destruct (key_eqb_spec k k0) as [->|N].
  - split; intros H.
    + destruct H as [H|H]; [congruence|]. exfalso. apply Hni. apply in_map_iff. exists (k0, c). auto.
    + left. congruence.
  - rewrite <- (IH Hn'). split; intros H; [|right; exact H]. destruct H as [H|H]; [congruence|exact H].
Qed.
Lemma tree_find_keys t k : tree_find t k = None <-> ~ In k (map fst t).
Proof.
  induction t as [|[k0 c0] t IH]; simpl; [split; auto|].
  destruct (key_eqb_spec k k0) as [->|N].
  - split; [discriminate|]. intros H. exfalso. apply H. left. reflexivity.
  - rewrite IH. split; intros H; [intros [C|C]; [congruence|auto]|]. intros C. apply H. right. exact C.
Qed.
Lemma tree_set_keys t k c : map fst (tree_set t k c) = if existsb (key_eqb k) (map fst t) then map fst t else map fst t ++ [k].
Proof.
  induction t as [|[k0 c0] t IH]; simpl; [reflexivity|].
  destruct (key_eqb_spec k k0) as [->|N]; simpl; [reflexivity|]. rewrite IH.
  destruct (existsb (key_eqb k) (map fst t)); reflexivity.
Qed.
Lemma tree_set_NoDup t k c : NoDup (map fst t) -> NoDup (map fst (tree_set t k c)).
Proof.
  intros H. rewrite tree_set_keys. destruct (existsb (key_eqb k) (map fst t)) eqn:E; [exact H|].
  apply Permutation_NoDup with (k :: map fst t); [apply Permutation_cons_append|]. constructor; [|exact H].
  intros C. rewrite <- not_true_iff_false in E. apply E. apply existsb_exists. exists k. split; [exact C|].
  destruct (key_eqb_spec k k); congruence.
Qed.

(** one movement: (path, departing interval), (time, amount) *)
Definition flow_op : Type := (Z * Z) * (Q * Q).
Definition apply_op (t : cctree) (o : flow_op) : res cctree :=
  add_flow t (fst (snd o)) (snd (snd o)) (fst (fst o)) (snd (fst o)).
Definition ops_of (k : Z * Z) (ops : list flow_op) : list (Q * Q) :=
  map snd (filter (fun o => key_eqb k (fst o)) ops).

Lemma ops_of_app k o1 o2 : ops_of k (o1 ++ o2) = ops_of k o1 ++ ops_of k o2.
Proof. unfold ops_of. now rewrite filter_app, map_app. Qed.

Lemma tree_inv ops t :
  foldM apply_op [] ops = Ok t ->
  NoDup (map fst t) /\
  (forall k, In k (map fst t) <-> exists o, In o ops /\ fst o = k) /\
  (forall k c, tree_find t k = Some c -> foldM add_increment fresh_curve (ops_of k ops) = Ok c).
Proof.
  revert t. induction ops as [|o ops IH] using rev_ind; intros t E.
  - simpl in E. injection E as <-. split; [constructor|]. split.
    + intros k. simpl. split; [intros []|intros (o & [] & _)].
    + intros k c. simpl. discriminate.
  - rewrite foldM_app in E. apply bind_ok in E. destruct E as (t1 & E1 & E2).
    cbn [foldM] in E2. apply bind_ok in E2. destruct E2 as (t2 & E2 & E3). injection E3 as <-.
    destruct (IH t1 E1) as (Hn & Hk & Hc).
    unfold apply_op, add_flow in E2. apply bind_ok in E2. destruct E2 as (c' & Ec' & E2). injection E2 as <-.
    assert (Ek : (fst (fst o), snd (fst o)) = fst o) by (symmetry; apply surjective_pairing).
    assert (Ev : (fst (snd o), snd (snd o)) = snd o) by (symmetry; apply surjective_pairing).
    rewrite Ek in *. rewrite Ev in Ec'.
    split; [apply tree_set_NoDup; exact Hn|]. split.
    + intros k. rewrite tree_set_keys. destruct (existsb (key_eqb (fst o)) (map fst t1)) eqn:Ex.
      * rewrite Hk. split.
        -- intros (o' & Ho & <-). exists o'. split; [apply in_or_app; left; exact Ho|reflexivity].
        -- intros (o' & Ho & <-). apply in_app_or in Ho. destruct Ho as [Ho|[<-|[]]]; [exists o'; auto|].
           apply existsb_exists in Ex. destruct Ex as (k & Hin & Heq).
           destruct (key_eqb_spec (fst o) k) as [<-|]; [|discriminate]. apply Hk in Hin. exact Hin.
      * rewrite in_app_iff, Hk. split.
        -- intros [(o' & Ho & <-)|[<-|[]]]; [exists o'; split; [apply in_or_app; left; exact Ho|reflexivity]|].
           exists o. split; [apply in_or_app; right; left; reflexivity|reflexivity].
        -- intros (o' & Ho & <-). apply in_app_or in Ho. destruct Ho as [Ho|[<-|[]]]; [left; exists o'; auto|right; left; reflexivity].
    + intros k c. rewrite tree_find_set. rewrite ops_of_app. destruct (key_eqb_spec k (fst o)) as [->|N].
      * injection 1 as <-. rewrite foldM_app.
        assert (Eops : ops_of (fst o) [o] = [snd o]).
        { unfold ops_of. simpl. destruct (key_eqb_spec (fst o) (fst o)); [reflexivity|congruence]. }
        rewrite Eops. destruct (tree_find t1 (fst o)) as [c1|] eqn:Ef.
        -- rewrite (Hc _ _ Ef). cbn [bind foldM]. rewrite Ec'. reflexivity.
        -- assert (E0 : ops_of (fst o) ops = []).
           { unfold ops_of. destruct (filter (fun x => key_eqb (fst o) (fst x)) ops) as [|o' l] eqn:Eo; [reflexivity|exfalso].
             assert (Hin : In o' (filter (fun x => key_eqb (fst o) (fst x)) ops)) by (rewrite Eo; left; reflexivity).
             apply filter_In in Hin. destruct Hin as [Hin Heq]. destruct (key_eqb_spec (fst o) (fst o')); [|discriminate].
             apply tree_find_keys in Ef. apply Ef. apply Hk. exists o'. auto. }
           rewrite E0. cbn [foldM bind]. rewrite Ec'. reflexivity.
      * intros Ef. assert (Eops : ops_of k [o] = []).
        { unfold ops_of. simpl. destruct (key_eqb_spec k (fst o)); [congruence|reflexivity]. }
        rewrite Eops, app_nil_r. apply Hc. exact Ef.
Qed.

(** the per-key amounts add up *)
Lemma amount_cons r incs t : amount_until (r :: incs) t == (if Qle_bool (fst r) t then snd r else 0) + amount_until incs t.
Proof. unfold amount_until. simpl. destruct (Qle_bool (fst r) t); simpl; lra. Qed.

Lemma sum_over_keys ks ops t :
  NoDup ks -> (forall o, In o ops -> In (fst o) ks) ->
  sumQ (map (fun k => amount_until (ops_of k ops) t) ks) == amount_until (map snd ops) t.
Proof.
  intros Hn. induction ops as [|o ops IH]; intros Hin.
  - unfold amount_until, ops_of. simpl. clear. induction ks; simpl; [reflexivity|]. rewrite IHks. lra.
  - cbn [map]. rewrite amount_cons, <- IH by (intros o' Ho'; apply Hin; right; exact Ho').
    set (a := if Qle_bool (fst (snd o)) t then snd (snd o) else 0).
    assert (Hk : In (fst o) ks) by (apply Hin; left; reflexivity).
    clear Hin IH. 
    assert (G : forall ks, NoDup ks ->
       sumQ (map (fun k => amount_until (ops_of k (o :: ops)) t) ks) ==
       (if existsb (key_eqb (fst o)) ks then a else 0) + sumQ (map (fun k => amount_until (ops_of k ops) t) ks)).
    { clear ks Hn Hk. induction ks as [|k ks IH]; intros Hn; [simpl; lra|].
      inversion_clear Hn as [|? ? Hni Hn']. cbn [map sumQ fold_right existsb]. fold (sumQ (map (fun k => amount_until (ops_of k (o :: ops)) t) ks)).
      fold (sumQ (map (fun k => amount_until (ops_of k ops) t) ks)). rewrite (IH Hn').
      unfold ops_of at 1. cbn [filter]. destruct (key_eqb_spec k (fst o)) as [->|N].
      - destruct (key_eqb_spec (fst o) (fst o)); [|congruence]. cbn [orb map].
        fold (ops_of (fst o) ops). rewrite amount_cons. fold a.
        assert (Ex : existsb (key_eqb (fst o)) ks = false).
        { destruct (existsb _ ks) eqn:Ex; [|reflexivity]. apply existsb_exists in Ex. destruct Ex as (k & Hk & He).
          destruct (key_eqb_spec (fst o) k); [subst; contradiction|discriminate]. }
        rewrite Ex. lra.
      - destruct (key_eqb_spec (fst o) k); [congruence|]. cbn [orb]. fold (ops_of k ops). lra. }
    rewrite (G ks Hn).
    assert (Ex : existsb (key_eqb (fst o)) ks = true).
    { apply existsb_exists. exists (fst o). split; [exact Hk|]. destruct (key_eqb_spec (fst o) (fst o)); congruence. }
    rewrite Ex. reflexivity.
Qed.

Lemma times_nondecreasing_sub {A} (f : A -> bool) (g : A -> Q * Q) l :
  times_nondecreasing (map g l) -> times_nondecreasing (map g (filter f l)).
Proof.
  assert (Alt : forall m, times_nondecreasing m <-> (forall m1 x m2 y m3, m = m1 ++ x :: m2 ++ y :: m3 -> fst x <= fst y)).
  { clear. intros m. split.
    - intros H m1 x m2 y m3 ->. apply (H (length m1) (length m1 + S (length m2))%nat); [lia| |].
      + rewrite nth_error_app2 by lia. now rewrite Nat.sub_diag.
      + rewrite nth_error_app2 by lia. replace (length m1 + S (length m2) - length m1)%nat with (S (length m2)) by lia.
        simpl. rewrite nth_error_app2 by lia. now rewrite Nat.sub_diag.
    - intros H i k ri rk L Ei Ek. destruct (nth_error_split _ _ Ei) as (m1 & m2 & -> & Len).
      rewrite nth_error_app2 in Ek by lia. destruct (k - length m1)%nat as [|q] eqn:Q; [lia|]. simpl in Ek.
      destruct (nth_error_split _ _ Ek) as (m3 & m4 & -> & _). eapply H. reflexivity. }
  induction l as [|a l IH]; [auto|]. intros H.
  assert (H' : times_nondecreasing (map g l)).
  { intros i k ri rk L Ei Ek. apply (H (S i) (S k)); [lia|exact Ei|exact Ek]. }
  cbn [filter]. destruct (f a); [|apply IH; exact H'].
  cbn [map]. intros i k ri rk L Ei Ek. destruct k as [|k]; [lia|]. simpl in Ek.
  destruct i as [|i].
  - simpl in Ei. injection Ei as <-. apply nth_error_In in Ek. apply in_map_iff in Ek. destruct Ek as (b & <- & Hb).
    apply filter_In in Hb. destruct Hb as [Hb _]. apply (in_map g) in Hb. apply In_nth_error in Hb. destruct Hb as (q & Eq).
    apply (H 0%nat (S q)); [lia|reflexivity|exact Eq].
  - simpl in Ei. eapply (IH H' i k); eauto. lia.
Qed.

Lemma tree_total ops t tq :
  foldM apply_op [] ops = Ok t ->
  times_nondecreasing (map snd ops) -> (forall o, In o ops -> whole_time (fst (snd o))) -> whole_time tq ->
  exists vs, Forall2 (fun (e : (Z*Z) * curve) v => get_result (snd e) tq = Ok v /\
      v == amount_until (ops_of (fst e) ops) tq) t vs /\
    sumQ vs == amount_until (map snd ops) tq.
Proof.
  intros E Hm Hw Ht. destruct (tree_inv ops t E) as (Hn & Hk & Hc).
  assert (Hv : forall e, In e t -> exists v, get_result (snd e) tq = Ok v /\ v == amount_until (ops_of (fst e) ops) tq).
  { intros [k c] He. apply (tree_find_In t k c Hn) in He. apply Hc in He.
    destruct (curve_lookup (ops_of k ops)) as (c' & Ec' & Hl & _).
    - unfold ops_of. apply times_nondecreasing_sub. exact Hm.
    - intros r Hr. unfold ops_of in Hr. apply in_map_iff in Hr. destruct Hr as (o & <- & Ho). apply filter_In in Ho. apply Hw. apply Ho.
    - rewrite He in Ec'. injection Ec' as <-. apply Hl. exact Ht. }
  assert (Hvs : exists vs, Forall2 (fun (e : (Z*Z) * curve) v => get_result (snd e) tq = Ok v /\ v == amount_until (ops_of (fst e) ops) tq) t vs).
  { clear -Hv. induction t as [|e t IH]; [exists []; constructor|].
    destruct IH as (vs & Hvs); [intros e' He'; apply Hv; right; exact He'|].
    destruct (Hv e) as (v & H1 & H2); [left; reflexivity|]. exists (v :: vs). constructor; auto. }
  destruct Hvs as (vs & Hvs). exists vs. split; [exact Hvs|].
  rewrite <- (sum_over_keys (map fst t) ops tq Hn).
  - clear -Hvs. induction Hvs as [|e v t vs [_ H] _ IH]; simpl; [reflexivity|]. rewrite H. setoid_replace (sumQ vs) with (sumQ (map (fun k => amount_until (ops_of k ops) tq) (map fst t))) by exact IH. reflexivity.
  - intros o Ho. apply Hk. exists o. auto.
Qed.

(** vehicle counts divided by the flow scalar *)
Definition vehicle_amount (f : Q) (v : Q) : Prop := exists z : Z, (0 <= z < 10000)%Z /\ v == inject_Z z / f.
Lemma vehicle_sep f a b : 0 < f -> vehicle_amount f a -> vehicle_amount f b -> separated a b.
Proof.
  intros Hf (x & Hx & Ex) (y & Hy & Ey).
  assert (Sx : whole_time (a * f)). { exists x. split; [exact Hx|]. rewrite Ex. field. lra. }
  assert (Sy : whole_time (b * f)). { exists y. split; [exact Hy|]. rewrite Ey. field. lra. }
  destruct (whole_sep _ _ Sx Sy) as [E|E].
  - left. apply (Qmult_inj_r a b f); [lra|exact E].
  - right. assert (A1 : 0 <= a). { rewrite Ex. apply Qle_shift_div_l; [exact Hf|]. pose proof (injZ_nonneg x ltac:(lia)). lra. }
    assert (A2 : 0 <= b). { rewrite Ey. apply Qle_shift_div_l; [exact Hf|]. pose proof (injZ_nonneg y ltac:(lia)). lra. }
    assert (B1 : 0 <= a * f) by nra. assert (B2 : 0 <= b * f) by nra.
    rewrite (Qabs_pos a A1), (Qabs_pos b A2). rewrite (Qabs_pos _ B1), (Qabs_pos _ B2) in E.
    assert (E2 : Qabs (a * f - b * f) == Qabs (a - b) * f).
    { setoid_replace (a * f - b * f) with ((a - b) * f) by ring. rewrite Qabs_Qmult, (Qabs_pos f) by lra. reflexivity. }
    rewrite E2 in E.
    destruct (Q.max_spec a b) as [[M1 M2]|[M1 M2]]; rewrite M2;
    destruct (Q.max_spec (a * f) (b * f)) as [[N1 N2]|[N1 N2]]; rewrite N2 in E; nra.
Qed.

(** shrink keeps the oldest records *)
Lemma insert_last l r : (forall y, In y l -> fst y <= fst r) -> insert_by_time r l = l ++ [r].
Proof.
  induction l as [|x l IH]; intros H; [reflexivity|]. simpl.
  destruct (Qltb_spec (fst r) (fst x)) as [L|L].
  - pose proof (H x (or_introl eq_refl)). lra.
  - rewrite IH; [reflexivity|]. intros y Hy. apply H. right. exact Hy.
Qed.
Lemma arrange_sorted c : times_increase c -> arrange c = c.
Proof.
  intros H. unfold arrange.
  assert (G : forall l2 l1, c = l1 ++ l2 -> fold_left (fun l r => insert_by_time r l) l2 l1 = c).
  { induction l2 as [|x l2 IH]; intros l1 E; simpl; [rewrite E; symmetry; apply app_nil_r|].
    rewrite insert_last.
    - apply IH. rewrite <- app_assoc. exact E.
    - intros y Hy. apply In_nth_error in Hy. destruct Hy as (i & Ei).
      assert (L : (i < length l1)%nat) by (apply nth_error_Some; congruence).
      apply Qlt_le_weak. apply (H i (length l1)); [exact L| |].
      + rewrite E, nth_error_app1 by exact L. exact Ei.
      + rewrite E, nth_error_app2 by lia. now rewrite Nat.sub_diag. }
  apply (G c []). reflexivity.
Qed.
Lemma shrink_keeps_oldest c n : times_increase c -> (0 <= n)%Z ->
  shrink c n = Ok (firstn (Z.to_nat n) c).
Proof.
  intros H Hn. unfold shrink. destruct (Z.gtb_spec (Z.of_nat (length c)) n) as [L|L].
  - destruct (Z.ltb_spec n 0); [lia|]. now rewrite arrange_sorted.
  - rewrite firstn_all2 by lia. reflexivity.
Qed.
