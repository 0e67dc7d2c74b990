(** Parking lots, factory, lengths, waiting times, volumes, implicit buses. *)
From Verif Require Import Base Base_lemmas Model_Num Proof_Num Model_Bus Model_Bus2 Spec_Bus Spec_Bus2 Proof_Bus Proof_Bus2.

(** ** parking *)
Lemma park_spec k : forall q c ps rest, park k q = Ok (c, ps, rest) ->
  c = Z.of_nat (length (filter (fun a => a_class a =? 0) q)) /\
  ps = map a_dest (filter (fun a => (a_class a =? 0) && a_pnr a) q) /\ rest = filter (fun a => negb (a_class a =? 0)) q.
Proof.
  induction q as [|a q IH]; intros c ps rest H; cbn [park] in H; [injection H as <- <- <-; auto|].
  gs H. destruct (park k q) as [[[c' ps'] rest']|]; cbn [bind] in H; [|discriminate].
  destruct (IH _ _ _ eq_refl) as (-> & -> & ->). cbn [filter].
  destruct (a_class a =? 0); cbn [andb negb]; injection H as <- <- <-.
  - cbn [length]. split; [lia|]. split; [|reflexivity]. destruct (a_pnr a); reflexivity.
  - auto.
Qed.
Lemma park_cars k m : park k (repeat {| a_class := 0; a_pnr := false; a_dest := k |} m) = Ok (Z.of_nat m, [], []).
Proof.
  induction m; [reflexivity|]. cbn [repeat park]. cbn [a_class a_pnr a_dest andb]. rewrite !Z.eqb_refl. cbn [andb].
  rewrite ?Z.eqb_refl. cbn [guard bind]. rewrite IHm. cbn [bind]. f_equal. f_equal. f_equal. lia.
Qed.

(** ** the factory *)
Lemma frun_spec : forall os f f', foldM frun f os = Ok f' ->
  f_num f' = f_num f + makes os /\ f_fin f' = f_fin f + removes os /\ f_enr f' = f_enr f + makes os - removes os /\
  f_pnr f' = f_pnr f + makes_pnr os /\ f_fin_pnr f' = f_fin_pnr f + removes_pnr os /\
  f_enr_pnr f' = f_enr_pnr f + makes_pnr os - removes_pnr os /\ f_time f' = f_time f + times os.
Proof.
  unfold makes, removes, makes_pnr, removes_pnr, times.
  induction os as [|o os IH]; intros f f' H; cbn [foldM] in H.
  - injection H as <-. cbn. lia.
  - destruct (frun f o) as [f1|] eqn:E; cbn [bind] in H; [|discriminate].
    specialize (IH _ _ H). destruct o as [b|p r]; cbn [frun] in E.
    + injection E as <-. cbn [f_num f_fin f_enr f_pnr f_fin_pnr f_enr_pnr f_time make_passenger] in IH.
      cbn [filter map length]; unfold sumZ in *; cbn [fold_right]. destruct b; cbn [length]; lia.
    + unfold remove_passenger in E. gs E. gs E. cbv zeta in E. gs E. injection E as <-.
      cbn [f_num f_fin f_enr f_pnr f_fin_pnr f_enr_pnr f_time] in IH.
      cbn [filter map length]; unfold sumZ in *; cbn [fold_right]. destruct (p_pnr r); cbn [length]; lia.
Qed.

(** ** lengths *)
Lemma covered_cons x p y l : covered (x :: p) (y :: l) = (x * snd y + covered p l)%Q.
Proof. reflexivity. Qed.
Lemma portions_mid from to lf lt : forall mid, (forall x, In x mid -> fst x <> from /\ fst x <> to) ->
  (covered (portions from to lf lt mid) mid == sumQ (map snd mid))%Q.
Proof.
  induction mid as [|[i len] mid IH]; intros H; [reflexivity|]. cbn [portions].
  destruct (H (i, len) (or_introl eq_refl)) as [A B]. cbn in A, B.
  destruct (Z.eqb_spec i from); [congruence|]. destruct (Z.eqb_spec i to); [congruence|].
  rewrite covered_cons. cbn [snd map]. change (sumQ (len :: map snd mid)) with (len + sumQ (map snd mid))%Q.
  rewrite (IH (fun x I => H x (or_intror I))). ring.
Qed.
Lemma portions_app from to lf lt a b : portions from to lf lt (a ++ b) = portions from to lf lt a ++ portions from to lf lt b.
Proof. induction a as [|[i len] a IH]; cbn; [reflexivity|]. now rewrite IH. Qed.
Lemma covered_app p l p' l' : length p = length l -> (covered (p ++ p') (l ++ l') == covered p l + covered p' l')%Q.
Proof.
  revert l. induction p as [|x p IH]; destruct l as [|y l]; intros H; try discriminate.
  - change (covered [] []) with 0%Q. cbn [app]. ring.
  - cbn [app]. rewrite !covered_cons, (IH l) by (cbn in H; congruence). ring.
Qed.
Lemma portions_len from to lf lt l : length (portions from to lf lt l) = length l.
Proof. induction l as [|[i len] l IH]; cbn; auto. Qed.
Lemma portions_total from to lf lt len0 mid len1 :
  from <> to -> (forall x, In x mid -> fst x <> from /\ fst x <> to) -> (0 < len0)%Q -> (0 < len1)%Q ->
  exists ps, length_portions from to lf lt ((from, len0) :: mid ++ [(to, len1)]) = Ok ps /\
    (covered ps ((from, len0) :: mid ++ [(to, len1)]) == (len0 - lf) + sumQ (map snd mid) + lt)%Q.
Proof.
  intros N H L0 L1. exists (portions from to lf lt ((from, len0) :: mid ++ [(to, len1)])). split.
  - unfold length_portions. destruct (mid ++ [(to, len1)]) as [|y l] eqn:E; [destruct mid; discriminate|].
    assert (last ((from, len0) :: y :: l) (from, len0) = (to, len1)) as X.
    { rewrite <- E. clear. change ((from, len0) :: mid ++ [(to, len1)]) with (((from, len0) :: mid) ++ [(to, len1)]). apply last_last. }
    rewrite X. cbn [fst]. rewrite !Z.eqb_refl. reflexivity.
  - change ((from, len0) :: mid ++ [(to, len1)]) with ([(from, len0)] ++ mid ++ [(to, len1)]).
    rewrite !portions_app, !covered_app by apply portions_len. rewrite (portions_mid from to lf lt mid H).
    unfold covered. cbn. rewrite Z.eqb_refl. destruct (Z.eqb_spec to from); [congruence|]. rewrite Z.eqb_refl. cbn.
    field. split; lra.
Qed.

(** ** waiting *)
Lemma search_first fs demand thr cur : forall m i fuel tot,
  (m < fuel)%nat -> tot = released_upto fs demand (Z.to_nat i) -> 0 <= i ->
  (forall j, i <= j < i + Z.of_nat m -> approx_lt (released_upto fs demand (Z.to_nat (j + 1))) thr tol = true) ->
  approx_lt (released_upto fs demand (Z.to_nat (i + Z.of_nat m + 1))) thr tol = false ->
  search_release fs demand thr cur i fuel tot = inject_Z ((i + Z.of_nat m - cur) * 60).
Proof.
  induction m as [|m IH]; intros i fuel tot F -> I Before At.
  - destruct fuel; [lia|]. cbn [search_release]. cbv zeta.
    assert (E : released_upto fs demand (Z.to_nat (i + Z.of_nat 0 + 1)) = (released_upto fs demand (Z.to_nat i) + released fs demand i)%Q).
    { replace (Z.to_nat (i + Z.of_nat 0 + 1)) with (S (Z.to_nat i)) by lia. cbn. now rewrite Z2Nat.id. }
    rewrite E in At. rewrite At. cbn [negb]. f_equal. lia.
  - destruct fuel; [lia|]. cbn [search_release]. cbv zeta.
    assert (E : released_upto fs demand (Z.to_nat (i + 1)) = (released_upto fs demand (Z.to_nat i) + released fs demand i)%Q).
    { replace (Z.to_nat (i + 1)) with (S (Z.to_nat i)) by lia. cbn. now rewrite Z2Nat.id. }
    assert (B := Before i ltac:(lia)). rewrite E in B. rewrite B. cbn [negb].
    rewrite IH; [f_equal; lia|lia|now rewrite E|lia| |].
    + intros j J. apply Before. lia.
    + replace (i + 1 + Z.of_nat m + 1) with (i + Z.of_nat (S m) + 1) by lia. exact At.
Qed.

(** ** point queues *)
Lemma mm_admit_app sup : forall inc i q, mm_admit sup inc = (i, q) -> inc = q ++ i.
Proof.
  intros inc. revert sup. induction inc as [|v inc IH]; intros sup i q H; cbn [mm_admit] in H; [injection H as <- <-; auto|].
  destruct (Qltb 0 sup); [|injection H as <- <-; auto].
  destruct (mm_admit (sup - 1) inc) as [i' q'] eqn:E. injection H as <- <-. cbn. f_equal. eauto.
Qed.

(** ** implicit buses *)
Lemma implicit_off_all n st il : forall line c w w',
  w_at w (PDone il) = line -> implicit_off n st il c line w = Ok w' ->
  c + Z.of_nat (length (filter (fun p => match p_next (w_pas w p) with Some x => is_walk (k_kind n x) | None => false end) line))
    <= k_mal n * trunc (k_fs n) ->
  w_at w' (PDone il) = [].
Proof.
  induction line as [|p line IH]; intros c w w' Hd H L; cbn [implicit_off] in H; [injection H as <-; auto|].
  destruct (p_next (w_pas w p)) as [x|] eqn:N; [|discriminate].
  assert (Same : forall y q, p_next (w_pas (onto y p (push q p (pop (PDone il) w))) p) = p_next (w_pas w p) /\
            forall z, p_next (w_pas (onto y p (push q p (pop (PDone il) w))) z) = p_next (w_pas w z)).
  { intros y q. split; [|intros z]; cbn; unfold upd; [rewrite Z.eqb_refl; reflexivity|].
    destruct (Z.eqb_spec z p); subst; reflexivity. }
  assert (Ext : forall (g h : Z -> bool) l, (forall z, g z = h z) -> length (filter g l) = length (filter h l)).
  { intros g h l E. induction l; cbn; auto. rewrite E. destruct (h a); cbn; auto. }
  cbn [filter] in L. rewrite N in L. ifs H.
  - gs H. assert (is_walk (k_kind n x) = false) as Wk by (destruct (is_walk (k_kind n x)); [discriminate|auto]). rewrite Wk in L.
    refine (IH _ _ _ _ H _).
    + assert (M := pushpop_moved p (PDone il) (PIn x) w). refine (moved_source p (PDone il) (PIn x) _ _ _ Hd _ M). discriminate.
    + erewrite Ext; [exact L|]. intros z. cbn. unfold upd. destruct (Z.eqb_spec z p); subst; reflexivity.
  - gs H. assert (is_walk (k_kind n x) = true) as Wk by (destruct (is_walk (k_kind n x)); [auto|discriminate]). rewrite Wk in L.
    cbn [length] in L. ifs H; [exfalso; lia|]. gs H.
    refine (IH _ _ _ _ H _).
    + assert (M := pushpop_moved p (PDone il) (PDone x) w). refine (moved_source p (PDone il) (PDone x) _ _ _ Hd _ M).
      apply negb_true_iff, Z.eqb_neq in G0. congruence.
    + erewrite Ext; [instantiate (1 := fun p0 => match p_next (w_pas w p0) with Some x0 => is_walk (k_kind n x0) | None => false end); lia|].
      intros z. cbn. unfold upd. destruct (Z.eqb_spec z p); subst; reflexivity.
Qed.
