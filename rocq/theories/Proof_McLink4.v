(** Two-class links: free-flow intervals of a CTM link, point queue, totality. *)
From Verif Require Import Base Base_lemmas Model_Num Proof_Num Spec_Path Proof_Path Model_Link Spec_Link
  Proof_Link Proof_Link2 Proof_Link3 Proof_Link4 Proof_Link5 Model_McLink Spec_McLink Proof_McLink Proof_McLink2 Proof_McLink3.
Local Open Scope Q_scope.

(** ** what the constructor builds *)
Lemma floor_pos_le y : 0 <= y -> Qfloor y <> 0%Z -> 1 <= y.
Proof.
  intros H N. assert (0 <= Qfloor y)%Z by (change 0%Z with (Qfloor 0); apply Qfloor_resp_le; exact H).
  pose proof (Qfloor_le y). assert (1 <= inject_Z (Qfloor y)) by (apply injZ_pos; lia). lra.
Qed.
Lemma nth_repeat_app {A} (x y : A) n j z : nth_error (repeat x n ++ [y])%list j = Some z -> ((j < n)%nat -> z = x) /\ ((j >= n)%nat -> j = n /\ z = y).
Proof.
  revert j. induction n as [|n IH]; intros [|j] E; cbn in *.
  - injection E as <-. split; [lia|auto].
  - destruct j; discriminate.
  - injection E as <-. split; [auto|lia].
  - apply IH in E as [E1 E2]. split; [intros; apply E1; lia|]. intros L. destruct (E2 ltac:(lia)) as [-> ->]. auto.
Qed.

Lemma make_mctm_cells p l : make_mctm p = Ok l -> exists p' lens,
  adjusted p p' /\ l = mnew p' (MCtm (mctm_fd p') (map new_mcell lens)) /\ 0 < mp_ut p /\ 1 <= mp_fs p /\ 1 <= mp_pcu p /\ 0 <= mp_len p /\
  mctm_ncells p' = mfreeflow_intervals p /\
  Z.of_nat (length lens) = mfreeflow_intervals p /\
  (forall j x, nth_error lens j = Some x -> 0 < x /\ ((S j < length lens)%nat -> x = (mp_ffs_c p * mp_ut p)%Q)).
Proof.
  intros E. destruct (make_mctm_inv _ _ E) as (p' & lens & Ea & -> & -> & Hb & Hp & Hf & Hu).
  apply mbase_ok in Hb as (B1 & B2 & B3). pose proof (adjust_inv _ _ Ea Hu ltac:(lra) B2) as AD.
  exists p'. eexists. split; [exact AD|]. split; [reflexivity|]. do 4 (split; [lra|]).
  destruct AD as [_ L2 _ _ L5 _ _ V1 _ _ _ _ _ _ _ _ _ LL].
  set (st := mp_ffs_c p * mp_ut p) in *. assert (Ps : 0 < st) by (unfold st; pp).
  assert (X0 : 0 <= mp_len p / st) by (apply div_nn; auto).
  assert (F0 : (0 <= Qfloor (mp_len p / st))%Z) by (change 0%Z with (Qfloor 0); apply Qfloor_resp_le; exact X0).
  assert (Es : mp_ffs_c p' * mp_ut p' == st) by (rewrite L5, L2; reflexivity).
  assert (Es' : (mp_ffs_c p' * mp_ut p')%Q = st) by (rewrite L5, L2; reflexivity).
  assert (NC : mctm_ncells p' = mfreeflow_intervals p).
  { unfold mctm_ncells, mfreeflow_intervals. rewrite Es', LL. fold st. destruct (Z.eqb_spec (Qfloor (mp_len p / st)) 0) as [Z|Z].
    - rewrite Z. assert (O : Qfloor (st / st) = 1%Z). { setoid_replace (st / st) with 1 by (field; lra). reflexivity. } rewrite O. reflexivity.
    - destruct (Z.eqb_spec (Qfloor (mp_len p / st)) 0); lia. }
  assert (N1 : (1 <= mfreeflow_intervals p)%Z) by (unfold mfreeflow_intervals; lia).
  assert (Pl : st <= mp_len p').
  { rewrite LL. destruct (Z.eqb_spec (Qfloor (mp_len p / st)) 0) as [Z|Z]; [lra|].
    pose proof (floor_pos_le _ X0 Z). apply Qle_trans with (mp_len p / st * st); [nra|]. assert (mp_len p / st * st == mp_len p) by (field; lra). lra. }
  assert (Pt : Qltb 0 (mp_len p') = true). { destruct (Qltb_spec 0 (mp_len p')); [auto|lra]. }
  assert (Pz : 0 < mctm_last p').
  { unfold mctm_last. rewrite Es', NC.
    assert (M : inject_Z (mfreeflow_intervals p) * st <= mp_len p').
    { unfold mfreeflow_intervals. fold st. rewrite LL. destruct (Z.eqb_spec (Qfloor (mp_len p / st)) 0) as [Z|Z].
      - rewrite Z. change (inject_Z (Z.max 1 0)) with 1. lra.
      - rewrite Z.max_r by lia. pose proof (Qfloor_le (mp_len p / st)) as Q1.
        assert (Q2 : mp_len p / st * st == mp_len p) by (field; lra). rewrite <- Q2 at 2. apply Qmult_le_compat_r; lra. }
    assert (IZ : inject_Z (mfreeflow_intervals p - 1) == inject_Z (mfreeflow_intervals p) - 1) by (unfold Z.sub; rewrite inject_Z_plus; change (inject_Z (- (1))) with (-(1)); ring).
    rewrite IZ. nra. }
  split; [exact NC|]. rewrite NC, Es', Pt.
  assert (LN : length (repeat st (Z.to_nat (mfreeflow_intervals p - 1)) ++ [mctm_last p'])%list = Z.to_nat (mfreeflow_intervals p)).
  { rewrite app_length, repeat_length. cbn [length]. lia. }
  split; [rewrite LN; lia|]. intros j x Ej. rewrite LN.
  apply nth_repeat_app in Ej as [E1 E2]. destruct (lt_dec j (Z.to_nat (mfreeflow_intervals p - 1))) as [L|L].
  - rewrite (E1 L). split; [lra|reflexivity].
  - destruct (E2 ltac:(lia)) as [-> ->]. split; [exact Pz|lia].
Qed.

(** ** pointwise forms *)
Lemma mvols_nth cls fin : forall cs j c, mvols cls fin cs -> nth_error cs j = Some c ->
  mc_vc c = (Zlen (mc_qc c) + (if (S j =? length cs)%nat then Zlen (cars cls fin) else 0))%Z /\
  mc_vt c = (Zlen (mc_qt c) + (if (S j =? length cs)%nat then Zlen (trucks cls fin) else 0))%Z.
Proof.
  induction cs as [|c0 cs IH]; intros j c V E; [destruct j; discriminate|]. destruct cs as [|c1 cs].
  - destruct j as [|[|j]]; try discriminate. injection E as <-. cbn. destruct V as [[V1 V2] _]. auto.
  - destruct V as [[V1 V2] V]. destruct j as [|j].
    + injection E as <-. cbn [length Nat.eqb]. lia.
    + cbn [nth_error] in E. destruct (IH j c V E) as [A B]. change (S (S j) =? length (c0 :: c1 :: cs))%nat with (S j =? length (c1 :: cs))%nat. auto.
Qed.
Lemma mfree_nth f ut fs : forall cs, (forall j c, nth_error cs j = Some c ->
   sp_of f fs c /\ 0 < mc_len c /\ (0 <= mc_vc c)%Z /\ (0 <= mc_vt c)%Z /\
   at_free_flow f (kden fs (mc_len c) (mc_vc c)) (kden fs (mc_len c) (mc_vt c)) /\
   ((S j < length cs)%nat -> mc_len c == vf_c f * ut /\ mc_vc c = Zlen (mc_qc c) /\ mc_vt c = Zlen (mc_qt c))) -> mfree f ut fs cs.
Proof.
  induction cs as [|c cs IH]; intros H; [exact I|]. split.
  - destruct (H 0%nat c eq_refl) as (A & B & C & D & E & F). split; [exact A|]. split; [exact B|]. split; [exact C|]. split; [exact D|]. split; [exact E|].
    intros Hn. apply F. destruct cs; [congruence|cbn; lia].
  - apply IH. intros j d Ed. destruct (H (S j) d Ed) as (A & B & C & D & E & F). split; [exact A|]. split; [exact B|]. split; [exact C|]. split; [exact D|]. split; [exact E|].
    intros L. apply F. cbn [length]. lia.
Qed.
Lemma shift_nth : forall cs os extra j c o, nth_error cs j = Some c -> nth_error os j = Some o ->
  exists d, nth_error (shift extra cs os) j = Some d /\
    c_q d = (skipn (Z.to_nat o) (c_q c) ++ match j with O => extra | S i =>
      match nth_error cs i, nth_error os i with Some c', Some o' => firstn (Z.to_nat o') (c_q c') | _, _ => [] end end)%list.
Proof.
  induction cs as [|c0 cs IH]; intros [|o0 os] extra j c o E1 E2; try (destruct j; discriminate).
  destruct j as [|j]; cbn [nth_error] in E1, E2.
  - injection E1 as <-. injection E2 as <-. eexists. split; [reflexivity|]. reflexivity.
  - cbn [shift nth_error]. destruct (IH os (firstn (Z.to_nat o0) (c_q c0)) j c o E1 E2) as (d & Ed & Eq).
    exists d. split; [exact Ed|]. rewrite Eq. destruct j; reflexivity.
Qed.
Lemma last_out_nth : forall cs os c o, nth_error cs (length cs - 1) = Some c -> nth_error os (length cs - 1) = Some o -> length os = length cs ->
  last_out cs os = firstn (Z.to_nat o) (c_q c).
Proof.
  induction cs as [|c0 cs IH]; intros [|o0 os] c o E1 E2 L; try discriminate. destruct cs as [|c1 cs].
  - cbn in E1, E2. injection E1 as <-. injection E2 as <-. destruct os; [reflexivity|discriminate].
  - destruct os as [|o1 os]; [discriminate|]. change (last_out (c0 :: c1 :: cs) (o0 :: o1 :: os)) with (last_out (c1 :: cs) (o1 :: os)).
    apply IH; [| |cbn in *; lia]; cbn [length] in *; replace (S (S (length cs)) - 1)%nat with (S (length cs)) in * by lia;
      replace (S (length cs) - 1)%nat with (length cs) by lia; assumption.
Qed.

(** ** one interval in free flow *)
Definition lens_ok (f : fd) (ut : Q) (lens : list Q) : Prop :=
  forall j x, nth_error lens j = Some x -> 0 < x /\ ((S j < length lens)%nat -> x == vf_c f * ut).
Lemma enter_load p f cls c inc k : queue_of k (enter p f cls c inc) = (queue_of k c ++ of_class cls k inc)%list.
Proof. unfold enter, queue_of. destruct k; cbn [set_mvol set_mq mc_qc mc_qt]; rewrite ?of_class_cars, ?of_class_trucks; reflexivity. Qed.
Lemma enter_nth cls l f c tl arr j d k : nth_error (c :: tl) j = Some d ->
  exists e, nth_error (enter (ml_par l) f cls c (ml_in l ++ arr) :: tl) j = Some e /\ mc_len e = mc_len d /\ queue_of k e = mload cls k l arr j d.
Proof.
  destruct j as [|j]; intros E; cbn [nth_error] in *.
  - injection E as <-. eexists. split; [reflexivity|]. split; [reflexivity|]. rewrite enter_load. reflexivity.
  - exists d. split; [exact E|]. split; [reflexivity|]. unfold mload. cbn [Nat.eqb]. rewrite app_nil_r. reflexivity.
Qed.

Lemma mfree_interval cls f lens l arr c tl : fd_ok f -> 0 < mp_fs (ml_par l) -> lens_ok f (mp_ut (ml_par l)) lens ->
  minv cls f lens l -> ml_body l = MCtm f (c :: tl) -> tl <> [] -> link_free cls l arr ->
  mfree f (mp_ut (ml_par l)) (mp_fs (ml_par l)) (enter (ml_par l) f cls c (ml_in l ++ arr) :: tl).
Proof.
  intros HF Hf HL (cs & Hb & El & Hs & Hv & Hi) Hb1 Ht HA. rewrite Hb1 in Hb. injection Hb as <-. apply mfree_nth.
  assert (LL : length lens = length (c :: tl)) by (rewrite <- El, map_length; reflexivity).
  intros j d Ed.
  assert (E0 : exists d0, nth_error (c :: tl) j = Some d0 /\ mc_len d = mc_len d0).
  { destruct j as [|j]; [exists c; injection Ed as <-; auto|exists d; auto]. }
  destruct E0 as (d0 & E0 & EL). pose proof (HA f _ j d0 Hb1 E0) as A.
  assert (X : nth_error lens j = Some (mc_len d0)) by (rewrite <- El, nth_error_map, E0; reflexivity).
  destruct (HL j _ X) as [P1 P2]. rewrite EL.
  assert (V : mc_vc d = cell_load cls false l arr (length (c :: tl)) j d0 /\ mc_vt d = cell_load cls true l arr (length (c :: tl)) j d0 /\
     ((S j < length (c :: tl))%nat -> mc_vc d = Zlen (mc_qc d) /\ mc_vt d = Zlen (mc_qt d))).
  { destruct (mvols_nth _ _ _ _ _ Hv E0) as [Vc Vt]. unfold cell_load. rewrite <- of_class_cars, <- !of_class_trucks, <- !of_class_cars in *.
    destruct j as [|j].
    - injection E0 as <-. injection Ed as <-. unfold enter. cbn [set_mvol set_mq mc_vc mc_vt mc_qc mc_qt queue_of]. rewrite !Zlen_app.
      assert (N1 : (1 =? length (c :: tl))%nat = false) by (destruct tl; [congruence|reflexivity]). rewrite N1. change (0 =? 0)%nat with true. cbn iota. lia.
    - cbn [nth_error] in Ed, E0. rewrite E0 in Ed. injection Ed as ->. cbn [queue_of]. change (S j =? 0)%nat with false. cbn iota.
      split; [lia|]. split; [lia|]. intros L. destruct (Nat.eqb_spec (S (S j)) (length (c :: tl))); lia. }
  destruct V as (V1 & V2 & V3).
  assert (NN : forall k, (0 <= cell_load cls k l arr (length (c :: tl)) j d0)%Z).
  { intros k. unfold cell_load. pose proof (Zlen_nonneg (queue_of k d0)). pose proof (Zlen_nonneg (of_class cls k (ml_in l ++ arr))).
    pose proof (Zlen_nonneg (of_class cls k (ml_fin l))). destruct (j =? 0)%nat; destruct (S j =? _)%nat; lia. }
  split. { destruct j as [|j]; [injection Ed as <-; left; reflexivity|]. apply Hs. right. eapply nth_error_In; eauto. }
  split; [exact P1|]. rewrite V1, V2. split; [apply NN|]. split; [apply NN|]. split; [exact A|].
  intros L. split; [apply P2; rewrite LL; exact L|]. rewrite <- V1, <- V2. auto.
Qed.

Lemma free_step cls f lens l arr l' : fd_ok f -> 0 < mp_fs (ml_par l) -> 0 < mp_ut (ml_par l) -> lens_ok f (mp_ut (ml_par l)) lens ->
  minv cls f lens l -> mbody_inv cls (ml_body l) -> minterval cls l arr l' -> link_free cls l arr ->
  exists cs cs', ml_body l = MCtm f cs /\ ml_body l' = MCtm f cs' /\ length cs' = length cs /\
    exists (o : bool -> nat -> nat),
      (forall k j c, nth_error cs j = Some c -> exists d, nth_error cs' j = Some d /\
         queue_of k d = (skipn (o k j) (mload cls k l arr j c) ++
           match j with O => [] | S i => match nth_error cs i with Some e => firstn (o k i) (mload cls k l arr i e) | None => [] end end)%list) /\
      (forall j c, nth_error cs j = Some c -> o false j = length (mload cls false l arr j c)) /\
      (forall j c, nth_error cs j = Some c -> (o true j <= length (mload cls true l arr j c))%nat /\
         (S j = length cs -> o true j = length (mload cls true l arr j c)) /\
         ((S j < length cs)%nat -> vf_t f <= vf_c f -> moved (Zlen (mload cls true l arr j c)) (Z.of_nat (o true j)) (vf_t f / vf_c f))) /\
      (forall k c, nth_error cs (length cs - 1) = Some c -> exists rest, subseq rest (of_class cls k (ml_fin l)) /\
          of_class cls k (ml_fin l') = (rest ++ mload cls k l arr (length cs - 1) c)%list).
Proof.
  intros HF Hf Hu HL HI HB H HA. pose proof HI as (cs & Hb & El & Hs & Hv & Hi).
  destruct (mctm_interval _ _ _ _ _ _ H Hb) as (rest & c & tl & D & os & fin' & Sr & Ec & HD & _ & Hfin & _ & X). subst cs. cbv zeta in X. destruct X as (Eo & Ef & Hb').
  exists (c :: tl). eexists. split; [exact Hb|]. split; [exact Hb'|].
  pose proof (F2_length _ _ _ (mouts_fits _ _ _ _ _ _ _ Eo)) as HLen.
  set (cs1 := enter (ml_par l) f cls c (ml_in l ++ arr) :: tl) in *.
  assert (L1 : length cs1 = length (c :: tl)) by reflexivity.
  split; [rewrite mrecount_length, mshift_length; [reflexivity|lia]|].
  exists (fun k j => match nth_error os j with Some o => Z.to_nat (po k o) | None => O end).
  (* numbers that move *)
  assert (M : map (po false) os = map (fun c => Zlen (c_q c)) (map (pc false) cs1) /\
     forall j c o, nth_error cs1 j = Some c -> nth_error os j = Some o ->
     ((S j < length cs1)%nat -> vf_t f <= vf_c f -> moved (Zlen (mc_qt c)) (snd o) (vf_t f / vf_c f)) /\
     (S j = length cs1 -> snd o = Zlen (mc_qt c)) /\ (0 <= snd o <= Zlen (mc_qt c))%Z).
  { destruct tl as [|c1 tl].
    - cbn in Eo. apply Ok_inj in Eo as <-. split; [reflexivity|]. intros [|[|j]] d o E1 E2; try discriminate. injection E1 as <-. injection E2 as <-.
      cbn [length snd cs1]. pose proof (Zlen_nonneg (mc_qt (enter (ml_par l) f cls c (ml_in l ++ arr)))). split; [lia|]. split; [reflexivity|].
      cbn [enter set_mvol set_mq mc_qt] in *. lia.
    - apply (free_mouts f _ _ D HF Hf Hu HD cs1 0%nat os); [|exact Eo]. apply (mfree_interval cls f lens); auto. discriminate. }
  destruct M as [M1 M2].
  assert (QN : forall k j d, nth_error (c :: tl) j = Some d -> exists e o, nth_error cs1 j = Some e /\ nth_error os j = Some o /\ queue_of k e = mload cls k l arr j d).
  { intros k j d Ed. destruct (enter_nth cls l f c tl arr j d k Ed) as (e & Ee & _ & Eq). fold cs1 in Ee.
    destruct (nth_error os j) as [o|] eqn:Eo'; [eauto|]. apply nth_error_None in Eo'. assert (j < length cs1)%nat by (apply nth_error_Some; congruence). lia. }
  assert (OF : forall j d o e, nth_error (c :: tl) j = Some d -> nth_error os j = Some o -> nth_error cs1 j = Some e -> Z.to_nat (po false o) = length (mc_qc e)).
  { intros j d o e _ Eo' Ee. pose proof (map_nth_error (po false) _ _ Eo') as A. rewrite M1 in A. rewrite map_map in A.
    pose proof (map_nth_error (fun c => Zlen (c_q (pc false c))) _ _ Ee) as B. cbn beta in B. rewrite B in A. injection A as A.
    cbn [po]. rewrite <- A. cbn [pc c_q]. unfold Zlen. lia. }
  split.
  { intros k j d Ed. destruct (QN k j d Ed) as (e & o & Ee & Eo' & Eq).
    destruct (shift_nth (map (pc k) cs1) (map (po k) os) [] j (pc k e) (po k o)) as (g & Eg & Gq); [apply nth_pc; exact Ee|apply map_nth_error; exact Eo'|].
    assert (X1 : nth_error (map (pc k) (mrecount f (mp_fs (ml_par l)) cls (mshift [] [] cs1 os) fin')) j = Some g).
    { rewrite mrecount_pc, mshift_proj. destruct k; exact Eg. }
    apply nth_pc_inv in X1 as (h & Eh & ->). exists h. split; [exact Eh|]. rewrite pc_q in Gq. rewrite Gq, pc_q, Eo', Eq. f_equal.
    destruct j as [|i]; [reflexivity|]. rewrite !nth_error_map.
    assert (Ei : exists di, nth_error (c :: tl) i = Some di).
    { destruct (nth_error (c :: tl) i) eqn:En; [eauto|]. apply nth_error_None in En. assert (S i < length (c :: tl))%nat by (apply nth_error_Some; congruence). lia. }
    destruct Ei as (di & Ei). destruct (QN k i di Ei) as (ei & oi & Ee' & Eoi & Eqi). rewrite Ei, Ee', Eoi. cbn [option_map]. rewrite pc_q, Eqi. reflexivity. }
  split.
  { intros j d Ed. destruct (QN false j d Ed) as (e & o & Ee & Eo' & Eq). rewrite Eo', (OF j d o e Ed Eo' Ee), <- Eq. reflexivity. }
  split.
  { intros j d Ed. destruct (QN true j d Ed) as (e & o & Ee & Eo' & Eq). rewrite Eo', <- Eq. cbn [queue_of po].
    destruct (M2 j e o Ee Eo') as (A & B & C). unfold Zlen in *. split; [lia|]. split.
    - intros L. rewrite B by (rewrite L1; exact L). lia.
    - intros L Hv'. rewrite Z2Nat.id by lia. apply A; auto. }
  intros k d Ed. exists (of_class cls k rest). split; [apply subseq_filter; exact Sr|]. rewrite Hfin, Ef, of_class_app. f_equal.
  destruct (QN k _ d Ed) as (e & o & Ee & Eo' & Eq). destruct (QN (negb k) _ d Ed) as (e2 & o2 & Ee2 & Eo2 & Eq2).
  rewrite Ee in Ee2. injection Ee2 as <-. rewrite Eo' in Eo2. injection Eo2 as <-.
  assert (OK : forall k', Z.to_nat (po k' o) = length (queue_of k' e)).
  { intros [|]; [|cbn [queue_of]; eapply OF; eauto]. destruct (M2 _ e o Ee Eo') as (_ & B & _). cbn [po queue_of]. rewrite B; [unfold Zlen; lia|].
    rewrite L1. cbn [length]. lia. }
  assert (ML : forall k', mlast k' cs1 os = queue_of k' e).
  { intros k'. unfold mlast. rewrite (last_out_nth (map (pc k') cs1) (map (po k') os) (pc k' e) (po k' o)).
    - rewrite pc_q, OK. apply firstn_all.
    - rewrite map_length, L1. apply nth_pc. exact Ee.
    - rewrite map_length, L1. apply map_nth_error. exact Eo'.
    - rewrite !map_length. lia. }
  rewrite Hb in HB. cbn [mbody_inv] in HB.
  assert (AC : forall k', all_class cls k' (queue_of k' e)).
  { intros k'. destruct (QN k' _ d Ed) as (e3 & o3 & Ee3 & _ & Eq3). rewrite Ee in Ee3. injection Ee3 as <-. rewrite Eq3. unfold mload. apply all_class_app. split.
    - intros v Hv0. apply (HB k'). unfold mline. apply in_concat. exists (queue_of k' d). split; [|exact Hv0]. apply -> in_rev.
      apply (in_map (queue_of k')). eapply nth_error_In; eauto.
    - destruct (_ =? 0)%nat; [apply of_class_is|intros v []]. }
  rewrite !ML, <- Eq. destruct (merge_class cls (md_mix D) (queue_of false e) (queue_of true e) (AC false) (AC true)) as [C1 C2]. destruct k; auto.
Qed.

(** ** a car in free flow *)
Definition in_mpos (v : Z) (k : bool) (l : mlink) (j : nat) : Prop :=
  exists f cs, ml_body l = MCtm f cs /\
    match nth_error cs j with Some c => In v (queue_of k c) | None => j = length cs /\ In v (ml_fin l) end.

Lemma free_car_step cls f lens l arr l' v j : fd_ok f -> 0 < mp_fs (ml_par l) -> 0 < mp_ut (ml_par l) -> lens_ok f (mp_ut (ml_par l)) lens ->
  minv cls f lens l -> mbody_inv cls (ml_body l) -> minterval cls l arr l' -> link_free cls l arr ->
  (j < mncell l)%nat -> (in_mpos v false l j \/ (j = 0%nat /\ In v (of_class cls false (ml_in l ++ arr)))) -> in_mpos v false l' (S j).
Proof.
  intros HF Hf Hu HL HI HB H HA Lj Hv.
  destruct (free_step _ _ _ _ _ _ HF Hf Hu HL HI HB H HA) as (cs & cs' & Hb & Hb' & LL & o & O1 & O2 & _ & O4).
  unfold mncell in Lj. rewrite Hb in Lj.
  destruct (nth_error cs j) as [c|] eqn:Ec; [|apply nth_error_None in Ec; lia].
  assert (Hm : In v (mload cls false l arr j c)).
  { unfold mload. apply in_or_app. destruct Hv as [(f0 & cs0 & Hb0 & Hv)|[-> Hv]]; [|right; exact Hv].
    rewrite Hb in Hb0. injection Hb0 as <- <-. rewrite Ec in Hv. left. exact Hv. }
  exists f, cs'. split; [exact Hb'|].
  destruct (nth_error cs' (S j)) as [d|] eqn:Ed.
  - destruct (nth_error cs (S j)) as [c'|] eqn:Ec'; [|apply nth_error_None in Ec'; assert (S j < length cs')%nat by (apply nth_error_Some; congruence); lia].
    destruct (O1 false (S j) c' Ec') as (d' & Ed' & Eq). rewrite Ed in Ed'. injection Ed' as <-. rewrite Eq. apply in_or_app. right.
    rewrite Ec, (O2 j c Ec), firstn_all. exact Hm.
  - apply nth_error_None in Ed. split; [lia|]. assert (j = length cs - 1)%nat by lia. subst j.
    destruct (O4 false c Ec) as (rest & _ & E4). assert (In v (of_class cls false (ml_fin l'))); [|apply of_class_In in H0; tauto].
    rewrite E4. apply in_or_app. right. exact Hm.
Qed.

Section History.
  Variables (cls : Z -> bool) (p : mparam) (N : nat) (s : nat -> mlink) (arr : nat -> list Z).
  Hypothesis E : make_mctm p = Ok (s 0%nat).
  Hypothesis H : mhistory cls N s arr.

  Lemma mctm_all : exists f lens, fd_ok f /\ Z.of_nat (length lens) = mfreeflow_intervals p /\ vf_c f = mp_ffs_c p /\ vf_t f = mp_ffs_t p /\
    lens_ok f (mp_ut p) lens /\ 0 < mp_ut p /\ 1 <= mp_fs p /\
    forall t, (t <= N)%nat -> minv cls f lens (s t) /\ mbody_inv cls (ml_body (s t)) /\ ml_par (s t) = ml_par (s 0%nat) /\
      mp_ut (ml_par (s t)) = mp_ut p /\ mp_fs (ml_par (s t)) = mp_fs p /\ Z.of_nat (mncell (s t)) = mfreeflow_intervals p /\ ml_in (s t) = [] /\
      mctm_fd (ml_par (s t)) = f /\ (forall k, subseq (on_mlink cls k (s t)) (of_class cls k (arrivals t arr))).
  Proof.
    destruct (make_mctm_cells _ _ E) as (p' & lens & AD & E0 & Hu & Hf & _ & _ & _ & HN & HL).
    destruct (mctm_fd_ok _ _ AD) as (FD & Vc & Vt & _).
    exists (mctm_fd p'), lens. split; [exact FD|]. split; [exact HN|]. split; [exact Vc|]. split; [exact Vt|].
    split. { intros j x Ej. destruct (HL j x Ej) as [A B]. split; [exact A|]. intros L. rewrite (B L), Vc. reflexivity. }
    split; [exact Hu|]. split; [exact Hf|]. intros t Lt.
    assert (I0 : minv cls (mctm_fd p') lens (s 0%nat)) by (rewrite E0; apply minv_new).
    pose proof (minv_history _ _ _ _ _ _ H I0 t Lt) as It.
    assert (B0 : mbody_inv cls (ml_body (s 0%nat)) /\ (forall k, on_mlink cls k (s 0%nat) = [])).
    { destruct (fresh_mempty {| mp_kind := MKCtm; mp_lanes := mp_lanes p; mp_len := mp_len p; mp_hold_c := mp_hold_c p; mp_hold_t := mp_hold_t p;
         mp_flow_c := mp_flow_c p; mp_flow_t := mp_flow_t p; mp_ffs_c := mp_ffs_c p; mp_ffs_t := mp_ffs_t p; mp_ut := mp_ut p; mp_pcu := mp_pcu p; mp_fs := mp_fs p |} (s 0%nat) E cls) as (A & B & _).
      auto. }
    destruct (mhistory_inv cls t s arr (mhistory_prefix _ _ _ _ _ H Lt) (proj1 B0) (proj2 B0)) as (Bt & Pt & St).
    assert (P0 : ml_par (s 0%nat) = p') by (rewrite E0; reflexivity).
    split; [exact It|]. split; [exact Bt|]. split; [exact Pt|]. rewrite Pt, P0. split; [apply (ad_ut _ _ AD)|]. split; [apply (ad_fs _ _ AD)|].
    destruct It as (cs & Hb & Hl & _ & _ & Hi). split; [|auto]. unfold mncell. rewrite Hb. rewrite <- HN, <- Hl, map_length. reflexivity.
  Qed.

  Lemma mfree_travel t v : In v (arr t) -> cls v = false -> forall k, (Z.of_nat k < mfreeflow_intervals p)%Z -> (t + k < N)%nat ->
    (forall i, (t <= i <= t + k)%nat -> link_free cls (s i) (arr i)) -> in_mpos v false (s (t + S k)%nat) (S k).
  Proof.
    intros Hv Hc. destruct mctm_all as (f & lens & FD & HN & _ & _ & HL & Hu & Hf & A).
    induction k as [|k IH]; intros Hk HK U.
    - destruct (A t ltac:(lia)) as (I1 & I2 & I3 & I4 & I5 & I6 & I7 & _). replace (t + 1)%nat with (S t) by lia.
      eapply free_car_step with (j := 0%nat); [exact FD|rewrite I5; lra|rewrite I4; lra|rewrite I4; exact HL|exact I1|exact I2|apply H; lia|apply U; lia|lia|].
      right. split; [reflexivity|]. apply of_class_In. split; [apply in_or_app; auto|exact Hc].
    - destruct (A (t + S k)%nat ltac:(lia)) as (I1 & I2 & I3 & I4 & I5 & I6 & I7 & _). replace (t + S (S k))%nat with (S (t + S k)) by lia.
      eapply free_car_step with (j := S k); [exact FD|rewrite I5; lra|rewrite I4; lra|rewrite I4; exact HL|exact I1|exact I2|apply H; lia|apply U; lia|lia|].
      left. apply IH; [lia|lia|intros; apply U; lia].
  Qed.

  Lemma mnot_before t v : NoDup (arrivals N arr) -> (t < N)%nat -> In v (arr t) ->
    forall k, (Z.of_nat k + 1 < mfreeflow_intervals p)%Z -> (t + k < N)%nat -> mbefore (k + 2) v (s (S (t + k))).
  Proof.
    intros ND Lt Hv. destruct mctm_all as (f & lens & FD & HN & _ & _ & HL & Hu & Hf & A).
    assert (NV : forall k, ~ In v (on_mlink cls k (s t))).
    { intros k Hk. destruct (A t ltac:(lia)) as (_ & _ & _ & _ & _ & _ & _ & _ & S1).
      assert (X : In v (of_class cls k (arrivals t arr))) by (eapply subseq_In; [apply S1|exact Hk]). apply of_class_In in X as [X _].
      pose proof (subseq_NoDup _ _ (subseq_arrivals_mono (S t) N arr ltac:(lia)) ND) as ND1. rewrite arrivals_S in ND1.
      apply NoDup_app_inv in ND1 as (_ & _ & D). apply (D v X Hv). }
    induction k as [|k IH]; intros Hk HK.
    - replace (t + 0)%nat with t by lia. destruct (A t ltac:(lia)) as (I1 & I2 & _ & _ & _ & I6 & _). pose proof I1 as (cs & Hb & _).
      unfold mncell in I6. rewrite Hb in I6. eapply mbefore_enter; [apply H; lia|exact Hb|exact NV|exact I2|lia].
    - specialize (IH ltac:(lia) ltac:(lia)). destruct (A (S (t + k)) ltac:(lia)) as (I1 & I2 & _ & _ & _ & I6 & _). pose proof I1 as (cs & Hb & _).
      unfold mncell in I6. rewrite Hb in I6.
      replace (S (t + S k)) with (S (S (t + k))) by lia. replace (S k + 2)%nat with (S (k + 2)) by lia.
      eapply mbefore_step; [apply H; lia|exact Hb|exact IH| |lia].
      intros C. pose proof (subseq_NoDup _ _ (subseq_arrivals_mono (S (S (t + k))) N arr ltac:(lia)) ND) as ND1. rewrite arrivals_S in ND1.
      apply NoDup_app_inv in ND1 as (_ & _ & D). refine (D v _ C). apply In_arrivals. exists t. split; [lia|exact Hv].
  Qed.
End History.
