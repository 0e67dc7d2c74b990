(** CTM constructor, occupancy over a history, LQ density, volume, travel time. *)
From Verif Require Import Base Base_lemmas Model_Num Proof_Num Spec_Path Proof_Path Model_Link Spec_Link Proof_Link Proof_Link2 Proof_Link3.
Local Open Scope Q_scope.

Lemma guard_ok b e x : guard b e = Ok x -> b = true.
Proof. unfold guard. destruct b; [auto|discriminate]. Qed.

Lemma base_checks_ok p x : base_checks p = Ok x -> 0 <= p_ffs p /\ (0 <= p_lanes p)%Z /\ 0 <= p_len p.
Proof.
  unfold base_checks. intros H. apply bind_ok in H as (? & A & H). apply bind_ok in H as (? & B & H).
  apply guard_ok in A, B, H. apply negb_true_iff, Qltb_ge in A. apply negb_true_iff, Qltb_ge in H.
  split; [exact A|]. split; [lia|exact H].
Qed.

Definition clampC (p : lparam) : lparam :=
  {| p_kind := KCtm; p_hold := if Qltb (300 / 1600) (p_hold p) then 300 / 1600 else p_hold p;
     p_flow := if Qltb (3500 / 3600) (p_flow p) then 3500 / 3600 else p_flow p;
     p_lanes := p_lanes p; p_len := p_len p; p_ffs := p_ffs p; p_ut := p_ut p; p_fs := p_fs p |}.

Lemma make_ctm_inv p l : make_ctm p = Ok l ->
  let p' := clampC p in
  let n := ctm_ncells p' in
  let wr := wave_ratio (p_hold p') (p_flow p') (p_ffs p') in
  let lwr := wave_ratio (ctm_last_hold p') (p_flow p') (p_ffs p') in
  let lanes := inject_Z (p_lanes p') in
  let cap := lanes * p_flow p' * p_ut p' in
  0 <= p_ffs p /\ (0 <= p_lanes p)%Z /\ 0 <= p_len p /\ 0 <= p_hold p' /\ 0 <= p_flow p' /\
  ~ p_ffs p * p_ut p == 0 /\ neg_ratio wr = false /\ neg_ratio lwr = false /\
  l = {| l_par := p'; l_in := []; l_fin := [];
         l_body := BCtm (repeat (new_cell (lanes * (p_ffs p' * p_ut p') * p_hold p') cap (p_fs p') wr) (Z.to_nat (n - 1)) ++
           if Qltb 0 (p_len p') then [new_cell (lanes * (p_ffs p' * p_ut p') * ctm_last_hold p') cap (p_fs p') lwr] else []) |}.
Proof.
  unfold make_ctm. intros H. apply bind_ok in H as (u & A & H). apply base_checks_ok in A as (A1 & A2 & A3).
  apply bind_ok in H as (? & B & H). apply bind_ok in H as (? & C & H).
  apply guard_ok, negb_true_iff, Qltb_ge in B. apply guard_ok, negb_true_iff, Qltb_ge in C.
  fold (clampC p) in H. cbv zeta in H. apply bind_ok in H as (? & D & H). apply bind_ok in H as (? & E & H).
  apply bind_ok in H as (? & F & H). apply guard_ok, negb_true_iff in D. apply guard_ok, negb_true_iff in E.
  apply guard_ok, negb_true_iff in F. apply Ok_inj in H. cbv zeta.
  split; [exact A1|]. split; [exact A2|]. split; [exact A3|].
  split. { simpl. destruct (Qltb_spec (300/1600) (p_hold p)); [unfold Qle; simpl; lia|exact B]. }
  split. { simpl. destruct (Qltb_spec (3500/3600) (p_flow p)); [unfold Qle; simpl; lia|exact C]. }
  split. { destruct (Qeqb_spec (p_ffs (clampC p) * p_ut (clampC p)) 0) as [Z|Z]; [discriminate|exact Z]. }
  split; [exact E|]. split; [exact F|]. symmetry. exact H.
Qed.

Lemma nth_repeat_lt {A} (x : A) n j : (j < n)%nat -> nth_error (repeat x n) j = Some x.
Proof. revert j. induction n; intros [|j] H; simpl; try lia; auto. apply IHn. lia. Qed.

(** the constructor's cells: number, storage, quality *)
Lemma ctm_ncells_eq p : 0 <= p_len p -> 0 < p_ffs p * p_ut p -> ctm_ncells (clampC p) = freeflow_intervals p.
Proof.
  intros HL HS. unfold ctm_ncells, freeflow_intervals. cbn [p_len p_ffs p_ut clampC].
  set (z := Qfloor (p_len p / (p_ffs p * p_ut p))).
  assert (0 <= z)%Z.
  { change 0%Z with (Qfloor 0). unfold z. apply Qfloor_resp_le. apply Qle_shift_div_l; [exact HS|lra]. }
  destruct (Z.eqb_spec z 0); lia.
Qed.

Lemma cap_zero fs c : good fs c -> cap fs c 0.
Proof. intros (Hf & Hh & _). unfold cap. change (inject_Z 0) with 0. pose proof (mulr_le _ _ _ Hf Hh). lra. Qed.

Lemma make_ctm_cells p l : make_ctm p = Ok l -> 0 < p_ut p -> 0 < p_len p ->
  exists cs, l_body l = BCtm cs /\ Z.of_nat (length cs) = freeflow_intervals p /\ cs <> [] /\
    p_fs (l_par l) = p_fs p /\ l_fin l = [] /\ l_in l = [] /\ (forall c, In c cs -> c_q c = [] /\ c_vol c = 0%Z) /\
    (forall j c, nth_error cs j = Some c -> c_hold c == jam_storage p (length cs) j) /\
    (0 < p_fs p -> occ (p_fs p) [] cs).
Proof.
  intros H Hu HL. apply make_ctm_inv in H. cbv zeta in H. destruct H as (A1 & A2 & _ & B1 & B2 & B3 & B4 & B5 & ->).
  assert (F0 : 0 < p_ffs p). { destruct (Qlt_le_dec 0 (p_ffs p)); [auto|]. exfalso. apply B3. assert (p_ffs p == 0) by lra. rewrite H. lra. }
  assert (S0 : 0 < p_ffs p * p_ut p) by nra.
  pose proof (ctm_ncells_eq p ltac:(lra) S0) as EN.
  set (p' := clampC p) in *. cbn [l_body l_par l_fin l_in].
  assert (EL : Qltb 0 (p_len p') = true) by (apply Qltb_lt; exact HL). rewrite EL.
  set (n := ctm_ncells p') in *.
  assert (N1 : (1 <= n)%Z) by (rewrite EN; unfold freeflow_intervals; lia).
  assert (LN : length (repeat (new_cell (inject_Z (p_lanes p') * (p_ffs p' * p_ut p') * p_hold p')
      (inject_Z (p_lanes p') * p_flow p' * p_ut p') (p_fs p') (wave_ratio (p_hold p') (p_flow p') (p_ffs p')))
      (Z.to_nat (n - 1)) ++ [new_cell (inject_Z (p_lanes p') * (p_ffs p' * p_ut p') * ctm_last_hold p')
      (inject_Z (p_lanes p') * p_flow p' * p_ut p') (p_fs p') (wave_ratio (ctm_last_hold p') (p_flow p') (p_ffs p'))]) = Z.to_nat n).
  { rewrite app_length, repeat_length. simpl. lia. }
  assert (Hh : p_hold p' == Qmin (p_hold p) (300 # 1600)).
  { simpl. destruct (Qltb_spec (300/1600) (p_hold p)) as [L|L].
    - rewrite Q.min_r; [reflexivity|]. change (300 # 1600) with (300/1600). lra.
    - rewrite Q.min_l; [reflexivity|]. change (300 # 1600) with (300/1600). lra. }
  assert (HLH : ctm_last_hold p' * (p_ffs p * p_ut p) == Qmax (p_len p - inject_Z (n - 1) * (p_ffs p * p_ut p)) (p_ffs p * p_ut p) * p_hold p').
  { unfold ctm_last_hold. fold n. change (p_len p') with (p_len p). change (p_ffs p') with (p_ffs p). change (p_ut p') with (p_ut p).
    set (x := p_len p - inject_Z (n - 1) * (p_ffs p * p_ut p)). set (y := p_ffs p * p_ut p) in *. set (h := p_hold p') in *.
    destruct (Q.max_spec x y) as [[L ->]|[L ->]]; destruct (Q.max_spec (x / y * h) h) as [[L' ->]|[L' ->]].
    - ring.
    - assert (x / y * h * y == x * h) by (field; lra).
      assert (h * y <= x / y * h * y) by (apply mulr_le; auto). assert (x * h <= y * h) by nra. lra.
    - assert (x / y * h * y == x * h) by (field; lra).
      assert (x / y * h * y < h * y) by (apply Qmult_lt_compat_r; auto). assert (y * h <= x * h) by nra. lra.
    - field. lra. }
  eexists. split; [reflexivity|]. rewrite LN. split; [rewrite <- EN; lia|].
  split; [destruct (repeat _ _); discriminate|]. split; [reflexivity|]. split; [reflexivity|]. split; [reflexivity|].
  split.
  { intros c Hc. apply in_app_or in Hc as [Hc|[<-|[]]]; [apply repeat_spec in Hc; subst c|]; auto. }
  split.
  { intros j c Ej. destruct (Nat.lt_ge_cases j (Z.to_nat (n - 1))) as [Lj|Lj].
    - rewrite nth_error_app1 in Ej by (rewrite repeat_length; exact Lj). rewrite nth_repeat_lt in Ej by exact Lj. injection Ej as <-.
      unfold jam_storage, cell_length. replace (S j =? Z.to_nat n)%nat with false by (symmetry; apply Nat.eqb_neq; lia).
      rewrite <- Hh. simpl. ring.
    - rewrite nth_error_app2 in Ej by (rewrite repeat_length; exact Lj). rewrite repeat_length in Ej.
      destruct (j - Z.to_nat (n - 1))%nat as [|k] eqn:Ek; [|destruct k; discriminate]. injection Ej as <-.
      unfold jam_storage, cell_length. replace (S j =? Z.to_nat n)%nat with true by (symmetry; apply Nat.eqb_eq; lia).
      replace (Z.of_nat j) with (n - 1)%Z by lia. rewrite <- Hh.
      simpl c_hold. change (p_lanes p') with (p_lanes p). change (p_ffs p') with (p_ffs p). change (p_ut p') with (p_ut p).
      transitivity (inject_Z (p_lanes p) * (ctm_last_hold p' * (p_ffs p * p_ut p))); [ring|]. rewrite HLH. ring. }
  intros Hfs.
  assert (LA : 0 <= inject_Z (p_lanes p)) by (apply injZ_nonneg; exact A2).
  assert (LH : 0 <= ctm_last_hold p') by (unfold ctm_last_hold; eapply Qle_trans; [exact B1|apply Q.le_max_r]).
  assert (G1 : good (p_fs p) (new_cell (inject_Z (p_lanes p') * (p_ffs p' * p_ut p') * p_hold p')
      (inject_Z (p_lanes p') * p_flow p' * p_ut p') (p_fs p') (wave_ratio (p_hold p') (p_flow p') (p_ffs p')))).
  { change (p_fs p') with (p_fs p). change (p_lanes p') with (p_lanes p). change (p_ffs p') with (p_ffs p) in *. change (p_ut p') with (p_ut p).
    apply new_cell_good; auto.
    - assert (0 <= inject_Z (p_lanes p) * (p_ffs p * p_ut p)) by nra. nra.
    - assert (0 <= inject_Z (p_lanes p) * p_ut p) by nra. assert (0 <= inject_Z (p_lanes p) * p_flow p') by nra. nra.
    - destruct (wave_ratio (p_hold p') (p_flow p') (p_ffs p)) as [w|] eqn:Ew; [|exact I].
      intros W. eapply wave_ratio_room; eauto. try rewrite Ew in B4. simpl in B4. apply Qltb_ge in B4. lra. }
  assert (G2 : good (p_fs p) (new_cell (inject_Z (p_lanes p') * (p_ffs p' * p_ut p') * ctm_last_hold p')
      (inject_Z (p_lanes p') * p_flow p' * p_ut p') (p_fs p') (wave_ratio (ctm_last_hold p') (p_flow p') (p_ffs p')))).
  { change (p_fs p') with (p_fs p). change (p_lanes p') with (p_lanes p). change (p_ffs p') with (p_ffs p) in *. change (p_ut p') with (p_ut p).
    apply new_cell_good; auto.
    - assert (0 <= inject_Z (p_lanes p) * (p_ffs p * p_ut p)) by nra. nra.
    - assert (0 <= inject_Z (p_lanes p) * p_ut p) by nra. assert (0 <= inject_Z (p_lanes p) * p_flow p') by nra. nra.
    - destruct (wave_ratio (ctm_last_hold p') (p_flow p') (p_ffs p)) as [w|] eqn:Ew; [|exact I].
      intros W. eapply wave_ratio_room; eauto. try rewrite Ew in B5. simpl in B5. apply Qltb_ge in B5. lra. }
  clear - G1 G2. induction (Z.to_nat (n - 1)) as [|k IH].
  - simpl app. apply occ_cons. split; [exact G2|]. split; [apply Z.le_refl|]. split; [|exact I].
    exact (cap_zero _ _ G2).
  - simpl repeat. rewrite <- app_comm_cons. apply occ_cons. split; [exact G1|].
    split; [unfold load; destruct (isnil _); apply Z.le_refl|]. split; [|exact IH].
    exact (cap_zero _ _ G1).
Qed.

(** ** jam storage over a history *)
Lemma shift_hold : forall cs os extra, length os = length cs -> map c_hold (shift extra cs os) = map c_hold cs.
Proof. induction cs as [|c cs IH]; intros [|o os] extra E; simpl in *; try discriminate; auto. f_equal. apply IH. lia. Qed.
Lemma recount_hold f : forall cs, map c_hold (recount cs f) = map c_hold cs.
Proof.
  induction cs as [|c cs IH]; [reflexivity|]. destruct cs as [|c' cs]; [reflexivity|].
  change (recount (c :: c' :: cs) f) with (set_vol c (Zlen (c_q c)) :: recount (c' :: cs) f).
  rewrite !map_cons, IH. reflexivity.
Qed.
Lemma interval_hold l arr l' cs : interval l arr l' -> l_body l = BCtm cs ->
  exists cs', l_body l' = BCtm cs' /\ map c_hold cs' = map c_hold cs.
Proof.
  intros H Hb.
  destruct (ctm_interval _ _ _ _ H Hb) as (rest & c & tl & fin' & Hs & -> & Hin & Hfin & Hns & r & hn & cs' & Hr & Hb' & E).
  cbv zeta in E. rewrite ctm_evolve_eq in E. cbv zeta in E. destruct (forallb hn _); [|discriminate].
  apply Ok_pair in E as [-> ->]. eexists. split; [exact Hb'|]. rewrite recount_hold, shift_hold by apply out_vehs_length. reflexivity.
Qed.

Lemma occ_nth fs fin : forall cs j c, occ fs fin cs -> nth_error cs j = Some c ->
  inject_Z (Zlen (c_q c) + if (S j =? length cs)%nat then Zlen fin else 0) < c_hold c * fs + 1.
Proof.
  induction cs as [|d cs IH]; intros j c O E; [destruct j; discriminate|].
  apply occ_cons in O as (G & L & C & O). destruct j as [|j]; simpl in E.
  - injection E as <-. apply cap_mono with (m := load (isnil cs) fin d) in C; [|exact L].
    unfold cap, load in C. destruct cs; exact C.
  - apply (IH j c O E).
Qed.

Lemma history_occ N s arr p : make_ctm p = Ok (s 0%nat) -> 0 < p_ut p -> 0 < p_fs p -> 0 < p_len p -> history N s arr ->
  forall n, (n <= N)%nat -> exists cs, l_body (s n) = BCtm cs /\ Z.of_nat (length cs) = freeflow_intervals p /\
    p_fs (l_par (s n)) = p_fs p /\ occ (p_fs p) (l_fin (s n)) cs /\
    (forall j c, nth_error cs j = Some c -> c_hold c == jam_storage p (length cs) j).
Proof.
  intros Hm Hu Hf HL H. induction n as [|n IH]; intros Ln.
  - destruct (make_ctm_cells _ _ Hm Hu HL) as (cs & A & B & _ & C & D & _ & _ & E & F).
    exists cs. rewrite D. repeat (split; [auto; fail|]). exact E.
  - destruct (IH ltac:(lia)) as (cs & A & B & C & D & E).
    assert (HI : interval (s n) (arr n) (s (S n))) by (apply H; lia).
    destruct (interval_hold _ _ _ _ HI A) as (cs' & A' & Hh).
    assert (LO : link_occ (s n)) by (exists cs; rewrite C; auto).
    destruct (interval_occ _ _ _ HI LO) as (cs'' & A'' & O). rewrite A' in A''. injection A'' as <-.
    assert (Hb : body_inv (l_body (s n))) by (rewrite A; exact I).
    destruct (interval_line _ _ _ HI Hb) as (_ & Hp & _).
    assert (LE : length cs' = length cs) by (rewrite <- (map_length c_hold), Hh, map_length; reflexivity).
    exists cs'. split; [exact A'|]. split; [rewrite LE; exact B|]. split; [rewrite Hp; exact C|].
    split; [rewrite <- C, <- Hp; exact O|].
    intros j c Ej. rewrite LE.
    assert (Ej' : nth_error (map c_hold cs') j = Some (c_hold c)) by (apply map_nth_error; exact Ej).
    rewrite Hh in Ej'. destruct (nth_error cs j) as [d|] eqn:Ed.
    + rewrite (map_nth_error c_hold _ _ Ed) in Ej'. injection Ej' as <-. apply E. exact Ed.
    + apply nth_error_None in Ed. assert (nth_error (map c_hold cs) j = None) by (apply nth_error_None; rewrite map_length; exact Ed). congruence.
Qed.
