(** Cell occupancy of CTM links, LQ density, reported volume and travel time. *)
From Verif Require Import Base Base_lemmas Model_Num Proof_Num Spec_Path Proof_Path Model_Link Spec_Link Proof_Link Proof_Link2.
Local Open Scope Q_scope.

(** ** what one cell may receive *)
Definition good (fs : Q) (c : cell) : Prop :=
  0 < fs /\ 0 <= c_hold c /\ 0 <= c_flow c /\
  match c_wr c with
  | Some w => w <= 1 -> 0 <= w /\ (2 * c_flow c <= c_hold c \/ c_flow c * fs <= 1)
  | None => True
  end.
Definition cap (fs : Q) (c : cell) (n : Z) : Prop := inject_Z n < c_hold c * fs + 1.

Lemma injZ_plus a b : inject_Z (a + b) == inject_Z a + inject_Z b.
Proof. unfold Qeq, inject_Z, Qplus; simpl. lia. Qed.

Lemma mulr_le a b f : 0 < f -> a <= b -> a * f <= b * f.
Proof. intros F L. apply Qmult_le_compat_r; lra. Qed.

Lemma cell_supply_nonneg fs c : good fs c -> 0 <= cell_supply fs c.
Proof.
  intros (Hf & Hh & Hc & Hw). unfold cell_supply. set (v := inject_Z (c_vol c) / fs).
  destruct (Qleb_spec (c_hold c) v) as [L|L]; [lra|]. apply Qnot_le_lt in L.
  assert (M : 0 <= Qmin (c_flow c) (c_hold c - v)) by (apply Q.min_glb; lra).
  destruct (c_wr c) as [w|]; [|exact M]. destruct (Qleb_spec w 1) as [W|W]; [|exact M].
  destruct (Hw W) as [W0 _]. destruct (Qltb_spec v (c_flow c)); [exact Hc|]. nra.
Qed.

Lemma supply_bound fs c : good fs c -> (0 <= c_vol c)%Z ->
  inject_Z (c_vol c) + cell_supply fs c * fs <= c_hold c * fs \/
  (c_vol c = 0%Z /\ cell_supply fs c * fs <= 1 /\ 0 < c_hold c) \/ cell_supply fs c == 0.
Proof.
  intros (Hf & Hh & Hc & Hw) Hv. unfold cell_supply. set (v := inject_Z (c_vol c) / fs).
  assert (Ev : v * fs == inject_Z (c_vol c)) by (unfold v; field; lra).
  assert (V0 : 0 <= inject_Z (c_vol c)) by (apply injZ_nonneg; exact Hv).
  destruct (Qleb_spec (c_hold c) v) as [L|L]; [right; right; reflexivity|]. apply Qnot_le_lt in L.
  assert (M : inject_Z (c_vol c) + Qmin (c_flow c) (c_hold c - v) * fs <= c_hold c * fs).
  { rewrite <- Ev. pose proof (Q.le_min_r (c_flow c) (c_hold c - v)) as Hm.
    apply (mulr_le _ _ fs Hf) in Hm. lra. }
  destruct (c_wr c) as [w|]; [|left; exact M]. destruct (Qleb_spec w 1) as [W|W]; [|left; exact M].
  destruct (Hw W) as [W0 D]. destruct (Qltb_spec v (c_flow c)) as [F|F].
  - destruct D as [D|D].
    { left. rewrite <- Ev. assert (Hm : v + c_flow c <= c_hold c) by lra. apply (mulr_le _ _ fs Hf) in Hm. lra. }
    right; left.
    assert (c_vol c = 0)%Z.
    { assert (inject_Z (c_vol c) < inject_Z 1) by (rewrite <- Ev; change (inject_Z 1) with 1; assert (Hm : v * fs < c_flow c * fs) by (apply Qmult_lt_compat_r; lra); lra).
      rewrite injZ_lt in H. lia. }
    split; [exact H|]. split; [exact D|].
    assert (v == 0) by (unfold v; rewrite H; unfold Qdiv; change (inject_Z 0) with 0; lra). lra.
  - left. rewrite <- Ev. assert (Hm : (c_hold c - v) * w <= c_hold c - v) by nra.
    apply (mulr_le _ _ fs Hf) in Hm. lra.
Qed.

Lemma receive_ok fs c n r x : good fs c -> (0 <= c_vol c)%Z -> 0 <= r -> 0 <= x -> x <= cell_supply fs c ->
  cap fs c (c_vol c) -> (n <= rround r (x * fs))%Z -> cap fs c (c_vol c + n).
Proof.
  intros G Hv Hr X0 X1 C Hn. pose proof G as (Hf & Hh & Hc & _). unfold cap in *.
  assert (XF : 0 <= x * fs) by nra.
  pose proof (rround_lt r (x * fs) XF Hr) as R. rewrite <- injZ_le in Hn. rewrite injZ_plus.
  destruct (supply_bound fs c G Hv) as [B|[(B1 & B2 & B3)|B]].
  - assert (x * fs <= cell_supply fs c * fs) by nra. lra.
  - assert (x * fs <= 1) by (assert (x * fs <= cell_supply fs c * fs) by nra; lra).
    assert (n <= 1)%Z.
    { assert (inject_Z n < inject_Z 2) by (change (inject_Z 2) with 2; lra). rewrite injZ_lt in H0. lia. }
    assert (inject_Z n <= 1) by (change 1 with (inject_Z 1); apply injZ_le; exact H0).
    rewrite B1. change (inject_Z 0) with 0. nra.
  - assert (x == 0) by lra. assert (x * fs == 0) by (rewrite H; lra).
    rewrite (rround_comp r _ 0 H0) in Hn. rewrite rround_zero in Hn by exact Hr.
    change (inject_Z 0) with 0 in Hn. lra.
Qed.

Lemma receive_exact fs c n : good fs c -> (0 <= c_vol c)%Z -> ~ (cell_supply fs c * fs < inject_Z n) ->
  cap fs c (c_vol c) -> cap fs c (c_vol c + n).
Proof.
  intros G Hv Hn C. pose proof G as (Hf & Hh & Hc & _). unfold cap in *. apply Qnot_lt_le in Hn. rewrite injZ_plus.
  destruct (supply_bound fs c G Hv) as [B|[(B1 & B2 & B3)|B]].
  - lra.
  - rewrite B1. change (inject_Z 0) with 0. nra.
  - assert (cell_supply fs c * fs == 0) by (rewrite B; lra). lra.
Qed.

(** ** occupancy invariant of a cell array *)
Fixpoint occ (fs : Q) (fin : list Z) (cs : list cell) : Prop :=
  match cs with
  | [] => True
  | [c] => good fs c /\ (Zlen (c_q c) + Zlen fin <= c_vol c)%Z /\ cap fs c (c_vol c)
  | c :: rest => good fs c /\ (Zlen (c_q c) <= c_vol c)%Z /\ cap fs c (c_vol c) /\ occ fs fin rest
  end.
Definition load (last : bool) (fin : list Z) (c : cell) : Z := (Zlen (c_q c) + if last then Zlen fin else 0)%Z.
Definition isnil {A} (l : list A) : bool := match l with [] => true | _ => false end.

Lemma occ_cons fs fin c rest : occ fs fin (c :: rest) <->
  good fs c /\ (load (isnil rest) fin c <= c_vol c)%Z /\ cap fs c (c_vol c) /\ occ fs fin rest.
Proof.
  destruct rest as [|c' rest]; unfold load; simpl isnil.
  - simpl. tauto.
  - simpl (isnil _). cbv iota. rewrite Z.add_0_r. reflexivity.
Qed.

Lemma Zlen_firstn {A} k (l : list A) : (k <= length l)%nat -> Zlen (firstn k l) = Z.of_nat k.
Proof. intros H. unfold Zlen. rewrite firstn_length. lia. Qed.
Lemma Zlen_skipn {A} k (l : list A) : (k <= length l)%nat -> Zlen (skipn k l) = (Zlen l - Z.of_nat k)%Z.
Proof. intros H. unfold Zlen. rewrite skipn_length. lia. Qed.
Lemma cap_mono fs c m n : (m <= n)%Z -> cap fs c n -> cap fs c m.
Proof. unfold cap. intros L C. rewrite <- injZ_le in L. lra. Qed.
Lemma cap_ext fs c c' n : c_hold c' = c_hold c -> cap fs c n -> cap fs c' n.
Proof. unfold cap. intros ->. auto. Qed.
Lemma good_ext fs c c' : c_hold c' = c_hold c -> c_flow c' = c_flow c -> c_wr c' = c_wr c -> good fs c -> good fs c'.
Proof. unfold good. intros -> -> ->. auto. Qed.

Lemma to_nat_Zlen {A} (l : list A) : Z.to_nat (Zlen l) = length l.
Proof. unfold Zlen. apply Nat2Z.id. Qed.
Lemma out_vehs_cons2 fs r i c c' cs : out_vehs fs r i (c :: c' :: cs) =
  Z.min (Zlen (c_q c)) (rround (r i) (Qmin (cell_demand fs c) (cell_supply fs c') * fs)) :: out_vehs fs r (S i) (c' :: cs).
Proof. reflexivity. Qed.

Lemma evolve_occ fs r fin : draws_ok r -> forall cs i c extra,
  good fs c -> (0 <= c_vol c)%Z -> cap fs c (load (isnil cs) fin c + Zlen extra) -> occ fs fin cs ->
  let os := out_vehs fs r i (c :: cs) in
  let fin' := fin ++ last_out (c :: cs) os in
  occ fs fin' (recount (shift extra (c :: cs) os) fin').
Proof.
  intros Hr. induction cs as [|c' cs IH]; intros i c extra G V C O; cbv zeta.
  - cbn [out_vehs last_out shift recount]. rewrite to_nat_Zlen, firstn_all, skipn_all. simpl app. apply occ_cons.
    split; [eapply good_ext; [| | |exact G]; reflexivity|]. simpl c_q. simpl c_vol. unfold load. simpl isnil. cbv iota. simpl c_q.
    split; [lia|]. split; [|exact I].
    eapply cap_ext; [|eapply cap_mono; [|exact C]]; [reflexivity|].
    unfold load. simpl isnil. cbv iota. rewrite Zlen_app. lia.
  - rewrite out_vehs_cons2.
    set (o := Z.min (Zlen (c_q c)) (rround (r i) (Qmin (cell_demand fs c) (cell_supply fs c') * fs))).
    set (os := out_vehs fs r (S i) (c' :: cs)).
    assert (Hlo : last_out (c :: c' :: cs) (o :: os) = last_out (c' :: cs) os).
    { unfold os. destruct (out_vehs fs r (S i) (c' :: cs)) eqn:E; [|reflexivity].
      pose proof (out_vehs_length fs r (c' :: cs) (S i)) as L. rewrite E in L. discriminate. }
    rewrite Hlo. set (fin' := fin ++ last_out (c' :: cs) os).
    change (shift extra (c :: c' :: cs) (o :: os)) with
      (set_q c (skipn (Z.to_nat o) (c_q c) ++ extra) :: shift (firstn (Z.to_nat o) (c_q c)) (c' :: cs) os).
    apply occ_cons in O as (G' & L' & C' & O').
    assert (V' : (0 <= c_vol c')%Z).
    { unfold load in L'. pose proof (Zlen_nonneg (c_q c')). pose proof (Zlen_nonneg fin). destruct (isnil cs); lia. }
    assert (D0 : 0 <= cell_demand fs c).
    { unfold cell_demand. destruct G as (Hf & Hh & Hc & _). apply Q.min_glb; [|exact Hc].
      apply Qle_shift_div_l; [exact Hf|]. apply injZ_nonneg in V. lra. }
    assert (S0 : 0 <= cell_supply fs c') by (apply cell_supply_nonneg; exact G').
    assert (M0 : 0 <= Qmin (cell_demand fs c) (cell_supply fs c')) by (apply Q.min_glb; auto).
    assert (HO0 : (0 <= o)%Z).
    { unfold o. apply Z.min_glb; [apply Zlen_nonneg|]. apply rround_nonneg. destruct G as (Hf & _). nra. }
    assert (HO1 : (o <= Zlen (c_q c))%Z) by (unfold o; lia).
    assert (Hk : (Z.to_nat o <= length (c_q c))%nat) by (unfold Zlen in HO1; lia).
    assert (HC : cap fs c' (c_vol c' + o)).
    { eapply receive_ok with (r := r i) (x := Qmin (cell_demand fs c) (cell_supply fs c')); auto.
      - apply Hr. - apply Q.le_min_r. - unfold o; lia. }
    specialize (IH (S i) c' (firstn (Z.to_nat o) (c_q c)) G' V').
    assert (IHC : cap fs c' (load (isnil cs) fin c' + Zlen (firstn (Z.to_nat o) (c_q c)))).
    { eapply cap_mono; [|exact HC]. rewrite Zlen_firstn by exact Hk. lia. }
    specialize (IH IHC O'). cbv zeta in IH. fold os in IH. fold fin' in IH.
    assert (Hne : shift (firstn (Z.to_nat o) (c_q c)) (c' :: cs) os <> []).
    { unfold os. destruct (out_vehs fs r (S i) (c' :: cs)) eqn:E; [|discriminate].
      pose proof (out_vehs_length fs r (c' :: cs) (S i)) as L. rewrite E in L. discriminate. }
    destruct (shift (firstn (Z.to_nat o) (c_q c)) (c' :: cs) os) as [|d ds] eqn:Es; [contradiction|].
    change (recount (set_q c (skipn (Z.to_nat o) (c_q c) ++ extra) :: d :: ds) fin') with
      (set_vol (set_q c (skipn (Z.to_nat o) (c_q c) ++ extra)) (Zlen (skipn (Z.to_nat o) (c_q c) ++ extra)) :: recount (d :: ds) fin').
    apply occ_cons. split; [eapply good_ext; [| | |exact G]; reflexivity|]. split; [|split; [|exact IH]].
    + assert (N : isnil (recount (d :: ds) fin') = false) by (destruct ds; reflexivity). rewrite N. unfold load. simpl. lia.
    + simpl c_vol. eapply cap_ext; [|eapply cap_mono; [|exact C]]; [reflexivity|].
      unfold load. simpl isnil. cbv iota. rewrite Zlen_app, Zlen_skipn by exact Hk. lia.
Qed.

Lemma occ_fin_mono fs fin fin' : (Zlen fin' <= Zlen fin)%Z -> forall cs, occ fs fin cs -> occ fs fin' cs.
Proof.
  intros L. induction cs as [|c cs IH]; [auto|]. rewrite !occ_cons. intros (G & A & C & O).
  split; [exact G|]. split; [|split; [exact C|auto]]. unfold load in *. destruct (isnil cs); lia.
Qed.

Definition link_occ (l : link) : Prop :=
  exists cs, l_body l = BCtm cs /\ occ (p_fs (l_par l)) (l_fin l) cs.

Lemma interval_occ l arr l' : interval l arr l' -> link_occ l -> link_occ l'.
Proof.
  intros H (cs & Hb & O).
  destruct (ctm_interval _ _ _ _ H Hb) as (rest & c & tl & fin' & Hs & -> & Hin & Hfin & Hns & r & hn & cs' & Hr & Hb' & E).
  cbv zeta in E. rewrite ctm_evolve_eq in E. cbv zeta in E.
  assert (Hp : l_par l' = l_par l).
  { destruct H as (? & ? & ? & l1 & _ & _ & E1 & E2). unfold link_clear, offered in E1; simpl in E1. rewrite Hb in E1.
    destruct (ctm_clear _ _ _) in E1; [|discriminate]. simpl in E1. injection E1 as <-.
    unfold link_evolve in E2; simpl l_body in E2; cbv iota in E2. destruct (ctm_evolve _ _ _ _ _) in E2; [|discriminate].
    simpl in E2. injection E2 as <-. reflexivity. }
  destruct (forallb hn _); [|discriminate]. apply Ok_pair in E as [-> ->].
  exists (recount (shift [] (set_vol (set_q c (c_q c ++ l_in l ++ arr)) (Zlen (c_q c ++ l_in l ++ arr)) :: tl)
       (out_vehs (p_fs (l_par l)) r 0 (set_vol (set_q c (c_q c ++ l_in l ++ arr)) (Zlen (c_q c ++ l_in l ++ arr)) :: tl)))
       (rest ++ last_out (set_vol (set_q c (c_q c ++ l_in l ++ arr)) (Zlen (c_q c ++ l_in l ++ arr)) :: tl)
       (out_vehs (p_fs (l_par l)) r 0 (set_vol (set_q c (c_q c ++ l_in l ++ arr)) (Zlen (c_q c ++ l_in l ++ arr)) :: tl)))).
  split; [exact Hb'|]. rewrite Hp, Hfin.
  assert (Hrl : (Zlen rest <= Zlen (l_fin l))%Z) by (unfold Zlen; apply subseq_length in Hs; lia).
  apply (occ_fin_mono _ _ rest Hrl) in O. apply occ_cons in O as (G & L & C & O).
  apply evolve_occ; [exact Hr| | | |exact O].
  - apply (good_ext _ c); auto.
  - simpl. apply Zlen_nonneg.
  - apply (cap_ext _ c); [reflexivity|].
    apply cap_mono with (n := (c_vol c + Zlen (l_in l ++ arr))%Z); [|apply receive_exact; auto].
    + unfold load in *. simpl c_q. change (Zlen (@nil Z)) with 0%Z. rewrite Zlen_app. destruct (isnil tl); lia.
    + unfold load in L. pose proof (Zlen_nonneg (c_q c)). pose proof (Zlen_nonneg rest). destruct (isnil tl); lia.
Qed.

(** ** the constructor gives good cells *)
Lemma new_cell_good hold flow fs wr : 0 < fs -> 0 <= hold -> 0 <= flow ->
  match wr with Some w => w <= 1 -> 0 <= w /\ 2 * flow <= hold | None => True end ->
  good fs (new_cell hold flow fs wr).
Proof.
  intros Hf Hh Hc Hw. unfold good, new_cell; simpl. split; [exact Hf|]. split; [exact Hh|].
  assert (I0 : 0 <= 1 / fs) by (apply Qle_shift_div_l; lra).
  destruct (Qltb_spec (flow * fs) 1) as [L|L].
  - split; [exact I0|]. destruct wr as [w|]; [|exact I]. intros W. destruct (Hw W) as [W0 _]. split; [exact W0|].
    right. field_simplify; lra.
  - split; [exact Hc|]. destruct wr as [w|]; [|exact I]. intros W. destruct (Hw W) as [W0 W1]. auto.
Qed.

(** wave ratio at most one means the cell can store twice its capacity *)
Lemma wave_ratio_room h c ffs ut lanes w : 0 < ffs -> 0 < ut -> 0 <= h -> 0 <= c -> 0 <= lanes ->
  wave_ratio h c ffs = Some w -> ~ w < 0 -> w <= 1 -> 0 <= w /\ 2 * (lanes * c * ut) <= lanes * (ffs * ut) * h.
Proof.
  intros Hf Hu Hh Hc Hl E Hn W. unfold wave_ratio in E. set (d := h - c / ffs) in *.
  destruct (Qeqb_spec d 0) as [Z|Z]; [discriminate|]. injection E as <-.
  apply Qnot_lt_le in Hn. split; [exact Hn|].
  assert (Ew : c / d / ffs * (d * ffs) == c) by (field; split; lra).
  assert (Eh : (h - d) * ffs == c) by (unfold d; field; lra).
  assert (P : 0 <= d).
  { destruct (Qlt_le_dec d 0) as [N|P]; [|exact P]. exfalso. assert (A : 0 < (h - d) * ffs) by nra.
    assert (B : d * ffs < 0) by nra. set (w := c / d / ffs) in *. clearbody w. nra. }
  assert (Dp : 0 <= d * ffs) by nra.
  assert (A : c <= d * ffs). { set (w := c / d / ffs) in *. clearbody w. nra. }
  assert (B : 2 * c <= h * ffs) by lra.
  assert (C : 0 <= lanes * ut) by nra. nra.
Qed.
