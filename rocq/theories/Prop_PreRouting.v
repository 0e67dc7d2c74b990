(** C42: reassigning route flows; C55, C56: handing planned flows to vehicles. *)
From Verif Require Import Base Base_lemmas Model_Num Proof_Num Model_Node Model_PreRouting Spec_PreRouting Proof_PreRouting Proof_PreRouting2.
Local Open Scope Z_scope.

(** Shifting flow to a path of the pair keeps every total, of this pair and all others, in every interval. *)
Theorem C42_reassign_keeps_demand : forall T o d p i lam T', table_ok T -> has_path T o d p ->
  reassign T o d p i lam = Ok T' -> forall o' d' j, (od_total T' o' d' j == od_total T o' d' j)%Q.
Proof.
  intros T o d p i lam T' W (f0 & a0 & Hf0 & Ha0) H o' d' j. pose proof W as [N W2]. destruct (reassign_ok _ _ _ _ _ _ _ W H) as (f & f' & tot & Hf & -> & Sh & Et).
  assert (f0 = f) as -> by (exact (in_unique2 T (o, d) f0 f N Hf0 Hf)).
  pose proof (od_upd_table_ok T o d f f' W Hf (shifted_keys _ _ _ _ _ _ Sh)) as W'.
  destruct (od_eqb (o', d') (o, d)) eqn:E.
  - apply od_eqb_iff in E. injection E as -> ->. rewrite (od_total_one T o d f j N Hf).
    rewrite (od_total_one _ o d f' j (proj1 W')) by (apply (od_upd_In T o d f f' N Hf); left; auto).
    destruct (Nat.eq_dec j (Z.to_nat i)) as [->|Hj]; [|now rewrite (shifted_other _ _ _ _ _ _ j Sh Hj)].
    rewrite (shifted_sum _ _ _ _ _ _ Sh), (cnt_one p f (W2 _ _ Hf) (ex_intro _ a0 Ha0)), Et. change (inject_Z (Z.of_nat 1)) with 1%Q. ring.
  - assert (Ne : (o', d') <> (o, d)) by (intros X; rewrite X, od_eqb_refl in E; discriminate).
    destruct (find_od T o' d') as [g|] eqn:Eg.
    + apply find_od_In in Eg. rewrite (od_total_one T o' d' g j N Eg).
      rewrite (od_total_one _ o' d' g j (proj1 W')) by (apply (od_upd_In T o d f f' N Hf); right; auto). reflexivity.
    + pose proof (find_od_none _ _ _ Eg) as Ng. rewrite !od_total_missing; [reflexivity|exact Ng|].
      intros g Hg. apply (od_upd_In T o d f f' N Hf) in Hg as [[X _]|[_ X]]; [contradiction|exact (Ng g X)].
Qed.
Print Assumptions C42_reassign_keeps_demand.

(** ... and moves exactly the fraction [lam] of every other path's flow in that interval. *)
Theorem C42_reassign_flows : forall T o d p i lam T', table_ok T -> reassign T o d p i lam = Ok T' ->
  forall q x, carries T o d q (Z.to_nat i) x ->
  exists y, carries T' o d q (Z.to_nat i) y /\
    (y == (if q =? p then (1 - lam) * x + lam * od_total T o d (Z.to_nat i) else (1 - lam) * x))%Q.
Proof.
  intros T o d p i lam T' W H q x (f0 & a & Hf0 & Ha & Hx). pose proof W as [N W2]. destruct (reassign_ok _ _ _ _ _ _ _ W H) as (f & f' & tot & Hf & -> & Sh & Et).
  assert (f0 = f) as -> by (exact (in_unique2 T (o, d) f0 f N Hf0 Hf)).
  destruct (Forall2_In_l' _ _ _ _ Sh Ha) as ([q' a'] & Ha' & E1 & _ & _ & x' & X1 & X2). cbn [fst snd] in *. subst q'. rewrite Hx in X1. injection X1 as <-.
  eexists. split; [exists f', a'; split; [apply (od_upd_In T o d f f' N Hf); left; auto|split; [exact Ha'|exact X2]]|].
  destruct (q =? p); [|reflexivity]. rewrite Et, (od_total_one T o d f _ N Hf). reflexivity.
Qed.
Print Assumptions C42_reassign_flows.

(** Nothing else in the table changes. *)
Theorem C42_reassign_others_unchanged : forall T o d p i lam T', table_ok T -> reassign T o d p i lam = Ok T' ->
  forall o' d' q j x, (o', d', j) <> (o, d, Z.to_nat i) -> (carries T' o' d' q j x <-> carries T o' d' q j x).
Proof.
  intros T o d p i lam T' W H o' d' q j x Ne. pose proof W as [N W2]. destruct (reassign_ok _ _ _ _ _ _ _ W H) as (f & f' & tot & Hf & -> & Sh & Et).
  destruct (od_eqb (o', d') (o, d)) eqn:E.
  - apply od_eqb_iff in E. injection E as -> ->. assert (Hj : j <> Z.to_nat i) by congruence. split.
    + intros (g & a & Hg & Ha & Hx). apply (od_upd_In T o d f f' N Hf) in Hg as [[_ ->]|[X _]]; [|congruence].
      destruct (Forall2_In_r' _ _ _ _ Sh Ha) as ([q' a'] & Ha' & E1 & _ & E3 & _). cbn [fst snd] in *. subst q'. exists f, a'. rewrite (E3 j Hj) in Hx. auto.
    + intros (g & a & Hg & Ha & Hx). assert (g = f) as -> by (exact (in_unique2 T (o, d) g f N Hg Hf)).
      destruct (Forall2_In_l' _ _ _ _ Sh Ha) as ([q' a'] & Ha' & E1 & _ & E3 & _). cbn [fst snd] in *. subst q'. exists f', a'. rewrite (E3 j Hj).
      split; [apply (od_upd_In T o d f f' N Hf); left; auto|]. auto.
  - assert (Np : (o', d') <> (o, d)) by (intros X; rewrite X, od_eqb_refl in E; discriminate).
    split; intros (g & a & Hg & R); exists g, a; (split; [|exact R]).
    + apply (od_upd_In T o d f f' N Hf) in Hg as [[X _]|[_ X]]; [contradiction|exact X].
    + apply (od_upd_In T o d f f' N Hf). right. auto.
Qed.
Print Assumptions C42_reassign_others_unchanged.

(** Flows stay non-negative when the fraction is between 0 and 1. *)
Theorem C42_reassign_stays_nonnegative : forall T o d p i lam T', table_ok T -> (0 <= lam <= 1)%Q -> no_negative_flow T ->
  reassign T o d p i lam = Ok T' -> no_negative_flow T'.
Proof.
  intros T o d p i lam T' W Hl P H o' d' q j x Hc. pose proof W as [N W2].
  destruct (reassign_ok _ _ _ _ _ _ _ W H) as (f & f' & tot & Hf & E & Sh & Et).
  destruct (od_eqb (o', d') (o, d) && (j =? Z.to_nat i)%nat) eqn:B.
  - apply andb_true_iff in B as [B1 B2]. apply od_eqb_iff in B1. injection B1 as -> ->. apply Nat.eqb_eq in B2 as ->.
    destruct Hc as (g & a & Hg & Ha & Hx). rewrite E in Hg. apply (od_upd_In T o d f f' N Hf) in Hg as [[_ ->]|[X _]]; [|congruence].
    destruct (Forall2_In_r' _ _ _ _ Sh Ha) as ([q' a'] & Ha' & E1 & _ & _ & y & Y1 & Y2). cbn [fst snd] in *. subst q'. rewrite Hx in Y2. injection Y2 as ->.
    assert (Y : (0 <= y)%Q) by (apply (P o d q (Z.to_nat i)); exists f, a'; auto).
    assert (Z : (0 <= tot)%Q).
    { rewrite Et. unfold pair_total. clear - P Hf. assert (G : forall e, In e f -> (0 <= nth (Z.to_nat i) (snd e) 0)%Q).
      { intros [r b] Hb. cbn [snd]. destruct (nth_error b (Z.to_nat i)) as [z|] eqn:Ez.
        - rewrite (nth_error_nth _ _ _ Ez). apply (P o d r (Z.to_nat i)). exists f, b. auto.
        - apply nth_error_None in Ez. rewrite nth_overflow by exact Ez. lra. }
      clear P Hf. induction f as [|e f IH]; cbn; [lra|]. pose proof (G e (or_introl eq_refl)). pose proof (IH (fun x Hx => G x (or_intror Hx))). unfold sumQ in *. lra. }
    destruct (q =? p); nra.
  - apply (C42_reassign_others_unchanged _ _ _ _ _ _ _ W H) in Hc; [exact (P _ _ _ _ _ Hc)|]. intros X. injection X as -> -> ->. rewrite od_eqb_refl, Nat.eqb_refl in B. discriminate.
Qed.
Print Assumptions C42_reassign_stays_nonnegative.

(** The call fails exactly when the pair is unknown (exception) or the interval is outside
    the array of one of its paths (undefined behaviour). *)
Theorem C42_reassign_defined : forall T o d p i lam, table_ok T -> 0 <= i ->
  ((exists T', reassign T o d p i lam = Ok T' /\ table_ok T' /\ forall o' d' q, has_path T' o' d' q <-> has_path T o' d' q) <->
   exists f, In ((o, d), f) T /\ forall q a, In (q, a) f -> i < Z.of_nat (length a)).
Proof.
  intros T o d p i lam W Hi. pose proof W as [N W2]. split.
  - intros (T' & H & _). destruct (reassign_ok _ _ _ _ _ _ _ W H) as (f & f' & tot & Hf & E & Sh & Et). exists f. split; [exact Hf|]. intros q a Ha.
    destruct (Forall2_In_l' _ _ _ _ Sh Ha) as (e & _ & _ & _ & _ & x & Hx & _). cbn in Hx. assert ((Z.to_nat i < length a)%nat) by (apply nth_error_Some; congruence). lia.
  - intros (f & Hf & Ha). pose proof (proj2 (find_od_spec T o d f N) Hf) as Ef.
    destruct (total_flow_total f i) as (tot & Ht). { intros [q a] He. cbn [snd]. specialize (Ha q a He). lia. }
    assert (M : exists f', mapM (shift_path p i lam tot) f = Ok f').
    { clear - Ha Hi. induction f as [|[q a] f IH]; [eexists; reflexivity|]. cbn [mapM]. destruct IH as (f' & Hf'); [intros; eapply Ha; right; eassumption|].
      destruct (read_total a i) as (x & Hx). { specialize (Ha q a (or_introl eq_refl)). lia. } unfold shift_path at 1. cbn [snd]. rewrite Hx. cbn [bind]. rewrite Hf'. eexists; reflexivity. }
    destruct M as (f' & Hf'). assert (H : reassign T o d p i lam = Ok (set_od T o d f')) by (unfold reassign; rewrite Ef, Ht; cbn [bind]; rewrite Hf'; reflexivity).
    exists (set_od T o d f'). split; [exact H|]. rewrite (set_od_map _ _ _ _ N). pose proof (shifted_all _ _ _ _ _ _ Hf') as Sh. pose proof (shifted_keys _ _ _ _ _ _ Sh) as K.
    split; [exact (od_upd_table_ok T o d f f' W Hf K)|]. intros o' d' q. split.
    + intros (g & a & Hg & Hq). apply (od_upd_In T o d f f' N Hf) in Hg as [[X ->]|[_ X]]; [|exists g, a; auto]. injection X as -> ->.
      assert (In q (map fst f)) as Q by (rewrite <- K; change q with (fst (q, a)); now apply in_map). apply in_map_iff in Q as ([q' b] & X & Hb). cbn in X. subst q'. exists f, b. auto.
    + intros (g & a & Hg & Hq). destruct (od_eqb (o', d') (o, d)) eqn:E.
      * apply od_eqb_iff in E. injection E as -> ->. assert (g = f) as -> by (exact (in_unique2 T (o, d) g f N Hg Hf)).
        assert (In q (map fst f')) as Q by (rewrite K; change q with (fst (q, a)); now apply in_map). apply in_map_iff in Q as ([q' b] & X & Hb). cbn in X. subst q'.
        exists f', b. split; [apply (od_upd_In T o d f f' N Hf); left; auto|exact Hb].
      * exists g, a. split; [apply (od_upd_In T o d f f' N Hf); right; split; [|exact Hg]|exact Hq]. intros X. rewrite X, od_eqb_refl in E. discriminate.
Qed.
Print Assumptions C42_reassign_defined.

(** Naming a path the pair does not have is accepted and loses the fraction [lam] of its demand. *)
Theorem C42_unknown_path_loses_demand : forall T o d p i lam T', table_ok T -> ~ has_path T o d p ->
  reassign T o d p i lam = Ok T' -> (od_total T' o d (Z.to_nat i) == (1 - lam) * od_total T o d (Z.to_nat i))%Q.
Proof.
  intros T o d p i lam T' W Np H. pose proof W as [N W2]. destruct (reassign_ok _ _ _ _ _ _ _ W H) as (f & f' & tot & Hf & -> & Sh & Et).
  pose proof (od_upd_table_ok T o d f f' W Hf (shifted_keys _ _ _ _ _ _ Sh)) as W'. rewrite (od_total_one T o d f _ N Hf).
  rewrite (od_total_one _ o d f' _ (proj1 W')) by (apply (od_upd_In T o d f f' N Hf); left; auto). rewrite (shifted_sum _ _ _ _ _ _ Sh).
  assert (cnt p (map fst f) = 0%nat) as ->.
  { apply cnt_not_In. intros X. apply in_map_iff in X as ([q a] & E & Ha). cbn in E. subst q. apply Np. exists f, a. auto. }
  change (inject_Z (Z.of_nat 0)) with 0%Q. ring.
Qed.
Print Assumptions C42_unknown_path_loses_demand.

(** The table built for a set of origins, and every table reached from it by shifting flow
    between existing paths, carries exactly the demand of every pair in every interval. *)
Theorem C42_demand_kept_over_history : forall sizes dests origins T0 hist T,
  NoDup (map po_node origins) -> build_table sizes dests origins = Ok T0 ->
  foldM (fun T s => reassign T (sh_o s) (sh_d s) (sh_p s) (Z.of_nat (sh_i s)) (sh_lam s)) T0 hist = Ok T ->
  (forall s n, In s hist -> sizes (sh_o s) (sh_d s) = Some n -> 0 <= sh_p s < Z.max 1 (Z.of_nat n)) ->
  forall o d dem i, In o origins -> In d dests -> In (d, dem) (po_demand o) -> NoDup (map fst (po_demand o)) -> (i < po_max o)%nat ->
  (od_total T (po_node o) d i == nth i dem 0)%Q.
Proof.
  intros sizes dests origins T0 hist T NO B H P. destruct (build_table_built _ _ _ _ B) as (B1 & B2).
  assert (I : forall hist T0 T, (forall s n, In s hist -> sizes (sh_o s) (sh_d s) = Some n -> 0 <= sh_p s < Z.max 1 (Z.of_nat n)) ->
     table_ok T0 -> (forall o d f, In ((o, d), f) T0 -> exists n, sizes o d = Some n /\ forall p, 0 <= p < Z.max 1 (Z.of_nat n) -> has_path T0 o d p) ->
     foldM (fun T s => reassign T (sh_o s) (sh_d s) (sh_p s) (Z.of_nat (sh_i s)) (sh_lam s)) T0 hist = Ok T -> forall o d i, (od_total T o d i == od_total T0 o d i)%Q).
  { clear. induction hist as [|s hist IH]; intros T0 T P W K; cbn [foldM]; [intros E; apply Ok_inj in E as <-; reflexivity|].
    intros H o d i. apply bind_ok in H as (T1 & H1 & H).
    destruct (reassign_ok _ _ _ _ _ _ _ W H1) as (f & f' & tot & Hf & E & Sh & Et). destruct (K _ _ _ Hf) as (n & En & Kn).
    pose proof (Kn (sh_p s) (P s n (or_introl eq_refl) En)) as HP. pose proof (shifted_keys _ _ _ _ _ _ Sh) as Ks.
    assert (W1 : table_ok T1) by (rewrite E; exact (od_upd_table_ok T0 _ _ f f' W Hf Ks)).
    destruct (proj2 (C42_reassign_defined T0 (sh_o s) (sh_d s) (sh_p s) (Z.of_nat (sh_i s)) (sh_lam s) W ltac:(lia))) as (T1' & H1' & _ & KP).
    { exists f. split; [exact Hf|]. intros q a Ha. destruct (Forall2_In_l' _ _ _ _ Sh Ha) as (e & _ & _ & _ & _ & x & Hx & _). cbn in Hx.
      assert ((Z.to_nat (Z.of_nat (sh_i s)) < length a)%nat) by (apply nth_error_Some; congruence). lia. }
    rewrite H1 in H1'. apply Ok_inj in H1' as <-.
    rewrite (IH T1 T (fun s n Hs => P s n (or_intror Hs)) W1); [|clear IH|exact H].
    - exact (C42_reassign_keeps_demand _ _ _ _ _ _ _ W HP H1 o d i).
    - intros a b g Hg. rewrite E in Hg. assert (exists g', In ((a, b), g') T0) as (g' & Hg').
      { apply (od_upd_In T0 _ _ f f' (proj1 W) Hf) in Hg as [[X _]|[_ X]]; [injection X as -> ->; exists f; exact Hf|exists g; exact X]. }
      destruct (K a b g' Hg') as (n' & En' & Kn'). exists n'. split; [exact En'|]. intros p Hp. apply KP. exact (Kn' p Hp). }
  intros o d dem i Ho Hd Hdem ND Hi. rewrite (I hist T0 T P (built_ok _ _ _ B1)); [| |exact H].
  - assert (Ed : find_demand (po_demand o) d = Some dem).
    { clear - Hdem ND. induction (po_demand o) as [|[x a] l IH]; [destruct Hdem|]. cbn [find_demand]. inversion ND as [|? ? N1 N2]; subst. destruct Hdem as [E|Hm].
      - injection E as -> ->. now rewrite Z.eqb_refl.
      - destruct (Z.eqb_spec x d) as [->|]; [|auto]. exfalso. apply N1. cbn. change d with (fst (d, dem)). now apply in_map. }
    destruct (B2 d o Hd Ho) as (f & Hf); [congruence|]. rewrite (od_total_one T0 _ _ f i (proj1 B1) Hf).
    destruct (proj2 B1 _ _ _ Hf) as (o' & dem' & n & Ho' & En & Ed' & Hl & _ & ->).
    assert (o' = o) as ->.
    { clear - NO Ho Ho' En. induction origins as [|x l IH]; [destruct Ho|]. cbn [map] in NO. inversion NO as [|? ? N1 N2]; subst. destruct Ho as [->|Ho], Ho' as [->|Ho']; [reflexivity| | |auto].
      - exfalso. apply N1. rewrite <- En. now apply in_map.
      - exfalso. apply N1. rewrite En. now apply in_map. }
    rewrite Ed in Ed'. injection Ed' as <-. rewrite initial_total.
    destruct (nth_error dem i) as [x|] eqn:Ex.
    + rewrite (nth_error_nth _ _ 0%Q Ex). assert (X : nth_error (firstn (po_max o) dem) i = Some x).
      { clear - Ex Hi. revert i dem Ex Hi. induction (po_max o) as [|m IH]; intros i dem Ex Hi; [lia|]. destruct dem as [|y dem]; [destruct i; discriminate|]. destruct i as [|i]; [exact Ex|]. cbn in *. apply IH; [exact Ex|lia]. }
      now rewrite (nth_error_nth _ _ 0%Q X).
    + apply nth_error_None in Ex. lia.
  - intros a b f Hf. destruct (proj2 B1 _ _ _ Hf) as (o' & dem' & n & Ho' & En & Ed' & Hl & Es & ->). exists n. split; [exact Es|]. intros p Hp.
    apply (initial_path (po_max o') (firstn (po_max o') dem') n) in Hp. apply in_map_iff in Hp as ([p' arr] & E & Hp). cbn in E. subst p'. eexists _, arr. split; [exact Hf|exact Hp].
Qed.
Print Assumptions C42_demand_kept_over_history.

(** a case: two pairs, two shifts *)
Definition pre_origin : porigin := {| po_node := 1; po_max := 2; po_demand := [(7, [4; 6]%Q); (8, [3; 1]%Q)] |}.
Definition pre_sizes (o d : Z) : option nat := if o =? 1 then Some (if d =? 7 then 2%nat else 1%nat) else None.
Definition pre_table : rtable := match build_table pre_sizes [7; 8] [pre_origin] with Ok T => T | Err _ => [] end.
Definition pre_shifted : rtable := match reassign pre_table 1 7 1 0 (1 # 4) with Ok T => T | Err _ => [] end.
Example C42_case : build_table pre_sizes [7; 8] [pre_origin] = Ok pre_table /\ reassign pre_table 1 7 1 0 (1 # 4) = Ok pre_shifted /\
  has_path pre_table 1 7 1 /\ (exists x, carries pre_shifted 1 7 1 0 x /\ x == 1)%Q /\ (exists x, carries pre_shifted 1 7 0 0 x /\ x == 3)%Q /\ no_negative_flow pre_table.
Proof.
  split; [reflexivity|]. split; [reflexivity|]. split; [do 2 eexists; split; [left; reflexivity|right; left; reflexivity]|].
  split; [eexists; split; [do 2 eexists; split; [left; reflexivity|split; [right; left; reflexivity|reflexivity]]|vm_compute; reflexivity]|].
  split; [eexists; split; [do 2 eexists; split; [left; reflexivity|split; [left; reflexivity|reflexivity]]|vm_compute; reflexivity]|].
  intros o d p i x (f & a & Hf & Ha & Hx). apply nth_error_In in Hx. cbn in Hf.
  destruct Hf as [E|[E|[]]]; injection E as <- <- <-; cbn in Ha; repeat (destruct Ha as [E|Ha]; [injection E as <- <-; cbn in Hx; intuition (subst; lra)|]); destruct Ha.
Qed.
Example C42_lost_case : ~ has_path pre_table 1 8 5 /\ match reassign pre_table 1 8 5 0 (1 # 3) with Ok T => Qeq_bool (od_total T 1 8 0) 2 = true /\ Qeq_bool (od_total pre_table 1 8 0) 3 = true | Err _ => False end.
Proof.
  split; [|vm_compute; auto]. intros (f & a & Hf & Ha). cbn in Hf. destruct Hf as [E|[E|[]]]; [discriminate|]. injection E as <-. cbn in Ha. destruct Ha as [E|[]]. discriminate.
Qed.

(** One destination, whole planned numbers, positive except perhaps for the first path, as many
    vehicles as planned: every path of the plan gets exactly its planned number of vehicles, and
    each of them is sent on the first link of its path with the rest still ahead. *)
Theorem C55_vehicles_follow_plan : forall T R known dest ass o d dem more f z0 zs ps q tr,
  table_ok T -> 0 <= ass -> po_demand o = (d, dem) :: more -> In ((po_node o, d), f) T ->
  (exists x, nth_error dem (Z.to_nat ass) = Some x /\ (x == inject_Z (Z.of_nat (length q)))%Q) ->
  (forall k z, nth_error (z0 :: zs) k = Some z -> exists a x, In (Z.of_nat k, a) f /\ nth_error a (Z.to_nat ass) = Some x /\ (x == inject_Z (Z.of_nat z))%Q) ->
  (forall z, In z zs -> (0 < z)%nat) -> length q = (z0 + fold_right Nat.add 0 zs)%nat ->
  R (po_node o) d = Some ps -> (length zs < length ps)%nat ->
  (forall r, In r ps -> exists l r', r = l :: r' /\ known l = true) ->
  NoDup q -> (forall v, In v q -> dest v = d /\ tr_left tr v = None) ->
  exists tr' plan, update_origin T R known dest ass o q tr = Ok tr' /\ length plan = length q /\
    (forall k, count_occ Nat.eq_dec plan k = nth k (z0 :: zs) 0%nat) /\
    (forall v k, In (v, k) (combine q plan) -> exists l r, nth_error ps k = Some (l :: r) /\ tr_next tr' v = Some l /\ tr_left tr' v = Some r).
Proof.
  intros T R known dest ass o d dem more f z0 zs ps q tr [N W2] Ha Ed Hf (x & Hx & Vx) Hz Hp Hl HR Hps Hk Nq Hq.
  assert (PL : forall k z, nth_error (z0 :: zs) k = Some z -> exists y, planned T (po_node o) d (Z.of_nat k) ass = Ok y /\ (y == inject_Z (Z.of_nat z))%Q).
  { intros k z E. destruct (Hz k z E) as (a & y & A1 & A2 & A3). exists y. split; [|exact A3]. unfold planned.
    rewrite (proj2 (find_od_spec T _ _ f N) Hf), (proj2 (find_path_spec f _ a (W2 _ _ Hf)) A1). apply read_ok. auto. }
  destruct (PL 0%nat z0 eq_refl) as (y0 & Y0 & V0).
  destruct (register_all T o d ass dest R ps HR q 0 z0 zs {| c_dest := d; c_this := x; c_path := 0; c_remain := y0 |} tr) as (c' & Hc').
  - intros v Hv. now apply Hq.
  - intros j z E. split; [apply Hp; eapply nth_error_In; exact E|]. destruct (PL (S j) z E) as (y & Y & V). exists y. split; [|exact V]. exact Y.
  - lia.
  - reflexivity.
  - reflexivity.
  - exact V0.
  - exact Vx.
  - exact Hl.
  - set (plan := hand_out 0 (z0 :: zs)) in *. set (tr1 := fold_left _ (combine q plan) tr) in *.
    assert (Lp : length plan = length q) by (unfold plan; rewrite hand_out_length, Hl; reflexivity).
    assert (Mf : map fst (combine q plan) = q).
    { clear - Lp. clearbody plan. revert plan Lp. induction q as [|v q IH]; intros [|k plan] E; try discriminate; [reflexivity|]. cbn. f_equal. apply IH. now injection E. }
    assert (Cp : forall k, count_occ Nat.eq_dec plan k = nth k (z0 :: zs) 0%nat) by (intros k; exact (hand_out_count (z0 :: zs) 0 k)).
    assert (Kp : forall k, In k plan -> (k < length ps)%nat).
    { intros k Hk'. apply (count_occ_In Nat.eq_dec) in Hk'. rewrite Cp in Hk'. destruct (Nat.lt_ge_cases k (length (z0 :: zs))); [cbn in *; lia|]. rewrite nth_overflow in Hk' by lia. lia. }
    assert (Tk : forall v k, In (v, k) (combine q plan) -> tr_left tr1 v = Some (nth k ps [])).
    { intros v k Hv. apply track_fold; [now rewrite Mf| |exact Hv]. rewrite Mf. intros u Hu. now apply Hq. }
    destruct (send_total known q tr1 Nq) as (tr' & Htr').
    { intros v Hv. rewrite <- Mf in Hv. apply in_map_iff in Hv as ([v' k] & E & Hv). cbn in E. subst v'. rewrite (Tk v k Hv). apply in_combine_r in Hv.
      destruct (Hk (nth k ps [])) as (l & r & E & Kl); [apply nth_In; now apply Kp|]. rewrite E. eauto. }
    exists tr', plan. split; [|split; [exact Lp|split; [exact Cp|]]].
    + unfold update_origin, first_cursor. rewrite Ed. rewrite (proj2 (read_ok dem ass x) (conj Ha Hx)). cbn [bind]. change 0 with (Z.of_nat 0) at 1. rewrite Y0. cbn [bind].
      change (Z.of_nat 0) with 0. rewrite Hc'. cbn [bind snd]. exact Htr'.
    + intros v k Hv. assert (In v q) as Hvq by (rewrite <- Mf; change v with (fst (v, k)); now apply in_map).
      destruct (send_fold known q tr1 tr' Nq Htr' v Hvq) as (l & r & E1 & E2 & E3). rewrite (Tk v k Hv) in E1. injection E1 as E1. exists l, r. split; [|auto].
      rewrite <- E1. apply nth_error_nth'. apply Kp. apply in_combine_r in Hv. exact Hv.
Qed.
Print Assumptions C55_vehicles_follow_plan.

Definition pre_empty : tracker := {| tr_left := fun _ => None; tr_next := fun _ => None |}.
Definition plan_of (fs : list Z) : rtable := [((1, 7), map (fun e => (Z.of_nat (fst e), [inject_Z (snd e)])) (combine (seq 0 (length fs)) fs))].
Definition plan_origin (n : Z) : porigin := {| po_node := 1; po_max := 1; po_demand := [(7, [inject_Z n])] |}.
Definition plan_routes (o d : Z) : option (list (list Z)) := if (o =? 1) && (d =? 7) then Some [[10; 20]; [11; 21]; [12; 22]] else None.
Definition sent (T : rtable) (n : Z) (q : list Z) : option (list (option Z)) :=
  match update_origin T plan_routes (fun _ => true) (fun _ => 7) 0 (plan_origin n) q pre_empty with
  | Ok tr => Some (map (tr_next tr) q) | Err _ => None end.
Example C55_case : sent (plan_of [2; 1; 1]) 4 [101; 102; 103; 104] = Some [Some 10; Some 10; Some 11; Some 12].
Proof. vm_compute. reflexivity. Qed.

(** A path planned to carry nothing still gets a vehicle when it lies between two used paths. *)
Theorem C55_unused_path_refuted : exists T R known dest ass o q tr tr' v,
  table_ok T /\ update_origin T R known dest ass o q tr = Ok tr' /\
  (* the plan: 1, 0 and 1 vehicles for the paths starting with links 10, 11 and 12 *)
  R 1 7 = Some [[10; 20]; [11; 21]; [12; 22]] /\ po_node o = 1 /\ (forall v, dest v = 7) /\ length q = 2%nat /\
  carries T 1 7 0 0 1%Q /\ carries T 1 7 1 0 0%Q /\ carries T 1 7 2 0 1%Q /\
  (* the result: a vehicle on the path with no planned flow *)
  In v q /\ tr_next tr' v = Some 11.
Proof.
  exists (plan_of [1; 0; 1]), plan_routes, (fun _ => true), (fun _ => 7), 0, (plan_origin 2), [101; 102], pre_empty.
  eexists. exists 102. split.
  { split; [repeat constructor; cbn; intuition discriminate|]. intros k f [E|[]]. injection E as <- <-. cbn. repeat constructor; cbn; intuition discriminate. }
  split; [reflexivity|]. split; [reflexivity|]. split; [reflexivity|]. split; [reflexivity|]. split; [reflexivity|].
  split; [do 2 eexists; split; [left; reflexivity|split; [left; reflexivity|reflexivity]]|].
  split; [do 2 eexists; split; [left; reflexivity|split; [right; left; reflexivity|reflexivity]]|].
  split; [do 2 eexists; split; [left; reflexivity|split; [right; right; left; reflexivity|reflexivity]]|].
  split; [right; left; reflexivity|]. reflexivity.
Qed.
Print Assumptions C55_unused_path_refuted.

(** With two destinations the plan of the second one is read with the path index left over from
    the first one: a valid plan and queue lead to undefined behaviour. *)
Definition two_origin : porigin := {| po_node := 1; po_max := 1; po_demand := [(7, [2]%Q); (8, [1]%Q)] |}.
Definition two_table : rtable := [((1, 7), [(0, [1]%Q); (1, [1]%Q)]); ((1, 8), [(0, [1]%Q)])].
Definition two_routes (o d : Z) : option (list (list Z)) :=
  if (o =? 1) && (d =? 7) then Some [[10]; [11]] else if (o =? 1) && (d =? 8) then Some [[12]] else None.
Theorem C55_second_destination_refuted : exists T R known dest o q tr,
  (* planned: one vehicle on each of the two paths to 7, one on the only path to 8; the queue has exactly these *)
  (forall p x, carries T 1 7 p 0 x -> x = 1%Q) /\ (forall p x, carries T 1 8 p 0 x -> x = 1%Q) /\
  R 1 7 = Some [[10]; [11]] /\ R 1 8 = Some [[12]] /\ po_node o = 1 /\ map dest q = [7; 7; 8] /\
  update_origin T R known dest 0 o q tr = Err EUB.
Proof.
  exists two_table, two_routes, (fun _ => true), (fun v => if v =? 103 then 8 else 7), two_origin, [101; 102; 103], pre_empty.
  split; [|split; [|repeat split]].
  - intros p x (f & a & [E|[E|[]]] & Ha & Hx); [|discriminate]. injection E as <-. destruct Ha as [E|[E|[]]]; injection E as <- <-; cbn in Hx; congruence.
  - intros p x (f & a & [E|[E|[]]] & Ha & Hx); [discriminate|]. injection E as <-. destruct Ha as [E|[]]; injection E as <- <-; cbn in Hx; congruence.
Qed.
Print Assumptions C55_second_destination_refuted.

(** A vehicle still waiting at its origin at the next release is sent on the second link of its
    route, although it has not travelled the first one. *)
Theorem C56_waiting_vehicle_skips_a_link_refuted : forall T T' R R' known known' dest dest' a b o q q' tr tr1 tr2 v,
  NoDup q -> NoDup q' -> In v q -> In v q' ->
  update_origin T R known dest a o q tr = Ok tr1 ->
  update_origin T' R' known' dest' b o q' tr1 = Ok tr2 ->
  exists l1 l2 rest, tr_next tr1 v = Some l1 /\ tr_left tr1 v = Some (l2 :: rest) /\ tr_next tr2 v = Some l2 /\ tr_left tr2 v = Some rest.
Proof.
  intros T T' R R' known known' dest dest' a b o q q' tr tr1 tr2 v N N' Hv Hv' H1 H2.
  unfold update_origin in H1, H2. apply bind_ok in H1 as (c1 & _ & H1). apply bind_ok in H1 as (s1 & _ & H1).
  apply bind_ok in H2 as (c2 & _ & H2). apply bind_ok in H2 as (s2 & R2 & H2).
  destruct (send_fold known q _ _ N H1 v Hv) as (l1 & r1 & _ & E2 & E3). destruct (send_fold known' q' _ _ N' H2 v Hv') as (l2 & r2 & F1 & F2 & F3).
  pose proof (register_keeps _ _ _ _ _ _ _ _ v r1 R2 E2) as K. rewrite K in F1. injection F1 as ->. exists l1, l2, r2. auto.
Qed.
Print Assumptions C56_waiting_vehicle_skips_a_link_refuted.
Example C56_case : exists tr1 tr2,
  update_origin (plan_of [1]) plan_routes (fun _ => true) (fun _ => 7) 0 (plan_origin 1) [101] pre_empty = Ok tr1 /\
  update_origin (plan_of [1]) plan_routes (fun _ => true) (fun _ => 7) 0 (plan_origin 1) [101] tr1 = Ok tr2 /\
  tr_next tr1 101 = Some 10 /\ tr_next tr2 101 = Some 20.
Proof. do 2 eexists. split; [reflexivity|]. split; [reflexivity|]. split; reflexivity. Qed.

(** On the road the route is followed.  An event: vehicle [who] waits at the end of a link;
    [on] gives the links the vehicles are on, [arr] who is at the node of its destination. *)
Record event := { who : Z; on : Z -> option Z; arr : Z -> bool }.
(** How far vehicle [v] with route [route] is: its next link is number [k] until it is on it. *)
Fixpoint progress (route : list Z) (v : Z) (k : nat) (es : list event) : nat :=
  match es with
  | [] => k
  | e :: es' => progress route v (if (who e =? v) && negb (arr e v) && match on e v, nth_error route k with Some a, Some b => a =? b | _, _ => false end then S k else k) es'
  end.

(** C56, second half: whatever the other vehicles do, the next links of a vehicle are the links
    of its route, in order and without gap; at its destination it gets no next link. *)
Theorem C56_route_followed_on_the_road : forall known v l r es tr tr',
  tr_next tr v = Some l -> tr_left tr v = Some r -> (forall e, In e es -> who e = v -> arr e v = false) ->
  foldM (fun tr e => update_finished known (arr e) (on e) tr (who e)) tr es = Ok tr' ->
  let k := progress (l :: r) v 0 es in
  tr_next tr' v = nth_error (l :: r) k /\ tr_left tr' v = Some (skipn k r) /\ (k <= length r)%nat.
Proof.
  intros known v l r es. cbv zeta.
  assert (G : forall es k tr tr', (k <= length r)%nat -> tr_next tr v = nth_error (l :: r) k -> tr_left tr v = Some (skipn k r) ->
    (forall e, In e es -> who e = v -> arr e v = false) ->
    foldM (fun tr e => update_finished known (arr e) (on e) tr (who e)) tr es = Ok tr' ->
    tr_next tr' v = nth_error (l :: r) (progress (l :: r) v k es) /\ tr_left tr' v = Some (skipn (progress (l :: r) v k es) r) /\ (progress (l :: r) v k es <= length r)%nat).
  { clear es. induction es as [|e es IH]; intros k tr tr' Lk Hn Hl A H.
    - cbn [foldM] in H. apply Ok_inj in H as <-. cbn [progress]. auto.
    - cbn [foldM] in H. apply bind_ok in H as (tr1 & H1 & H). cbn [progress].
      assert (A' : forall e, In e es -> who e = v -> arr e v = false) by (intros; apply A; [right|]; auto).
      destruct (who e =? v) eqn:Ew.
      + apply Z.eqb_eq in Ew. rewrite Ew in H1. specialize (A e (or_introl eq_refl) Ew). rewrite A. cbn [negb andb].
        unfold update_finished in H1. rewrite A, Hl, Hn in H1.
        destruct (nth_error (l :: r) k) as [b|] eqn:Eb.
        2:{ apply nth_error_None in Eb. cbn [length] in Eb. lia. }
        destruct (on e v) as [a|].
        * destruct (a =? b) eqn:Eab; [|apply Ok_inj in H1 as <-; apply (IH k tr tr'); auto; congruence].
          destruct (skipn k r) as [|x r'] eqn:Es; [discriminate|].
          apply bind_ok in H1 as (u1 & _ & H1). apply bind_ok in H1 as (u2 & _ & H1). apply Ok_inj in H1.
          assert (nth_error r k = Some x /\ skipn (S k) r = r' /\ (k < length r)%nat) as (N1 & N2 & N3).
          { clear - Es. revert k Es. induction r as [|y r0 IHr]; intros k Es; [destruct k; discriminate|].
            destruct k; [cbn in Es; injection Es as -> ->; cbn; split; [reflexivity|split; [reflexivity|lia]]|].
            cbn [skipn] in Es. destruct (IHr k Es) as (B1 & B2 & B3). cbn [nth_error length]. split; [exact B1|]. split; [exact B2|lia]. }
          apply (IH (S k) tr1 tr'); auto; rewrite <- H1; cbn [tr_next tr_left]; rewrite upd_same; [cbn [nth_error]; congruence|congruence].
        * apply Ok_inj in H1 as <-. apply (IH k tr tr'); auto; congruence.
      + cbn [andb]. apply Z.eqb_neq in Ew. apply (IH k tr1 tr'); auto.
        * rewrite <- Hn. unfold update_finished in H1.
          destruct (arr e (who e)).
          { destruct (tr_left tr (who e)) as [[|]|]; try discriminate. apply Ok_inj in H1 as <-. cbn [tr_next]. rewrite upd_other; auto. }
          destruct (tr_left tr (who e)) as [q|]; [|discriminate].
          destruct (match on e (who e) with Some _ => _ | None => _ end); [|apply Ok_inj in H1 as <-; auto].
          destruct q; [discriminate|]. apply bind_ok in H1 as (u1 & _ & H1). apply bind_ok in H1 as (u2 & _ & H1). apply Ok_inj in H1 as <-. cbn [tr_next]. rewrite upd_other; auto.
        * rewrite <- Hl. unfold update_finished in H1.
          destruct (arr e (who e)).
          { destruct (tr_left tr (who e)) as [[|]|]; try discriminate. apply Ok_inj in H1 as <-. auto. }
          destruct (tr_left tr (who e)) as [q|]; [|discriminate].
          destruct (match on e (who e) with Some _ => _ | None => _ end); [|apply Ok_inj in H1 as <-; auto].
          destruct q; [discriminate|]. apply bind_ok in H1 as (u1 & _ & H1). apply bind_ok in H1 as (u2 & _ & H1). apply Ok_inj in H1 as <-. cbn [tr_left]. rewrite upd_other; auto. }
  intros tr tr' Hn Hl A H. apply (G es 0%nat tr tr'); auto. lia.
Qed.
Print Assumptions C56_route_followed_on_the_road.
Theorem C56_stops_at_its_destination : forall known at_dest cur tr v,
  at_dest v = true -> tr_left tr v = Some [] ->
  exists tr', update_finished known at_dest cur tr v = Ok tr' /\ tr_next tr' v = None /\ forall u, u <> v -> tr_next tr' u = tr_next tr u.
Proof.
  intros known at_dest cur tr v A L. unfold update_finished. rewrite A, L. eexists. split; [reflexivity|]. cbn [tr_next].
  split; [apply upd_same|intros u Hu; apply upd_other; auto].
Qed.
Print Assumptions C56_stops_at_its_destination.
Example C56_road_case : exists tr', foldM (fun tr e => update_finished (fun _ => true) (arr e) (on e) tr (who e))
    {| tr_left := fun v => if v =? 1 then Some [20; 30] else None; tr_next := fun v => if v =? 1 then Some 10 else None |}
    [{| who := 1; on := fun _ => Some 10; arr := fun _ => false |}; {| who := 1; on := fun _ => Some 10; arr := fun _ => false |};
     {| who := 1; on := fun _ => Some 20; arr := fun _ => false |}] = Ok tr' /\ tr_next tr' 1 = Some 30 /\ tr_left tr' 1 = Some [].
Proof. eexists. split; [reflexivity|]. split; reflexivity. Qed.
