(** More input files: C213-C226. *)
From Coq Require Import Ascii String Lqa Permutation.
From Verif Require Import Base Base_lemmas Model_Num Proof_Num Model_Graph Model_McLink Proof_Link Proof_Link4 Model_Text Model_Io Model_Mio Spec_Io Spec_Mio Proof_Text Proof_Io Proof_Io2 Proof_Mio Proof_Mio2 Proof_Mio3 Proof_Mio4 Prop_McLink Prop_Io.
Local Open Scope list_scope.
Local Open Scope Z_scope.

(** ** C213: nodes and links of two classes *)
Theorem C213_two_class_nodes stod n content ls rs xs : file_lines content ls -> rows_of ls rs -> (Z.to_nat n <= length rs)%nat ->
  Forall2 (fun l x => says_mnode stod l (fst x) (snd x)) (firstn (Z.to_nat n) rs) xs ->
  exists N m, (forall fuel, (N <= fuel)%nat -> build_node_two stod fuel n (Some content) = Ok m) /\ NoDup (map fst m) /\ forall id, lookup m id = first_of xs id.
Proof.
  intros L R H F. destruct (fill_ok (mnode_row stod) (says_mnode stod) (mnode_row_ok stod) _ xs F []) as (m & E & K). exists (length ls), m. split; [|split].
  - intros fuel Hf. unfold build_node_two. rewrite (read_file_rows _ _ _ _ _ _ _ L R H) by exact Hf. exact E.
  - apply (fill_keys (mnode_row stod) (says_mnode stod) (mnode_row_inv stod) _ _ _ E). constructor.
  - exact K.
Qed.
Print Assumptions C213_two_class_nodes.
Theorem C213_two_class_links stod n content ls rs xs : file_lines content ls -> rows_of ls rs -> (Z.to_nat n <= length rs)%nat ->
  Forall2 (fun l x => says_mlink stod l (fst x) (snd x)) (firstn (Z.to_nat n) rs) xs ->
  exists N m, (forall fuel, (N <= fuel)%nat -> build_link_two stod fuel n (Some content) = Ok m) /\ NoDup (map fst m) /\
    forall id, match first_of xs id with
               | Some x => exists a, lookup m id = Some a /\ ma_kind a = fst (fst x) /\ metric (ma_prop a) (snd (fst x)) /\ ma_pcu a = snd x
               | None => lookup m id = None
               end.
Proof.
  intros L R H F.
  assert (F' : Forall2 (fun l y => exists x, says_mlink stod l (fst y) x /\ snd y = margs x) (firstn (Z.to_nat n) rs) (map (fun x => (fst x, margs (snd x))) xs))
    by (clear -F; induction F; cbn [map]; constructor; cbn [fst snd]; eauto).
  destruct (fill_ok (mlink_row stod) (fun l id v => exists x, says_mlink stod l id x /\ v = margs x) ltac:(intros m l id v (x & S0 & ->); now apply mlink_row_ok) _ _ F' []) as (m & E & K).
  exists (length ls), m. split; [|split].
  - intros fuel Hf. unfold build_link_two. rewrite (read_file_rows _ _ _ _ _ _ _ L R H) by exact Hf. exact E.
  - eapply (fill_keys (mlink_row stod) (fun l id v => exists x, says_mlink stod l id x /\ v = margs x)); [|exact E|constructor].
    intros m0 l m1 E1. apply mlink_row_inv in E1 as (id & x & S0 & ->). exists id, (margs x). eauto.
  - intros id. rewrite K. cbn [app]. replace (first_of (map (fun x => (fst x, margs (snd x))) xs) id) with (option_map margs (first_of xs id)).
    + destruct (first_of xs id) as [x|]; cbn [option_map]; [|reflexivity]. exists (margs x). repeat split; apply (of_two_metric (snd (fst x))).
    + unfold first_of. clear. induction xs as [|y xs IH]; [reflexivity|]. cbn [map find fst]. destruct (fst y =? id); [reflexivity|exact IH].
Qed.
Print Assumptions C213_two_class_links.
(** a row that is not of this form is an exception *)
Theorem C213_bad_rows_reported stod n content ls rs l : (forall w e, stod w = Err e -> e = EThrow) ->
  file_lines content ls -> rows_of ls rs -> (Z.to_nat n <= length rs)%nat -> In l (firstn (Z.to_nat n) rs) ->
  exists N, forall fuel, (N <= fuel)%nat ->
    ((forall id x, ~ says_mnode stod l id x) -> build_node_two stod fuel n (Some content) = Err EThrow) /\
    ((forall id x, ~ says_mlink stod l id x) -> build_link_two stod fuel n (Some content) = Err EThrow).
Proof.
  intros St L R H I. exists (length ls). intros fuel Hf. unfold build_node_two, build_link_two. split; intros Bad; rewrite (read_file_rows _ _ _ _ _ _ _ L R H) by exact Hf.
  - apply (fill_bad (mnode_row stod) (says_mnode stod)) with (l := l); auto; [apply mnode_row_inv|]. intros m r e. now apply mnode_row_err.
  - apply (fill_bad (mlink_row stod) (fun l id v => exists x, says_mlink stod l id x /\ v = margs x)) with (l := l); auto.
    + intros m0 r m1 E1. apply mlink_row_inv in E1 as (id & x & S0 & ->). exists id, (margs x). eauto.
    + intros m r e. now apply mlink_row_err.
    + intros id v (x & S0 & _). exact (Bad _ _ S0).
Qed.
Print Assumptions C213_bad_rows_reported.
Example C213_case :
  build_node_two stod_int 10 2 (Some (file "# ID type factor~1 DMOND 1~ 2 FWJ 2 ~1 DMDND 3~")) = Ok [(1, (KOrigin, 1%Q)); (2, (KFwj, 2%Q))] /\
  build_node_two stod_int 10 2 (Some (file "1 DMOND 1~2 FWJ~")) = Err EThrow /\
  (exists m, build_link_two stod_int 10 1 (Some (file "7 CTM 1 36 3600 160 2 18 1800 80 2~")) = Ok m /\
     match lookup m 7 with Some a => ma_kind a = TCtm /\ (mr_ffs_c (ma_prop a) == 16 /\ mr_flow_t (ma_prop a) == 1 # 2 /\ mr_hold_c (ma_prop a) == 1 # 10)%Q | None => False end) /\
  build_link_two stod_int 10 1 (Some (file "7 LTM 1 36 3600 160 2 18 1800 80 2~")) = Err EThrow.
Proof. split; [vm_compute; reflexivity|]. split; [vm_compute; reflexivity|]. split; [eexists; split; [vm_compute; reflexivity|]; vm_compute; repeat split|vm_compute; reflexivity]. Qed.

(** ** C214: demand of two classes, 15-minute intervals *)
Definition minutes_of (sk : Z) (fs d : Q) (ms : list Q) : Prop := (sk = 0 -> at_once d ms) /\ (sk = 1 -> (1 <= d * fs)%Q -> evenly fs d ms).
Theorem C214_fifteen_minutes stod sk fs ut frq max n x content ls rs xs :
  0 < ut <= 60 -> Z.quot frq (Z.quot 60 ut) = 15 -> sk = 0 \/ sk = 1 -> 0 <= max ->
  file_lines content ls -> rows_of ls rs -> (Z.to_nat n <= length rs)%nat -> Forall2 (says_mpair stod max) (firstn (Z.to_nat n) rs) xs ->
  (forall y, In y xs -> present x (fst (fst y)) (snd (fst y))) ->
  exists N T, (forall fuel, (N <= fuel)%nat -> build_demand_two stod fuel sk fs ut frq max n x (Some content) = Ok T) /\
    forall o d, match first_pair xs o d with
      | None => T o d = None
      | Some (vc, vt) => exists c t, T o d = Some (c, t) /\ length c = (15 * Z.to_nat max)%nat /\ length t = (15 * Z.to_nat max)%nat /\
          (forall j q, nth_error vc j = Some q -> minutes_of sk fs q (interval15 c j)) /\ (forall j q, nth_error vt j = Some q -> minutes_of sk fs q (interval15 t j))
      end.
Proof.
  intros U Q15 Sk M L R H F P. rewrite <- (Z2Nat.id max M) in F. destruct (mdemand_rows_ok stod sk fs (Z.to_nat max) 15 x _ _ F P Sk (le_n _) (fun _ _ => None)) as (T & E & K).
  exists (length ls), T. split.
  - intros fuel Hf. unfold build_demand_two, num_of_minute. assert (B1 : (ut =? 0) = false) by lia. rewrite B1. cbn [negb guard bind].
    assert (B2 : (Z.quot 60 ut =? 0) = false). { apply Z.eqb_neq. intros E0. rewrite E0, Z.quot_0_r_ext in Q15; lia. } rewrite B2. cbn [negb guard bind]. rewrite Q15.
    assert (B3 : (0 <=? max) = true) by lia. rewrite B3. cbn [andb Z.leb Z.compare guard bind]. rewrite (read_file_rows _ _ _ _ _ _ _ L R H) by exact Hf. exact E.
  - intros o d. rewrite K. unfold entry_first. rewrite (first_pair_map (fun v => (stored sk fs 15 (fst v), stored sk fs 15 (snd v)))).
    destruct (first_pair xs o d) as [[vc vt]|] eqn:Ef; cbn [option_map]; [|reflexivity]. eexists _, _. split; [reflexivity|]. cbn [fst snd].
    assert (Len : length vc = Z.to_nat max /\ length vt = Z.to_nat max).
    { apply first_pair_In in Ef. clear -F Ef. induction F as [|l y rs0 xs0 S0 F IH]; [destruct Ef|]. destruct Ef as [->|I]; [|auto]. apply says_len in S0. lia. }
    assert (LS : forall v, length v = Z.to_nat max -> length (stored sk fs 15 v) = (15 * Z.to_nat max)%nat).
    { intros v Lv. destruct (stored_15 sk fs v) as [-> _]. rewrite (concat_len _ 15); [rewrite map_length; lia|]. apply Forall_forall. intros l I. apply in_map_iff in I as (q & <- & _). apply msplit_len. lia. }
    assert (MS : forall v j q, nth_error v j = Some q -> minutes_of sk fs q (interval15 (stored sk fs 15 v) j)).
    { intros v j q Nq. destruct (stored_15 sk fs v) as [_ I15]. rewrite (I15 _ _ Nq). split; [intros ->; apply msplit_at_once|intros -> Hq; now apply msplit_evenly]. }
    split; [apply LS; tauto|]. split; [apply LS; tauto|]. split; intros j q Nq; now apply MS.
Qed.
Print Assumptions C214_fifteen_minutes.
(** nothing is lost or added then *)
Theorem C214_minutes_add_up sk fs d ms : sk = 0 \/ sk = 1 /\ (1 <= d * fs)%Q -> minutes_of sk fs d ms -> (sumQ ms == d)%Q.
Proof. intros [-> | [-> H]] [A B]; [now apply once_sum, A|now apply (evenly_sum fs), B]. Qed.
Print Assumptions C214_minutes_add_up.
Definition mex_od : od := ([(1, 10)], [(2, 20)]).
Example C214_case : exists T, build_demand_two stod_int 10 1 1 5 180 2 1 mex_od (Some (file "#~1 2 3 20 0 2~")) = Ok T /\
  match T 1 2 with
  | Some (c, t) => (sumQ (interval15 c 0) == 3)%Q /\ (sumQ (interval15 c 1) == 20)%Q /\ (nth 2 c 0 == 1)%Q /\ nth 3 c 0%Q = 0%Q /\ (nth 16 t 0 == 1)%Q
  | None => False
  end.
Proof. eexists. split; [vm_compute; reflexivity|]. vm_compute. repeat split. Qed.

(** ** C215: a demand of less than one unit of flow *)
Theorem C215_small_demand_kept_refuted stod fs ut frq max n x content ls rs xs :
  0 < ut <= 60 -> Z.quot frq (Z.quot 60 ut) = 15 -> 0 <= max ->
  file_lines content ls -> rows_of ls rs -> (Z.to_nat n <= length rs)%nat -> Forall2 (says_mpair stod max) (firstn (Z.to_nat n) rs) xs ->
  (forall y, In y xs -> present x (fst (fst y)) (snd (fst y))) ->
  exists N T, (forall fuel, (N <= fuel)%nat -> build_demand_two stod fuel 1 fs ut frq max n x (Some content) = Ok T) /\
    forall o d vc vt, first_pair xs o d = Some (vc, vt) -> exists c t, T o d = Some (c, t) /\
      (forall j q, nth_error vc j = Some q -> (q * fs < 1)%Q -> interval15 c j = repeat 0%Q 15) /\
      (forall j q, nth_error vt j = Some q -> (q * fs < 1)%Q -> interval15 t j = repeat 0%Q 15).
Proof.
  intros U Q15 M L R H F P. rewrite <- (Z2Nat.id max M) in F. destruct (mdemand_rows_ok stod 1 fs (Z.to_nat max) 15 x _ _ F P (or_intror eq_refl) (le_n _) (fun _ _ => None)) as (T & E & K).
  exists (length ls), T. split.
  - intros fuel Hf. unfold build_demand_two, num_of_minute. assert (B1 : (ut =? 0) = false) by lia. rewrite B1. cbn [negb guard bind].
    assert (B2 : (Z.quot 60 ut =? 0) = false). { apply Z.eqb_neq. intros E0. rewrite E0, Z.quot_0_r_ext in Q15; lia. } rewrite B2. cbn [negb guard bind]. rewrite Q15.
    assert (B3 : (0 <=? max) = true) by lia. rewrite B3. cbn [andb Z.leb Z.compare guard bind]. rewrite (read_file_rows _ _ _ _ _ _ _ L R H) by exact Hf. exact E.
  - intros o d vc vt Ef. rewrite K. unfold entry_first. rewrite (first_pair_map (fun v => (stored 1 fs 15 (fst v), stored 1 fs 15 (snd v)))), Ef. cbn [option_map fst snd].
    eexists _, _. split; [reflexivity|]. split; intros j q Nq Hq; destruct (stored_15 1 fs vc) as [_ I1]; destruct (stored_15 1 fs vt) as [_ I2].
    + rewrite (I1 _ _ Nq). now apply msplit_lost.
    + rewrite (I2 _ _ Nq). now apply msplit_lost.
Qed.
Print Assumptions C215_small_demand_kept_refuted.
Definition stod_tenths (w : text) : res Q := do z <- stoi w; Ok (inject_Z z / 10)%Q.
Example C215_case : exists T, build_demand_two stod_tenths 10 1 1 5 180 2 1 mex_od (Some (file "#~1 2 9 9 9 9~")) = Ok T /\
  T 1 2 = Some (repeat 0%Q 30, repeat 0%Q 30).
Proof. eexists. split; vm_compute; reflexivity. Qed.

(** ** C216: intervals of other lengths *)
(** shorter: memory after the end of the array is read *)
Theorem C216_short_intervals_refuted stod sk fs ut frq max n x content ls rs y nm fuel :
  0 < ut <= 60 -> Z.quot frq (Z.quot 60 ut) = nm -> 0 < nm < 15 -> sk = 0 \/ sk = 1 -> 0 < max -> 0 < n ->
  file_lines content ls -> rows_of ls rs -> (Z.to_nat n <= length rs)%nat -> (length ls <= fuel)%nat ->
  says_mpair stod max (hd [] rs) y -> present x (fst (fst y)) (snd (fst y)) ->
  build_demand_two stod fuel sk fs ut frq max n x (Some content) = Err EUB.
Proof.
  intros U Qn B Sk M Hn L R H Hf S0 P. unfold build_demand_two, num_of_minute. assert (B1 : (ut =? 0) = false) by lia. rewrite B1. cbn [negb guard bind].
  assert (B2 : (Z.quot 60 ut =? 0) = false). { apply Z.eqb_neq. intros E0. rewrite E0, Z.quot_0_r_ext in Qn; lia. } rewrite B2. cbn [negb guard bind]. rewrite Qn.
  assert (B3 : (0 <=? max) = true) by lia. assert (B4 : (0 <=? nm) = true) by lia. rewrite B3, B4. cbn [andb guard bind]. rewrite (read_file_rows _ _ _ _ _ _ _ L R H) by exact Hf.
  destruct rs as [|r rs]; [cbn [length] in H; lia|]. destruct (Z.to_nat n) as [|k] eqn:En; [lia|]. cbn [firstn foldM hd] in *.
  destruct y as [[o d] [vc vt]]. destruct (says_len _ _ _ _ _ _ _ S0) as [L1 _]. rewrite <- (Z2Nat.id max) in S0 by lia.
  rewrite (mdemand_row_gen stod sk fs (Z.to_nat max) (Z.to_nat nm) x _ r o d vc vt S0 P Sk) by (left; lia).
  replace (Z.to_nat max) with (length vc) by lia. rewrite copy15_short; [reflexivity|lia|left; lia|]. intros ->. cbn [length] in L1. lia.
Qed.
Print Assumptions C216_short_intervals_refuted.
(** longer: the minutes are stored one after the other and only the first 15 per interval are kept, so
    demand moves to other times and the last of it is dropped *)
Theorem C216_long_intervals_refuted stod fs ut frq max n x content ls rs xs nm :
  0 < ut <= 60 -> Z.quot frq (Z.quot 60 ut) = nm -> 15 < nm -> 0 <= max ->
  file_lines content ls -> rows_of ls rs -> (Z.to_nat n <= length rs)%nat -> Forall2 (says_mpair stod max) (firstn (Z.to_nat n) rs) xs ->
  (forall y, In y xs -> present x (fst (fst y)) (snd (fst y))) ->
  exists N T, (forall fuel, (N <= fuel)%nat -> build_demand_two stod fuel 0 fs ut frq max n x (Some content) = Ok T) /\
    forall o d vc vt, first_pair xs o d = Some (vc, vt) -> exists c t, T o d = Some (c, t) /\
      forall m, (m < 15 * Z.to_nat max)%nat -> nth m c 0%Q = if (m mod Z.to_nat nm =? 0)%nat then nth (m / Z.to_nat nm) vc 0%Q else 0%Q.
Proof.
  intros U Qn Hn M L R H F P. rewrite <- (Z2Nat.id max M) in F. destruct (mdemand_rows_ok stod 0 fs (Z.to_nat max) (Z.to_nat nm) x _ _ F P (or_introl eq_refl) ltac:(lia) (fun _ _ => None)) as (T & E & K).
  exists (length ls), T. split.
  - intros fuel Hf. unfold build_demand_two, num_of_minute. assert (B1 : (ut =? 0) = false) by lia. rewrite B1. cbn [negb guard bind].
    assert (B2 : (Z.quot 60 ut =? 0) = false). { apply Z.eqb_neq. intros E0. rewrite E0, Z.quot_0_r_ext in Qn; lia. } rewrite B2. cbn [negb guard bind]. rewrite Qn.
    assert (B3 : (0 <=? max) = true) by lia. assert (B4 : (0 <=? nm) = true) by lia. rewrite B3, B4. cbn [andb guard bind]. rewrite (read_file_rows _ _ _ _ _ _ _ L R H) by exact Hf. exact E.
  - intros o d vc vt Ef. rewrite K. unfold entry_first. rewrite (first_pair_map (fun v => (stored 0 fs (Z.to_nat nm) (fst v), stored 0 fs (Z.to_nat nm) (snd v)))), Ef. cbn [option_map fst snd].
    eexists _, _. split; [reflexivity|]. intros m Hm. apply stored_nth; [lia|].
    apply first_pair_In in Ef. assert (length vc = Z.to_nat max); [|lia]. clear -F Ef. induction F as [|l y rs0 xs0 S0 F IH]; [destruct Ef|]. destruct Ef as [->|I]; [|auto]. apply says_len in S0. lia.
Qed.
Print Assumptions C216_long_intervals_refuted.
(** a unit time of 0 or of more than a minute divides by zero *)
Theorem C216_unit_time_refuted stod fuel sk fs ut frq max n x file : ut = 0 \/ 60 < ut -> build_demand_two stod fuel sk fs ut frq max n x file = Err EUB.
Proof.
  intros H. unfold build_demand_two, num_of_minute. destruct (ut =? 0) eqn:B; [reflexivity|]. cbn [negb guard bind]. rewrite Z.quot_small by lia. reflexivity.
Qed.
Print Assumptions C216_unit_time_refuted.
Example C216_case :
  build_demand_two stod_int 10 0 1 5 120 2 1 mex_od (Some (file "#~1 2 3 20 0 2~")) = Err EUB /\
  (exists T, build_demand_two stod_int 10 0 1 5 360 2 1 mex_od (Some (file "#~1 2 3 20 0 2~")) = Ok T /\
     match T 1 2 with Some (c, t) => c = (3%Q :: repeat 0%Q 29) | None => False end).
Proof. split; [vm_compute; reflexivity|]. eexists. split; vm_compute; reflexivity. Qed.

(** ** C217: shares of adaptive travellers *)
Theorem C217_shares_read stod max x content ls xs : 0 <= max -> headed content ls -> Forall2 (says_ratio stod max) ls xs ->
  (forall y, In y xs -> present x (fst (fst y)) (snd (fst y))) ->
  exists N T, (forall fuel, (N <= fuel)%nat -> build_ratio stod fuel max x (Some content) = Ok T) /\ forall o d, T o d = first_pair xs o d.
Proof.
  intros M Hd F P. destruct (pair_fill (ratio_row stod (Z.to_nat max) x) ls xs) with (T := fun _ _ : Z => @None (list Q)) as (T & E & K).
  { clear Hd. rewrite <- (Z2Nat.id max M) in F. induction F as [|l y ls xs S0 F IH]; constructor; [|apply IH; intros; apply P; now right]. intros T. apply ratio_row_ok; [exact S0|apply P; now left]. }
  exists (S (length ls)), T. split.
  - intros fuel Hf. unfold build_ratio. assert (B : (0 <=? max) = true) by lia. rewrite B. cbn [guard bind]. rewrite (all_lines_headed _ _ _ _ _ Hd) by lia. exact E.
  - intros o d. rewrite K. unfold entry_first. destruct (first_pair xs o d); reflexivity.
Qed.
Print Assumptions C217_shares_read.
Theorem C217_two_class_shares_read stod ut frq max x content ls xs : 0 < ut <= 60 -> Z.quot frq (Z.quot 60 ut) = 15 -> 0 <= max -> headed content ls -> Forall2 (says_mratio stod max) ls xs ->
  (forall y, In y xs -> present x (fst (fst y)) (snd (fst y))) ->
  exists N T, (forall fuel, (N <= fuel)%nat -> build_ratio_two stod fuel ut frq max x (Some content) = Ok T) /\
    forall o d, match first_pair xs o d with
      | None => T o d = None
      | Some (vc, vt) => exists c t, T o d = Some (c, t) /\ (forall j q, nth_error vc j = Some q -> interval15 c j = repeat q 15) /\
                                     (forall j q, nth_error vt j = Some q -> interval15 t j = repeat q 15)
      end.
Proof.
  intros U Q15 M Hd F P. destruct (pair_fill (mratio_row stod (Z.to_nat max) 15 x) ls (map (fun y => (fst y, (spread15 (fst (snd y)), spread15 (snd (snd y))))) xs)) with (T := fun _ _ : Z => @None (list Q * list Q)) as (T & E & K).
  { clear Hd. rewrite <- (Z2Nat.id max M) in F. induction F as [|l [[o d] [vc vt]] ls xs S0 F IH]; cbn [map]; constructor; [|apply IH; intros; apply P; now right]. intros T. cbn [fst snd]. apply mratio_row_ok; [exact S0|apply (P (o, d, (vc, vt))); now left]. }
  exists (S (length ls)), T. split.
  - intros fuel Hf. unfold build_ratio_two, num_of_minute. assert (B1 : (ut =? 0) = false) by lia. rewrite B1. cbn [negb guard bind].
    assert (B2 : (Z.quot 60 ut =? 0) = false). { apply Z.eqb_neq. intros E0. rewrite E0, Z.quot_0_r_ext in Q15; lia. } rewrite B2. cbn [negb guard bind]. rewrite Q15.
    assert (B : (0 <=? max) = true) by lia. rewrite B. cbn [andb Z.leb Z.compare guard bind]. rewrite (all_lines_headed _ _ _ _ _ Hd) by lia. exact E.
  - intros o d. rewrite K. unfold entry_first. rewrite (first_pair_map (fun v => (spread15 (fst v), spread15 (snd v)))). destruct (first_pair xs o d) as [[vc vt]|]; cbn [option_map fst snd]; [|reflexivity].
    eexists _, _. split; [reflexivity|]. split; intros j q Nq; now apply spread15_interval.
Qed.
Print Assumptions C217_two_class_shares_read.
Example C217_case :
  (exists T, build_ratio stod_tenths 10 2 mex_od (Some (file "O D r1 r2~ 1 2 5 10~1 2 0 0~")) = Ok T /\ match T 1 2 with Some [a; b] => (a == 1 # 2 /\ b == 1)%Q | _ => False end) /\
  (exists T, build_ratio_two stod_int 10 5 180 1 mex_od (Some (file "#~1 2 1 0~")) = Ok T /\ T 1 2 = Some (repeat 1%Q 15, repeat 0%Q 15)).
Proof. split; eexists; (split; [vm_compute; reflexivity|]); vm_compute; repeat split. Qed.

(** ** C218: blank lines and remarks in these files *)
Theorem C218_remarks_skipped_refuted content l1 r l2 : headed content (l1 ++ r :: l2) -> remark r ->
  exists N, forall fuel, (N <= fuel)%nat ->
  (forall stod max x xs, 0 <= max -> Forall2 (says_ratio stod max) l1 xs -> (forall y, In y xs -> present x (fst (fst y)) (snd (fst y))) ->
     build_ratio stod fuel max x (Some content) = Err EThrow) /\
  (forall stod xs, Forall2 (says_td stod) l1 xs -> build_td stod fuel (Some content) = Err EThrow) /\
  (forall stof known T xs num, Forall2 (says_toll stof) l1 xs -> (forall x, In x xs -> known (fst x) = true) -> Z.of_nat (length l1) < num <= Z.of_nat (length (l1 ++ r :: l2)) ->
     read_tolls (toll_row stof known) num (Some content) T = Err EThrow) /\
  (forall stof known T xs num, Forall2 (says_mtoll stof) l1 xs -> (forall x, In x xs -> known (fst x) = true) -> Z.of_nat (length l1) < num <= Z.of_nat (length (l1 ++ r :: l2)) ->
     read_tolls (mtoll_row stof known) num (Some content) T = Err EThrow).
Proof.
  intros Hd Rm. exists (S (length (l1 ++ r :: l2))). intros fuel Hf. split; [|split; [|split]].
  - intros stod max x xs M F P. unfold build_ratio. assert (B : (0 <=? max) = true) by lia. rewrite B. cbn [guard bind]. rewrite (all_lines_headed _ _ _ _ _ Hd) by lia.
    destruct (pair_fill (ratio_row stod (Z.to_nat max) x) l1 xs) with (T := fun _ _ : Z => @None (list Q)) as (T & E & _).
    { clear Hd Hf. rewrite <- (Z2Nat.id max M) in F. induction F as [|l y ls xs S0 F IH]; constructor; [|apply IH; intros; apply P; now right]. intros T. apply ratio_row_ok; [exact S0|apply P; now left]. }
    eapply foldM_fail; [exact E|]. intros a. now apply ratio_remark.
  - intros stod xs F. unfold build_td. rewrite (all_lines_headed _ _ _ _ _ Hd) by lia. destruct (td_fill stod l1 xs F (fun _ => [])) as (T & E & _); [intros; constructor|].
    eapply foldM_fail; [exact E|]. intros a. now apply td_remark.
  - intros stof known T xs num F K Hn. unfold read_tolls. assert (B : (num <=? 0) = false) by lia. rewrite B. rewrite (read_lines_headed _ _ _ _ _ Hd) by lia.
    destruct (toll_fill (toll_row stof known) (says_toll stof) (fun v => v) l1 xs F) with (T := T) as (T' & E & _).
    { intros l x T0 I S0. apply toll_row_ok; auto. }
    rewrite firstn_app. rewrite (firstn_all2 l1) by lia. destruct (Z.to_nat num - length l1)%nat as [|k] eqn:Ek; [lia|]. cbn [firstn]. eapply foldM_fail; [exact E|]. intros a. now apply toll_remark.
  - intros stof known T xs num F K Hn. unfold read_tolls. assert (B : (num <=? 0) = false) by lia. rewrite B. rewrite (read_lines_headed _ _ _ _ _ Hd) by lia.
    destruct (toll_fill (mtoll_row stof known) (says_mtoll stof) (fun v => {| tl_all := fst v; tl_car := fst v; tl_truck := snd v |}) l1 xs F) with (T := T) as (T' & E & _).
    { intros l x T0 I S0. apply mtoll_row_ok; auto. }
    rewrite firstn_app. rewrite (firstn_all2 l1) by lia. destruct (Z.to_nat num - length l1)%nat as [|k] eqn:Ek; [lia|]. cbn [firstn]. eapply foldM_fail; [exact E|]. intros a. now apply mtoll_remark.
Qed.
Print Assumptions C218_remarks_skipped_refuted.
Example C218_case : build_ratio stod_tenths 10 2 mex_od (Some (file "O D r1 r2~1 2 5 10~~")) = Err EThrow /\
  build_td stod_int 10 (Some (file "header~# remark~")) = Err EThrow /\ remark (txt "# remark") /\ remark [].
Proof. split; [vm_compute; reflexivity|]. split; [vm_compute; reflexivity|]. split; [right; eexists; reflexivity|left; constructor]. Qed.

(** ** C219: tolls *)
Theorem C219_tolls_read stof known num content ls xs T : headed content ls -> 0 < num <= Z.of_nat (length ls) ->
  Forall2 (says_toll stof) (firstn (Z.to_nat num) ls) xs -> (forall x, In x xs -> known (fst x) = true) ->
  exists T', read_tolls (toll_row stof known) num (Some content) T = Ok T' /\ forall k, T' k = match last_of xs k with Some v => v | None => T k end.
Proof.
  intros Hd Hn F K. unfold read_tolls. assert (B : (num <=? 0) = false) by lia. rewrite B. rewrite (read_lines_headed _ _ _ _ _ Hd) by lia.
  apply (toll_fill (toll_row stof known) (says_toll stof) (fun v => v) _ xs F). intros l x T0 I S0. apply toll_row_ok; auto.
Qed.
Print Assumptions C219_tolls_read.
Theorem C219_two_class_tolls_read stof known num content ls xs T : headed content ls -> 0 < num <= Z.of_nat (length ls) ->
  Forall2 (says_mtoll stof) (firstn (Z.to_nat num) ls) xs -> (forall x, In x xs -> known (fst x) = true) ->
  exists T', read_tolls (mtoll_row stof known) num (Some content) T = Ok T' /\
    forall k, match last_of xs k with Some (car, truck) => tl_car (T' k) = car /\ tl_truck (T' k) = truck | None => T' k = T k end.
Proof.
  intros Hd Hn F K. unfold read_tolls. assert (B : (num <=? 0) = false) by lia. rewrite B. rewrite (read_lines_headed _ _ _ _ _ Hd) by lia.
  destruct (toll_fill (mtoll_row stof known) (says_mtoll stof) (fun v => {| tl_all := fst v; tl_car := fst v; tl_truck := snd v |}) _ xs F) with (T := T) as (T' & E & H).
  { intros l x T0 I S0. apply mtoll_row_ok; auto. }
  exists T'. split; [exact E|]. intros k. rewrite H. destruct (last_of xs k) as [[c t]|]; cbn; auto.
Qed.
Print Assumptions C219_two_class_tolls_read.
Example C219_case : exists T, read_tolls (toll_row stod_int (fun _ => true)) 3 (Some (file "link toll~4 3~5 1~4 2~")) (fun _ => 7%Q) = Ok T /\ T 4 = 2%Q /\ T 5 = 1%Q /\ T 6 = 7%Q.
Proof. eexists. split; [vm_compute; reflexivity|]. repeat split. Qed.

(** ** C220: too few tolls *)
(** the last line is not complete: it is taken again, the file is accepted *)
Theorem C220_short_toll_file_refuted stof known num content h ls la xs y T : unterminated content (h :: ls) la -> Z.of_nat (length ls) < num ->
  Forall2 (says_toll stof) (ls ++ [la]) (xs ++ [y]) -> (forall x, In x (xs ++ [y]) -> known (fst x) = true) ->
  exists T', read_tolls (toll_row stof known) num (Some content) T = Ok T' /\ forall k, T' k = match last_of (xs ++ [y]) k with Some v => v | None => T k end.
Proof.
  intros Ut Hn F K. unfold read_tolls. assert (B : (num <=? 0) = false) by lia. rewrite B. rewrite (read_lines_unterm _ _ _ _ _ _ _ Ut) by lia.
  apply Forall2_app_inv_l in F as (xs1 & y1 & F1 & F2 & E). inversion F2 as [|? y2 ? ? S2 F3]; subst. inversion F3; subst. apply app_inj_tail in E as [<- <-].
  destruct (Z.to_nat num - length ls)%nat as [|j] eqn:Ej; [lia|].
  destruct (toll_fill (toll_row stof known) (says_toll stof) (fun v => v) (ls ++ repeat la (S j)) (xs ++ repeat y (S j))) with (T := T) as (T' & E2 & H).
  { apply Forall2_app; [exact F1|]. now apply F2_repeat. }
  { intros l x T0 I S0. apply toll_row_ok; [exact S0|]. apply K. apply in_app_or in I as [I|I]; apply in_or_app; [now left|right]. apply repeat_spec in I. now left. }
  exists T'. split; [exact E2|]. intros k. rewrite H, last_of_repeat. reflexivity.
Qed.
Print Assumptions C220_short_toll_file_refuted.
(** the last line is complete: an exception *)
Theorem C220_short_complete_file_reported stof known num content h ls xs T : terminated content (h :: ls) -> Z.of_nat (length ls) < num ->
  Forall2 (says_toll stof) ls xs -> (forall x, In x xs -> known (fst x) = true) -> read_tolls (toll_row stof known) num (Some content) T = Err EThrow.
Proof.
  intros Tm Hn F K. unfold read_tolls. assert (B : (num <=? 0) = false) by lia. rewrite B. rewrite (read_lines_term _ _ _ _ _ _ Tm) by lia.
  destruct (toll_fill (toll_row stof known) (says_toll stof) (fun v => v) ls xs F) with (T := T) as (T' & E & _).
  { intros l x T0 I S0. apply toll_row_ok; auto. }
  destruct (Z.to_nat num - length ls)%nat as [|j] eqn:Ej; [lia|]. cbn [repeat]. eapply foldM_fail; [exact E|]. intros a. apply toll_remark. left. constructor.
Qed.
Print Assumptions C220_short_complete_file_reported.
Example C220_case : (exists T, read_tolls (toll_row stod_int (fun _ => true)) 10 (Some (file "link toll~4 3~5 1")) (fun _ => 7%Q) = Ok T /\ T 4 = 3%Q /\ T 5 = 1%Q) /\
  read_tolls (toll_row stod_int (fun _ => true)) 10 (Some (file "link toll~4 3~5 1~")) (fun _ => 7%Q) = Err EThrow.
Proof. split; [|vm_compute; reflexivity]. eexists. split; [vm_compute; reflexivity|]. split; reflexivity. Qed.

(** ** C221: shares of labels.  Rows of another length are passed over without a word *)
Theorem C221_label_shares stof known nO labels content ls xs L : headed content ls -> 0 < labels -> (Z.to_nat nO <= length ls)%nat ->
  label_lines stof labels (firstn (Z.to_nat nO) ls) xs -> (forall x, In x xs -> known (fst x) = true) ->
  exists L', read_labels stof known nO labels (Some content) L = Ok L' /\ forall o, L' o = L o ++ numbers_for xs o.
Proof.
  intros Hd P Hn F K. unfold read_labels. assert (B : (labels <=? 0) = false) by lia. rewrite B. rewrite (read_lines_headed _ _ _ _ _ Hd) by lia. now apply label_fill.
Qed.
Print Assumptions C221_label_shares.
Theorem C221_bad_rows_reported_refuted stof known nO labels content ls L : headed content ls -> 0 < labels -> (Z.to_nat nO <= length ls)%nat ->
  (forall l, In l ls -> exists ws, words l ws /\ Z.of_nat (length ws) <> labels + 1) ->
  exists L', read_labels stof known nO labels (Some content) L = Ok L' /\ forall o, L' o = L o.
Proof.
  intros Hd P Hn Bad. assert (F : label_lines stof labels (firstn (Z.to_nat nO) ls) []).
  { clear Hn. assert (B : forall l, In l (firstn (Z.to_nat nO) ls) -> exists ws, words l ws /\ Z.of_nat (length ws) <> labels + 1).
    { intros l I. apply Bad. rewrite <- (firstn_skipn (Z.to_nat nO) ls). apply in_or_app. now left. }
    clear Bad. induction (firstn (Z.to_nat nO) ls) as [|l r IH]; [constructor|]. destruct (B l (or_introl eq_refl)) as (ws & W & N). econstructor; [exact W|exact N|]. apply IH. intros; apply B. now right. }
  destruct (C221_label_shares stof known nO labels content ls [] L Hd P Hn F) as (L' & E & H); [intros x []|]. exists L'. split; [exact E|]. intros o. rewrite H. cbn. apply app_nil_r.
Qed.
Print Assumptions C221_bad_rows_reported_refuted.
Example C221_case : exists L, read_labels stod_int (fun _ => true) 3 2 (Some (file "O a b~1 4 5~2 6~1 7 8~")) (fun _ => []) = Ok L /\ L 1 = [4; 5; 7; 8]%Q /\ L 2 = [].
Proof. eexists. split; [vm_compute; reflexivity|]. split; reflexivity. Qed.

(** ** C222: time-dependent attributes *)
Theorem C222_attributes_applied stod content ls xs ord N t : headed content ls -> Forall2 (says_td stod) ls xs -> (forall l, Permutation l (ord l)) ->
  (forall k x, last_pair xs t k = Some x -> exists l tl, N k = Some (l, tl) /\ forall a, metric a (fst x) -> exists l', mlink_modify l a = Ok l') ->
  exists F T N', (forall fuel, (F <= fuel)%nat -> build_td stod fuel (Some content) = Ok T) /\ update_link_attribute ord T N t = Ok N' /\
    forall k, match last_pair xs t k with
      | None => N' k = N k
      | Some (d, toll) => exists a l tl l', metric a d /\ N k = Some (l, tl) /\ mlink_modify l a = Ok l' /\
                            N' k = Some (l', {| tl_all := inject_Z toll; tl_car := inject_Z toll; tl_truck := inject_Z toll |})
      end.
Proof.
  intros Hd F P H. destruct (td_fill stod ls xs F (fun _ => [])) as (T & E & ND & K); [intros; constructor|].
  assert (NDo : NoDup (map fst (ord (T t)))) by (eapply Permutation_NoDup; [apply Permutation_map, P|apply ND]).
  assert (Io : forall k r, In (k, r) (ord (T t)) <-> exists x, last_pair xs t k = Some x /\ r = td_of x).
  { intros k r. split.
    - intros I. apply (Permutation_in _ (Permutation_sym (P (T t)))) in I. apply (lookup_In _ _ _ (ND t)) in I. rewrite K in I. destruct (last_pair xs t k) as [x|]; [|discriminate]. injection I as <-. eauto.
    - intros (x & Ex & ->). apply (Permutation_in _ (P (T t))). apply (lookup_In _ _ _ (ND t)). rewrite K, Ex. reflexivity. }
  destruct (td_apply_all (ord (T t)) NDo N) as (N' & E2 & K1 & K2).
  { intros k r I. apply Io in I as (x & Ex & ->). destruct (H k x Ex) as (l & tl & En & M). destruct (M (of_two (fst x)) (of_two_metric _)) as (l' & Em). eauto. }
  exists (S (length ls)), T, N'. split; [|split].
  - intros fuel Hf. unfold build_td. rewrite (all_lines_headed _ _ _ _ _ Hd) by lia. exact E.
  - exact E2.
  - intros k. destruct (last_pair xs t k) as [[d toll]|] eqn:Ex.
    + destruct (H k _ Ex) as (l & tl & En & M). destruct (M (of_two d) (of_two_metric _)) as (l' & Em). exists (of_two d), l, tl, l'. repeat split; auto; try apply of_two_metric.
      apply (K2 k (td_of (d, toll)) l tl l'); auto. apply Io. eauto.
    + apply K1. intros I. apply in_map_iff in I as ([k' r] & <- & I). apply Io in I as (x & Ex' & _). cbn [fst] in Ex. congruence.
Qed.
Print Assumptions C222_attributes_applied.
Definition td_ex_net : mnet_links := fun k => if k =? 7 then Some (mex_link MKPq, {| tl_all := 0; tl_car := 0; tl_truck := 0 |}) else None.
Example C222_case : exists T N', build_td stod_int 10 (Some (file "header~2 7 PQ 1 40 1 1 2 20 1 1 1 5~2 7 PQ 2 40 1 1 2 20 1 1 1 3~")) = Ok T /\
  update_link_attribute (fun l => l) T td_ex_net 2 = Ok N' /\ match N' 7 with Some (l, c) => (mp_len (ml_par l) == 3200)%Q /\ tl_car c = 3%Q | None => False end /\
  match update_link_attribute (fun l => l) T td_ex_net 1 with Ok N1 => N1 7 = td_ex_net 7 | Err _ => False end.
Proof. eexists _, _. split; [vm_compute; reflexivity|]. split; [reflexivity|]. split; [vm_compute; split; reflexivity|vm_compute; reflexivity]. Qed.

(** ** C223: their tolls *)
(** a row whose toll the file gives as 2.75 sets 2; cars and trucks pay the same *)
Theorem C223_toll_fraction_refuted : exists content l w12, headed content [l] /\ words l [txt "2"; txt "7"; txt "PQ"; txt "1"; txt "40"; txt "1"; txt "1"; txt "2"; txt "20"; txt "1"; txt "1"; txt "1"; w12] /\ w12 = txt "2.75" /\
  exists T N', build_td stod_int 10 (Some content) = Ok T /\ update_link_attribute (fun l => l) T td_ex_net 2 = Ok N' /\
    match N' 7 with Some (_, c) => tl_car c = 2%Q /\ tl_truck c = 2%Q | None => False end.
Proof.
  exists (file "header~2 7 PQ 1 40 1 1 2 20 1 1 1 2.75~"), (txt "2 7 PQ 1 40 1 1 2 20 1 1 1 2.75"), (txt "2.75"). split; [|split; [apply split_words; vm_compute; reflexivity|split; [reflexivity|]]].
  - exists (txt "header"). left. split; [vm_compute; reflexivity|]. assert (Nl : forall s, existsb (Ascii.eqb ch_newline) s = false -> ~ In ch_newline s).
    { intros s E I. assert (existsb (Ascii.eqb ch_newline) s = true) by (apply existsb_exists; exists ch_newline; split; [exact I|reflexivity]). congruence. }
    repeat constructor; apply Nl; reflexivity.
  - eexists _, _. split; [vm_compute; reflexivity|]. split; [reflexivity|]. vm_compute. split; reflexivity.
Qed.
Print Assumptions C223_toll_fraction_refuted.
(** a row for a link that does not exist is accepted and is undefined behaviour when its interval comes *)
Theorem C223_unknown_link_reported_refuted stod content ls xs ord N t k0 : headed content ls -> Forall2 (says_td stod) ls xs -> (forall l, Permutation l (ord l)) ->
  last_pair xs t k0 <> None -> N k0 = None ->
  (forall k x l tl, last_pair xs t k = Some x -> N k = Some (l, tl) -> forall a, metric a (fst x) -> exists l', mlink_modify l a = Ok l') ->
  exists F T, (forall fuel, (F <= fuel)%nat -> build_td stod fuel (Some content) = Ok T) /\ update_link_attribute ord T N t = Err EUB.
Proof.
  intros Hd F P Hx E0 H. destruct (td_fill stod ls xs F (fun _ => [])) as (T & E & ND & K); [intros; constructor|].
  assert (NDo : NoDup (map fst (ord (T t)))) by (eapply Permutation_NoDup; [apply Permutation_map, P|apply ND]).
  exists (S (length ls)), T. split.
  - intros fuel Hf. unfold build_td. rewrite (all_lines_headed _ _ _ _ _ Hd) by lia. exact E.
  - unfold update_link_attribute. apply (td_apply_missing _ NDo N k0).
    + destruct (last_pair xs t k0) as [x|] eqn:Ex; [|contradiction]. apply in_map_iff. exists (k0, td_of x). split; [reflexivity|]. apply (Permutation_in _ (P (T t))). apply (lookup_In _ _ _ (ND t)). rewrite K, Ex. reflexivity.
    + exact E0.
    + intros k r l tl I En. apply (Permutation_in _ (Permutation_sym (P (T t)))) in I. apply (lookup_In _ _ _ (ND t)) in I. rewrite K in I. destruct (last_pair xs t k) as [x|] eqn:Ex; [|discriminate]. injection I as <-.
      apply (H k x l tl Ex En). apply of_two_metric.
Qed.
Print Assumptions C223_unknown_link_reported_refuted.
Example C223_case : exists T, build_td stod_int 10 (Some (file "header~2 8 PQ 1 40 1 1 2 20 1 1 1 5~")) = Ok T /\ update_link_attribute (fun l => l) T td_ex_net 2 = Err EUB /\
  update_link_attribute (fun l => l) T td_ex_net 1 = Ok td_ex_net.
Proof. eexists. split; [vm_compute; reflexivity|]. split; vm_compute; reflexivity. Qed.

(** ** C224: the same file for one class.  It is read, the speed of the trucks is recorded as the toll, and
    the links stay as they are at every interval *)
Theorem C224_single_class_attributes_refuted stod content ls (xs : list (Z * Z * ((two_link * Z) * Z))) : headed content ls ->
  Forall2 (fun l y => says_td_ninth stod l (fst y, fst (snd y)) (snd (snd y))) ls xs ->
  exists F T, (forall fuel, (F <= fuel)%nat -> build_td1 stod fuel (Some content) = Ok T) /\
    (forall t k, match last_pair xs t k with
       | None => T t k = None
       | Some (_, v) => exists r, T t k = Some r /\ t1_toll r = inject_Z v
       end) /\
    forall (L : Type) (n : Z -> option L) t k, update_link_attribute1 T n t k = n k.
Proof.
  intros Hd F. destruct (td1_fill stod ls xs F (fun _ _ => None)) as (T & E & K). exists (S (length ls)), T. split; [|split].
  - intros fuel Hf. unfold build_td1. rewrite (all_lines_headed _ _ _ _ _ Hd) by lia. exact E.
  - intros t k. rewrite K. destruct (last_pair xs t k) as [[x v]|]; [eexists; split; reflexivity|reflexivity].
  - reflexivity.
Qed.
Print Assumptions C224_single_class_attributes_refuted.
Example C224_case : exists T, build_td1 stod_int 10 (Some (file "header~2 7 PQ 1 40 1 1 2 20 1 1 1 5~")) = Ok T /\
  match T 2 7 with Some r => t1_toll r = 20%Q | None => False end.
Proof. eexists. split; vm_compute; reflexivity. Qed.

(** ** C225: lists of numbers *)
Theorem C225_lists_read content h ls n : file_lines content (h :: ls) -> says_int h n -> (Z.to_nat n <= length ls)%nat ->
  (forall zs, Forall2 says_int (firstn (Z.to_nat n) ls) zs -> read_int (Some content) [] = Ok zs) /\
  (forall stof vs, Forall2 (says_floats stof) (firstn (Z.to_nat n) ls) vs -> read_float stof (Some content) [] = Ok vs) /\
  (forall stof xs, Forall2 (says_toll stof) (firstn (Z.to_nat n) ls) xs ->
     exists m, read_int_float stof (Some content) [] = Ok m /\ forall k, lookup m k = first_of xs k).
Proof.
  intros F H L. split; [|split].
  - intros zs Fz. unfold read_int. rewrite (read_list_ok _ _ _ _ _ _ F H L). apply (ints_ok _ _ Fz []).
  - intros stof vs Fv. unfold read_float. rewrite (read_list_ok _ _ _ _ _ _ F H L). apply (floats_ok _ _ _ Fv []).
  - intros stof xs Fx. unfold read_int_float. rewrite (read_list_ok _ _ _ _ _ _ F H L).
    match goal with |- context [foldM ?f [] _] => destruct (fill_ok f (fun l id v => says_toll stof l (id, v)) ltac:(intros m l id v S0; exact (int_float_row stof m l (id, v) S0)) (firstn (Z.to_nat n) ls) xs) with (m := @nil (Z * Q)) as (m & E & K) end.
    { clear -Fx. induction Fx as [|l [k v] l0 x0 S0 F0 IH]; constructor; auto. }
    exists m. split; [exact E|exact K].
Qed.
Print Assumptions C225_lists_read.
Example C225_case : read_int (Some (file " 2 ~4~ 5 ~6~")) [] = Ok [4; 5] /\ read_float stod_int (Some (file "2~4 5~6~")) [] = Ok [[4; 5]; [6]]%Q /\
  read_int_float stod_int (Some (file "3~4 5~6 7~4 8~")) [] = Ok [(4, 5%Q); (6, 7%Q)].
Proof. repeat split; vm_compute; reflexivity. Qed.

(** ** C226: lists that are too short *)
(** not complete: the last number again and again.  Complete: an exception, but for lists of real numbers
    empty rows *)
Theorem C226_short_list_reported_refuted content h ls la n : unterminated content (h :: ls) la -> says_int h n -> (length ls < Z.to_nat n)%nat ->
  (forall zs z, Forall2 says_int ls zs -> says_int la z -> read_int (Some content) [] = Ok (zs ++ repeat z (Z.to_nat n - length ls))) /\
  (forall stof vs v, Forall2 (says_floats stof) ls vs -> says_floats stof la v -> read_float stof (Some content) [] = Ok (vs ++ repeat v (Z.to_nat n - length ls))).
Proof.
  intros U H L. split.
  - intros zs z F S0. unfold read_int. rewrite (read_list_unterm _ _ _ _ _ _ _ U H L). apply (ints_ok _ (zs ++ repeat z (Z.to_nat n - length ls))). apply Forall2_app; [exact F|]. now apply F2_repeat.
  - intros stof vs v F S0. unfold read_float. rewrite (read_list_unterm _ _ _ _ _ _ _ U H L). apply (floats_ok stof _ (vs ++ repeat v (Z.to_nat n - length ls))). apply Forall2_app; [exact F|]. now apply F2_repeat.
Qed.
Print Assumptions C226_short_list_reported_refuted.
Theorem C226_short_complete_list content h ls n : terminated content (h :: ls) -> says_int h n -> (length ls < Z.to_nat n)%nat ->
  (forall zs, Forall2 says_int ls zs -> read_int (Some content) [] = Err EThrow) /\
  (forall stof vs, Forall2 (says_floats stof) ls vs -> read_float stof (Some content) [] = Ok (vs ++ repeat [] (Z.to_nat n - length ls))).
Proof.
  intros U H L. split.
  - intros zs F. unfold read_int. rewrite (read_list_term _ _ _ _ _ _ U H) by lia. destruct (Z.to_nat n - length ls)%nat as [|j] eqn:Ej; [lia|]. cbn [repeat]. eapply foldM_fail; [apply (ints_ok _ _ F)|]. reflexivity.
  - intros stof vs F. unfold read_float. rewrite (read_list_term _ _ _ _ _ _ U H) by lia. apply (floats_ok stof _ (vs ++ repeat [] (Z.to_nat n - length ls))). apply Forall2_app; [exact F|]. apply F2_repeat. exists []. split; constructor.
Qed.
Print Assumptions C226_short_complete_list.
Example C226_case : read_int (Some (file "4~1~2")) [] = Ok [1; 2; 2; 2] /\ read_int (Some (file "4~1~2~")) [] = Err EThrow /\
  read_float stod_int (Some (file "3~1~")) [] = Ok [[1]; []; []]%Q.
Proof. repeat split; vm_compute; reflexivity. Qed.
