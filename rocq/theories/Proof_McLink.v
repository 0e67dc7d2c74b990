(** Two-class links: order, conservation, totality. *)
From Verif Require Import Base Base_lemmas Model_Num Proof_Num Spec_Path Proof_Path Model_Link Spec_Link
  Proof_Link Proof_Link2 Proof_Link4 Model_McLink Spec_McLink.

(** ** classes *)
Lemma of_class_cars cls l : cars cls l = of_class cls false l.
Proof. unfold cars, of_class. apply filter_ext. intros v. destruct (cls v); reflexivity. Qed.
Lemma of_class_trucks cls l : trucks cls l = of_class cls true l.
Proof. unfold trucks, of_class. apply filter_ext. intros v. destruct (cls v); reflexivity. Qed.
Lemma of_class_app cls k a b : of_class cls k (a ++ b) = of_class cls k a ++ of_class cls k b.
Proof. apply filter_app. Qed.
Definition all_class (cls : Z -> bool) (k : bool) (l : list Z) : Prop := forall v, In v l -> cls v = k.
Lemma of_class_all cls k l : all_class cls k l -> of_class cls k l = l.
Proof.
  induction l as [|v l IH]; intros H; [reflexivity|]. cbn. rewrite (H v (or_introl eq_refl)), Bool.eqb_reflx.
  f_equal. apply IH. intros x Hx. apply H. right; auto.
Qed.
Lemma of_class_none cls k l : all_class cls k l -> of_class cls (negb k) l = [].
Proof.
  induction l as [|v l IH]; intros H; [reflexivity|]. cbn. rewrite (H v (or_introl eq_refl)).
  destruct k; cbn; apply IH; intros x Hx; apply H; right; auto.
Qed.
Lemma of_class_is cls k l : all_class cls k (of_class cls k l).
Proof. intros v Hv. apply filter_In in Hv as [_ E]. apply Bool.eqb_prop in E. exact E. Qed.
Lemma all_class_app cls k a b : all_class cls k (a ++ b) <-> all_class cls k a /\ all_class cls k b.
Proof.
  unfold all_class. split.
  - intros H. split; intros v Hv; apply H, in_or_app; auto.
  - intros [H1 H2] v Hv. apply in_app_or in Hv as [|]; auto.
Qed.
Lemma all_class_firstn cls k n l : all_class cls k l -> all_class cls k (firstn n l).
Proof. intros H v Hv. apply H. rewrite <- (firstn_skipn n). apply in_or_app; auto. Qed.
Lemma all_class_skipn cls k n l : all_class cls k l -> all_class cls k (skipn n l).
Proof. intros H v Hv. apply H. rewrite <- (firstn_skipn n). apply in_or_app; auto. Qed.
Lemma subseq_filter {A} (f : A -> bool) a b : subseq a b -> subseq (filter f a) (filter f b).
Proof. induction 1; cbn; [constructor|destruct (f x); [constructor|]; auto|destruct (f x); [constructor|]; auto]. Qed.
Lemma of_class_In cls k l v : In v (of_class cls k l) <-> In v l /\ cls v = k.
Proof. unfold of_class. rewrite filter_In. split; intros [A B]; split; auto; [apply Bool.eqb_prop; auto|subst; apply Bool.eqb_reflx]. Qed.

(** ** merging the two classes at the exit *)
Lemma mix_class cls p r : forall n k cs ts, all_class cls false cs -> all_class cls true ts ->
  (length cs + length ts <= n)%nat ->
  of_class cls false (mix p r k n cs ts) = cs /\ of_class cls true (mix p r k n cs ts) = ts.
Proof.
  induction n as [|n IH]; intros k cs ts Hc Ht L.
  - destruct cs, ts; cbn in L; try lia. split; reflexivity.
  - assert (Tc : forall c cs', cs = c :: cs' -> cls c = false /\ all_class cls false cs').
    { intros c cs' ->. split; [apply Hc; left; auto|intros v Hv; apply Hc; right; auto]. }
    assert (Tt : forall t ts', ts = t :: ts' -> cls t = true /\ all_class cls true ts').
    { intros c cs' ->. split; [apply Ht; left; auto|intros v Hv; apply Ht; right; auto]. }
    destruct cs as [|c cs]; destruct ts as [|t ts]; cbn [mix].
    + split; reflexivity.
    + destruct (Tt _ _ eq_refl) as [E1 E2]. destruct (IH (S k) [] ts Hc E2 ltac:(cbn in *; lia)) as [A B].
      cbn. rewrite E1. cbn. split; [exact A|f_equal; exact B].
    + destruct (Tc _ _ eq_refl) as [E1 E2]. destruct (IH (S k) cs [] E2 Ht ltac:(cbn in *; lia)) as [A B].
      cbn. rewrite E1. cbn. split; [f_equal; exact A|exact B].
    + destruct (Tc _ _ eq_refl) as [E1 E2]. destruct (Tt _ _ eq_refl) as [E3 E4].
      destruct (Qltb (r k) p).
      * destruct (IH (S k) cs (t :: ts) E2 Ht ltac:(cbn in *; lia)) as [A B].
        cbn [of_class filter] in *. rewrite E1. cbn [Bool.eqb]. split; [f_equal; exact A|exact B].
      * destruct (IH (S k) (c :: cs) ts Hc E4 ltac:(cbn in *; lia)) as [A B].
        cbn [of_class filter] in *. rewrite E3. cbn [Bool.eqb]. split; [exact A|f_equal; exact B].
Qed.
Lemma merge_class cls r cs ts : all_class cls false cs -> all_class cls true ts ->
  of_class cls false (merge_out r cs ts) = cs /\ of_class cls true (merge_out r cs ts) = ts.
Proof. intros Hc Ht. apply mix_class; auto. Qed.

(** ** CTM: one class of a two-class link is a single-class line of cells *)
Definition pc (k : bool) (c : mcell) : cell :=
  {| c_hold := 0; c_flow := 0; c_wr := None; c_vol := 0; c_q := if k then mc_qt c else mc_qc c |}.
Definition po (k : bool) (o : Z * Z) : Z := if k then snd o else fst o.
Fixpoint mshift (ec et : list Z) (cs : list mcell) (os : list (Z * Z)) : list mcell :=
  match cs, os with
  | c :: rest, o :: os' =>
      set_mq c (skipn (Z.to_nat (fst o)) (mc_qc c) ++ ec) (skipn (Z.to_nat (snd o)) (mc_qt c) ++ et)
      :: mshift (firstn (Z.to_nat (fst o)) (mc_qc c)) (firstn (Z.to_nat (snd o)) (mc_qt c)) rest os'
  | _, _ => []
  end.
Definition mlast (k : bool) (cs : list mcell) (os : list (Z * Z)) : list Z := last_out (map (pc k) cs) (map (po k) os).
Definition mfits (c : mcell) (o : Z * Z) : Prop := fst o <= Zlen (mc_qc c) /\ snd o <= Zlen (mc_qt c).

Lemma mshift_proj k : forall cs os ec et,
  map (pc k) (mshift ec et cs os) = shift (if k then et else ec) (map (pc k) cs) (map (po k) os).
Proof.
  induction cs as [|c cs IH]; intros [|o os] ec et; try reflexivity.
  cbn [mshift map shift]. rewrite IH. f_equal. 
  - unfold pc, set_q. cbn. destruct k; reflexivity.
  - destruct k; reflexivity.
Qed.
Lemma mlast_cons k c c' cs o os : mlast k (c :: c' :: cs) (o :: os) = mlast k (c' :: cs) os.
Proof. unfold mlast. cbn [map]. destruct (map (po k) os) as [|]; reflexivity. Qed.
Lemma set_mq_q c a b : mc_qc (set_mq c a b) = a /\ mc_qt (set_mq c a b) = b.
Proof. auto. Qed.

Lemma fits_le {A} (a : list A) o : o <= Zlen a -> (Z.to_nat o <= length a)%nat.
Proof. unfold Zlen. lia. Qed.

Lemma mmove_eq r hn : forall cs os ec et fin c, Forall2 mfits (c :: cs) os ->
  mmove r hn (set_mq c (mc_qc c ++ ec) (mc_qt c ++ et) :: cs) os fin =
  if forallb hn (mlast false (c :: cs) os ++ mlast true (c :: cs) os)
  then Ok (mshift ec et (c :: cs) os, fin ++ merge_out r (mlast false (c :: cs) os) (mlast true (c :: cs) os))
  else Err EThrow.
Proof.
  induction cs as [|c' cs IH]; intros os ec et fin c HF; inversion HF as [|? o ? os' [Ho1 Ho2] HF']; subst.
  - inversion HF'; subst. cbn [mmove]. rewrite (proj1 (set_mq_q _ _ _)), (proj2 (set_mq_q _ _ _)), !Zlen_app.
    replace (Zlen (mc_qc c) + Zlen ec <? fst o) with false by (symmetry; apply Z.ltb_ge; pose proof (Zlen_nonneg ec); lia).
    replace (Zlen (mc_qt c) + Zlen et <? snd o) with false by (symmetry; apply Z.ltb_ge; pose proof (Zlen_nonneg et); lia).
    cbn [orb]. pose proof (fits_le _ _ Ho1) as L1. pose proof (fits_le _ _ Ho2) as L2. cbv zeta.
    rewrite (firstn_app_le _ _ _ L1), (firstn_app_le _ _ _ L2), (skipn_app_le _ _ _ L1), (skipn_app_le _ _ _ L2).
    unfold mlast. cbn [map last_out pc po c_q].
    destruct (forallb hn (firstn (Z.to_nat (fst o)) (mc_qc c) ++ firstn (Z.to_nat (snd o)) (mc_qt c))); reflexivity.
  - inversion HF' as [|? o' ? os'' [Ho1' Ho2'] HF'']; subst.
    rewrite !mlast_cons.
    change (mmove r hn (set_mq c (mc_qc c ++ ec) (mc_qt c ++ et) :: c' :: cs) (o :: o' :: os'') fin)
      with (do m <- move_queue (mc_qc c ++ ec) (mc_qc c') (fst o);
            do m' <- move_queue (mc_qt c ++ et) (mc_qt c') (snd o);
            do x <- mmove r hn (set_mq c' (snd m) (snd m') :: cs) (o' :: os'') fin;
            Ok (set_mq (set_mq c (mc_qc c ++ ec) (mc_qt c ++ et)) (fst m) (fst m') :: fst x, snd x)).
    unfold move_queue. rewrite !Zlen_app.
    replace (Zlen (mc_qc c) + Zlen ec <? fst o) with false by (symmetry; apply Z.ltb_ge; pose proof (Zlen_nonneg ec); lia).
    replace (Zlen (mc_qt c) + Zlen et <? snd o) with false by (symmetry; apply Z.ltb_ge; pose proof (Zlen_nonneg et); lia).
    pose proof (fits_le _ _ Ho1) as L1. pose proof (fits_le _ _ Ho2) as L2.
    cbn [bind fst snd]. rewrite (firstn_app_le _ _ _ L1), (firstn_app_le _ _ _ L2), (skipn_app_le _ _ _ L1), (skipn_app_le _ _ _ L2).
    rewrite (IH (o' :: os'') (firstn (Z.to_nat (fst o)) (mc_qc c)) (firstn (Z.to_nat (snd o)) (mc_qt c)) fin c' HF').
    destruct (forallb hn (mlast false (c' :: cs) (o' :: os'') ++ mlast true (c' :: cs) (o' :: os''))); reflexivity.
Qed.
Lemma set_mq_id c : set_mq c (mc_qc c ++ []) (mc_qt c ++ []) = c.
Proof. destruct c; unfold set_mq; cbn. rewrite !app_nil_r. reflexivity. Qed.

Lemma mouts_cons2 f ut fs D i c c' cs : mouts f ut fs D i (c :: c' :: cs) =
  do x <- mflux f ut fs c c';
  do os <- mouts f ut fs D (S i) (c' :: cs);
  Ok ((Z.min (Zlen (mc_qc c)) (rround (md_car D i) (fst x)), Z.min (Zlen (mc_qt c)) (rround (md_truck D i) (snd x))) :: os).
Proof. reflexivity. Qed.
Lemma mouts_fits f ut fs D : forall cs i os, mouts f ut fs D i cs = Ok os -> Forall2 mfits cs os.
Proof.
  induction cs as [|c cs IH]; intros i os E.
  - cbn in E. apply Ok_inj in E as <-. constructor.
  - destruct cs as [|c' cs].
    + cbn in E. apply Ok_inj in E as <-. constructor; [split; cbn; lia|constructor].
    + rewrite mouts_cons2 in E. apply bind_ok in E as (x & _ & E). apply bind_ok in E as (os' & E' & E).
      apply Ok_inj in E as <-. constructor; [split; cbn [fst snd]; lia|]. eapply IH; eauto.
Qed.

(** explicit result of an update *)
Lemma mctm_evolve_eq p f cls hn D c cs fin os : mouts f (mp_ut p) (mp_fs p) D 0 (c :: cs) = Ok os ->
  mctm_evolve p f cls hn D (c :: cs) fin =
  let a := mlast false (c :: cs) os in let b := mlast true (c :: cs) os in
  if forallb hn (a ++ b)
  then let fin' := fin ++ merge_out (md_mix D) a b in Ok (mrecount f (mp_fs p) cls (mshift [] [] (c :: cs) os) fin', fin')
  else Err EThrow.
Proof.
  intros E. unfold mctm_evolve. rewrite E. cbn [bind]. rewrite <- (set_mq_id c) at 1.
  rewrite (mmove_eq (md_mix D) hn cs os [] [] fin c (mouts_fits _ _ _ _ _ _ _ E)). cbv zeta.
  destruct (forallb hn _); reflexivity.
Qed.

Definition mline (k : bool) (cs : list mcell) : list Z := concat (rev (map (fun c : mcell => if k then mc_qt c else mc_qc c) cs)).
Lemma mline_proj k cs : mline k cs = cline (map (pc k) cs).
Proof. unfold mline, cline. rewrite map_map. reflexivity. Qed.
Lemma mrecount_map f fs cls fin (k : bool) : forall cs,
  map (fun c : mcell => if k then mc_qt c else mc_qc c) (mrecount f fs cls cs fin) = map (fun c : mcell => if k then mc_qt c else mc_qc c) cs.
Proof.
  induction cs as [|c cs IH]; [reflexivity|]. destruct cs as [|c' cs]; [reflexivity|].
  change (mrecount f fs cls (c :: c' :: cs) fin) with (set_mvol f fs c (Zlen (mc_qc c)) (Zlen (mc_qt c)) :: mrecount f fs cls (c' :: cs) fin).
  cbn [map]. cbn [map] in IH. rewrite IH. reflexivity.
Qed.
Lemma mrecount_pc f fs cls fin k cs : map (pc k) (mrecount f fs cls cs fin) = map (pc k) cs.
Proof.
  pose proof (mrecount_map f fs cls fin k cs) as H. revert H. generalize (mrecount f fs cls cs fin). 
  induction cs as [|c cs IH]; intros [|d ds] H; try discriminate; [reflexivity|]. cbn [map] in *.
  injection H as H1 H2. rewrite (IH ds H2). f_equal. unfold pc. rewrite H1. reflexivity.
Qed.
Lemma mfits_proj k cs os : Forall2 mfits cs os -> Forall2 (fun c o => o <= Zlen (c_q c)) (map (pc k) cs) (map (po k) os).
Proof. induction 1 as [|c o cs os [H1 H2] _ IH]; constructor; auto. destruct k; auto. Qed.

Lemma mshift_line k cs os : Forall2 mfits cs os -> cs <> [] ->
  mlast k cs os ++ mline k (mshift [] [] cs os) = mline k cs.
Proof.
  intros HF Hne. unfold mlast. rewrite !mline_proj, mshift_proj.
  rewrite shift_line; [destruct k; apply app_nil_r|apply mfits_proj; auto|]. destruct cs; [contradiction|discriminate].
Qed.
Lemma mline_all cls k cs : all_class cls k (mline k cs) <-> (forall c, In c cs -> all_class cls k (if k then mc_qt c else mc_qc c)).
Proof.
  unfold mline, all_class. split.
  - intros H c Hc v Hv. apply H. apply in_concat. exists (if k then mc_qt c else mc_qc c). split; [|exact Hv].
    apply -> in_rev. apply in_map_iff. eauto.
  - intros H v Hv. apply in_concat in Hv as (q & Hq & Hv). apply in_rev in Hq. apply in_map_iff in Hq as (c & <- & Hc). eauto.
Qed.
Lemma mlast_class cls k cs os : Forall2 mfits cs os -> cs <> [] -> all_class cls k (mline k cs) ->
  all_class cls k (mlast k cs os) /\ all_class cls k (mline k (mshift [] [] cs os)).
Proof. intros HF Hne H. rewrite <- (mshift_line k cs os HF Hne) in H. apply all_class_app in H. exact H. Qed.

Lemma mctm_evolve_line p f cls hn D cs fin cs' fin' k : mctm_evolve p f cls hn D cs fin = Ok (cs', fin') ->
  (forall k, all_class cls k (mline k cs)) ->
  of_class cls k fin' ++ mline k cs' = of_class cls k fin ++ mline k cs /\ all_class cls k (mline k cs').
Proof.
  destruct cs as [|c cs]; [unfold mctm_evolve; cbn; discriminate|]. intros E Hcl.
  pose proof E as E0. unfold mctm_evolve in E0. apply bind_ok in E0 as (os & Eo & _). rewrite (mctm_evolve_eq _ _ _ _ _ _ _ _ _ Eo) in E.
  cbv zeta in E. destruct (forallb hn _); [|discriminate]. apply Ok_pair in E as [-> ->].
  pose proof (mouts_fits _ _ _ _ _ _ _ Eo) as HF.
  assert (ML : mline k (mrecount f (mp_fs p) cls (mshift [] [] (c :: cs) os) (fin ++ merge_out (md_mix D) (mlast false (c :: cs) os) (mlast true (c :: cs) os)))
             = mline k (mshift [] [] (c :: cs) os)) by (unfold mline; rewrite mrecount_map; reflexivity).
  rewrite ML, of_class_app, <- app_assoc.
  destruct (mlast_class cls false _ _ HF ltac:(discriminate) (Hcl false)) as [A1 B1].
  destruct (mlast_class cls true _ _ HF ltac:(discriminate) (Hcl true)) as [A2 B2].
  destruct (merge_class cls (md_mix D) _ _ A1 A2) as [M1 M2].
  split.
  - f_equal. destruct k; rewrite ?M1, ?M2; apply mshift_line; auto; discriminate.
  - destruct k; assumption.
Qed.

(** ** point queue *)
Lemma mpq_take_app : forall inc x, fst (mpq_take x inc) ++ snd (mpq_take x inc) = inc.
Proof. induction inc as [|v inc IH]; intros x; cbn; [reflexivity|]. destruct (Qltb 0 x); cbn; [f_equal; apply IH|reflexivity]. Qed.

(** ** invariant of the bodies *)
Definition mbody_inv (cls : Z -> bool) (b : mbody) : Prop :=
  match b with
  | MCtm _ cs => forall k, all_class cls k (mline k cs)
  | MLq _ qc qt _ _ _ => all_class cls false qc /\ all_class cls true qt
  | MPq _ pool _ _ => stamps_desc pool /\ (forall y, In y pool -> 0 <= snd y)
  end.

Lemma mctm_clear_line p f cls cs inc cs' k : mctm_clear p f cls cs inc = Ok cs' ->
  mline k cs' = mline k cs ++ of_class cls k inc /\ length cs' = length cs.
Proof.
  unfold mctm_clear. destruct cs as [|c cs]; [discriminate|]. intros E. apply Ok_inj in E as <-. split; [|reflexivity].
  rewrite !mline_proj. cbn [map]. rewrite !cline_cons, <- app_assoc. f_equal. unfold pc. cbn.
  rewrite of_class_cars, of_class_trucks. destruct k; reflexivity.
Qed.

Lemma mlink_clear_line cls l l' k : mlink_clear cls l = Ok l' -> mbody_inv cls (ml_body l) ->
  mbody_inv cls (ml_body l') /\ on_mlink cls k l' = on_mlink cls k l /\ ml_fin l' = ml_fin l /\ ml_par l' = ml_par l /\
  subseq (ml_in l') (ml_in l).
Proof.
  unfold mlink_clear, on_mlink. destruct l as [p inc fin [f cs|f qc qt vc vt sp|m pool vc vt] w wc wt s]; cbn [ml_body ml_par ml_in ml_fin]; intros E Hb.
  - apply bind_ok in E as (cs' & EC & E). apply Ok_inj in E as <-. cbn [with_body ml_body ml_in ml_fin ml_par].
    split; [|split; [|repeat split; constructor]].
    + intros k'. rewrite (proj1 (mctm_clear_line _ _ _ _ _ _ k' EC)). apply all_class_app. split; [apply Hb|apply of_class_is].
    + change (minside cls k (MCtm f cs')) with (mline k cs'). change (minside cls k (MCtm f cs)) with (mline k cs).
      rewrite (proj1 (mctm_clear_line _ _ _ _ _ _ k EC)). cbn [of_class filter]. rewrite app_nil_r. reflexivity.
  - apply Ok_inj in E as <-. cbn [with_body ml_body ml_in ml_fin ml_par mbody_inv minside]. destruct Hb as [H1 H2]. rewrite !of_class_cars, !of_class_trucks. split; [|split; [|repeat split; constructor]].
    + split; apply all_class_app; split; auto; apply of_class_is.
    + cbn [of_class filter]. rewrite app_nil_r. destruct k; reflexivity.
  - apply Ok_inj in E as <-. cbn [with_body ml_body ml_in ml_fin ml_par mbody_inv minside]. destruct Hb as [H1 H2].
    pose proof (mpq_take_app inc (mpq_supply p * mp_fs p)) as HT. set (r := mpq_take _ _) in *.
    split; [|split].
    + split; [apply stamps_app_zero; auto|]. intros y Hy. apply in_app_or in Hy as [Hy|Hy]; auto.
      apply in_map_iff in Hy as (? & <- & _). cbn. lia.
    + rewrite map_app, map_map, of_class_app. cbn [fst]. rewrite map_id, <- app_assoc, <- of_class_app, HT. reflexivity.
    + repeat split. rewrite <- HT. rewrite <- (app_nil_l (snd r)) at 1. apply subseq_app; [constructor|apply subseq_refl].
Qed.

Lemma mlq_evolve_line p f cls hn D qc qt fin x : mlq_evolve p f cls hn D qc qt fin = Ok x ->
  all_class cls false qc -> all_class cls true qt ->
  exists ac qc' at_ qt' , x = (qc', qt', Zlen qc + Zlen (cars cls fin), Zlen qt + Zlen (trucks cls fin),
      perceive f (mp_fs p) (mp_len p) (Zlen qc + Zlen (cars cls fin)) (Zlen qt + Zlen (trucks cls fin)),
      fin ++ merge_out (md_mix D) ac at_) /\
    qc = ac ++ qc' /\ qt = at_ ++ qt' /\ forallb hn (ac ++ at_) = true /\
    mlq_tomove p f D (perceive f (mp_fs p) (mp_len p) (Zlen qc + Zlen (cars cls fin)) (Zlen qt + Zlen (trucks cls fin))) qc qt fin
      = Ok (match mlq_tomove p f D (perceive f (mp_fs p) (mp_len p) (Zlen qc + Zlen (cars cls fin)) (Zlen qt + Zlen (trucks cls fin))) qc qt fin with Ok o => o | _ => (0, 0) end).
Proof.
  intros E Hc Ht. unfold mlq_evolve in E. cbv zeta in E.
  apply bind_ok in E as (o & Eo & E). rewrite Eo. apply bind_ok in E as (m & Em & E). apply bind_ok in E as (m' & Em' & E).
  apply bind_ok in E as (u & Eg & E). apply guard_ok in Eg. apply Ok_inj in E as <-.
  destruct m as [qc' ac]. destruct m' as [qt' at_]. exists ac, qc', at_, qt'. cbn [fst snd] in *.
  apply move_queue_line in Em. apply move_queue_line in Em'. auto.
Qed.

Lemma mlink_evolve_line cls hn D l l' k : mlink_evolve cls hn D l = Ok l' -> mbody_inv cls (ml_body l) ->
  mbody_inv cls (ml_body l') /\ on_mlink cls k l' = on_mlink cls k l /\ ml_in l' = ml_in l /\ ml_par l' = ml_par l.
Proof.
  unfold mlink_evolve, on_mlink. destruct l as [p inc fin [f cs|f qc qt vc vt sp|m pool vc vt] w wc wt s]; cbn [ml_body ml_par ml_in ml_fin]; intros E Hb.
  - apply bind_ok in E as ([cs' fin'] & EC & E). apply Ok_inj in E as <-. cbn [settle ml_body ml_in ml_fin ml_par fst snd].
    split; [|split; [|auto]].
    + intros k'. apply (mctm_evolve_line _ _ _ _ _ _ _ _ _ k' EC Hb).
    + change (minside cls k (MCtm f cs')) with (mline k cs'). change (minside cls k (MCtm f cs)) with (mline k cs).
      rewrite !app_assoc. f_equal. apply (mctm_evolve_line _ _ _ _ _ _ _ _ _ k EC Hb).
  - apply bind_ok in E as (x & EC & E). destruct Hb as [H1 H2].
    destruct (mlq_evolve_line _ _ _ _ _ _ _ _ _ EC H1 H2) as (ac & qc' & at_ & qt' & -> & -> & -> & _).
    apply Ok_inj in E as <-. cbn [settle ml_body ml_in ml_fin ml_par mbody_inv minside].
    apply all_class_app in H1 as [A1 B1]. apply all_class_app in H2 as [A2 B2].
    destruct (merge_class cls (md_mix D) _ _ A1 A2) as [M1 M2].
    split; [auto|]. split; [|auto]. rewrite of_class_app, <- !app_assoc. f_equal. destruct k; rewrite ?M1, ?M2, <- app_assoc; reflexivity.
  - apply Ok_inj in E as <-. cbn [settle ml_body ml_in ml_fin ml_par mbody_inv minside]. destruct Hb as [H1 H2]. split; [split; [apply pq_scan_desc; auto|]|split].
    + intros y Hy. apply pq_scan_In in Hy as (z & A & B & C). specialize (H2 _ A). cbn in *. lia.
    + rewrite <- (pq_scan_line m pool H1), !of_class_app, <- !app_assoc. reflexivity.
    + auto.
Qed.

Lemma minterval_line cls l arr l' : minterval cls l arr l' -> mbody_inv cls (ml_body l) ->
  mbody_inv cls (ml_body l') /\ ml_par l' = ml_par l /\
  exists rest, subseq rest (ml_fin l) /\ forall k,
    on_mlink cls k l' = of_class cls k rest ++ minside cls k (ml_body l) ++ of_class cls k (ml_in l ++ arr).
Proof.
  intros (rest & hn & D & l1 & Hs & _ & E1 & E2) Hb.
  destruct (mlink_clear_line _ _ _ true E1 Hb) as (B1 & _ & _ & P1 & _).
  destruct (mlink_evolve_line _ _ _ _ _ true E2 B1) as (B2 & _ & _ & P2).
  split; [exact B2|]. split; [rewrite P2, P1; reflexivity|]. exists rest. split; [exact Hs|]. intros k.
  destruct (mlink_clear_line _ _ _ k E1 Hb) as (_ & L1 & _).
  destruct (mlink_evolve_line _ _ _ _ _ k E2 B1) as (_ & L2 & _). rewrite L2, L1. reflexivity.
Qed.
Lemma minterval_subseq cls l arr l' k : minterval cls l arr l' -> mbody_inv cls (ml_body l) ->
  subseq (on_mlink cls k l') (on_mlink cls k l ++ of_class cls k arr).
Proof.
  intros H Hb. destruct (minterval_line _ _ _ _ H Hb) as (_ & _ & rest & Hs & E). rewrite E.
  unfold on_mlink. rewrite of_class_app, <- !app_assoc. apply subseq_app; [apply subseq_filter; exact Hs|apply subseq_refl].
Qed.
Lemma mhistory_prefix cls N s arr n : mhistory cls N s arr -> (n <= N)%nat -> mhistory cls n s arr.
Proof. intros H L i Hi. apply H. lia. Qed.
Lemma of_class_arrivals cls k n arr : of_class cls k (arrivals (S n) arr) = of_class cls k (arrivals n arr) ++ of_class cls k (arr n).
Proof. rewrite arrivals_S. apply of_class_app. Qed.

Lemma mhistory_inv cls N s arr : mhistory cls N s arr -> mbody_inv cls (ml_body (s 0%nat)) -> (forall k, on_mlink cls k (s 0%nat) = []) ->
  mbody_inv cls (ml_body (s N)) /\ ml_par (s N) = ml_par (s 0%nat) /\
  forall k, subseq (on_mlink cls k (s N)) (of_class cls k (arrivals N arr)).
Proof.
  induction N as [|N IH]; intros H Hb He.
  - repeat split; auto. intros k. rewrite He. constructor.
  - destruct IH as (A & B & C); auto. { eapply mhistory_prefix; eauto. }
    assert (HI : minterval cls (s N) (arr N) (s (S N))) by (apply H; lia).
    destruct (minterval_line _ _ _ _ HI A) as (D & F & _). split; [exact D|]. split; [rewrite F, B; reflexivity|]. intros k.
    rewrite of_class_arrivals. eapply subseq_trans; [apply (minterval_subseq _ _ _ _ k HI A)|].
    apply subseq_app; [apply C|apply subseq_refl].
Qed.

Lemma mline_new k lens : mline k (map new_mcell lens) = [].
Proof.
  unfold mline. induction lens as [|x lens IH]; [reflexivity|]. cbn [map rev]. rewrite concat_app, IH. destruct k; reflexivity.
Qed.
Lemma make_mctm_inv p l : make_mctm p = Ok l -> exists p' lens,
  mctm_adjust p = Ok p' /\ l = mnew p' (MCtm (mctm_fd p') (map new_mcell lens)) /\
  lens = repeat (mp_ffs_c p' * mp_ut p')%Q (Z.to_nat (mctm_ncells p' - 1)) ++ (if Qltb 0 (mp_len p') then [mctm_last p'] else []) /\
  mbase_checks p = Ok tt /\ (1 <= mp_pcu p)%Q /\ (1 <= mp_fs p)%Q /\ (0 < mp_ut p)%Q.
Proof.
  unfold make_mctm. intros E. apply bind_ok in E as ([] & E1 & E). apply bind_ok in E as (? & E2 & E). apply bind_ok in E as (? & E3 & E).
  apply bind_ok in E as (? & E4 & E). apply bind_ok in E as (p' & E5 & E). apply Ok_inj in E as <-.
  apply guard_ok in E2. apply guard_ok in E3. apply guard_ok in E4. apply negb_true_iff in E2. apply negb_true_iff in E3. apply negb_true_iff in E4.
  exists p', (repeat (mp_ffs_c p' * mp_ut p')%Q (Z.to_nat (mctm_ncells p' - 1)) ++ (if Qltb 0 (mp_len p') then [mctm_last p'] else [])).
  split; [exact E5|]. split; [|split; [reflexivity|split; [exact E1|]]].
  - rewrite map_app. f_equal. f_equal. f_equal. 
    + clear. induction (Z.to_nat (mctm_ncells p' - 1)); cbn; f_equal; auto.
    + destruct (Qltb 0 (mp_len p')); reflexivity.
  - split; [destruct (Qltb_spec (mp_pcu p) 1); [discriminate|auto with qarith]|].
    split; [destruct (Qltb_spec (mp_fs p) 1); [discriminate|auto with qarith]|].
    destruct (Qleb_spec (mp_ut p) 0); [discriminate|auto with qarith].
Qed.
Lemma fresh_mempty p l : fresh_mlink p l -> forall cls, mbody_inv cls (ml_body l) /\ (forall k, on_mlink cls k l = []) /\
  ml_in l = [] /\ ml_fin l = [].
Proof.
  unfold fresh_mlink. intros E cls. destruct (mp_kind p).
  - destruct (make_mctm_inv _ _ E) as (p' & lens & _ & -> & _). unfold on_mlink. cbn [mnew ml_body ml_in ml_fin mbody_inv].
    assert (H : forall k, minside cls k (MCtm (mctm_fd p') (map new_mcell lens)) = []) by (intros k; apply (mline_new k)).
    split; [intros k v Hv; rewrite mline_new in Hv; destruct Hv|]. split; [|auto]. intros k. rewrite H. reflexivity.
  - unfold make_mlq in E. apply bind_ok in E as (? & _ & E). apply bind_ok in E as (f & _ & E). apply Ok_inj in E as <-. cbn.
    split; [split; intros v []|]. split; [intros []; reflexivity|auto].
  - unfold make_mpq in E. apply bind_ok in E as (? & _ & E). apply bind_ok in E as (? & _ & E). apply bind_ok in E as (m & _ & E). apply Ok_inj in E as <-. cbn.
    split; [split; [intros i j a b _ Ea; destruct i; discriminate|intros y []]|]. split; [reflexivity|auto].
Qed.
