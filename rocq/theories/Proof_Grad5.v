(** Curves built by increments are counting curves; assignment-ratio records. *)
From Verif Require Import Base Base_lemmas Model_Num Proof_Num Model_CC Spec_CC Proof_CC Proof_CC2 Proof_CC3 Spec_Grad Model_Grad Proof_Grad1 Proof_Grad2 Proof_Grad3.
Local Open Scope Q_scope.

(** amounts that are whole numbers of vehicles of size 1/f *)
Definition units (f : Q) (x : Q) : Prop := exists z : Z, (0 <= z)%Z /\ x == inject_Z z / f.
Lemma units_plus f x y : 0 < f -> units f x -> units f y -> units f (x + y).
Proof. intros F (a & A & E) (b & B & E'). exists (a + b)%Z. split; [lia|]. rewrite E, E', inject_Z_plus. field. lra. Qed.
Lemma units_nonneg f x : 0 < f -> units f x -> 0 <= x.
Proof. intros F (a & A & E). rewrite E. apply Qle_shift_div_l; [exact F|]. pose proof (injZ_nonneg a A). lra. Qed.

Lemma built_units f incs : 0 < f -> (forall r, In r incs -> units f (snd r)) -> forall c c', (forall r, In r c -> units f (snd r)) -> foldM add_increment c incs = Ok c' ->
  forall r, In r c' -> units f (snd r).
Proof.
  intros F. induction incs as [|a incs IH]; intros Hu c c' Hc E; [injection E as <-; exact Hc|]. cbn [foldM] in E. apply bind_ok in E as (c1 & E1 & E).
  apply (IH (fun r Hr => Hu r (or_intror Hr)) c1 c'); [|exact E]. pose proof (Hu a (or_introl eq_refl)) as Ha.
  apply add_increment_inv in E1. destruct E1 as [[-> ->]|(l0 & b & Ec & [[_ ->]|[_ [_ ->]]])]; intros r Hr.
  - destruct Hr as [<-|[]]. exact Ha.
  - apply in_app_or in Hr. destruct Hr as [Hr|[<-|[]]]; [apply Hc; rewrite Ec; apply in_or_app; auto|]. cbn [snd]. apply units_plus; auto. apply Hc. rewrite Ec. apply in_or_app. right. left. reflexivity.
  - apply in_app_or in Hr. destruct Hr as [Hr|[<-|[<-|[]]]]; [apply Hc; rewrite Ec; apply in_or_app; auto|apply Hc; rewrite Ec; apply in_or_app; right; left; reflexivity|].
    cbn [snd]. apply units_plus; auto. apply Hc. rewrite Ec. apply in_or_app. right. left. reflexivity.
Qed.
Lemma built_recorded incs : times_nondecreasing incs -> (forall r, In r incs -> whole_time (fst r)) -> (forall r, In r incs -> 0 <= snd r) ->
  exists c, foldM add_increment fresh_curve incs = Ok c /\ recorded_curve c /\ (forall r, In r c -> whole_time (fst r)) /\
    exists b, last_opt c = Some b /\ snd b == total_amount incs.
Proof.
  intros Hm Hw Hp. destruct (build_inv incs Hm) as (c & Ec & Hsorted & Hd & Hfrom & _ & _).
  { intros r Hr. split; [apply whole_nonneg; auto|]. apply whole_sep; [auto|apply whole_zero]. }
  { intros r r' Hr Hr'. apply whole_sep; auto. }
  destruct (curve_run _ _ _ fresh_sorted fresh_values Hp Ec) as (A & B & C).
  exists c. split; [exact Ec|]. split; [split; assumption|]. split.
  - intros r Hr. destruct (Hfrom r Hr) as [E|(r' & Hr' & E)]; [exists 0%Z; split; [lia|exact E]|]. destruct (Hw r' Hr') as (z & Hz & Ez). exists z. split; [exact Hz|]. rewrite E. exact Ez.
  - assert (R : recorded_curve c) by (split; assumption). destruct (rc_last c R) as (b & Hb & _). exists b. split; [exact Hb|].
    unfold last_value in C. rewrite Hb in C. cbn in C. rewrite C. ring.
Qed.
Lemma built_counting f incs : 0 < f -> times_nondecreasing incs -> (forall r, In r incs -> whole_time (fst r)) -> (forall r, In r incs -> units f (snd r)) ->
  total_amount incs * f < 10000 ->
  exists c, foldM add_increment fresh_curve incs = Ok c /\ counting_curve f c.
Proof.
  intros F Hm Hw Hu Ht. destruct (built_recorded incs Hm Hw) as (c & Ec & R & W & b & Hb & Eb).
  { intros r Hr. apply (units_nonneg f); auto. }
  exists c. split; [exact Ec|]. split; [exact R|exact F| |exact W].
  intros r Hr. assert (U0 : forall r, In r fresh_curve -> units f (snd r)).
  { intros r0 [<-|[]]. exists 0%Z. split; [lia|]. cbn [snd]. change (inject_Z 0) with 0. field. lra. }
  destruct (built_units f incs F Hu fresh_curve c U0 Ec r Hr) as (z & Hz & E).
  exists z. split; [|exact E]. split; [exact Hz|]. pose proof (rc_last_max c R b r Hb Hr) as [M _].
  assert (X : inject_Z z < inject_Z 10000).
  { change (inject_Z 10000) with 10000. apply Qle_lt_trans with (total_amount incs * f); [|exact Ht]. rewrite <- Eb. setoid_replace (inject_Z z) with (snd r * f) by (rewrite E; field; lra).
    apply Qmult_le_compat_r; lra. }
  exact (proj1 (injZ_lt _ _) X).
Qed.

(** inflow between two times *)
Lemma flow_between c a b : recorded_curve c -> a <= b -> exists x, link_flow_between (Some c) a b = Ok x /\ 0 <= x.
Proof.
  intros R L. unfold link_flow_between. destruct (get_result_total c R a) as (r & _ & E). destruct (get_result_total c R b) as (r' & _ & E'). rewrite E, E'. cbn [bind].
  eexists. split; [reflexivity|]. pose proof (get_result_mono c R a b _ _ L E E'). lra.
Qed.
Lemma flow_additive c a b d x y : link_flow_between (Some c) a b = Ok x -> link_flow_between (Some c) b d = Ok y -> exists z, link_flow_between (Some c) a d = Ok z /\ z == x + y.
Proof.
  unfold link_flow_between. intros E E'. apply bind_ok in E as (vb & B & E). apply bind_ok in E as (va & A & E). apply bind_ok in E' as (vd & D & E'). rewrite B in E'. cbn [bind] in E'.
  injection E as <-. injection E' as <-. rewrite D, A. cbn [bind]. eexists. split; [reflexivity|]. ring.
Qed.

(** assignment-ratio records *)
Definition reg (paths : Z -> bool) (x : (Z * Z) * curve) : bool := paths (fst (fst x)).
Lemma dar_fold paths l s e t : (forall x, In x t -> recorded_curve (snd x)) -> forall acc,
  exists new ds, foldM (dar_step paths l s e) acc t = Ok (acc ++ new) /\
    Forall2 (fun x d => link_flow_between (Some (snd x)) s e = Ok d) (filter (reg paths) t) ds /\
    (NoDup (map fst t) -> NoDup (map (fun r => (da_path r, da_int r)) new)) /\
    (forall r, In r new -> da_link r = l /\ da_start r = s /\ paths (da_path r) = true /\ dbl_eps < da_flow r /\
       exists c, In ((da_path r, da_int r), c) t /\ link_flow_between (Some c) s e = Ok (da_flow r)) /\
    ((forall d, In d ds -> d == 0 \/ dbl_eps < d) -> sumQ (map da_flow new) == sumQ ds) /\
    ((forall d, In d ds -> 0 <= d) -> sumQ (map da_flow new) <= sumQ ds <= sumQ (map da_flow new) + inject_Z (Z.of_nat (length ds)) * dbl_eps).
Proof.
  induction t as [|x t IH]; intros R acc.
  - exists [], []. rewrite app_nil_r. split; [reflexivity|]. split; [constructor|]. split; [intros _; constructor|]. split; [intros r []|]. split; [intros _; reflexivity|]. intros _. unfold sumQ. cbn [map length fold_right]. change (inject_Z (Z.of_nat 0)) with 0. lra.
  - cbn [foldM filter]. unfold dar_step at 1. unfold reg at 1. destruct (paths (fst (fst x))) eqn:P.
    2:{ cbn [bind]. destruct (IH (fun y Hy => R y (or_intror Hy)) acc) as (new & ds & A & B & C & D & E & F). exists new, ds. split; [exact A|]. split; [exact B|].
        split; [intros N; apply C; inversion N; assumption|]. split; [|split; [exact E|exact F]].
        intros r Hr. destruct (D r Hr) as (D1 & D2 & D3 & D4 & c & D5 & D6). repeat (split; [assumption|]). exists c. split; [right; exact D5|exact D6]. }
    destruct (get_result_total (snd x) (R x (or_introl eq_refl)) s) as (r1 & _ & E1). destruct (get_result_total (snd x) (R x (or_introl eq_refl)) e) as (r2 & _ & E2).
    rewrite E2, E1. cbn [bind]. set (d := snd r2 - snd r1).
    assert (EF : link_flow_between (Some (snd x)) s e = Ok d) by (unfold link_flow_between; rewrite E2, E1; reflexivity).
    destruct (Qltb_spec dbl_eps d) as [L|L]; cbn [bind].
    + destruct (IH (fun y Hy => R y (or_intror Hy)) (acc ++ [{| da_path := fst (fst x); da_int := snd (fst x); da_link := l; da_start := s; da_flow := d |}])) as (new & ds & A & B & C & D & E & F).
      eexists (_ :: new), (d :: ds). rewrite <- app_assoc in A. split; [exact A|]. split; [constructor; assumption|]. split; [|split; [|split]].
      * intros N. cbn [map da_path da_int]. inversion N as [|k ks N1 N2]; subst. constructor; [|apply C; exact N2].
        intros I. apply in_map_iff in I as (r & Er & Hr). destruct (D r Hr) as (_ & _ & _ & _ & c & D5 & _). apply N1. rewrite Er in D5. rewrite <- surjective_pairing in D5. apply (in_map fst) in D5. exact D5.
      * intros r [<-|Hr]; cbn [da_link da_start da_path da_int da_flow].
        -- repeat (split; [auto|]). exists (snd x). split; [left|exact EF]. destruct x as [[? ?] ?]. reflexivity.
        -- destruct (D r Hr) as (D1 & D2 & D3 & D4 & c & D5 & D6). repeat (split; [assumption|]). exists c. split; [right; exact D5|exact D6].
      * intros H. cbn [map da_flow]. unfold sumQ. cbn [fold_right]. fold (sumQ (map da_flow new)). fold (sumQ ds). rewrite E; [reflexivity|]. intros d' Hd'. apply H. right. exact Hd'.
      * intros H. cbn [map da_flow length]. unfold sumQ. cbn [fold_right]. fold (sumQ (map da_flow new)). fold (sumQ ds).
        specialize (F (fun d' Hd' => H d' (or_intror Hd'))). rewrite Nat2Z.inj_succ, <- Z.add_1_r, injZ_succ. unfold dbl_eps in *. lra.
    + destruct (IH (fun y Hy => R y (or_intror Hy)) acc) as (new & ds & A & B & C & D & E & F).
      exists new, (d :: ds). split; [exact A|]. split; [constructor; assumption|]. split; [intros N; apply C; inversion N; assumption|]. split; [|split].
      * intros r Hr. destruct (D r Hr) as (D1 & D2 & D3 & D4 & c & D5 & D6). repeat (split; [assumption|]). exists c. split; [right; exact D5|exact D6].
      * intros H. unfold sumQ. cbn [fold_right]. fold (sumQ (map da_flow new)). fold (sumQ ds). rewrite E; [|intros d' Hd'; apply H; right; exact Hd'].
        destruct (H d (or_introl eq_refl)) as [Z|Z]; [rewrite Z; ring|lra].
      * intros H. cbn [length]. pose proof (H d (or_introl eq_refl)) as Hd. specialize (F (fun d' Hd' => H d' (or_intror Hd'))). unfold sumQ. cbn [fold_right]. fold (sumQ (map da_flow new)). fold (sumQ ds).
        rewrite Nat2Z.inj_succ, <- Z.add_1_r, injZ_succ. lra.
Qed.

Lemma units_diff f x y : 0 < f -> f * dbl_eps < 1 -> units f x -> units f y -> x <= y -> y - x == 0 \/ dbl_eps < y - x.
Proof.
  intros F Fe (a & A & E) (b & B & E') L.
  assert (La : (a <= b)%Z). { apply injZ_le. apply Qmult_le_r with (/ f); [apply Qinv_lt_0_compat; exact F|]. unfold Qdiv in *. lra. }
  destruct (Z.eq_dec a b) as [->|N]; [left; lra|]. right.
  assert (I1 : inject_Z a + 1 <= inject_Z b). { rewrite <- injZ_succ. apply injZ_le. lia. }
  rewrite E', E. setoid_replace (inject_Z b / f - inject_Z a / f) with ((inject_Z b - inject_Z a) / f) by (field; lra).
  apply Qlt_shift_div_l; [exact F|]. rewrite Qmult_comm. lra.
Qed.
