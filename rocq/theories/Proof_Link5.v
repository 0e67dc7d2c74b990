(** CTM free flow, order, volumes, LQ density, density-based travel time. *)
From Verif Require Import Base Base_lemmas Model_Num Proof_Num Spec_Path Proof_Path Model_Link Spec_Link Proof_Link Proof_Link2 Proof_Link3 Proof_Link4.
Local Open Scope Q_scope.

(** ** volumes of all but the last cell are queue lengths *)
Fixpoint volx (cs : list cell) : Prop :=
  match cs with
  | [] => True
  | [c] => True
  | c :: rest => c_vol c = Zlen (c_q c) /\ volx rest
  end.
Lemma recount_volx f : forall cs, volx (recount cs f).
Proof.
  induction cs as [|c cs IH]; [exact I|]. destruct cs as [|c' cs]; [exact I|].
  change (recount (c :: c' :: cs) f) with (set_vol c (Zlen (c_q c)) :: recount (c' :: cs) f).
  destruct (recount (c' :: cs) f) as [|d ds] eqn:E; [exact I|].
  change (c_vol (set_vol c (Zlen (c_q c))) = Zlen (c_q c) /\ volx (d :: ds)). split; [reflexivity|exact IH].
Qed.

(** free movement: every cell can send all it holds *)
Fixpoint freem (fs : Q) (cs : list cell) : Prop :=
  match cs with
  | [] => True
  | c :: rest =>
      match rest with
      | [] => True
      | c' :: _ => inject_Z (Zlen (c_q c)) <= c_flow c * fs /\ inject_Z (Zlen (c_q c)) <= cell_supply fs c' * fs
      end /\ freem fs rest
  end.
Lemma free_outs fs r : 0 < fs -> draws_ok r -> forall cs i, volx cs -> freem fs cs -> out_vehs fs r i cs = map (fun c => Zlen (c_q c)) cs.
Proof.
  intros Hf Hr. induction cs as [|c cs IH]; intros i V F; [reflexivity|]. destruct cs as [|c' cs]; [reflexivity|].
  rewrite out_vehs_cons2. destruct V as [V1 V2]. destruct F as [[F1 F2] F3].
  change (map (fun c0 => Zlen (c_q c0)) (c :: c' :: cs)) with (Zlen (c_q c) :: map (fun c0 => Zlen (c_q c0)) (c' :: cs)).
  f_equal; [|apply IH; auto].
  assert (E : Qmin (cell_demand fs c) (cell_supply fs c') * fs == inject_Z (Zlen (c_q c))).
  { unfold cell_demand. rewrite V1. set (z := inject_Z (Zlen (c_q c))) in *.
    assert (A : z / fs * fs == z) by (field; lra).
    assert (B1 : z / fs <= c_flow c) by (apply Qle_shift_div_r; auto).
    assert (B2 : z / fs <= cell_supply fs c') by (apply Qle_shift_div_r; auto).
    rewrite (Q.min_l _ _ B1), (Q.min_l _ _ B2). exact A. }
  rewrite (rround_comp _ _ _ E). rewrite rround_int by apply Hr. lia.
Qed.
Lemma free_shift : forall cs extra, forall j c, nth_error cs j = Some c ->
  exists d, nth_error (shift extra cs (map (fun c => Zlen (c_q c)) cs)) j = Some d /\
    c_q d = match j with O => extra | S i => match nth_error cs i with Some e => c_q e | None => [] end end.
Proof.
  induction cs as [|c0 cs IH]; intros extra j c E; [destruct j; discriminate|].
  simpl. rewrite to_nat_Zlen, skipn_all, firstn_all. destruct j as [|j].
  - eexists. split; [reflexivity|]. reflexivity.
  - destruct (IH (c_q c0) j c E) as (d & Ed & Eq). exists d. split; [exact Ed|]. rewrite Eq. destruct j; reflexivity.
Qed.
Lemma free_last : forall cs c, nth_error cs (length cs - 1) = Some c -> last_out cs (map (fun c => Zlen (c_q c)) cs) = c_q c.
Proof.
  induction cs as [|c0 cs IH]; intros c E; [discriminate|]. destruct cs as [|c1 cs].
  - injection E as <-. simpl. rewrite to_nat_Zlen. apply firstn_all.
  - change (last_out (c0 :: c1 :: cs) (map (fun c => Zlen (c_q c)) (c0 :: c1 :: cs))) with
      (last_out (c1 :: cs) (map (fun c => Zlen (c_q c)) (c1 :: cs))). apply IH.
    simpl in *. rewrite Nat.sub_0_r in *. exact E.
Qed.

Definition in_pos (v : Z) (l : link) (j : nat) : Prop :=
  exists cs, l_body l = BCtm cs /\
    match nth_error cs j with Some c => In v (c_q c) | None => j = length cs /\ In v (l_fin l) end.

Lemma freem_of fs c tl inc : volx (c :: tl) ->
  (forall j d d', nth_error (c :: tl) j = Some d -> nth_error (c :: tl) (S j) = Some d' ->
    let n := Zlen (c_q d ++ match j with O => inc | _ => [] end) in
    inject_Z n <= c_flow d * fs /\ inject_Z n <= cell_supply fs d' * fs) ->
  let c1 := set_vol (set_q c (c_q c ++ inc)) (Zlen (c_q c ++ inc)) in
  volx (c1 :: tl) /\ freem fs (c1 :: tl).
Proof.
  intros V U. cbv zeta. split.
  - destruct tl as [|d tl]; [exact I|]. destruct V as [_ V]. split; [reflexivity|exact V].
  - assert (G : forall cs, (forall j d d', nth_error cs j = Some d -> nth_error cs (S j) = Some d' ->
       inject_Z (Zlen (c_q d)) <= c_flow d * fs /\ inject_Z (Zlen (c_q d)) <= cell_supply fs d' * fs) -> freem fs cs).
    { clear. induction cs as [|a cs IH]; intros H; [exact I|]. split.
      - destruct cs as [|b cs]; [exact I|]. apply (H 0%nat a b); reflexivity.
      - apply IH. intros j d d' E E'. apply (H (S j) d d'); assumption. }
    apply G. intros [|j] d d' E E'; simpl in E.
    + injection E as <-. specialize (U 0%nat c d' eq_refl E'). exact U.
    + specialize (U (S j) d d' E E'). cbv zeta in U. rewrite app_nil_r in U. exact U.
Qed.

(** one uncongested interval moves everything one cell ahead *)
Lemma free_interval l arr l' cs : interval l arr l' -> l_body l = BCtm cs -> volx cs -> 0 < p_fs (l_par l) -> uncongested l arr ->
  (exists cs', l_body l' = BCtm cs' /\ volx cs' /\ length cs' = length cs) /\
  (forall v j, (j < length cs)%nat -> (match nth_error cs j with Some c => In v (c_q c) | None => False end \/ (j = 0%nat /\ In v (l_in l ++ arr))) ->
     in_pos v l' (S j)).
Proof.
  intros H Hb V Hf U.
  destruct (ctm_interval _ _ _ _ H Hb) as (rest & c & tl & fin' & Hs & -> & Hin & Hfin & Hns & r & hn & cs' & Hr & Hb' & E).
  cbv zeta in E. rewrite ctm_evolve_eq in E. cbv zeta in E. destruct (forallb hn _); [|discriminate].
  apply Ok_pair in E as [-> ->].
  destruct (freem_of (p_fs (l_par l)) c tl (l_in l ++ arr) V) as [V1 F1]. { intros j d d' E E'. apply (U _ j d d' Hb E E'). }
  set (c1 := set_vol (set_q c (c_q c ++ l_in l ++ arr)) (Zlen (c_q c ++ l_in l ++ arr))) in *.
  rewrite (free_outs _ _ Hf Hr _ _ V1 F1) in *.
  assert (LL : length (recount (shift [] (c1 :: tl) (map (fun c0 => Zlen (c_q c0)) (c1 :: tl)))
        (rest ++ last_out (c1 :: tl) (map (fun c0 => Zlen (c_q c0)) (c1 :: tl)))) = length (c :: tl)).
  { rewrite recount_length, shift_length by apply map_length. reflexivity. }
  split.
  - eexists. split; [exact Hb'|]. split; [apply recount_volx|exact LL].
  - intros v j Lj Hv. eexists. split; [exact Hb'|].
    assert (Hv1 : exists d, nth_error (c1 :: tl) j = Some d /\ In v (c_q d)).
    { destruct j as [|j].
      - exists c1. split; [reflexivity|]. simpl. apply in_or_app. destruct Hv as [Hv|[_ Hv]]; auto.
      - destruct Hv as [Hv|[Hv _]]; [|discriminate]. simpl in Hv |- *. destruct (nth_error tl j) as [d|]; [eauto|contradiction]. }
    destruct Hv1 as (d & Ed & Hd).
    destruct (nth_error (recount _ _) (S j)) as [e|] eqn:Ee.
    + assert (Le : (S j < length (c1 :: tl))%nat). { change (length (c1 :: tl)) with (length (c :: tl)). rewrite <- LL. apply nth_error_Some. congruence. }
      apply recount_nth in Ee as (e0 & Ee & Eq). rewrite Eq.
      destruct (nth_error (c1 :: tl) (S j)) as [g|] eqn:Eg; [|apply nth_error_None in Eg; lia].
      destruct (free_shift (c1 :: tl) [] (S j) g Eg) as (e1 & E1 & E1q). rewrite E1 in Ee. injection Ee as <-.
      rewrite E1q, Ed. exact Hd.
    + apply nth_error_None in Ee. rewrite LL in Ee |- *. simpl in Ee, Lj |- *.
      split; [lia|]. rewrite Hfin. apply in_or_app. right.
      rewrite (free_last (c1 :: tl) d); [exact Hd|]. replace (length (c1 :: tl) - 1)%nat with j by (simpl; lia). exact Ed.
Qed.

Lemma free_travel N s arr t v : history N s arr -> 0 < p_fs (l_par (s 0%nat)) -> (forall i, (i <= N)%nat -> p_fs (l_par (s i)) = p_fs (l_par (s 0%nat))) ->
  (exists cs, l_body (s t) = BCtm cs /\ volx cs) -> In v (arr t) ->
  forall k n, ncell (s t) = n -> (k < n)%nat -> (t + k < N)%nat -> (forall i, (t <= i <= t + k)%nat -> uncongested (s i) (arr i)) ->
  (exists cs, l_body (s (t + S k)%nat) = BCtm cs /\ volx cs /\ length cs = n) /\ in_pos v (s (t + S k)%nat) (S k).
Proof.
  intros H Hf Hp Hc Hv. induction k as [|k IH]; intros n Hn Hk HN U.
  - destruct Hc as (cs & Hb & V). unfold ncell in Hn. rewrite Hb in Hn.
    destruct (free_interval (s t) (arr t) (s (S t)) cs) as [(cs' & B' & V' & L') A];
      [apply H; lia|assumption|assumption|rewrite Hp; [exact Hf|lia]|apply U; lia|].
    replace (t + 1)%nat with (S t) by lia. split.
    + exists cs'. repeat split; auto. lia.
    + apply A; [lia|]. right. split; [reflexivity|]. apply in_or_app; auto.
  - destruct (IH n Hn ltac:(lia) ltac:(lia)) as [(cs & Hb & V & L) Hpos]. { intros i Hi. apply U. lia. }
    replace (t + S (S k))%nat with (S (t + S k)) by lia.
    destruct (free_interval (s (t + S k)%nat) (arr (t + S k)%nat) (s (S (t + S k))) cs) as [(cs' & B' & V' & L') A];
      [apply H; lia|assumption|assumption|rewrite Hp; [exact Hf|lia]|apply U; lia|].
    split.
    + exists cs'. repeat split; auto. lia.
    + apply A; [lia|]. left. destruct Hpos as (cs0 & Hb0 & P). rewrite Hb in Hb0. injection Hb0 as <-.
      destruct (nth_error cs (S k)) as [c|] eqn:Ec; [exact P|]. apply nth_error_None in Ec. lia.
Qed.

Lemma volx_history N s arr : history N s arr -> (exists cs, l_body (s 0%nat) = BCtm cs /\ volx cs) ->
  forall t, (t <= N)%nat -> exists cs, l_body (s t) = BCtm cs /\ volx cs.
Proof.
  intros H H0. induction t as [|t IH]; intros L; [exact H0|].
  destruct IH as (cs & Hb & V); [lia|].
  assert (HI : interval (s t) (arr t) (s (S t))) by (apply H; lia).
  destruct (ctm_interval _ _ _ _ HI Hb) as (rest & c & tl & fin' & Hs & -> & Hin & Hfin & Hns & r & hn & cs' & Hr & Hb' & E).
  cbv zeta in E. rewrite ctm_evolve_eq in E. cbv zeta in E. destruct (forallb hn _); [|discriminate].
  apply Ok_pair in E as [-> ->]. eexists. split; [exact Hb'|apply recount_volx].
Qed.

(** ** precedence *)
Lemma subseq_precedes u v l l' : subseq l l' -> precedes u v l -> precedes u v l'.
Proof.
  intros S (a & b & c & ->). revert a S. induction l' as [|x l' IH]; intros a S.
  - inversion S. destruct a; discriminate.
  - inversion S as [|y m m' S' E1|y m m' S' E1]; subst.
    + destruct a; discriminate.
    + destruct a as [|z a]; simpl in E1; injection E1 as -> Em; subst.
      * assert (P : exists b' c', l' = b' ++ v :: c').
        { apply in_split. eapply subseq_In; [exact S'|]. apply in_or_app. right. left. reflexivity. }
        destruct P as (b' & c' & ->). exists [], b', c'. reflexivity.
      * destruct (IH a S') as (a' & b' & c' & ->). exists (z :: a'), b', c'. reflexivity.
    + destruct (IH a S') as (a' & b' & c' & ->). exists (x :: a'), b', c'. reflexivity.
Qed.
Lemma precedes_asym u v l : NoDup l -> precedes u v l -> precedes v u l -> False.
Proof.
  induction l as [|x l IH]; intros ND (a & b & c & E) (a' & b' & c' & E'); [destruct a; discriminate|].
  inversion ND; subst. destruct a as [|y a]; simpl in E; injection E as -> E.
  - destruct a' as [|y' a']; simpl in E'; injection E' as -> E'.
    + apply H1. rewrite E. apply in_or_app. right. left. reflexivity.
    + apply H1. rewrite E'. apply in_or_app. right. right. apply in_or_app. right. left. reflexivity.
  - destruct a' as [|y' a']; simpl in E'; injection E' as -> E'.
    + apply H1. rewrite E. apply in_or_app. right. right. apply in_or_app. right. left. reflexivity.
    + apply IH; auto; [exists a, b, c|exists a', b', c']; auto.
Qed.
Lemma app_precedes u v l l' : In u l -> In v l' -> precedes u v (l ++ l').
Proof.
  intros Hu Hv. apply in_split in Hu as (a & b & ->). apply in_split in Hv as (a' & b' & ->).
  exists a, (b ++ a'), b'. rewrite <- !app_assoc. simpl. rewrite <- ?app_assoc. reflexivity.
Qed.

(** a fresh link is empty *)
Lemma fresh_empty p l : fresh_link p l -> body_inv (l_body l) /\ on_link l = [] /\ p_kind (l_par l) = p_kind p.
Proof.
  unfold fresh_link. destruct (p_kind p) eqn:K; intros H.
  - apply make_ctm_inv in H. cbv zeta in H. destruct H as (_ & _ & _ & _ & _ & _ & _ & _ & ->).
    split; [exact I|]. split; [|reflexivity]. unfold on_link. cbn [l_fin l_in l_body inside]. rewrite app_nil_r. simpl.
    assert (G : forall cs, (forall c, In c cs -> c_q c = []) -> concat (rev (map c_q cs)) = []).
    { induction cs as [|c cs IH]; intros G; [reflexivity|]. simpl. rewrite concat_app. rewrite IH by (intros; apply G; right; auto).
      simpl. rewrite (G c); [reflexivity|left; reflexivity]. }
    apply G. intros c Hc. apply in_app_or in Hc as [Hc|Hc]; [apply repeat_spec in Hc; subst; reflexivity|].
    destruct (Qltb 0 _); [destruct Hc as [<-|[]]; reflexivity|destruct Hc].
  - unfold make_pq in H. apply bind_ok in H as (? & _ & H). cbv zeta in H. apply bind_ok in H as (? & _ & H).
    apply bind_ok in H as (m & _ & H). apply Ok_inj in H as <-. split; [|split; reflexivity].
    simpl. split; [|intros y []]. intros i j a b _ Ea. destruct i; discriminate.
  - unfold make_lq in H. apply bind_ok in H as (? & _ & H). cbv zeta in H. apply bind_ok in H as (? & _ & H).
    apply Ok_inj in H as <-. split; [exact I|split; reflexivity].
Qed.

(** ** volumes *)
Definition vol_inv (l : link) : Prop :=
  match l_body l with
  | BCtm cs => sumZ (map c_vol cs) = (Zlen (inside (l_body l)) + Zlen (l_fin l))%Z /\ l_in l = [] /\ cs <> []
  | BPq _ q vol => vol = (Zlen q + Zlen (l_fin l))%Z
  | BLq q vol => vol = (Zlen q + Zlen (l_fin l))%Z /\ l_in l = []
  end.
Lemma recount_sum f : forall cs, cs <> [] -> sumZ (map c_vol (recount cs f)) = (Zlen (concat (rev (map c_q cs))) + Zlen f)%Z.
Proof.
  induction cs as [|c cs IH]; intros Hn; [contradiction|]. destruct cs as [|c' cs].
  - simpl. rewrite app_nil_r. lia.
  - change (recount (c :: c' :: cs) f) with (set_vol c (Zlen (c_q c)) :: recount (c' :: cs) f).
    change (sumZ (map c_vol (set_vol c (Zlen (c_q c)) :: recount (c' :: cs) f))) with
      (Zlen (c_q c) + sumZ (map c_vol (recount (c' :: cs) f)))%Z. rewrite IH by discriminate.
    change (concat (rev (map c_q (c :: c' :: cs)))) with (cline (c :: c' :: cs)). rewrite cline_cons, Zlen_app. unfold cline. lia.
Qed.
Lemma recount_q f : forall cs, map c_q (recount cs f) = map c_q cs.
Proof.
  induction cs as [|c cs IH]; [reflexivity|]. destruct cs as [|c' cs]; [reflexivity|].
  change (recount (c :: c' :: cs) f) with (set_vol c (Zlen (c_q c)) :: recount (c' :: cs) f).
  rewrite !map_cons, IH. reflexivity.
Qed.
Lemma pq_scan_len m : forall q, (Zlen (fst (pq_scan m q)) + Zlen (snd (pq_scan m q)) = Zlen q)%Z.
Proof.
  unfold Zlen. induction q as [|[v s] q IH]; [reflexivity|]. cbn [pq_scan]. cbv zeta.
  destruct (Z.max 0 (m - 1) <=? s)%Z; cbn [fst snd length]; lia.
Qed.

Lemma Zlen_map {A B} (f : A -> B) l : Zlen (map f l) = Zlen l.
Proof. unfold Zlen. rewrite map_length. reflexivity. Qed.

Lemma lq_interval l arr l' q vol : interval l arr l' -> l_body l = BLq q vol ->
  exists rest r q', subseq rest (l_fin l) /\ draws_ok r /\
    ~ (trunc (lq_supply (l_par l) vol * p_fs (l_par l)) < Zlen (l_in l ++ arr))%Z /\
    lq_evolve (l_par l) (r 0%nat) (q ++ l_in l ++ arr) (Zlen rest + Zlen (q ++ l_in l ++ arr)) rest = Ok (q', l_fin l') /\
    l_body l' = BLq q' (Zlen rest + Zlen (q ++ l_in l ++ arr))%Z /\ l_in l' = [] /\ l_par l' = l_par l.
Proof.
  intros (rest & r & hn & l1 & Hs & Hr & E1 & E2) Hb.
  unfold link_clear, offered in E1. simpl in E1. rewrite Hb in E1. unfold lq_clear in E1.
  apply bind_ok in E1 as (w & E1 & E1'). apply bind_ok in E1 as (u & G & E1). apply bind_ok in E1 as (m & M & E1).
  unfold move_queue in M. destruct (Z.ltb_spec (Zlen (l_in l ++ arr)) (Zlen (l_in l ++ arr))); [lia|].
  apply Ok_inj in M. subst m. apply Ok_inj in E1. subst w. apply Ok_inj in E1'. subst l1. simpl in E2.
  rewrite to_nat_Zlen, firstn_all, skipn_all in E2. unfold link_evolve in E2. simpl in E2.
  apply bind_ok in E2 as (m & E & E2). apply Ok_inj in E2. subst l'. simpl.
  exists rest, r, (fst m). split; [exact Hs|]. split; [exact Hr|]. split.
  { apply guard_ok, negb_true_iff in G. lia. }
  destruct m as [m1 m2]. auto.
Qed.
Lemma lq_evolve_len p r q vol fin q' fin' : lq_evolve p r q vol fin = Ok (q', fin') -> (Zlen q' + Zlen fin' = Zlen q + Zlen fin)%Z.
Proof.
  intros E. apply lq_evolve_line in E. apply (f_equal (@length Z)) in E. rewrite !app_length in E. unfold Zlen. lia.
Qed.

Lemma interval_vol l arr l' : interval l arr l' -> vol_inv l'.
Proof.
  intros H. destruct (l_body l) as [cs|m q vol|q vol] eqn:Hb.
  - destruct (ctm_interval _ _ _ _ H Hb) as (rest & c & tl & fin' & Hs & -> & Hin & Hfin & Hns & r & hn & cs' & Hr & Hb' & E).
    cbv zeta in E. rewrite ctm_evolve_eq in E. cbv zeta in E. destruct (forallb hn _); [|discriminate].
    apply Ok_pair in E as [-> ->]. unfold vol_inv. rewrite Hb'. rewrite Hfin. cbn [inside].
    rewrite recount_sum; [rewrite recount_q; split; [reflexivity|split; [exact Hin|]]|].
    + intros C. apply (f_equal (@length cell)) in C. rewrite recount_length, shift_length in C by apply out_vehs_length. discriminate.
    + intros C. apply (f_equal (@length cell)) in C. rewrite shift_length in C by apply out_vehs_length. discriminate.
  - destruct H as (rest & r & hn & l1 & Hs & _ & E1 & E2).
    unfold link_clear, offered, pq_clear in E1. cbn [l_body set_in set_fin l_in l_par l_fin] in E1. rewrite Hb in E1.
    cbv zeta in E1. cbn [fst snd l_body set_in set_fin l_in l_par l_fin] in E1. apply Ok_inj in E1. subst l1.
    unfold link_evolve in E2. cbv zeta in E2. cbn [l_body l_in l_par l_fin] in E2. apply Ok_inj in E2. subst l'.
    unfold vol_inv. cbn [l_body l_fin].
    match goal with |- context [pq_scan m ?Q] => pose proof (pq_scan_len m Q) as PL; set (Q0 := Q) in *; clearbody Q0 end. rewrite Zlen_app. lia.
  - destruct (lq_interval _ _ _ _ _ H Hb) as (rest & r & q' & Hs & Hr & _ & E & Hb' & Hin & _).
    unfold vol_inv. rewrite Hb'. apply lq_evolve_len in E. split; [lia|exact Hin].
Qed.

(** ** LQ density *)
Definition lq_inv (p : lparam) (l : link) : Prop :=
  exists q vol, l_body l = BLq q vol /\ l_par l = p /\ l_in l = [] /\ (Zlen q + Zlen (l_fin l) <= vol)%Z /\ (0 <= vol)%Z /\
    inject_Z vol / p_fs p <= p_hold p * inject_Z (p_lanes p) * p_len p.

Lemma mull_le a b f : 0 <= f -> a <= b -> f * a <= f * b.
Proof. intros F L. rewrite !(Qmult_comm f). apply Qmult_le_compat_r; assumption. Qed.

Lemma lq_supply_room p vol : lq_stable p -> (0 <= p_lanes p)%Z -> (0 <= vol)%Z ->
  inject_Z vol / p_fs p <= p_hold p * inject_Z (p_lanes p) * p_len p ->
  0 <= lq_supply p vol /\ inject_Z vol / p_fs p + lq_supply p vol <= p_hold p * inject_Z (p_lanes p) * p_len p.
Proof.
  intros (HL & Hu & Hf & Hv & Hc & Hd & H1 & H2) Hn V0 V1.
  unfold lq_supply, lq_flow, lq_density, lq_kc, lq_C.
  set (n := inject_Z (p_lanes p)) in *. assert (N0 : 0 <= n) by (apply injZ_nonneg; exact Hn).
  set (V := inject_Z vol / p_fs p) in *.
  assert (VV : 0 <= V). { apply Qle_shift_div_l; [exact Hf|]. assert (0 <= inject_Z vol) by (apply injZ_nonneg; exact V0). lra. }
  set (kc := p_flow p / p_ffs p) in *. set (C := p_flow p) in *. set (h := p_hold p) in *. set (L := p_len p) in *. set (u := p_ut p) in *.
  set (w := C / (h - kc)) in *.
  assert (W0 : 0 <= w) by (apply Qle_shift_div_l; lra).
  assert (K : V / L * L == V) by (field; lra). set (k := V / L) in *.
  assert (K1 : k <= h * n). { apply Qle_shift_div_r; [exact HL|]. exact V1. }
  destruct (Qltb_spec (kc * n) k) as [D|D].
  - destruct (Qltb_spec k (kc * n)) as [D'|_]; [lra|].
    assert (A : 0 <= (h * n - k) * w) by nra. split; [nra|].
    assert (B : (h * n - k) * (w * u) <= (h * n - k) * L) by (apply mull_le; lra). nra.
  - apply Qnot_lt_le in D. assert (0 <= C * n) by nra. split; [nra|].
    assert (D2 : V <= kc * n * L) by (rewrite <- K; apply mulr_le; auto).
    assert (n * (C * u + kc * L) <= n * (h * L)) by (apply mull_le; lra). lra.
Qed.
Lemma lq_inv_step p l arr l' : lq_stable p -> (0 <= p_lanes p)%Z -> interval l arr l' -> lq_inv p l -> lq_inv p l'.
Proof.
  intros HS Hn H (q & vol & Hb & Hp & Hin & Hle & V0 & V1).
  destruct (lq_interval _ _ _ _ _ H Hb) as (rest & r & q' & Hs & Hr & Hg & E & Hb' & Hin' & Hp').
  pose proof HS as (HL & Hu & Hf & _).
  exists q', (Zlen rest + Zlen (q ++ l_in l ++ arr))%Z. split; [exact Hb'|]. split; [congruence|]. split; [exact Hin'|].
  apply lq_evolve_len in E. rewrite !Zlen_app in *. pose proof (Zlen_nonneg rest). pose proof (Zlen_nonneg q).
  pose proof (Zlen_nonneg (l_in l)). pose proof (Zlen_nonneg arr). split; [lia|]. split; [lia|].
  destruct (lq_supply_room p vol HS Hn V0 V1) as [S0 S1]. rewrite Hp in Hg.
  assert (SF : 0 <= lq_supply p vol * p_fs p) by nra.
  assert (B : inject_Z (Zlen (l_in l) + Zlen arr) <= lq_supply p vol * p_fs p).
  { eapply Qle_trans; [|apply trunc_lo; exact SF]. apply injZ_le. lia. }
  apply subseq_length in Hs.
  assert (B2 : inject_Z (Zlen rest + (Zlen q + (Zlen (l_in l) + Zlen arr))) <= inject_Z vol + lq_supply p vol * p_fs p).
  { rewrite Z.add_assoc, injZ_plus. apply Qplus_le_compat; [|exact B]. apply injZ_le. unfold Zlen in *. lia. }
  eapply Qle_trans; [|exact S1]. apply Qle_shift_div_r; [exact Hf|].
  assert (inject_Z vol / p_fs p * p_fs p == inject_Z vol) by (field; lra). lra.
Qed.
