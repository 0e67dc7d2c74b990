(** Assignment-ratio records against the link's inflow curve; the matrix version. *)
From Verif Require Import Base Base_lemmas Model_Num Proof_Num Model_CC Spec_CC Proof_CC Proof_CC2 Proof_CC3 Spec_Grad Model_Grad Proof_Grad1 Proof_Grad2 Proof_Grad3 Proof_Grad5.
Local Open Scope Q_scope.

Definition regop (paths : Z -> bool) (o : flow_op) : bool := paths (fst (fst o)).

Lemma ops_of_reg paths k ops : paths (fst k) = true -> ops_of k (filter (regop paths) ops) = ops_of k ops.
Proof.
  intros P. unfold ops_of. f_equal. induction ops as [|o ops IH]; [reflexivity|]. cbn [filter]. unfold regop at 1. destruct (key_eqb_spec k (fst o)) as [E|N].
  - subst k. rewrite P. cbn [filter]. destruct (key_eqb_spec (fst o) (fst o)); [now rewrite IH|congruence].
  - destruct (paths (fst (fst o))); [cbn [filter]; destruct (key_eqb_spec k (fst o)); [congruence|exact IH]|exact IH].
Qed.

Lemma tree_curves f ops t : 0 < f -> foldM apply_op [] ops = Ok t -> times_nondecreasing (map snd ops) -> (forall o, In o ops -> whole_time (fst (snd o))) -> (forall o, In o ops -> units f (snd (snd o))) ->
  forall x, In x t -> foldM add_increment fresh_curve (ops_of (fst x) ops) = Ok (snd x) /\ recorded_curve (snd x) /\ (forall r, In r (snd x) -> units f (snd r)).
Proof.
  intros F E Hm Hw Hu [k c] Hx. destruct (tree_inv ops t E) as (Hn & _ & Hc). apply (tree_find_In t k c Hn) in Hx. apply Hc in Hx. cbn [fst snd]. split; [exact Hx|].
  assert (I : forall r, In r (ops_of k ops) -> exists o, In o ops /\ snd o = r).
  { intros r Hr. unfold ops_of in Hr. apply in_map_iff in Hr as (o & <- & Ho). apply filter_In in Ho as [Ho _]. eauto. }
  destruct (built_recorded (ops_of k ops)) as (c' & Ec' & R & _).
  - unfold ops_of. apply times_nondecreasing_sub. exact Hm.
  - intros r Hr. destruct (I r Hr) as (o & Ho & <-). auto.
  - intros r Hr. destruct (I r Hr) as (o & Ho & <-). apply (units_nonneg f); auto.
  - rewrite Hx in Ec'. injection Ec' as <-. split; [exact R|]. eapply (built_units f (ops_of k ops) F); [| |exact Hx].
    + intros r Hr. destruct (I r Hr) as (o & Ho & <-). auto.
    + intros r [<-|[]]. exists 0%Z. split; [lia|]. cbn [snd]. change (inject_Z 0) with 0. field. lra.
Qed.

Lemma dar_total f ops t paths l s e acc : 0 < f -> f * dbl_eps < 1 ->
  foldM apply_op [] ops = Ok t -> times_nondecreasing (map snd ops) -> (forall o, In o ops -> whole_time (fst (snd o))) -> (forall o, In o ops -> units f (snd (snd o))) ->
  whole_time s -> whole_time e -> s <= e ->
  exists new, add_dar_records acc paths l (Some t) s e = Ok (acc ++ new) /\
    NoDup (map (fun r => (da_path r, da_int r)) new) /\
    (forall r, In r new -> da_link r = l /\ da_start r = s /\ paths (da_path r) = true /\ 0 < da_flow r /\
       da_flow r == amount_until (ops_of (da_path r, da_int r) ops) e - amount_until (ops_of (da_path r, da_int r) ops) s) /\
    sumQ (map da_flow new) == amount_until (map snd (filter (regop paths) ops)) e - amount_until (map snd (filter (regop paths) ops)) s.
Proof.
  intros F Fe E Hm Hw Hu Hs He L. pose proof (tree_curves f ops t F E Hm Hw Hu) as TC. destruct (tree_inv ops t E) as (Hn & Hk & Hc).
  destruct (dar_fold paths l s e t (fun x Hx => proj1 (proj2 (TC x Hx))) acc) as (new & ds & A & B & C & D & S1 & _).
  assert (V : forall x q, In x t -> whole_time q -> exists v, get_result (snd x) q = Ok v /\ v == amount_until (ops_of (fst x) ops) q).
  { intros x q Hx Hq. destruct (TC x Hx) as (Ex & _ & _). destruct (curve_lookup (ops_of (fst x) ops)) as (c' & Ec' & Hl & _).
    - unfold ops_of. apply times_nondecreasing_sub. exact Hm.
    - intros r Hr. unfold ops_of in Hr. apply in_map_iff in Hr as (o & <- & Ho). apply filter_In in Ho as [Ho _]. auto.
    - rewrite Ex in Ec'. injection Ec' as <-. apply Hl. exact Hq. }
  assert (VF : forall x d, In x t -> link_flow_between (Some (snd x)) s e = Ok d -> d == amount_until (ops_of (fst x) ops) e - amount_until (ops_of (fst x) ops) s).
  { intros x d Hx Ed. unfold link_flow_between in Ed. destruct (V x s Hx Hs) as (v1 & E1 & Q1). destruct (V x e Hx He) as (v2 & E2 & Q2). rewrite E2, E1 in Ed. cbn [bind] in Ed. injection Ed as <-. lra. }
  exists new. split; [exact A|]. split; [exact (C Hn)|]. split.
  - intros r Hr. destruct (D r Hr) as (D1 & D2 & D3 & D4 & c & D5 & D6). repeat (split; [assumption|]). split; [unfold dbl_eps in D4; lra|].
    exact (VF _ _ D5 D6).
  - rewrite S1.
    + assert (X : forall ys, (forall x, In x ys -> In x t) -> forall ds, Forall2 (fun x d => link_flow_between (Some (snd x)) s e = Ok d) ys ds ->
        sumQ ds == sumQ (map (fun k => amount_until (ops_of k ops) e) (map fst ys)) - sumQ (map (fun k => amount_until (ops_of k ops) s) (map fst ys))).
      { clear - VF. induction ys as [|y ys IH]; intros I ds G; inversion G; subst; [unfold sumQ; cbn [map fold_right]; ring|]. cbn [map]. unfold sumQ. cbn [fold_right]. fold (sumQ l').
        fold (sumQ (map (fun k => amount_until (ops_of k ops) e) (map fst ys))). fold (sumQ (map (fun k => amount_until (ops_of k ops) s) (map fst ys))).
        rewrite (IH (fun x Hx => I x (or_intror Hx)) l') by assumption. rewrite (VF y y0 (I y (or_introl eq_refl))) by assumption. ring. }
      rewrite (X (filter (reg paths) t)); [|intros x Hx; apply filter_In in Hx; apply Hx|exact B].
      assert (Y : forall q, sumQ (map (fun k => amount_until (ops_of k ops) q) (map fst (filter (reg paths) t))) == amount_until (map snd (filter (regop paths) ops)) q).
      { intros q. rewrite <- (sum_over_keys (map fst (filter (reg paths) t)) (filter (regop paths) ops) q).
        - assert (W : forall ys, (forall x, In x ys -> reg paths x = true) -> map (fun k => amount_until (ops_of k ops) q) (map fst ys) = map (fun k => amount_until (ops_of k (filter (regop paths) ops)) q) (map fst ys)).
          { intros ys Hy. rewrite !map_map. apply map_ext_in. intros x Hx. rewrite ops_of_reg; [reflexivity|]. apply (Hy x Hx). }
          rewrite W; [reflexivity|]. intros x Hx. apply filter_In in Hx. apply Hx.
        - clear - Hn. induction t as [|x t IH]; [constructor|]. cbn [map] in Hn. inversion Hn; subst. cbn [filter]. destruct (reg paths x); [|auto]. cbn [map]. constructor; [|auto].
          intros I. apply in_map_iff in I as (y & Ey & Hy). apply filter_In in Hy as [Hy _]. apply H1. rewrite <- Ey. apply in_map. exact Hy.
        - intros o Ho. apply filter_In in Ho as [Ho P]. assert (I : In (fst o) (map fst t)) by (apply Hk; eauto). apply in_map_iff in I as (x & Ex & Hx). rewrite <- Ex. apply in_map. apply filter_In. split; [exact Hx|].
          unfold reg, regop in *. now rewrite Ex. }
      rewrite (Y e), (Y s). reflexivity.
    + intros d Hd. assert (exists x, In x t /\ link_flow_between (Some (snd x)) s e = Ok d) as (x & Hx & Ex).
      { clear - B Hd. assert (G : forall ys, Forall2 (fun x d => link_flow_between (Some (snd x)) s e = Ok d) ys ds -> (forall x, In x ys -> In x t) -> exists x, In x t /\ link_flow_between (Some (snd x)) s e = Ok d).
        { clear B. induction ds as [|d0 ds IH]; intros ys G I; [destruct Hd|]. inversion G; subst. destruct Hd as [->|Hd]; [exists x; split; [apply I; left; reflexivity|assumption]|]. eapply IH; [exact Hd|eassumption|]. intros z Hz. apply I. right. exact Hz. }
        apply (G _ B). intros x Hx. apply filter_In in Hx. apply Hx. }
      destruct (TC x Hx) as (_ & R & U). unfold link_flow_between in Ex.
      destruct (get_result_total (snd x) R s) as (r1 & I1 & E1). destruct (get_result_total (snd x) R e) as (r2 & I2 & E2). rewrite E2, E1 in Ex. cbn [bind] in Ex. injection Ex as <-.
      apply (units_diff f); auto. exact (get_result_mono _ R s e _ _ L E1 E2).
Qed.

(** the matrix entries are the records divided by the path flows *)
Definition is_reg (pm : Z -> option Z) (p : Z) : bool := match pm p with Some _ => true | None => false end.
Lemma eigen_fold pm s e li ii ne np f t l : (forall x, In x t -> recorded_curve (snd x)) ->
  (forall x pi, In x t -> pm (fst (fst x)) = Some pi -> (0 <= pi + np * snd (fst x))%Z /\ exists fy, nth_error f (Z.to_nat (pi + np * snd (fst x))) = Some fy /\ ~ fy == 0) ->
  forall acc acc', exists new recs, foldM (eigen_step pm s e li ii ne np f) acc t = Ok (acc ++ new) /\ foldM (dar_step (is_reg pm) l s e) acc' t = Ok (acc' ++ recs) /\
    Forall2 (fun z r => exists pi fy, pm (da_path r) = Some pi /\ nth_error f (Z.to_nat (pi + np * da_int r)) = Some fy /\ z = ((li + ne * ii)%Z, (pi + np * da_int r)%Z, da_flow r / fy)) new recs.
Proof.
  induction t as [|x t IH]; intros R Hf acc acc'.
  - exists [], []. rewrite !app_nil_r. split; [reflexivity|]. split; [reflexivity|constructor].
  - cbn [foldM]. unfold eigen_step at 1, dar_step at 1, is_reg at 1. destruct (pm (fst (fst x))) as [pi|] eqn:P.
    2:{ cbn [bind]. apply IH; intros; [apply R; right; assumption|]. eapply Hf; [right; eassumption|assumption]. }
    destruct (get_result_total (snd x) (R x (or_introl eq_refl)) s) as (r1 & _ & E1). destruct (get_result_total (snd x) (R x (or_introl eq_refl)) e) as (r2 & _ & E2).
    rewrite E2, E1. cbn [bind]. set (d := snd r2 - snd r1). destruct (Qltb_spec dbl_eps d) as [L|L]; cbn [bind].
    2:{ apply IH; intros; [apply R; right; assumption|]. eapply Hf; [right; eassumption|assumption]. }
    destruct (Hf x pi (or_introl eq_refl) P) as (G & fy & N & NZ). destruct (Z.ltb_spec (pi + np * snd (fst x)) 0); [lia|]. rewrite N.
    destruct (Qeq_bool fy 0) eqn:Q; [apply Qeq_bool_iff in Q; contradiction|]. cbn [negb guard bind].
    destruct (IH (fun y Hy => R y (or_intror Hy)) (fun y p Hy => Hf y p (or_intror Hy)) (acc ++ [((li + ne * ii)%Z, (pi + np * snd (fst x))%Z, d / fy)])
       (acc' ++ [{| da_path := fst (fst x); da_int := snd (fst x); da_link := l; da_start := s; da_flow := d |}])) as (new & recs & A & B & C).
    rewrite <- app_assoc in A, B. eexists (_ :: new), (_ :: recs). split; [exact A|]. split; [exact B|]. constructor; [|exact C].
    exists pi, fy. cbn [da_path da_int da_flow]. auto.
Qed.
