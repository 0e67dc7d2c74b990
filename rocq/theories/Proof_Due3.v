(** Lemmas for Prop_Due.v: gradient projection. *)
From Verif Require Import Base Base_lemmas Model_Num Model_Graph Model_Due Spec_Due Proof_Num Proof_Path Proof_GRJ Proof_Link4 Proof_Due Proof_Due2.
Local Open Scope Q_scope.

Lemma dis_at_iff p c x : dis_at p c = Ok x <-> has_dis p c x.
Proof. unfold dis_at, has_dis. destruct (nth_error (dp_dis p) (Z.to_nat c)); split; congruence. Qed.

Definition dd (c : Z) (p : dpath) : Q := match nth_error (dp_dis p) (Z.to_nat c) with Some q => q | None => 0 end.
Lemma dis_at_dd p c x : dis_at p c = Ok x -> x = dd c p.
Proof. unfold dis_at, dd. destruct (nth_error (dp_dis p) (Z.to_nat c)); congruence. Qed.

Lemma active_or best c p : active best c p = true <-> dp_links p = best \/ 0 < dp_buf p c.
Proof. unfold active. rewrite orb_true_iff, same_links_iff. split; intros [H|H]; auto; right.
  - now apply qltb_t in H.
  - destruct (Qltb 0 (dp_buf p c)) eqn:E; auto. apply qltb_f in E. lra. Qed.

Section Gp.
  Variables (best : list Z) (c : Z).
  Notation act := (active best c).
  Definition cntA (ps : list dpath) : Z := Z.of_nat (length (filter act ps)).
  Definition sumA (ps : list dpath) : Q := sumQ (map (fun p => if act p then dd c p else 0) ps).

  Definition mf_ok (mf : option Q) (seen : dpath -> Prop) : Prop :=
    match mf with
    | None => forall p, seen p -> ~ 0 < dp_buf p c
    | Some f => 0 < f /\ (forall p, seen p -> 0 < dp_buf p c -> f <= dp_buf p c) /\ exists p, seen p /\ dp_buf p c = f
    end.
  Lemma gp_scan_gen ps : forall m0 t0 mf0 seen m t mf, mf_ok mf0 seen ->
    foldM (fun s p =>
    if act p then
      do k <- dis_at p c;
      let '(m, tot, mf) := s in
      Ok ((m + 1)%Z, (tot + k)%Q,
          if Qltb 0 (dp_buf p c) && match mf with None => true | Some f => Qltb (dp_buf p c) f end
          then Some (dp_buf p c) else mf)
    else Ok s) (m0, t0, mf0) ps = Ok (m, t, mf) ->
    (m = m0 + cntA ps)%Z /\ t == t0 + sumA ps /\ mf_ok mf (fun p => seen p \/ In p ps) /\ (forall p, In p ps -> act p = true -> dis_at p c = Ok (dd c p)).
  Proof.
    induction ps as [|p ps IH]; intros m0 t0 mf0 seen m t mf H0 E; cbn [foldM] in E.
    - apply Ok_inj in E. injection E as <- <- <-. unfold cntA, sumA. cbn [filter length map]. split; [lia|]. split; [rewrite sumQ_n; lra|]. split.
      + destruct mf0 as [fl|]; cbn in *.
        * destruct H0 as (A & B & q & C & D). split; auto. split; [intros p [P|[]]; auto|]. exists q. auto.
        * intros p [P|[]]; auto.
      + intros p [].
    - apply bind_ok in E. destruct E as ([[m1 t1] mf1] & E1 & E2). destruct (act p) eqn:Ap.
      + apply bind_ok in E1. destruct E1 as (k & K & E1). apply Ok_inj in E1. injection E1 as <- <- <-.
        apply (IH _ _ _ (fun q => seen q \/ q = p)) in E2.
        * destruct E2 as (M & T & F & D). unfold cntA, sumA in *. cbn [filter]. rewrite Ap. cbn [length]. sq. rewrite Ap. pose proof (dis_at_dd _ _ _ K) as KK. split; [lia|].
          split; [rewrite T, KK; lra|]. split.
          { destruct mf as [fl|]; cbn in *.
            - destruct F as (A & B & q & C & D'). split; auto. split.
              + intros q' [Q|[<-|Q]]; apply B; auto.
              + exists q. split; auto. destruct C as [[C| ->]|C]; auto.
            - intros q' [Q|[<-|Q]]; apply F; auto. }
          intros q [<-|Q] Aq; auto. now rewrite K, KK.
        * destruct (Qltb 0 (dp_buf p c)) eqn:P.
          { apply qltb_t in P. cbn [andb]. destruct mf0 as [f|]; cbn in H0.
            - destruct H0 as (A & B & q & C & D). destruct (Qltb (dp_buf p c) f) eqn:L.
              + apply qltb_t in L. cbn. split; auto. split.
                * intros q' [Q| ->] Pq; [|lra]. specialize (B q' Q Pq). lra.
                * exists p. auto.
              + apply qltb_f in L. cbn. split; auto. split; [|exists q; auto]. intros q' [Q| ->] Pq; [auto|lra].
            - cbn. split; auto. split.
              + intros q' [Q| ->] Pq; [exfalso; eapply H0; eauto|lra].
              + exists p. auto. }
          { apply qltb_f in P. cbn [andb]. destruct mf0 as [f|]; cbn in *.
            - destruct H0 as (A & B & q & C & D). split; auto. split; [|exists q; auto]. intros q' [Q| ->] Pq; [auto|lra].
            - intros q' [Q| ->]; [auto|lra]. }
      + apply Ok_inj in E1. injection E1 as <- <- <-. apply (IH _ _ _ (fun q => seen q \/ q = p)) in E2.
        * destruct E2 as (M & T & F & D). unfold cntA, sumA in *. cbn [filter]. rewrite Ap. sq. rewrite Ap. split; [auto|]. split; [rewrite T; lra|]. split.
          { destruct mf as [fl|]; cbn in *.
            - destruct F as (A & B & q & C & D'). split; auto. split.
              + intros q' [Q|[<-|Q]]; apply B; auto.
              + exists q. split; auto. destruct C as [[C| ->]|C]; auto.
            - intros q' [Q|[<-|Q]]; apply F; auto. }
          intros q [<-|Q] Aq; [congruence|auto].
        * assert (~ 0 < dp_buf p c) as P by (intros P; assert (act p = true) by (apply active_or; auto); congruence).
          destruct mf0 as [f|]; cbn in *.
          -- destruct H0 as (A & B & q & C & D). split; auto. split; [|exists q; auto]. intros q' [Q| ->] Pq; [auto|lra].
          -- intros q' [Q| ->]; [auto|lra].
  Qed.
  Lemma gp_scan_ok ps m t mf : gp_scan best c ps = Ok (m, t, mf) ->
    m = cntA ps /\ t == sumA ps /\ mf_ok mf (fun p => In p ps) /\ (forall p, In p ps -> act p = true -> dis_at p c = Ok (dd c p)).
  Proof.
    intros H. apply (gp_scan_gen ps 0%Z 0 None (fun _ => False)) in H; [|intros p []]. destruct H as (A & B & C & D).
    split; [lia|]. split; [rewrite B; lra|]. split; auto. destruct mf as [fl|]; cbn in *.
    - destruct C as (X & Y & q & [[]|Q] & Z). split; auto. split; [intros; apply Y; auto|]. exists q. auto.
    - intros p P. apply C. auto.
  Qed.

  Lemma gp_tau_gen step avg f ps : 0 <= step -> forall t0 t, (forall x, t0 = Some x -> 0 <= x) -> 0 < f ->
    foldM (fun tau p =>
    if act p then
      do k <- dis_at p c;
      let ch := (k - avg)%Q in
      if Qltb 0 ch then
        match Some f with
        | None => Err EUB
        | Some f => let x := (step * f / ch)%Q in
                    Ok (if match tau with None => true | Some y => Qltb x y end then Some x else tau)
        end
      else Ok tau
    else Ok tau) t0 ps = Ok t ->
    (t = None -> t0 = None /\ forall p, In p ps -> act p = true -> dd c p <= avg) /\
    (forall x, t = Some x -> 0 <= x /\ (forall y, t0 = Some y -> x <= y) /\
       (forall p, In p ps -> act p = true -> 0 < dd c p - avg -> x * (dd c p - avg) <= step * f) /\
       (t0 = Some x \/ exists p, In p ps /\ act p = true /\ 0 < dd c p - avg /\ x == step * f / (dd c p - avg))).
  Proof.
    intros S. induction ps as [|p ps IH]; intros t0 t H0 Hf E; cbn [foldM] in E.
    - apply Ok_inj in E. subst t. split; [intros ->; split; [auto|intros p []]|]. intros x ->. split; [auto|]. split; [intros y [= ->]; lra|]. split; [intros p []|auto].
    - apply bind_ok in E. destruct E as (t1 & E1 & E2). destruct (act p) eqn:Ap.
      + apply bind_ok in E1. destruct E1 as (k & K & E1). apply dis_at_dd in K. subst k.
        cbn zeta in E1. destruct (Qltb 0 (dd c p - avg)) eqn:P.
        * apply qltb_t in P. apply Ok_inj in E1. set (x0 := step * f / (dd c p - avg)) in *.
          assert (0 <= x0) as X0. { unfold x0. apply Qle_shift_div_l; [auto|]. nra. }
          assert (exists y, t1 = Some y /\ 0 <= y /\ y <= x0 /\ (forall z, t0 = Some z -> y <= z) /\ (t0 = Some y \/ y = x0)) as (y & Y1 & Y2 & Y3 & Y4 & Y5).
          { destruct t0 as [z|].
            - destruct (Qltb x0 z) eqn:L; subst t1; [apply qltb_t in L|apply qltb_f in L].
              + exists x0. repeat split; auto; [lra|]. intros ? [= <-]. lra.
              + exists z. split; [auto|]. split; [auto|]. split; [lra|]. split; [intros ? [= <-]; lra|auto].
            - subst t1. exists x0. repeat split; auto; [lra|discriminate]. }
          rewrite Y1 in E2. clear E1 Y1 t1.
          apply IH in E2; [|intros ? [= <-]; auto|auto]. destruct E2 as [A B]. split.
          { intros N. destruct (A N) as [A1 _]. discriminate. }
          intros x Ex. destruct (B x Ex) as (B1 & B2 & B3 & B4). split; [auto|]. split; [intros z Z; specialize (Y4 z Z); specialize (B2 y eq_refl); lra|]. split.
          { intros q [<-|Q] Aq Pq; [|now apply B3]. specialize (B2 y eq_refl).
            apply Qle_trans with (x0 * (dd c p - avg)); [nra|]. assert (x0 * (dd c p - avg) == step * f) as -> by (unfold x0; field; lra). lra. }
          destruct B4 as [B4|(q & Q1 & Q2 & Q3 & Q4)].
          -- injection B4 as ->. destruct Y5 as [Y5| ->]; [auto|]. right. exists p. split; [left; auto|]. split; [auto|]. split; [auto|reflexivity].
          -- right. exists q. split; [right; auto|]. auto.
        * apply qltb_f in P. apply Ok_inj in E1. subst t1. apply IH in E2; auto. destruct E2 as [A B]. split.
          { intros N. destruct (A N) as [A1 A2]. split; auto. intros q [<-|Q] Aq; [lra|auto]. }
          intros x Ex. destruct (B x Ex) as (B1 & B2 & B3 & B4). split; [auto|]. split; [auto|]. split.
          { intros q [<-|Q] Aq Pq; [lra|auto]. }
          destruct B4 as [B4|(q & Q1 & Q2 & Q3 & Q4)]; auto. right. exists q. split; [right; auto|]. auto.
      + apply Ok_inj in E1. subst t1. apply IH in E2; auto. destruct E2 as [A B]. split.
        { intros N. destruct (A N) as [A1 A2]. split; auto. intros q [<-|Q] Aq; [congruence|auto]. }
        intros x Ex. destruct (B x Ex) as (B1 & B2 & B3 & B4). split; [auto|]. split; [auto|]. split.
        { intros q [<-|Q] Aq Pq; [congruence|auto]. }
        destruct B4 as [B4|(q & Q1 & Q2 & Q3 & Q4)]; auto. right. exists q. split; [right; auto|]. auto.
  Qed.

  Definition gp_lost (tau avg : Q) (p : dpath) : Q := if act p then qmin (dp_buf p c) (tau * (dd c p - avg)) else 0.
  Lemma gp_move_gen tau avg ps : forall acc ps',
    foldM (fun acc p =>
        if act p then
          do k <- dis_at p c;
          Ok (acc ++ [set_buf p (upd (dp_buf p) c (dp_buf p c - qmin (dp_buf p c) (tau * (k - avg)))%Q)])%list
        else Ok (acc ++ [p])%list) acc ps = Ok ps' ->
    exists g, ps' = (acc ++ map g ps)%list /\ (forall p, dp_links (g p) = dp_links p) /\ (forall p, dp_dis (g p) = dp_dis p) /\
      (forall p, dp_buf (g p) c == dp_buf p c - gp_lost tau avg p) /\ (forall p k, k <> c -> dp_buf (g p) k = dp_buf p k).
  Proof.
    intros acc ps' H.
    exists (fun p => if act p then set_buf p (upd (dp_buf p) c (dp_buf p c - qmin (dp_buf p c) (tau * (dd c p - avg)))) else p).
    split; [|split; [|split; [|split]]].
    - revert acc H. induction ps as [|p ps IH]; intros acc H; cbn [foldM] in H.
      + apply Ok_inj in H. cbn. now rewrite app_nil_r.
      + apply bind_ok in H. destruct H as (acc1 & E1 & E2). apply IH in E2. cbn [map]. destruct (act p).
        * apply bind_ok in E1. destruct E1 as (k & K & E1). apply Ok_inj in E1. apply dis_at_dd in K. subst. rewrite <- app_assoc. reflexivity.
        * apply Ok_inj in E1. subst. rewrite <- app_assoc. reflexivity.
    - intros p. destruct (act p); auto.
    - intros p. destruct (act p); auto.
    - intros p. unfold gp_lost. destruct (act p); [|lra]. cbn. unfold upd. rewrite Z.eqb_refl. lra.
    - intros p k K. destruct (act p); auto. cbn. unfold upd. apply Z.eqb_neq in K. now rewrite K.
  Qed.
End Gp.

Definition gp_avg (best : list Z) (c : Z) (ps : list dpath) : Q := sumA best c ps / inject_Z (cntA best c ps).

(** what one application does *)
Lemma gp_shape step cost best c ps ps' : 0 <= step -> gp_col step cost best c ps = Ok ps' ->
  let qs := with_best (cost best) ps best in
  (forall p, In p qs -> active best c p = true -> dis_at p c = Ok (dd c p)) /\ (0 < cntA best c qs)%Z /\
  ((ps' = qs /\ forall p, In p qs -> active best c p = true -> dd c p <= gp_avg best c qs) \/
   exists f tau avg g, avg == gp_avg best c qs /\ 0 < f /\ (forall p, In p qs -> 0 < dp_buf p c -> f <= dp_buf p c) /\ (exists p, In p qs /\ dp_buf p c = f) /\
     0 <= tau /\ (forall p, In p qs -> active best c p = true -> 0 < dd c p - avg -> tau * (dd c p - avg) <= step * f) /\
     (exists p, In p qs /\ active best c p = true /\ 0 < dd c p - avg /\ tau == step * f / (dd c p - avg)) /\
     ps' = map g qs /\ (forall p, dp_links (g p) = dp_links p) /\
     (forall p, dp_buf (g p) c == dp_buf p c - gp_lost best c tau avg p) /\ (forall p k, k <> c -> dp_buf (g p) k = dp_buf p k)).
Proof.
  intros S H qs. unfold gp_col in H. fold (with_best (cost best) ps best) in H. fold qs in H. cbn zeta in H.
  apply bind_ok in H. destruct H as ([[m tot] mf] & E1 & H). apply bind_ok in H. destruct H as ([] & E2 & H).
  apply gp_scan_ok in E1. destruct E1 as (M & T & F & D). apply guard_ok in E2. apply Z.ltb_lt in E2. rewrite M in E2.
  split; [auto|]. split; [auto|].
  apply bind_ok in H. destruct H as (tau & E3 & H). set (avg := tot / inject_Z m) in *.
  assert (avg == gp_avg best c qs) as AV. { unfold avg, gp_avg. rewrite M, T. reflexivity. }
  destruct mf as [f|].
  - destruct F as (F1 & F2 & F3). apply (gp_tau_gen best c step avg f qs S None tau) in E3; [|discriminate|auto]. destruct E3 as [A B].
    destruct tau as [tau|].
    + right. destruct (B tau eq_refl) as (B1 & _ & B3 & B4). apply gp_move_gen in H. destruct H as (g & G1 & G2 & _ & G3 & G4).
      exists f, tau, avg, g. split; [auto|]. split; [auto|]. split; [auto|]. split; [auto|]. split; [auto|]. split; [auto|].
      destruct B4 as [B4|B4]; [discriminate|]. split; [auto|]. auto.
    + left. apply Ok_inj in H. split; auto. intros p P Ap. rewrite <- AV. now apply A.
  - left. assert (forall p, In p qs -> active best c p = true -> dd c p <= avg) as NN.
    { unfold gp_tau in E3. assert (forall l t0 t, foldM (fun tau p =>
        if active best c p then do k <- dis_at p c;
          (let ch := (k - avg)%Q in if Qltb 0 ch then @Err (option Q) EUB else Ok tau) else Ok tau) t0 l = Ok t ->
        forall p, In p l -> active best c p = true -> dd c p <= avg) as G.
      { induction l as [|p l IH]; intros t0 t E q Q Aq; [destruct Q|]. cbn [foldM] in E. apply bind_ok in E. destruct E as (t1 & X1 & X2).
        destruct Q as [<-|Q]; [|exact (IH _ _ X2 q Q Aq)]. rewrite Aq in X1. apply bind_ok in X1. destruct X1 as (k & K & X1). apply dis_at_dd in K. subst k.
        cbn zeta in X1. destruct (Qltb 0 (dd c p - avg)) eqn:P; [discriminate|]. apply qltb_f in P. lra. }
      exact (G _ _ _ E3). }
    destruct tau as [tau|].
    + exfalso. unfold gp_tau in E3. assert (forall l (t0 : option Q) t, foldM (fun tau p =>
        if active best c p then do k <- dis_at p c;
          (let ch := (k - avg)%Q in if Qltb 0 ch then @Err (option Q) EUB else Ok tau) else Ok tau) t0 l = Ok t -> t = t0) as G.
      { induction l as [|p l IH]; intros t0 t E; cbn [foldM] in E; [apply Ok_inj in E; auto|]. apply bind_ok in E. destruct E as (t1 & X1 & X2).
        apply IH in X2. subst t. destruct (active best c p); [|apply Ok_inj in X1; auto]. apply bind_ok in X1. destruct X1 as (k & K & X1).
        cbn zeta in X1. destruct (Qltb 0 (k - avg)); [discriminate|]. apply Ok_inj in X1. auto. }
      apply G in E3. discriminate.
    + apply Ok_inj in H. split; auto. intros p P Ap. rewrite <- AV. auto.
Qed.

Lemma sumA_dev best c ps avg : (0 < cntA best c ps)%Z -> avg == gp_avg best c ps ->
  sumQ (map (fun p => if active best c p then dd c p - avg else 0) ps) == 0.
Proof.
  intros C A.
  assert (sumQ (map (fun p => if active best c p then dd c p - avg else 0) ps) == sumA best c ps - inject_Z (cntA best c ps) * avg) as E.
  { clear C A. unfold sumA, cntA. induction ps as [|p ps IH]; sq; [cbn [filter length]; change (inject_Z (Z.of_nat 0)) with 0; lra|]. rewrite IH. cbn [filter]. destruct (active best c p); [|lra].
    cbn [length]. rewrite Nat2Z.inj_succ, <- Z.add_1_r, inject_Z_plus. change (inject_Z 1) with 1. lra. }
  rewrite E, A. unfold gp_avg. assert (0 < inject_Z (cntA best c ps)) by (change 0 with (inject_Z 0); rewrite <- Zlt_Qlt; auto). field. lra.
Qed.

Lemma gp_nonneg n step cost best c ps ps' : 0 <= step -> no_negative_flow n ps -> gp_col step cost best c ps = Ok ps' -> no_negative_flow n ps'.
Proof.
  intros S N H. destruct (gp_shape _ _ _ _ _ _ S H) as (_ & _ & [(-> & _)|(f & tau & avg & g & _ & _ & _ & _ & _ & _ & _ & -> & _ & G & G')]).
  - now apply with_best_nonneg.
  - intros q k Q K. apply in_map_iff in Q. destruct Q as (p & <- & P). pose proof (with_best_nonneg n (cost best) ps best N p k P K) as B.
    destruct (Z.eq_dec k c) as [->|D]; [|rewrite G' by auto; auto]. rewrite G. unfold gp_lost. destruct (active best c p); [|lra].
    pose proof (qmin_l (dp_buf p c) (tau * (dd c p - avg))). lra.
Qed.
Lemma gp_links step cost best c ps ps' : 0 <= step -> gp_col step cost best c ps = Ok ps' ->
  map dp_links ps' = map dp_links (with_best (cost best) ps best).
Proof.
  intros S H. destruct (gp_shape _ _ _ _ _ _ S H) as (_ & _ & [(-> & _)|(f & tau & avg & g & _ & _ & _ & _ & _ & _ & _ & -> & L & _)]); auto.
  rewrite map_map. apply map_ext. auto.
Qed.
Lemma gp_other step cost best c ps ps' k : 0 <= step -> k <> c -> gp_col step cost best c ps = Ok ps' -> flow ps' k == flow ps k.
Proof.
  intros S K H. destruct (gp_shape _ _ _ _ _ _ S H) as (_ & _ & [(-> & _)|(f & tau & avg & g & _ & _ & _ & _ & _ & _ & _ & -> & _ & _ & G')]); [apply with_best_flow|].
  rewrite (flow_map g (fun _ => 0)) by (intros; rewrite G' by auto; lra). rewrite sumQ_0, with_best_flow. lra.
Qed.
Lemma gp_flow_if step cost best c ps ps' y : 0 <= step <= 1 -> gp_col step cost best c ps = Ok ps' ->
  let qs := with_best (cost best) ps best in
  (forall p, In p qs -> dp_links p = best -> 0 <= dp_buf p c /\ has_dis p c y) ->
  (forall p x, In p qs -> 0 < dp_buf p c -> has_dis p c x -> y <= x) ->
  flow ps' c == flow ps c.
Proof.
  intros S H qs HB HU. destruct (gp_shape _ _ _ _ _ _ (proj1 S) H) as (D & C & [(-> & _)|(f & tau & avg & g & AV & F0 & F1 & F2 & T0 & T1 & T2 & -> & L & G & G')]); [apply with_best_flow|].
  fold qs in D, C, AV, F1, F2, T1, T2 |- *.
  assert (forall p, In p qs -> active best c p = true -> y <= dd c p) as LO.
  { intros p P Ap. pose proof (D p P Ap) as E. apply dis_at_iff in E. destruct (proj1 (active_or _ _ _) Ap) as [Lp|Up].
    - destruct (HB p P Lp) as [_ E']. unfold has_dis in *. assert (Some y = Some (dd c p)) as Q by congruence. injection Q as ->. lra.
    - now apply (HU p). }
  assert (y <= avg) as YA.
  { rewrite AV. unfold gp_avg. assert (0 < inject_Z (cntA best c qs)) by (change 0 with (inject_Z 0); rewrite <- Zlt_Qlt; auto).
    apply Qle_shift_div_l; auto. clear - LO. unfold sumA, cntA. induction qs as [|p qs IH]; [sq; cbn [filter length]; change (inject_Z (Z.of_nat 0)) with 0; lra|].
    assert (forall q, In q qs -> active best c q = true -> y <= dd c q) as LO' by (intros; apply LO; [right|]; auto). specialize (IH LO').
    sq. cbn [filter]. destruct (active best c p) eqn:Ap; [|lra]. pose proof (LO p (or_introl eq_refl) Ap).
    cbn [length]. rewrite Nat2Z.inj_succ, <- Z.add_1_r, inject_Z_plus. change (inject_Z 1) with 1. lra. }
  rewrite (flow_map g (gp_lost best c tau avg)) by (intros; apply G). unfold qs at 1. rewrite with_best_flow.
  assert (sumQ (map (gp_lost best c tau avg) qs) == tau * sumQ (map (fun p => if active best c p then dd c p - avg else 0) qs)) as E.
  { rewrite <- sumQ_scale. apply sumQ_eq. intros p P. unfold gp_lost. destruct (active best c p) eqn:Ap; [|ring]. apply qmin_le.
    destruct (Qlt_le_dec 0 (dp_buf p c)) as [Up|Up].
    - pose proof (F1 p P Up). destruct (Qlt_le_dec 0 (dd c p - avg)) as [X|X].
      + pose proof (T1 p P Ap X). nra.
      + nra.
    - destruct (proj1 (active_or _ _ _) Ap) as [Lp|Up']; [|lra]. destruct (HB p P Lp) as [B0 E']. pose proof (D p P Ap) as E. apply dis_at_iff in E. unfold has_dis in *.
      assert (Some y = Some (dd c p)) as Q by congruence. injection Q as Q. rewrite <- Q. nra. }
  rewrite E, sumA_dev by auto. ring.
Qed.
Lemma gp_creates step cost best c ps ps' y : 0 < step <= 1 -> gp_col step cost best c ps = Ok ps' ->
  ~ In best (map dp_links ps) -> (forall p, In p ps -> 0 <= dp_buf p c) ->
  nth_error (cost best) (Z.to_nat c) = Some y -> (exists p, In p ps /\ 0 < dp_buf p c) ->
  (forall p x, In p ps -> 0 < dp_buf p c -> has_dis p c x -> x < y) ->
  flow ps c < flow ps' c.
Proof.
  intros S H NB NN Y (p0 & P0 & U0) HU. set (qs := with_best (cost best) ps best).
  assert (qs = (ps ++ [new_path best (cost best)])%list) as QS.
  { unfold qs, with_best. destruct (is_in ps best) eqn:I; auto. apply is_in_iff in I. contradiction. }
  set (pb := new_path best (cost best)) in *.
  assert (active best c pb = true) as Ab by (apply active_or; left; reflexivity).
  assert (dd c pb = y) as Db by (unfold dd, pb, new_path; cbn [dp_dis]; rewrite Y; reflexivity).
  assert (In pb qs) as Ib by (rewrite QS; apply in_app_iff; right; left; auto).
  assert (active best c p0 = true) as A0 by (apply active_or; auto).
  assert (In p0 qs) as I0 by (rewrite QS; apply in_app_iff; auto).
  assert (0 <= step) as S0 by lra.
  assert (forall p, In p qs -> active best c p = true -> dis_at p c = Ok (dd c p)) as D by exact (proj1 (gp_shape _ _ _ _ _ _ S0 H)).
  assert (forall p, In p qs -> active best c p = true -> dd c p <= y) as HI.
  { intros p P Ap. rewrite QS in P. apply in_app_iff in P. destruct P as [P|[<-|[]]]; [|rewrite Db; lra].
    destruct (proj1 (active_or _ _ _) Ap) as [Lp|Up]; [exfalso; apply NB; rewrite <- Lp; now apply in_map|].
    assert (dd c p < y); [|lra]. apply (HU p); auto. apply dis_at_iff. apply D; auto. rewrite QS. apply in_app_iff. auto. }
  assert (dd c p0 < y) as L0. { apply (HU p0); auto. apply dis_at_iff. auto. }
  assert (gp_avg best c qs < y) as AY.
  { assert ((0 < cntA best c qs)%Z) as C by exact (proj1 (proj2 (gp_shape _ _ _ _ _ _ S0 H))).
    assert (0 < inject_Z (cntA best c qs)) by (change 0 with (inject_Z 0); rewrite <- Zlt_Qlt; auto).
    pose proof (sumA_dev best c qs (gp_avg best c qs) C (Qeq_refl _)) as Z0.
    destruct (Qlt_le_dec (gp_avg best c qs) y) as [L|L]; auto. exfalso.
    assert (forall p, In p qs -> 0 <= (if active best c p then gp_avg best c qs - dd c p else 0)) as NP.
    { intros p P. destruct (active best c p) eqn:Ap; [|lra]. specialize (HI p P Ap). lra. }
    pose proof (sumQ_term _ qs p0 NP I0) as T0. cbn beta in T0. rewrite A0 in T0.
    assert (sumQ (map (fun p => if active best c p then gp_avg best c qs - dd c p else 0) qs) ==
            (-1#1) * sumQ (map (fun p => if active best c p then dd c p - gp_avg best c qs else 0) qs)) as E.
    { rewrite <- sumQ_scale. apply sumQ_eq. intros p P. destruct (active best c p); ring. }
    rewrite E, Z0 in T0. lra. }
  destruct (gp_shape _ _ _ _ _ _ S0 H) as (_ & C & [(-> & Q)|(f & tau & avg & g & AV & F0 & F1 & F2 & T0 & T1 & T2 & -> & L & G & G')]).
  { exfalso. fold qs in Q. specialize (Q pb Ib Ab). rewrite Db in Q. lra. }
  fold qs in C, AV, F1, F2, T1, T2 |- *.
  rewrite (flow_map g (gp_lost best c tau avg)) by (intros; apply G). unfold qs at 1. rewrite with_best_flow.
  assert (0 < tau) as TP.
  { destruct T2 as (q & _ & _ & Q3 & Q4). rewrite Q4. apply Qlt_shift_div_l; [auto|]. nra. }
  enough (sumQ (map (gp_lost best c tau avg) qs) < 0) by lra.
  pose proof (sumA_dev best c qs avg C AV) as Z0.
  assert (sumQ (map (gp_lost best c tau avg) qs) + tau * (y - avg) <= tau * sumQ (map (fun p => if active best c p then dd c p - avg else 0) qs)) as E; [|rewrite Z0 in E; assert (avg < y) by (rewrite AV; exact AY); nra].
  rewrite QS, !map_app, !sumQ_app. sq. assert (gp_lost best c tau avg pb <= 0) as LB.
  { unfold gp_lost. rewrite Ab. cbn [pb new_path dp_buf]. apply qmin_l. }
  rewrite Ab, Db. enough (sumQ (map (gp_lost best c tau avg) ps) <= tau * sumQ (map (fun p => if active best c p then dd c p - avg else 0) ps)) by lra.
  rewrite <- sumQ_scale. apply sumQ_le. intros p P. unfold gp_lost. destruct (active best c p); [|lra]. apply qmin_r.
Qed.
