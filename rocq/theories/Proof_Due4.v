(** Lemmas for Prop_Due.v: merit functions and route choice. *)
From Verif Require Import Base Base_lemmas Model_Num Model_Graph Model_SP Model_TDSP Model_GRJ Model_Due Spec_Graph Spec_TDSP Spec_Due
  Proof_Num Proof_Path Proof_GRJ Proof_Link4 Proof_Due Proof_Due2 Proof_Due3.
Local Open Scope Q_scope.

Definition ud (pc : dpath * Z) : Q := dd (snd pc) (fst pc).
Definition known (l : list (dpath * Z)) : Prop := forall pc, In pc l -> exists x, dis_at (fst pc) (snd pc) = Ok x.
Lemma known_cons pc l : known (pc :: l) -> dis_at (fst pc) (snd pc) = Ok (ud pc) /\ known l.
Proof. intros H. split; [|intros q Q; apply H; right; auto]. destruct (H pc (or_introl eq_refl)) as (x & E). rewrite E. f_equal. now apply dis_at_dd. Qed.

Lemma lowest_gen l : known l -> forall cur, exists low, foldM (fun cur pc => do x <- dis_at (fst pc) (snd pc);
    Ok (if match cur with None => true | Some y => Qltb x y end then Some x else cur)) cur l = Ok low /\
  (low = None -> cur = None /\ l = []) /\
  (forall y, low = Some y -> (forall z, cur = Some z -> y <= z) /\ (forall pc, In pc l -> y <= ud pc) /\
     (cur = Some y \/ exists pc, In pc l /\ ud pc = y)).
Proof.
  induction l as [|pc l IH]; intros K cur; cbn [foldM].
  - exists cur. split; [auto|]. split; [auto|]. intros y ->. split; [intros z [= ->]; lra|]. split; [intros pc []|auto].
  - apply known_cons in K. destruct K as [E K]. rewrite E. cbn [bind].
    set (c1 := if match cur with None => true | Some y => Qltb (ud pc) y end then Some (ud pc) else cur).
    destruct (IH K c1) as (low & E1 & A & B). exists low. split; [exact E1|].
    assert (exists w, c1 = Some w /\ w <= ud pc /\ (forall z, cur = Some z -> w <= z) /\ (cur = Some w \/ w = ud pc)) as (w & W1 & W2 & W3 & W4).
    { unfold c1. destruct cur as [z|].
      - destruct (Qltb (ud pc) z) eqn:L; [apply qltb_t in L|apply qltb_f in L].
        + exists (ud pc). split; [auto|]. split; [lra|]. split; [intros ? [= <-]; lra|auto].
        + exists z. split; [auto|]. split; [lra|]. split; [intros ? [= <-]; lra|auto].
      - exists (ud pc). split; [auto|]. split; [lra|]. split; [discriminate|auto]. }
    clearbody c1. subst c1. split; [intros N; destruct (A N); discriminate|].
    intros y Y. destruct (B y Y) as (B1 & B2 & B3). specialize (B1 w eq_refl). split; [intros z Z; specialize (W3 z Z); lra|]. split.
    + intros q [<-|Q]; [lra|auto].
    + destruct B3 as [B3|(q & Q1 & Q2)].
      * injection B3 as ->. destruct W4 as [W4| ->]; [auto|]. right. exists pc. split; [left|]; auto.
      * right. exists q. split; [right|]; auto.
Qed.
Lemma lowest_ok l : known l -> exists low, lowest l = Ok low /\ (low = None -> l = []) /\
  (forall y, low = Some y -> (forall pc, In pc l -> y <= ud pc) /\ exists pc, In pc l /\ ud pc = y).
Proof.
  intros K. destruct (lowest_gen l K None) as (low & E & A & B). exists low. split; [exact E|]. split; [intros N; apply A; auto|].
  intros y Y. destruct (B y Y) as (_ & B2 & [B3|B3]); [discriminate|auto].
Qed.
Definition ub (pc : dpath * Z) : Q := dp_buf (fst pc) (snd pc).
Lemma gap_gen y l : known l -> forall acc, exists r, gap_sum (Some y) l acc = Ok r /\ r == acc + sumQ (map (fun pc => (ud pc - y) * ub pc) l).
Proof.
  unfold gap_sum. induction l as [|pc l IH]; intros K acc; cbn [foldM]; [exists acc; split; [auto|sq; lra]|].
  apply known_cons in K. destruct K as [E K]. rewrite E. cbn [bind]. destruct (IH K (acc + (ud pc - y) * dp_buf (fst pc) (snd pc))) as (r & E1 & R).
  exists r. split; [exact E1|]. rewrite R. sq. unfold ub at 2. lra.
Qed.

(** zero sum of nonnegative terms *)
Lemma sum_zero_iff {A} (f : A -> Q) l : (forall x, In x l -> 0 <= f x) -> (sumQ (map f l) == 0 <-> forall x, In x l -> f x == 0).
Proof.
  intros N. split.
  - intros Z x X. pose proof (sumQ_term f l x N X). specialize (N x X). lra.
  - intros H. rewrite <- (sumQ_0 l). now apply sumQ_eq.
Qed.

(** one group of uses: its gap *)
Lemma group_ok l : known l -> (forall pc, In pc l -> 0 <= ub pc) ->
  exists low, lowest l = Ok low /\ (low = None <-> l = []) /\ (forall y, low = Some y -> exists pc, In pc l /\ ud pc = y) /\
  forall acc, exists r, gap_sum low l acc = Ok r /\ exists gp, r == acc + gp /\ 0 <= gp /\
    (gp == 0 <-> forall pc pc', In pc l -> In pc' l -> 0 < ub pc -> ud pc <= ud pc').
Proof.
  intros K N. destruct (lowest_ok l K) as (low & E & A & B). exists low. split; [exact E|]. split.
  { split; auto. intros ->. destruct low as [y|]; auto. destruct (B y eq_refl) as (_ & pc & [] & _). }
  split; [intros y Y; exact (proj2 (B y Y))|]. intros acc.
  destruct low as [y|].
  - destruct (B y eq_refl) as (B1 & pc0 & P0 & Y0). destruct (gap_gen y l K acc) as (r & E1 & R). exists r. split; [exact E1|].
    eexists. split; [exact R|].
    assert (forall pc, In pc l -> 0 <= (ud pc - y) * ub pc) as T. { intros pc P. specialize (B1 pc P). specialize (N pc P). nra. }
    split; [now apply sumQ_pos|]. rewrite sum_zero_iff by exact T. split.
    + intros Z pc pc' P P' U. specialize (Z pc P). cbn beta in Z. specialize (B1 pc' P').
      assert (ud pc - y == 0) by nra. lra.
    + intros H pc P. specialize (N pc P). specialize (B1 pc P). destruct (Qlt_le_dec 0 (ub pc)) as [U|U].
      * specialize (H pc pc0 P P0 U). rewrite Y0 in H. assert (ud pc == y) as -> by lra. ring.
      * assert (ub pc == 0) as -> by lra. ring.
  - rewrite (A eq_refl). exists acc. split; [reflexivity|]. exists 0. split; [lra|]. split; [lra|]. split; [intros _ pc pc' []|lra].
Qed.

(** several groups in sequence *)
Lemma foldM_gaps {A} (f : Q -> A -> res Q) (eqm : A -> Prop) l :
  (forall a acc, In a l -> exists r g, f acc a = Ok r /\ r == acc + g /\ 0 <= g /\ (g == 0 <-> eqm a)) ->
  forall acc, exists r g, foldM f acc l = Ok r /\ r == acc + g /\ 0 <= g /\ (g == 0 <-> forall a, In a l -> eqm a).
Proof.
  induction l as [|a l IH]; intros H acc; cbn [foldM].
  - exists acc, 0. split; [auto|]. split; [lra|]. split; [lra|]. split; [intros _ a []|lra].
  - destruct (H a acc (or_introl eq_refl)) as (r1 & g1 & E1 & R1 & P1 & Q1). rewrite E1. cbn [bind].
    destruct (IH (fun b acc B => H b acc (or_intror B)) r1) as (r & g & E & R & P & Q). exists r, (g1 + g).
    split; [exact E|]. split; [lra|]. split; [lra|]. split.
    + intros Z b [<-|B]; [apply Q1; lra|apply Q; auto; lra].
    + intros Z. assert (g1 == 0) by (apply Q1; apply Z; left; auto). assert (g == 0) by (apply Q; intros; apply Z; right; auto). lra.
Qed.

Lemma in_all_uses n ps p c : In (p, c) (all_uses n ps) <-> In p ps /\ interval n c.
Proof.
  unfold all_uses. rewrite in_flat_map. split.
  - intros (k & K & H). apply in_map_iff in H. destruct H as (q & [= <- <-] & Q). apply in_cols in K. auto.
  - intros [P C]. exists c. split; [now apply in_cols|]. apply in_map_iff. eauto.
Qed.
Lemma known_dis n ps p c : costs_known n ps -> In p ps -> interval n c -> exists x, dis_at p c = Ok x /\ has_dis p c x /\ dd c p = x.
Proof.
  intros K P C. specialize (K p P). destruct (nth_error (dp_dis p) (Z.to_nat c)) as [x|] eqn:E.
  - exists x. unfold dis_at, has_dis, dd. rewrite E. auto.
  - exfalso. apply nth_error_None in E. unfold interval in C. lia.
Qed.
Lemma merit_ok n pairs t : (forall o d ps, In (o, d) pairs -> t o d = Some ps -> costs_known n ps /\ no_negative_flow n ps) ->
  exists r, merit n pairs t = Ok r /\ 0 <= r /\ (r == 0 <-> forall o d ps, In (o, d) pairs -> t o d = Some ps -> equilibrium n ps).
Proof.
  intros H. unfold merit.
  destruct (foldM_gaps (fun acc od => match t (fst od) (snd od) with None => Ok acc
    | Some ps => do low <- lowest (all_uses n ps); gap_sum low (all_uses n ps) acc end)
    (fun od => forall ps, t (fst od) (snd od) = Some ps -> equilibrium n ps) pairs) with (acc := 0) as (r & g & E & R & P & Q).
  { intros [o d] acc I. cbn [fst snd]. destruct (t o d) as [ps|] eqn:T.
    - destruct (H o d ps I T) as [K N].
      destruct (group_ok (all_uses n ps)) as (low & E1 & _ & _ & G).
      { intros [p c] U. apply in_all_uses in U. destruct U as [P C]. destruct (known_dis n ps p c K P C) as (x & X & _). eauto. }
      { intros [p c] U. apply in_all_uses in U. destruct U as [P C]. now apply N. }
      destruct (G acc) as (r & E2 & gp & R & P & Q). exists r, gp. rewrite E1. cbn [bind]. split; [exact E2|]. split; [exact R|]. split; [exact P|].
      rewrite Q. split.
      + intros X ps' [= <-] p c p' c' x x' Ip Ip' C C' U D D'.
        assert (ud (p, c) <= ud (p', c')) as L by (apply X; [now apply in_all_uses|now apply in_all_uses|exact U]).
        apply dis_at_iff, dis_at_dd in D. apply dis_at_iff, dis_at_dd in D'. subst x x'. exact L.
      + intros X [p c] [p' c'] U U' B. apply in_all_uses in U, U'. destruct U as [Ip C], U' as [Ip' C'].
        destruct (known_dis n ps p c K Ip C) as (x & _ & D & F). destruct (known_dis n ps p' c' K Ip' C') as (x' & _ & D' & F').
        unfold ud. cbn [fst snd]. rewrite F, F'. exact (X ps eq_refl p c p' c' x x' Ip Ip' C C' B D D').
    - exists acc, 0. split; [auto|]. split; [lra|]. split; [lra|]. split; [discriminate|lra]. }
  exists r. split; [exact E|]. split; [lra|]. split.
  - intros Z o d ps I T. assert (g == 0) as Z' by lra. exact (proj1 Q Z' (o, d) I ps T).
  - intros X. assert (g == 0); [|lra]. apply Q. intros [o d] I ps T. exact (X o d ps I T).
Qed.

(** merit with given departure times *)
Definition used_equal (n : nat) (ps : list dpath) : Prop :=
  forall p p' c x x', In p ps -> In p' ps -> interval n c -> 0 < dp_buf p c -> 0 < dp_buf p' c -> has_dis p c x -> has_dis p' c x' -> x == x'.
Lemma in_used ps p c k : In (p, k) (used ps c) <-> In p ps /\ 0 < dp_buf p c /\ k = c.
Proof.
  unfold used. rewrite in_map_iff. split.
  - intros (q & [= <- <-] & Q). apply filter_In in Q. destruct Q as [Q U]. apply qltb_t in U. auto.
  - intros (P & U & ->). exists p. split; auto. apply filter_In. split; auto. destruct (Qltb 0 (dp_buf p c)) eqn:L; auto. apply qltb_f in L. lra.
Qed.
Lemma low_cost_eq low l acc : low_cost low l acc == acc + sumQ (map (fun pc => match low with Some y => y | None => 0 end * ub pc) l).
Proof.
  unfold low_cost. destruct low as [y|].
  - rewrite fold_sum. reflexivity.
  - rewrite (sumQ_eq _ (fun _ => 0)); [rewrite sumQ_0; lra|]. intros. ring.
Qed.

(** gaps and costs in sequence *)
Lemma foldM_gaps2 {A} (f : Q * Q -> A -> res (Q * Q)) (eqm nz : A -> Prop) l :
  (forall a acc, In a l -> exists r g k, f acc a = Ok r /\ fst r == fst acc + g /\ 0 <= g /\ (g == 0 <-> eqm a) /\
     snd r == snd acc + k /\ 0 <= k /\ (0 < k <-> nz a) /\ (k == 0 -> g == 0)) ->
  forall acc, exists r g k, foldM f acc l = Ok r /\ fst r == fst acc + g /\ 0 <= g /\ (g == 0 <-> forall a, In a l -> eqm a) /\
     snd r == snd acc + k /\ 0 <= k /\ (0 < k <-> exists a, In a l /\ nz a) /\ (k == 0 -> g == 0).
Proof.
  induction l as [|a l IH]; intros H acc; cbn [foldM].
  - exists acc, 0, 0. split; [auto|]. split; [lra|]. split; [lra|]. split; [split; [intros _ a []|lra]|]. split; [lra|]. split; [lra|].
    split; [split; [lra|intros (a & [] & _)]|lra].
  - destruct (H a acc (or_introl eq_refl)) as (r1 & g1 & k1 & E1 & R1 & P1 & Q1 & S1 & T1 & U1 & V1). rewrite E1. cbn [bind].
    destruct (IH (fun b acc B => H b acc (or_intror B)) r1) as (r & g & k & E & R & P & Q & S & T & U & V). exists r, (g1 + g), (k1 + k).
    split; [exact E|]. split; [lra|]. split; [lra|]. split; [|split; [lra|split; [lra|split]]].
    + split.
      * intros Z b [<-|B]; [apply Q1; lra|apply Q; auto; lra].
      * intros Z. assert (g1 == 0) by (apply Q1; apply Z; left; auto). assert (g == 0) by (apply Q; intros; apply Z; right; auto). lra.
    + split.
      * intros Z. destruct (Qlt_le_dec 0 k1) as [L|L]; [exists a; split; [left; auto|apply U1; auto]|].
        assert (0 < k) as L' by lra. apply U in L'. destruct L' as (b & B & X). exists b. split; [right|]; auto.
      * intros (b & [<-|B] & X).
        -- assert (0 < k1) by (apply U1; auto). lra.
        -- assert (0 < k) by (apply U; eauto). lra.
    + intros Z. assert (k1 == 0) as Z1 by lra. assert (k == 0) as Z2 by lra. specialize (V1 Z1). specialize (V Z2). lra.
Qed.

Lemma merit_fixed_ok n pairs t :
  (forall o d ps, In (o, d) pairs -> t o d = Some ps -> costs_known n ps /\
     forall p c x, In p ps -> interval n c -> 0 < dp_buf p c -> has_dis p c x -> 0 < x) ->
  exists g k, merit_fixed n pairs t = Ok (idiv g k) /\ 0 <= g /\ 0 <= k /\
   (g == 0 <-> forall o d ps, In (o, d) pairs -> t o d = Some ps -> used_equal n ps) /\
   (0 < k <-> exists o d ps p c, In (o, d) pairs /\ t o d = Some ps /\ In p ps /\ interval n c /\ 0 < dp_buf p c) /\ (k == 0 -> g == 0).
Proof.
  intros H. unfold merit_fixed.
  set (f := fun (acc : Q * Q) od => match t (fst od) (snd od) with None => Ok acc
    | Some ps => foldM (fun acc c =>
        do low <- lowest (used ps c);
        do gap <- gap_sum low (used ps c) (fst acc);
        Ok (gap, low_cost low (used ps c) (snd acc))) acc (cols n) end).
  destruct (foldM_gaps2 f (fun od => forall ps, t (fst od) (snd od) = Some ps -> used_equal n ps)
     (fun od => exists ps p c, t (fst od) (snd od) = Some ps /\ In p ps /\ interval n c /\ 0 < dp_buf p c) pairs) with (acc := (0, 0))
     as (r & g & k & E & R & P & Q & S & T & U & V).
  { intros [o d] acc I. unfold f. cbn [fst snd]. destruct (t o d) as [ps|] eqn:TT.
    - destruct (H o d ps I TT) as [K POS].
      destruct (foldM_gaps2 (fun (acc : Q * Q) c =>
        do low <- lowest (used ps c);
        do gap <- gap_sum low (used ps c) (fst acc);
        Ok (gap, low_cost low (used ps c) (snd acc)))
        (fun c => forall p p' x x', In p ps -> In p' ps -> 0 < dp_buf p c -> 0 < dp_buf p' c -> has_dis p c x -> has_dis p' c x' -> x == x')
        (fun c => exists p, In p ps /\ 0 < dp_buf p c) (cols n)) with (acc := acc) as (r & g & k & E & R & P & Q & S & T & U & V).
      { intros c acc1 C. apply in_cols in C.
        assert (known (used ps c)) as KN.
        { intros [p j] X. apply in_used in X. destruct X as (X & _ & ->). destruct (known_dis n ps p c K X C) as (x & D & _). eauto. }
        destruct (group_ok (used ps c) KN) as (low & E1 & L0 & L1 & G).
        { intros [p j] X. apply in_used in X. destruct X as (_ & X & ->). unfold ub. cbn. lra. }
        destruct (G (fst acc1)) as (r & E2 & gp & R & P & Q). rewrite E1. cbn [bind]. rewrite E2. cbn [bind].
        eexists _, gp, _. split; [reflexivity|]. cbn [fst snd]. split; [exact R|]. split; [exact P|]. split; [|split; [apply low_cost_eq|]].
        - rewrite Q. split.
          + intros X p p' x x' Ip Ip' B B' D D'.
            assert (ud (p, c) <= ud (p', c)) as LE by (apply X; [apply in_used|apply in_used|]; auto).
            assert (ud (p', c) <= ud (p, c)) as GE by (apply X; [apply in_used|apply in_used|]; auto).
            apply dis_at_iff, dis_at_dd in D. apply dis_at_iff, dis_at_dd in D'. subst x x'. unfold ud in *. cbn [fst snd] in *. lra.
          + intros X [p j] [p' j'] W W' B. apply in_used in W, W'. destruct W as (Ip & B1 & ->), W' as (Ip' & B' & ->).
            destruct (known_dis n ps p c K Ip C) as (x & _ & D & F). destruct (known_dis n ps p' c K Ip' C) as (x' & _ & D' & F').
            unfold ud. cbn [fst snd]. rewrite F, F'. rewrite (X p p' x x' Ip Ip' B1 B' D D'). lra.
        - assert (forall pc, In pc (used ps c) -> 0 < match low with Some y => y | None => 0 end * ub pc) as TP.
          { intros [p j] W. pose proof W as W0. apply in_used in W. destruct W as (Ip & B1 & ->). unfold ub. cbn [fst snd].
            destruct low as [y|]; [|rewrite (proj1 L0 eq_refl) in W0; destruct W0].
            destruct (L1 y eq_refl) as ([q j] & W1 & Y). apply in_used in W1. destruct W1 as (Iq & B2 & ->).
            destruct (known_dis n ps q c K Iq C) as (x & _ & D & F). unfold ud in Y. cbn [fst snd] in Y. rewrite F in Y. subst x.
            pose proof (POS q c y Iq C B2 D). nra. }
          split; [apply sumQ_pos; intros pc W; specialize (TP pc W); lra|]. split.
          + split.
            * intros Z. destruct (used ps c) as [|[p j] l] eqn:EU; [rewrite sumQ_n in Z || (cbn [map] in Z; rewrite sumQ_n in Z); lra|].
              assert (In (p, j) (used ps c)) as W by (rewrite EU; left; auto). apply in_used in W. destruct W as (Ip & B & _). eauto.
            * intros (p & Ip & B). assert (In (p, c) (used ps c)) as W by (apply in_used; auto).
              assert (forall pc, In pc (used ps c) -> 0 <= match low with Some y => y | None => 0 end * ub pc) as TP' by (intros pc X; specialize (TP pc X); lra).
              pose proof (sumQ_term (fun pc => match low with Some y => y | None => 0 end * ub pc) (used ps c) (p, c) TP' W) as Y. cbn beta in Y. specialize (TP _ W). lra.
          + intros Z. apply Q. intros pc pc' W W' _. exfalso.
            assert (forall pc, In pc (used ps c) -> 0 <= match low with Some y => y | None => 0 end * ub pc) as TP' by (intros qc X; specialize (TP qc X); lra).
            pose proof (sumQ_term (fun pc => match low with Some y => y | None => 0 end * ub pc) (used ps c) pc TP' W) as Y. cbn beta in Y. specialize (TP _ W). lra. }
      exists r, g, k. split; [exact E|]. split; [exact R|]. split; [exact P|]. split; [|split; [exact S|split; [exact T|split; [|exact V]]]].
      + rewrite Q. split.
        * intros X ps' [= <-] p p' c x x' Ip Ip' C. apply X; auto. now apply in_cols.
        * intros X c C p p' x x' Ip Ip'. apply in_cols in C. eapply X; eauto.
      + rewrite U. split.
        * intros (c & C & p & Ip & B). apply in_cols in C. exists ps, p, c. auto.
        * intros (ps' & p & c & [= <-] & Ip & C & B). exists c. split; [now apply in_cols|]. eauto.
    - exists acc, 0, 0. split; [auto|]. split; [lra|]. split; [lra|]. split; [split; [discriminate|lra]|]. split; [lra|]. split; [lra|].
      split; [split; [lra|intros (ps & p & c & X & _); discriminate]|lra]. }
  fold f. rewrite E. cbn [bind]. cbn [fst snd] in *. exists (fst r), (snd r). split; [reflexivity|]. split; [lra|]. split; [lra|]. split; [|split].
  - split.
    + intros Z o d ps I TT. assert (g == 0) as Z' by lra. exact (proj1 Q Z' (o, d) I ps TT).
    + intros X. assert (g == 0); [|lra]. apply Q. intros [o d] I ps TT. exact (X o d ps I TT).
  - split.
    + intros Z. assert (0 < k) as Z' by lra. apply U in Z'. destruct Z' as ([o d] & I & ps & p & c & TT & X). exists o, d, ps, p, c. auto.
    + intros (o & d & ps & p & c & I & TT & X). assert (0 < k); [|lra]. apply U. exists (o, d). split; auto. exists ps, p, c. auto.
  - intros Z. assert (k == 0) as Z' by lra. specialize (V Z'). lra.
Qed.

(** departure time search *)
Lemma scan_gen k dist l : forall cur, let r := fold_left (fun cur i =>
    match dist i with
    | None => cur
    | Some w => let x := get_disutility k (inject_Z i) w in
                 if match cur with None => true | Some (y, _) => Qltb x y end then Some (x, i) else cur
    end) l cur in
  (r = None -> cur = None /\ forall i, In i l -> dist i = None) /\
  (forall x i, r = Some (x, i) -> (cur = Some (x, i) \/ exists w, In i l /\ dist i = Some w /\ x = get_disutility k (inject_Z i) w) /\
     (forall y j, cur = Some (y, j) -> x <= y) /\ (forall j w, In j l -> dist j = Some w -> x <= get_disutility k (inject_Z j) w)).
Proof.
  induction l as [|a l IH]; intros cur; cbn [fold_left].
  - split; [intros E; split; [exact E|intros i []]|]. intros x i E. split; [auto|]. split; [intros y j Y; rewrite E in Y; injection Y as -> ->; lra|intros j w []].
  - destruct (dist a) as [w|] eqn:D.
    + cbn zeta. set (u := get_disutility k (inject_Z a) w).
      destruct cur as [[y j]|].
      * destruct (Qltb u y) eqn:L; [apply qltb_t in L|apply qltb_f in L].
        -- destruct (IH (Some (u, a))) as [A B]. split; [intros E; destruct (A E); discriminate|]. intros x i E. destruct (B x i E) as (B1 & B2 & B3).
           specialize (B2 u a eq_refl). split; [|split].
           ++ destruct B1 as [[= <- <-]|(v & I & Dv & X)]; right; [exists w; split; [left|]; auto|exists v; split; [right|]; auto].
           ++ intros z q [= <- <-]. lra.
           ++ intros q v [<-|I] Dq; [|eauto]. rewrite D in Dq. injection Dq as <-. fold u. lra.
        -- destruct (IH (Some (y, j))) as [A B]. split; [intros E; destruct (A E); discriminate|]. intros x i E. destruct (B x i E) as (B1 & B2 & B3).
           split; [|split].
           ++ destruct B1 as [B1|(v & I & Dv & X)]; [auto|]. right. exists v. split; [right|]; auto.
           ++ intros z q Z. apply B2 in Z. lra.
           ++ intros q v [<-|I] Dq; [|eauto]. rewrite D in Dq. injection Dq as <-. fold u. specialize (B2 y j eq_refl). lra.
      * destruct (IH (Some (u, a))) as [A B]. split; [intros E; destruct (A E); discriminate|]. intros x i E. destruct (B x i E) as (B1 & B2 & B3).
        specialize (B2 u a eq_refl). split; [|split].
        ++ destruct B1 as [[= <- <-]|(v & I & Dv & X)]; right; [exists w; split; [left|]; auto|exists v; split; [right|]; auto].
        ++ discriminate.
        ++ intros q v [<-|I] Dq; [|eauto]. rewrite D in Dq. injection Dq as <-. fold u. lra.
    + destruct (IH cur) as [A B]. split.
      * intros E. destruct (A E) as [A1 A2]. split; auto. intros i [<-|I]; auto.
      * intros x i E. destruct (B x i E) as (B1 & B2 & B3). split; [|split; [exact B2|]].
        -- destruct B1 as [B1|(v & I & Dv & X)]; [auto|]. right. exists v. split; [right|]; auto.
        -- intros q v [<-|I] Dq; [congruence|eauto].
Qed.
Lemma scan_some k dist l x i : scan_times k dist l = Some (x, i) -> exists w, In i l /\ dist i = Some w /\ x = get_disutility k (inject_Z i) w /\
  forall j v, In j l -> dist j = Some v -> x <= get_disutility k (inject_Z j) v.
Proof.
  intros E. destruct (scan_gen k dist l None) as [_ B]. destruct (B x i E) as ([B1|(w & I & D & X)] & _ & B3); [discriminate|].
  exists w. auto.
Qed.
Lemma scan_none k dist l : scan_times k dist l = None -> forall i, In i l -> dist i = None.
Proof. intros E. destruct (scan_gen k dist l None) as [A _]. exact (proj2 (A E)). Qed.
Lemma get_disutility_spec k i w : disutility k i w (get_disutility k i w).
Proof.
  unfold disutility, get_disutility. destruct (Qle_bool (target k) (i + w)) eqn:E.
  - apply Qle_bool_iff in E. left. split; auto. reflexivity.
  - right. split; [|reflexivity]. destruct (Qlt_le_dec (i + w) (target k)) as [L|L]; [lra|]. apply Qle_bool_iff in L. congruence.
Qed.
Lemma disutility_eq k i w x y : disutility k i w x -> disutility k i w y -> x == y.
Proof.
  intros [[A B]|[A B]] [[C D]|[C D]]; rewrite B, D; try lra; assert (target k == i + w) as -> by lra; ring.
Qed.
Lemma disutility_ext k i w w' x : w == w' -> disutility k i w x -> disutility k i w' x.
Proof. intros E [[A B]|[A B]]; [left|right]; rewrite <- E; auto. Qed.
Lemma disutility_mono k i w w' x x' : 0 <= vot k + late k -> early k <= vot k -> w <= w' -> disutility k i w x -> disutility k i w' x' -> x <= x'.
Proof. intros V Ea W [[A B]|[A B]] [[C D]|[C D]]; rewrite B, D; nra. Qed.
