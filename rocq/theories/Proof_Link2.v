(** Traversal times on PQ and CTM links, cell occupancy, LQ density. *)
From Verif Require Import Base Base_lemmas Model_Num Proof_Num Spec_Path Proof_Path Model_Link Spec_Link Proof_Link.

(** ** PQ traversal *)
Definition pq_of (l : link) (m : Z) (q : list (Z * Z)) : Prop := exists vol, l_body l = BPq m q vol.

Lemma pq_interval l arr l' m q : interval l arr l' -> pq_of l m q ->
  exists k rest, subseq rest (l_fin l) /\ (k <= length (l_in l ++ arr))%nat /\
    l_in l' = skipn k (l_in l ++ arr) /\
    let q1 := q ++ map (fun v => (v, 0)) (firstn k (l_in l ++ arr)) in
    pq_of l' m (fst (pq_scan m q1)) /\ l_fin l' = rest ++ snd (pq_scan m q1).
Proof.
  intros (rest & r & hn & l1 & Hs & _ & E1 & E2) (vol & Hb).
  unfold link_clear, offered in E1. simpl in E1. rewrite Hb in E1. unfold pq_clear in E1. simpl in E1. injection E1 as <-.
  unfold link_evolve in E2. simpl in E2. injection E2 as <-. simpl.
  set (n := Z.to_nat (Z.min (Zlen (l_in l ++ arr)) (trunc (pq_supply (l_par l) * p_fs (l_par l))))).
  exists n, rest. split; [exact Hs|]. split; [unfold n, Zlen; lia|]. split; [reflexivity|]. split; [eexists; reflexivity|reflexivity].
Qed.

Lemma NoDup_fst_inj (q : list (Z * Z)) v s s' : NoDup (map fst q) -> In (v, s) q -> In (v, s') q -> s = s'.
Proof.
  induction q as [|[w u] q IH]; simpl; intros N H H'; [contradiction|]. inversion N; subst.
  destruct H as [H|H]; destruct H' as [H'|H']; try congruence.
  - injection H as -> ->. exfalso. apply H2. apply in_map_iff. exists (v, s'). auto.
  - injection H' as -> ->. exfalso. apply H2. apply in_map_iff. exists (v, s). auto.
  - auto.
Qed.

(** follow an admitted vehicle: after the interval that admits it and [k] more it
    is in the queue with stamp k+1, or has just become ready when k+1 = m *)
Section PQ.
  Variables (N : nat) (s : nat -> link) (arr : nat -> list Z) (m : Z) (q0 : list (Z * Z)).
  Hypothesis H : history N s arr.
  Hypothesis H0 : pq_of (s 0%nat) m [].
  Hypothesis He : on_link (s 0%nat) = [].
  Hypothesis ND : NoDup (arrivals N arr).
  Hypothesis Hm : 1 <= m.

  Lemma pq_all n : (n <= N)%nat -> exists q, pq_of (s n) m q.
  Proof.
    induction n as [|n IH]; intros L; [eauto|].
    destruct IH as [q Hq]; [lia|].
    destruct (pq_interval _ _ _ _ _ (H n ltac:(lia)) Hq) as (k & rest & _ & _ & _ & A & _). eauto.
  Qed.

  Lemma pq_nodup n : (n <= N)%nat -> NoDup (on_link (s n)).
  Proof.
    intros L. destruct H0 as [vol E0].
    assert (Hb : body_inv (l_body (s 0%nat))).
    { rewrite E0. simpl. split; [|intros y []]. intros i j a b _ Ea. destruct i; discriminate. }
    destruct (history_inv n s arr (history_prefix _ _ _ _ H L) Hb He) as (_ & _ & S1).
    eapply subseq_NoDup; [exact S1|]. eapply subseq_NoDup; [apply subseq_arrivals_mono; exact L|exact ND].
  Qed.

  Lemma pq_follow t v : (t < N)%nat -> In v (l_in (s t) ++ arr t) -> ~ In v (l_in (s (S t))) ->
    forall k, (t + k < N)%nat ->
      (Z.of_nat k + 1 < m -> exists q, pq_of (s (S (t + k))) m q /\ In (v, Z.of_nat k + 1) q) /\
      (Z.of_nat k + 1 = m -> In v (l_fin (s (S (t + k))))).
  Proof.
    intros Lt Hin Hout. induction k as [|k IH]; intros Lk.
    - replace (t + 0)%nat with t by lia.
      destruct (pq_all t ltac:(lia)) as [q Hq].
      destruct (pq_interval _ _ _ _ _ (H t Lt) Hq) as (n & rest & _ & _ & E & A & B). cbv zeta in A, B.
      assert (Hf : In v (firstn n (l_in (s t) ++ arr t))).
      { rewrite <- (firstn_skipn n) in Hin. apply in_app_or in Hin as [Hin|Hin]; [exact Hin|].
        exfalso. apply Hout. rewrite E. exact Hin. }
      assert (Hz : In (v, 0) (q ++ map (fun v => (v, 0)) (firstn n (l_in (s t) ++ arr t)))).
      { apply in_or_app. right. apply in_map_iff. exists v. auto. }
      split; intros Hk.
      + eexists. split; [exact A|]. apply pq_scan_In. exists 0. simpl. repeat split; auto; lia.
      + rewrite B. apply in_or_app. right. apply pq_scan_fin. exists 0. split; [exact Hz|lia].
    - destruct IH as [IH _]; [lia|].
      assert (HS : Z.of_nat k + 1 < m -> exists q, pq_of (s (S (t + k))) m q /\ In (v, Z.of_nat k + 1) q) by exact IH.
      replace (t + S k)%nat with (S (t + k)) by lia.
      split; intros Hk.
      + destruct (HS ltac:(lia)) as (q & Hq & Hv).
        destruct (pq_interval _ _ _ _ _ (H (S (t + k)) ltac:(lia)) Hq) as (n & rest & _ & _ & E & A & B). cbv zeta in A, B.
        eexists. split; [exact A|]. apply pq_scan_In. exists (Z.of_nat k + 1). simpl.
        split; [apply in_or_app; auto|]. lia.
      + destruct (HS ltac:(lia)) as (q & Hq & Hv).
        destruct (pq_interval _ _ _ _ _ (H (S (t + k)) ltac:(lia)) Hq) as (n & rest & _ & _ & E & A & B). cbv zeta in A, B.
        rewrite B. apply in_or_app. right. apply pq_scan_fin. exists (Z.of_nat k + 1). split; [apply in_or_app; auto|lia].
  Qed.

  Lemma pq_not_before t v : (t < N)%nat -> In v (l_in (s t) ++ arr t) -> ~ In v (l_in (s (S t))) ->
    forall k, (t + k < N)%nat -> Z.of_nat k + 1 < m -> ~ In v (l_fin (s (S (t + k)))).
  Proof.
    intros Lt Hin Hout k Lk Hk C.
    destruct (pq_follow t v Lt Hin Hout k Lk) as [A _]. destruct (A Hk) as (q & (vol & Hq) & Hv).
    pose proof (pq_nodup (S (t + k)) ltac:(lia)) as ND'.
    unfold on_link in ND'. rewrite Hq in ND'. simpl in ND'.
    apply NoDup_app_inv in ND' as (_ & _ & D). apply (D v C). apply in_or_app. left.
    apply in_map_iff. exists (v, Z.of_nat k + 1). auto.
  Qed.
End PQ.

(** ** CTM: nobody moves more than one cell per update *)
Lemma shift_In : forall cs os extra j c v, nth_error (shift extra cs os) j = Some c -> In v (c_q c) ->
  (exists c0, nth_error cs j = Some c0 /\ In v (c_q c0)) \/
  (j = 0%nat /\ In v extra) \/
  (exists i c0, j = S i /\ nth_error cs i = Some c0 /\ In v (c_q c0)).
Proof.
  induction cs as [|c cs IH]; intros os extra j d v E Hv; [destruct j; discriminate|].
  destruct os as [|o os]; [destruct j; discriminate|].
  destruct j as [|j]; simpl in E.
  - injection E as <-. simpl in Hv. apply in_app_or in Hv as [Hv|Hv].
    + left. exists c. split; [reflexivity|]. rewrite <- (firstn_skipn (Z.to_nat o)). apply in_or_app. auto.
    + right. left. auto.
  - destruct (IH _ _ _ _ _ E Hv) as [(c0 & A & B)|[(-> & B)|(i & c0 & -> & A & B)]].
    + left. exists c0. auto.
    + right. right. exists 0%nat, c. split; [reflexivity|]. split; [reflexivity|].
      rewrite <- (firstn_skipn (Z.to_nat o)). apply in_or_app. auto.
    + right. right. exists (S i), c0. auto.
Qed.
Lemma last_out_In : forall cs os v, In v (last_out cs os) ->
  exists c, nth_error cs (length cs - 1) = Some c /\ In v (c_q c).
Proof.
  induction cs as [|c cs IH]; intros os v Hv; [contradiction|].
  destruct cs as [|c' cs].
  - destruct os as [|o [|o' os]]; simpl in Hv; try contradiction.
    exists c. split; [reflexivity|]. rewrite <- (firstn_skipn (Z.to_nat o)). apply in_or_app. auto.
  - destruct os as [|o os]; [contradiction|].
    assert (Hv' : In v (last_out (c' :: cs) os)) by exact Hv.
    destruct (IH _ _ Hv') as (d & A & B). exists d. split; [|exact B].
    simpl length in *. replace (S (S (length cs)) - 1)%nat with (S (S (length cs) - 1)) by lia. exact A.
Qed.
Lemma recount_nth f : forall cs j c, nth_error (recount cs f) j = Some c ->
  exists c0, nth_error cs j = Some c0 /\ c_q c = c_q c0.
Proof.
  induction cs as [|c cs IH]; intros j d E; [destruct j; discriminate|].
  destruct cs as [|c' cs].
  - destruct j as [|[|j]]; simpl in E; try discriminate. injection E as <-. exists c. auto.
  - change (recount (c :: c' :: cs) f) with (set_vol c (Zlen (c_q c)) :: recount (c' :: cs) f) in E.
    destruct j as [|j]; simpl in E; [injection E as <-; exists c; auto|]. apply IH. exact E.
Qed.
Lemma shift_length : forall cs os extra, length os = length cs -> length (shift extra cs os) = length cs.
Proof.
  induction cs as [|c cs IH]; intros [|o os] extra E; simpl in *; try lia. rewrite IH; lia.
Qed.
Lemma recount_length f cs : length (recount cs f) = length cs.
Proof. rewrite <- (map_length c_q), recount_map, map_length. reflexivity. Qed.
Lemma F2_length {A B} (R : A -> B -> Prop) l l' : Forall2 R l l' -> length l = length l'.
Proof. induction 1; simpl; congruence. Qed.
Lemma out_vehs_length fs r : forall cs i, length (out_vehs fs r i cs) = length cs.
Proof. intros cs i. pose proof (out_vehs_le fs r cs i) as H. apply F2_length in H. lia. Qed.

Lemma ctm_evolve_In fs r hn cs fin cs' fin' : ctm_evolve fs r hn cs fin = Ok (cs', fin') ->
  length cs' = length cs /\
  (forall v, In v fin' -> In v fin \/ exists c, nth_error cs (length cs - 1) = Some c /\ In v (c_q c)) /\
  (forall j c v, nth_error cs' j = Some c -> In v (c_q c) ->
     (exists c0, nth_error cs j = Some c0 /\ In v (c_q c0)) \/
     (exists i c0, j = S i /\ nth_error cs i = Some c0 /\ In v (c_q c0))).
Proof.
  destruct cs as [|c0 cs]; [unfold ctm_evolve; simpl; discriminate|]. rewrite ctm_evolve_eq. cbv zeta.
  destruct (forallb hn _); [|discriminate]. intros E. apply Ok_pair in E as [-> ->].
  split; [rewrite recount_length, shift_length; [reflexivity|apply out_vehs_length]|]. split.
  - intros v Hv. apply in_app_or in Hv as [Hv|Hv]; [auto|]. right. eapply last_out_In; eauto.
  - intros j c v E Hv. apply recount_nth in E as (d & E & Eq). rewrite Eq in Hv.
    destruct (shift_In _ _ _ _ _ _ E Hv) as [A|[(_ & [])|A]]; [left; exact A|right; exact A].
Qed.

(** vehicle v has not got past cell k-1 *)
Definition before (k : nat) (v : Z) (l : link) : Prop :=
  exists cs, l_body l = BCtm cs /\ ~ In v (l_fin l) /\ ~ In v (l_in l) /\
    forall j c, nth_error cs j = Some c -> In v (c_q c) -> (j < k)%nat.
Definition ncell (l : link) : nat := match l_body l with BCtm cs => length cs | _ => 0%nat end.

Lemma ctm_clear_cells fs cs inc cs' inc' : ctm_clear fs cs inc = Ok (cs', inc') ->
  exists c rest, cs = c :: rest /\ cs' = set_vol (set_q c (c_q c ++ inc)) (Zlen (c_q c ++ inc)) :: rest /\ inc' = [] /\
    ~ (cell_supply fs c * fs < inject_Z (Zlen inc))%Q.
Proof.
  unfold ctm_clear. destruct cs as [|c cs]; [discriminate|].
  destruct (Qltb_spec (cell_supply fs c * fs) (inject_Z (Zlen inc))); simpl; [discriminate|].
  rewrite move_queue_all. simpl. intros [= <- <-]. exists c, cs. auto.
Qed.

Lemma ctm_interval l arr l' cs : interval l arr l' -> l_body l = BCtm cs ->
  exists rest c tl fin', subseq rest (l_fin l) /\ cs = c :: tl /\ l_in l' = [] /\ l_fin l' = fin' /\
    ~ (cell_supply (p_fs (l_par l)) c * p_fs (l_par l) < inject_Z (Zlen (l_in l ++ arr)))%Q /\
    exists r hn cs', draws_ok r /\ l_body l' = BCtm cs' /\
    let c1 := set_vol (set_q c (c_q c ++ l_in l ++ arr)) (Zlen (c_q c ++ l_in l ++ arr)) in
    ctm_evolve (p_fs (l_par l)) r hn (c1 :: tl) rest = Ok (cs', fin').
Proof.
  intros (rest & r & hn & l1 & Hs & Hr & E1 & E2) Hb.
  unfold link_clear, offered in E1. simpl in E1. rewrite Hb in E1.
  destruct (ctm_clear (p_fs (l_par l)) cs (l_in l ++ arr)) as [[cs1 inc1]|] eqn:EC; [|discriminate].
  simpl in E1. injection E1 as <-. apply ctm_clear_cells in EC as (c & tl & -> & -> & -> & Hns).
  unfold link_evolve in E2. simpl l_body in E2. cbv iota in E2. simpl l_par in E2. simpl l_fin in E2.
  destruct (ctm_evolve _ _ _ _ _) as [[cs' fin']|] eqn:EE; [|discriminate].
  simpl in E2. injection E2 as <-. simpl.
  exists rest, c, tl, fin'. repeat (split; [solve [auto]|]). exists r, hn, cs'. auto.
Qed.

Lemma interval_ncell l arr l' : interval l arr l' -> (exists cs, l_body l = BCtm cs) ->
  (exists cs, l_body l' = BCtm cs) /\ ncell l' = ncell l.
Proof.
  intros H (cs & Hb). destruct (ctm_interval _ _ _ _ H Hb) as (rest & c & tl & fin' & _ & -> & _ & _ & _ & r & hn & cs' & _ & Hb' & E).
  cbv zeta in E. apply ctm_evolve_In in E as (L & _). split; [eauto|]. unfold ncell. rewrite Hb, Hb'. exact L.
Qed.

Lemma before_step k v l arr l' : interval l arr l' -> before k v l -> ~ In v arr -> (k < ncell l)%nat ->
  before (S k) v l'.
Proof.
  intros H (cs & Hb & Hf & Hi & Hc) Ha Hk. unfold ncell in Hk. rewrite Hb in Hk.
  destruct (ctm_interval _ _ _ _ H Hb) as (rest & c & tl & fin' & Hs & -> & Hin & Hfin & _ & r & hn & cs' & _ & Hb' & E).
  cbv zeta in E. apply ctm_evolve_In in E as (L & F & C).
  assert (Hc' : forall j d, nth_error (set_vol (set_q c (c_q c ++ l_in l ++ arr)) (Zlen (c_q c ++ l_in l ++ arr)) :: tl) j = Some d ->
            In v (c_q d) -> (j < k)%nat).
  { intros [|j] d E' Hv; simpl in E'.
    - injection E' as <-. simpl in Hv. apply in_app_or in Hv as [Hv|Hv]; [apply (Hc 0%nat c); auto|].
      exfalso. apply in_app_or in Hv as [Hv|Hv]; auto.
    - apply (Hc (S j) d); auto. }
  exists cs'. split; [exact Hb'|]. split; [|split].
  - rewrite Hfin. intros Cv. apply F in Cv as [Cv|(d & Ed & Cv)].
    + apply Hf. eapply subseq_In; eauto.
    + apply Hc' in Ed; auto. simpl in Ed, Hk. lia.
  - rewrite Hin. auto.
  - intros j d Ed Hv. destruct (C j d v Ed Hv) as [(d0 & E0 & V0)|(i & d0 & -> & E0 & V0)]; apply Hc' in E0; auto; lia.
Qed.

(** entering vehicle: after its first interval it is at most in cell 1 *)
Lemma before_enter v l arr l' : interval l arr l' -> (exists cs, l_body l = BCtm cs) ->
  ~ In v (on_link l) -> (1 < ncell l)%nat -> before 2 v l'.
Proof.
  intros H (cs & Hb) Hn Hk. unfold on_link in Hn. rewrite Hb in Hn. unfold ncell in Hk. rewrite Hb in Hk.
  destruct (ctm_interval _ _ _ _ H Hb) as (rest & c & tl & fin' & Hs & -> & Hin & Hfin & _ & r & hn & cs' & _ & Hb' & E).
  cbv zeta in E. apply ctm_evolve_In in E as (L & F & C).
  assert (Hold : forall j d, nth_error (c :: tl) j = Some d -> ~ In v (c_q d)).
  { intros j d E' Hv. apply Hn. apply in_or_app. right. apply in_or_app. left. change (inside (BCtm (c :: tl))) with (concat (rev (map c_q (c :: tl)))).
    apply in_concat. exists (c_q d). split; [|exact Hv]. apply -> in_rev. apply in_map, (nth_error_In _ _ E'). }
  assert (Hc' : forall j d, nth_error (set_vol (set_q c (c_q c ++ l_in l ++ arr)) (Zlen (c_q c ++ l_in l ++ arr)) :: tl) j = Some d ->
            In v (c_q d) -> (j < 1)%nat).
  { intros [|j] d E' Hv; simpl in E'; [lia|]. exfalso. apply (Hold (S j) d); auto. }
  exists cs'. split; [exact Hb'|]. split; [|split].
  - rewrite Hfin. intros Cv. apply F in Cv as [Cv|(d & Ed & Cv)].
    + apply Hn. apply in_or_app. left. eapply subseq_In; eauto.
    + apply Hc' in Ed; auto. simpl in Ed, Hk. lia.
  - rewrite Hin. auto.
  - intros j d Ed Hv. destruct (C j d v Ed Hv) as [(d0 & E0 & V0)|(i & d0 & -> & E0 & V0)]; apply Hc' in E0; auto; lia.
Qed.
