(** Proofs for cycle elimination, normalisation and the route draw. *)
From Verif Require Import Base Base_lemmas Model_Num Proof_Num Model_Graph Spec_Graph Proof_Graph Spec_SP Model_Path Spec_Path.

Lemma subseq_refl {A} (l : list A) : subseq l l.
Proof. induction l; constructor; auto. Qed.
Lemma subseq_skipn {A} k : forall (l l' : list A), subseq l (skipn k l') -> subseq l l'.
Proof. induction k as [|k IH]; intros l [|x l'] H; simpl in H; auto. constructor. now apply IH. Qed.
Lemma subseq_In {A} (l l' : list A) : subseq l l' -> forall x, In x l -> In x l'.
Proof. induction 1; simpl; intros y; intuition. Qed.

Lemma last_occ_spec x l : In x l -> (last_occ x l < length l)%nat /\ nth (last_occ x l) l 0 = x /\ ~ In x (skipn (S (last_occ x l)) l).
Proof.
  induction l as [|y l IH]; [intros []|]. intros H. cbn [last_occ]. destruct (memb x l) eqn:E.
  - apply memb_In in E. destruct (IH E) as (H1 & H2 & H3). simpl. repeat split; auto. lia.
  - apply memb_false in E. destruct H as [->|H]; [|contradiction]. simpl. repeat split; auto. lia.
Qed.
Lemma last_occ_ge x l k : (k < length l)%nat -> nth k l 0 = x -> (k <= last_occ x l)%nat.
Proof.
  revert k. induction l as [|y l IH]; intros k Hk E; simpl in *; [lia|]. destruct k as [|k]; [lia|].
  assert (In x l) by (rewrite <- E; apply nth_In; lia). apply memb_In in H. rewrite H. specialize (IH k ltac:(lia) E). lia.
Qed.

(** the loop, seen as recursion on the remaining path *)
Inductive cut : list Z -> list Z -> list Z -> list Z -> Prop :=
| cut_end x rest links : skipn (S (last_occ x (x :: rest))) (x :: rest) = [] -> cut (x :: rest) links [x] []
| cut_more x rest links nodes' ns ls : nodes' = skipn (S (last_occ x (x :: rest))) (x :: rest) -> nodes' <> [] ->
    cut nodes' (skipn (S (last_occ x (x :: rest))) links) ns ls ->
    cut (x :: rest) links (x :: ns) (nth (last_occ x (x :: rest)) links 0 :: ls).

Lemma skipn_nth {A} (d : A) k : forall l, (k < length l)%nat -> skipn k l = nth k l d :: skipn (S k) l.
Proof. induction k as [|k IH]; intros [|x l] H; simpl in *; try lia; auto. apply IH. lia. Qed.
Lemma visits_skipn g : forall k u ls ns, visits g u ls ns -> (k < length ns)%nat -> visits g (nth k ns 0) (skipn k ls) (skipn k ns).
Proof.
  induction k as [|k IH]; intros u ls ns V Hk.
  - inversion V; subst; exact V.
  - inversion V as [|? l w ls' ns' E V']; subst; simpl in Hk; [lia|]. simpl. apply IH with w; [exact V'|lia].
Qed.
Lemma visits_len g u ls ns : visits g u ls ns -> length ns = S (length ls).
Proof. induction 1; simpl; congruence. Qed.
Lemma visits_head g u ls ns : visits g u ls ns -> exists ns', ns = u :: ns'.
Proof. intros V. inversion V; subst; eauto. Qed.
Lemma visits_last_nth g u ls ns : visits g u ls ns -> route g u ls (last ns 0).
Proof.
  induction 1 as [u|u l w ls ns E V IH]; [constructor|]. econstructor; [exact E|].
  destruct (visits_head _ _ _ _ V) as (ns' & ->). exact IH.
Qed.

Lemma last_skipn {A} (d : A) k : forall l, (k < length l)%nat -> last (skipn k l) d = last l d.
Proof.
  induction k as [|k IH]; intros [|x l] H; simpl in *; try lia; auto. rewrite IH by lia. destruct l; [simpl in H; lia|reflexivity].
Qed.
Lemma cut_props nodes links ns ls : cut nodes links ns ls -> NoDup ns /\ subseq ns nodes /\
  (length links = pred (length nodes) -> subseq ls links) /\ last ns 0 = last nodes 0 /\ length ns = S (length ls) /\
  forall g u, visits g u links nodes -> visits g u ls ns.
Proof.
  induction 1 as [x rest links E|x rest links nodes' ns ls En Hne Hc IH].
  - destruct (last_occ_spec x (x :: rest) (or_introl eq_refl)) as (H1 & H2 & H3). set (j := last_occ x (x :: rest)) in *.
    split; [constructor; [intros []|constructor]|]. split; [constructor; constructor|]. split; [constructor|].
    split; [|split; [reflexivity|]].
    + rewrite <- (last_skipn 0 j (x :: rest)) by exact H1. rewrite (skipn_nth 0 j) by exact H1. rewrite E, H2. reflexivity.
    + intros g u V. destruct (visits_head _ _ _ _ V) as (ns' & E'). injection E' as -> _. constructor.
  - destruct (last_occ_spec x (x :: rest) (or_introl eq_refl)) as (H1 & H2 & H3). set (j := last_occ x (x :: rest)) in *.
    destruct IH as (I1 & I2 & I3 & I4 & I5 & I6).
    assert (Hj : (S j < length (x :: rest))%nat).
    { destruct (le_lt_dec (length (x :: rest)) (S j)); [|assumption]. exfalso. apply Hne. rewrite En. now apply skipn_all2. }
    split.
    { constructor; [|exact I1]. intros C. apply (subseq_In _ _ I2) in C. rewrite En in C. contradiction. }
    split. { constructor. rewrite En in I2. change (skipn (S j) (x :: rest)) with (skipn j rest) in I2. eapply subseq_skipn; eauto. }
    split.
    { intros HL. assert (Hlj : (j < length links)%nat) by lia. apply (subseq_skipn j). rewrite (skipn_nth 0 j links) by exact Hlj.
      constructor. apply I3. rewrite En, !skipn_length. lia. }
    split.
    { assert (Hns : ns <> []) by (destruct ns; [simpl in I5; lia|discriminate]).
      transitivity (last ns 0); [destruct ns; [contradiction|reflexivity]|]. rewrite I4, En. apply last_skipn. exact Hj. }
    split; [simpl; lia|]. intros g u V.
    destruct (visits_head _ _ _ _ V) as (ns' & E'). injection E' as -> _.
    pose proof (visits_len _ _ _ _ V) as HL. pose proof (visits_skipn g j u links _ V H1) as Vj. rewrite H2 in Vj.
    rewrite (skipn_nth 0 j (u :: rest)) in Vj by exact H1. rewrite (skipn_nth 0 j links) in Vj by lia. rewrite H2 in Vj.
    inversion Vj as [|? ? w ? ? E V']; subst. econstructor; [exact E|].
    apply I6. exact V'.
Qed.

Lemma skip_range nodes flg nr lr : forall m i, (forall k, (i <= k < i + m)%nat -> nr k = false /\ (0 < k)%nat /\ lr (k - 1)%nat = false) ->
  foldM (elim_step nodes) (flg, (nr, lr)) (seq i m) = Ok (flg, (nr, lr)).
Proof.
  induction m as [|m IH]; intros i H; [reflexivity|]. cbn [seq foldM]. destruct (H i ltac:(lia)) as (H1 & H2 & H3).
  unfold elim_step at 1. rewrite H1, H3. destruct (Nat.ltb_spec 0 i); [|lia]. cbn [guard andb negb bind]. apply IH. intros k Hk. apply H. lia.
Qed.
Lemma keep_ext f f' : forall l i, (forall k, (i <= k)%nat -> f k = f' k) -> keep f i l = keep f' i l.
Proof.
  induction l as [|x l IH]; intros i H; simpl; [reflexivity|]. rewrite (H i (Nat.le_refl i)), (IH (S i)) by (intros; apply H; lia). reflexivity.
Qed.
Lemma keep_skip f : forall m i l, (m <= length l)%nat -> (forall k, (i <= k < i + m)%nat -> f k = false) -> keep f i l = keep f (i + m) (skipn m l).
Proof.
  induction m as [|m IH]; intros i l Hm H; [now rewrite Nat.add_0_r|]. destruct l as [|x l]; [simpl in Hm; lia|].
  cbn [keep skipn]. rewrite (H i ltac:(lia)), (IH (S i)); [f_equal; lia|simpl in Hm; lia|intros; apply H; lia].
Qed.
Lemma keep_all f : forall l i, (forall k, (i <= k)%nat -> f k = true) -> keep f i l = l.
Proof. induction l as [|x l IH]; intros i H; simpl; [reflexivity|]. rewrite (H i) by lia. rewrite IH; [reflexivity|intros; apply H; lia]. Qed.

Lemma last_occ_skipn x i : forall l, (i <= last_occ x l)%nat -> In x l -> (i < length l)%nat -> In x (skipn i l) /\ last_occ x (skipn i l) = (last_occ x l - i)%nat.
Proof.
  induction i as [|i IH]; intros l H Hx Hl; [simpl; split; [exact Hx|lia]|]. destruct l as [|y l]; [simpl in Hl; lia|].
  cbn [last_occ] in *. destruct (memb x l) eqn:E; [|lia]. apply memb_In in E. simpl in Hl. cbn [skipn].
  destruct (IH l ltac:(lia) E ltac:(lia)) as [H1 H2]. split; [exact H1|]. lia.
Qed.

Lemma skipn_skipn' {A} (l : list A) i j : skipn i (skipn j l) = skipn (j + i) l.
Proof. revert l. induction j as [|j IH]; intros l; [reflexivity|]. destruct l as [|x l]; [simpl; now rewrite skipn_nil|]. simpl. apply IH. Qed.

Lemma nth_skipn' (d : Z) i : forall links j, (i <= j)%nat -> nth (j - i) (skipn i links) d = nth j links d.
Proof.
  induction i as [|i IH]; intros links j H; [now rewrite Nat.sub_0_r|].
  destruct links as [|y links]; [simpl; destruct (j - S i)%nat, j; reflexivity|]. destruct j as [|j]; [lia|]. simpl. apply IH. lia.
Qed.

Lemma elim_loop nodes links : length nodes = S (length links) ->
  forall m i flg nr lr, m = (length nodes - i)%nat -> (i < length nodes)%nat ->
  (forall k, (i <= k)%nat -> nr k = true /\ lr k = true) ->
  exists flg' nr' lr' ns ls, foldM (elim_step nodes) (flg, (nr, lr)) (seq i (length nodes - 1 - i)) = Ok (flg', (nr', lr')) /\
    (forall k, (k < i)%nat -> nr' k = nr k /\ lr' k = lr k) /\
    cut (skipn i nodes) (skipn i links) ns ls /\ keep nr' i (skipn i nodes) = ns /\ keep lr' i (skipn i links) = ls /\
    (flg' = false -> flg = false /\ forall k, nr' k = nr k /\ lr' k = lr k).
Proof.
  intros HL m. induction m as [m IHm] using lt_wf_ind. intros i flg nr lr Em Hi Hf.
  set (n := length nodes) in *. set (x := nth i nodes 0).
  assert (Hxin : In x nodes) by (apply nth_In; exact Hi).
  set (j := last_occ x nodes). assert (Hij : (i <= j)%nat) by (apply last_occ_ge; [exact Hi|reflexivity]).
  destruct (last_occ_spec x nodes Hxin) as (Hjn & Hjx & _). fold j in Hjn, Hjx. fold n in Hjn.
  destruct (last_occ_skipn x i nodes Hij Hxin Hi) as (_ & Elo). fold j in Elo.
  assert (Esk : skipn i nodes = x :: skipn (S i) nodes) by (apply skipn_nth; exact Hi).
  (* state after the iteration i (when it takes place) *)
  set (nr1 := fun k => if (i + 1 <=? k)%nat && (k <? j + 1)%nat then false else nr k).
  set (lr1 := fun k => if (i <=? k)%nat && (k <? j)%nat then false else lr k).
  set (flg1 := if (i + 1 <=? j)%nat then true else flg).
  assert (Hstep : exists nr2 lr2, elim_step nodes (flg, (nr, lr)) i = Ok (flg1, (nr2, lr2)) /\ (forall k, nr2 k = nr1 k /\ lr2 k = lr1 k) /\
                   (flg1 = false -> forall k, nr2 k = nr k /\ lr2 k = lr k)).
  { unfold elim_step. rewrite (proj1 (Hf i (Nat.le_refl i))). fold x. fold j. unfold flg1. destruct (Nat.leb_spec (i + 1) j).
    - eexists _, _. split; [reflexivity|]. split; [intros; split; reflexivity|discriminate].
    - exists nr, lr. split; [reflexivity|]. split; [|auto]. intros k. unfold nr1, lr1.
      destruct (Nat.leb_spec (i + 1) k), (Nat.ltb_spec k (j + 1)), (Nat.leb_spec i k), (Nat.ltb_spec k j); cbn [andb]; auto; lia. }
  destruct Hstep as (nr2 & lr2 & Estep & H2 & H2f).
  assert (Hflag : forall k, nr2 k = (if (i + 1 <=? k)%nat && (k <? j + 1)%nat then false else nr k) /\
                            lr2 k = (if (i <=? k)%nat && (k <? j)%nat then false else lr k)) by exact H2.
  assert (Hnr_i : nr2 i = true). { destruct (Hflag i) as [-> _]. destruct (Nat.leb_spec (i + 1) i); [lia|]. cbn. apply Hf. lia. }
  assert (Hnr_mid : forall k, (i < k <= j)%nat -> nr2 k = false /\ lr2 (k - 1)%nat = false).
  { intros k Hk. destruct (Hflag k) as [-> _]. destruct (Hflag (k - 1)%nat) as [_ ->].
    destruct (Nat.leb_spec (i + 1) k), (Nat.ltb_spec k (j + 1)), (Nat.leb_spec i (k - 1)), (Nat.ltb_spec (k - 1) j); try lia; auto. }
  assert (Hfresh : forall k, (j < k)%nat -> nr2 k = true /\ lr2 k = true).
  { intros k Hk. destruct (Hflag k) as [-> ->]. destruct (Nat.ltb_spec k (j + 1)), (Nat.ltb_spec k j); try lia. rewrite !andb_false_r. apply Hf. lia. }
  assert (Hlr_j : lr2 j = true). { destruct (Hflag j) as [_ ->]. destruct (Nat.ltb_spec j j); [lia|]. rewrite andb_false_r. apply Hf. lia. }
  assert (Hbelow : forall k, (k < i)%nat -> nr2 k = nr k /\ lr2 k = lr k).
  { intros k Hk. destruct (Hflag k) as [-> ->]. destruct (Nat.leb_spec (i + 1) k), (Nat.leb_spec i k); try lia; auto. }
  destruct (Nat.eq_dec j (n - 1)) as [Ej|Nj].
  - (* nothing left after j *)
    assert (Hcut : cut (skipn i nodes) (skipn i links) [x] []).
    { rewrite Esk. apply cut_end. rewrite <- Esk, Elo, skipn_skipn'. apply skipn_all2. fold n. lia. }
    assert (Hkn : keep nr2 i (skipn i nodes) = [x]).
    { rewrite Esk. cbn [keep]. rewrite Hnr_i. f_equal.
      rewrite (keep_skip nr2 (n - S i) (S i)); [|rewrite skipn_length; fold n; lia|intros k Hk; apply Hnr_mid; lia].
      rewrite skipn_skipn', skipn_all2; [reflexivity|fold n; lia]. }
    assert (Hkl : keep lr2 i (skipn i links) = []).
    { rewrite (keep_skip lr2 (n - 1 - i) i); [|rewrite skipn_length; lia|intros k Hk; replace k with (S k - 1)%nat by lia; apply Hnr_mid; lia].
      rewrite skipn_skipn', skipn_all2; [reflexivity|lia]. }
    exists (if (n - 1 - i =? 0)%nat then flg else flg1), (if (n - 1 - i =? 0)%nat then nr else nr2), (if (n - 1 - i =? 0)%nat then lr else lr2), [x], [].
    destruct (n - 1 - i)%nat as [|q] eqn:Eq.
    + cbn [Nat.eqb seq foldM]. split; [reflexivity|]. split; [auto|]. split; [exact Hcut|]. split; [|split; [|auto]].
      * rewrite (keep_ext nr nr2); [exact Hkn|]. intros k Hk. destruct (Hflag k) as [-> _]. destruct (Nat.leb_spec (i + 1) k), (Nat.ltb_spec k (j + 1)); cbn; auto. lia.
      * rewrite (keep_ext lr lr2); [exact Hkl|]. intros k Hk. destruct (Hflag k) as [_ ->]. destruct (Nat.leb_spec i k), (Nat.ltb_spec k j); cbn; auto. lia.
    + cbn [Nat.eqb seq foldM]. rewrite Estep. cbn [bind]. rewrite skip_range.
      * split; [reflexivity|]. split; [exact Hbelow|]. split; [exact Hcut|]. split; [exact Hkn|]. split; [exact Hkl|].
        intros E. split; [|apply H2f; exact E]. unfold flg1 in E. destruct (i + 1 <=? j)%nat; [discriminate|exact E].
      * intros k Hk. destruct (Hnr_mid k ltac:(lia)). repeat split; auto. lia.
  - (* continue at j+1 *)
    destruct (IHm (n - S j)%nat ltac:(lia) (S j) flg1 nr2 lr2 eq_refl ltac:(lia) ltac:(intros; apply Hfresh; lia))
      as (flg' & nr' & lr' & ns & ls & E & Hb & Hc & Hkn & Hkl & Hfl).
    exists flg', nr', lr', (x :: ns), (nth j links 0 :: ls).
    replace (n - 1 - i)%nat with (S ((j - i) + (n - 1 - S j)))%nat by lia. cbn [seq foldM]. rewrite Estep. cbn [bind].
    rewrite seq_app, foldM_app. replace (S i + (j - i))%nat with (S j) by lia.
    rewrite skip_range by (intros k Hk; destruct (Hnr_mid k ltac:(lia)); repeat split; auto; lia). cbn [bind].
    split; [exact E|]. split.
    { intros k Hk. destruct (Hb k ltac:(lia)) as [-> ->]. apply Hbelow. exact Hk. }
    assert (Hnth : nth (last_occ x (x :: skipn (S i) nodes)) (skipn i links) 0 = nth j links 0).
    { rewrite <- Esk, Elo. now apply nth_skipn'. }
    split.
    { rewrite Esk, <- Hnth. eapply cut_more; [reflexivity| |].
      - rewrite <- Esk, Elo, skipn_skipn'. intros C. apply (f_equal (@length Z)) in C. rewrite skipn_length in C. fold n in C. simpl in C. lia.
      - rewrite <- Esk, Elo, !skipn_skipn'. replace (i + S (j - i))%nat with (S j) by lia. exact Hc. }
    split; [|split].
    { rewrite Esk. cbn [keep]. destruct (Hb i ltac:(lia)) as [-> _]. rewrite Hnr_i. f_equal.
      rewrite (keep_skip nr' (j - i) (S i)).
      - rewrite skipn_skipn'. replace (S i + (j - i))%nat with (S j) by lia. exact Hkn.
      - rewrite skipn_length. fold n. lia.
      - intros k Hk. destruct (Hb k ltac:(lia)) as [-> _]. apply Hnr_mid. lia. }
    { rewrite (keep_skip lr' (j - i) i).
      - rewrite skipn_skipn'. replace (i + (j - i))%nat with j by lia. rewrite (skipn_nth 0 j links) by lia. cbn [keep].
        destruct (Hb j ltac:(lia)) as [_ ->]. rewrite Hlr_j. f_equal. exact Hkl.
      - rewrite skipn_length. lia.
      - intros k Hk. destruct (Hb k ltac:(lia)) as [_ ->]. replace k with (S k - 1)%nat by lia. apply Hnr_mid. lia. }
    { intros Ef. destruct (Hfl Ef) as (Ef1 & Hfk). split.
      - unfold flg1 in Ef1. destruct (i + 1 <=? j)%nat; [discriminate|exact Ef1].
      - intros k. destruct (Hfk k) as [-> ->]. now apply H2f. }
Qed.

Lemma eliminate_ok nodes links : length nodes = S (length links) ->
  exists ns ls, eliminate_cycles nodes links = Ok (ns, ls) /\ cut nodes links ns ls.
Proof.
  intros HL. unfold eliminate_cycles. rewrite HL, Nat.eqb_refl. cbn [guard bind]. rewrite <- HL.
  destruct (elim_loop nodes links HL (length nodes) 0 false (fun _ => true) (fun _ => true)) as (flg & nr & lr & ns & ls & E & _ & Hc & Hn & Hl & Hf).
  { lia. } { lia. } { auto. }
  rewrite Nat.sub_0_r in E. rewrite E. cbn [bind]. cbn [skipn] in *.
  assert (Er : (if flg then (keep nr 0 nodes, keep lr 0 links) else (nodes, links)) = (ns, ls)).
  { destruct flg; [congruence|]. destruct (Hf eq_refl) as (_ & Hk). rewrite <- Hn, <- Hl, !keep_all; auto; intros; apply Hk. }
  rewrite Er. cbn [fst snd]. destruct (cut_props _ _ _ _ Hc) as (_ & _ & _ & _ & HLn & _). rewrite HLn, Nat.eqb_refl. cbn [guard bind].
  exists ns, ls. auto.
Qed.
Lemma cut_NoDup nodes links ns ls : cut nodes links ns ls -> NoDup nodes -> length nodes = S (length links) -> ns = nodes /\ ls = links.
Proof.
  induction 1 as [x rest links E|x rest links nodes' ns ls En Hne Hc IH]; intros N HL; inversion_clear N as [|? ? Nx Nd];
  apply memb_false in Nx; cbn [last_occ] in *; rewrite Nx in *; cbn [skipn] in *.
  - subst rest. destruct links; [auto|simpl in HL; lia].
  - subst nodes'. destruct links as [|l links]; [destruct rest; [contradiction|simpl in HL; lia]|]. simpl in HL.
    destruct (IH Nd ltac:(simpl; lia)) as [-> ->]. auto.
Qed.

(** ** shares *)
Local Open Scope Q_scope.
Lemma fold_plus (ps : list Q) : forall t, fold_left (fun t p => t + p) ps t == t + sumQ ps.
Proof. induction ps as [|p ps IH]; intros t; simpl; [lra|]. rewrite IH. lra. Qed.
Lemma sumQ_nonneg ps : (forall p, In p ps -> 0 <= p) -> 0 <= sumQ ps.
Proof. induction ps as [|p ps IH]; simpl; intros H; [lra|]. pose proof (H p (or_introl eq_refl)). assert (0 <= sumQ ps) by (apply IH; auto). lra. Qed.
Lemma sumQ_zero ps : (forall p, In p ps -> 0 <= p) -> sumQ ps == 0 -> forall p, In p ps -> p == 0.
Proof.
  induction ps as [|q ps IH]; simpl; intros H E p Hp; [tauto|]. pose proof (H q (or_introl eq_refl)).
  assert (0 <= sumQ ps) by (apply sumQ_nonneg; auto).
  assert (sumQ ps == 0) by lra. assert (q == 0) by lra. destruct Hp as [<-|Hp]; [assumption|]. apply IH; auto.
Qed.
Lemma sumQ_div ps k : ~ k == 0 -> sumQ (map (fun p => p / k) ps) == sumQ ps / k.
Proof. intros Hk. induction ps as [|p ps IH]; simpl; [field; exact Hk|]. rewrite IH. field. exact Hk. Qed.
Lemma sumQ_const {A} (l : list A) k : sumQ (map (fun _ => k) l) == inject_Z (Z.of_nat (length l)) * k.
Proof.
  induction l as [|x l IH]; [simpl; change (inject_Z 0) with 0; lra|]. cbn [map sumQ fold_right length]. fold (sumQ (map (fun _ => k) l)). rewrite IH, Nat2Z.inj_succ, <- Z.add_1_r, inject_Z_plus.
  change (inject_Z 1) with 1. lra.
Qed.
Lemma normalize_ok ps : (forall p, In p ps -> 0 <= p) -> normalize_p ps =
  Ok (if Qeq_bool (fold_left (fun t p => t + (p - 0)) ps 0) 0 then map (fun _ => 1 / inject_Z (Z.of_nat (length ps))) ps
      else map (fun p => p / fold_left (fun t p => t + p) ps 0) ps).
Proof.
  intros H. unfold normalize_p.
  assert (E : existsb (fun p => Qltb p 0) ps = false).
  { destruct (existsb _ ps) eqn:E; [|reflexivity]. apply existsb_exists in E. destruct E as (p & Hp & Hl). specialize (H p Hp).
    destruct (Qltb_spec p 0); [lra|discriminate]. }
  rewrite E.
  assert (Em : fold_left (fun m p => if Qltb p m then p else m) ps 0 = 0).
  { clear E. induction ps as [|p ps IH]; [reflexivity|]. simpl. pose proof (H p (or_introl eq_refl)).
    destruct (Qltb_spec p 0); [lra|]. apply IH. intros; apply H; now right. }
  rewrite Em. destruct (Qeq_bool _ 0); reflexivity.
Qed.
Lemma fold_minus0 ps : forall t, fold_left (fun t p => t + (p - 0)) ps t == t + sumQ ps.
Proof. induction ps as [|p ps IH]; intros t; simpl; [lra|]. rewrite IH. lra. Qed.

Lemma draw_ok ps : forall r, (forall p, In p ps -> 0 <= p) -> ps <> [] -> 0 <= r -> r <= sumQ ps ->
  exists i, draw ps r = Ok i /\ (i < length ps)%nat /\ (0 < r -> 0 < nth i ps 0).
Proof.
  induction ps as [|p ps IH]; intros r Hp Hne H0 Hr; [contradiction|]. cbn [draw].
  pose proof (Hp p (or_introl eq_refl)) as Hpp. unfold approx_lt.
  destruct (Qltb_spec (p + tol * Qmax (Qabs p) (Qabs r)) r) as [E|E]; cbn [negb].
  - assert (Hm : 0 <= tol * Qmax (Qabs p) (Qabs r)).
    { apply Qmult_le_0_compat; [unfold tol; lra|]. pose proof (Q.le_max_l (Qabs p) (Qabs r)). pose proof (Qabs_nonneg p). lra. }
    simpl in Hr. destruct ps as [|p2 ps]; [simpl in Hr; lra|].
    destruct (IH (r - p)) as (i & Ei & Hi & Hz); [intros; apply Hp; now right|discriminate|lra|lra|].
    rewrite Ei. cbn [bind]. exists (S i). split; [reflexivity|]. split; [simpl in *; lia|]. intros _. apply Hz. lra.
  - exists 0%nat. split; [reflexivity|]. split; [simpl; lia|]. intros Hpos. simpl.
    destruct (Qlt_le_dec 0 p); [assumption|]. exfalso. assert (Ep : p == 0) by lra.
    apply E. rewrite Ep. rewrite (Qabs_pos r) by lra. change (Qabs 0) with 0. rewrite Q.max_r by lra. unfold tol. lra.
Qed.

Lemma draw_robust d e ps : 0 < d -> 0 <= e -> e <= tol * d -> forall r, (forall p, In p ps -> p == 0 \/ d <= p) ->
  (exists p, In p ps /\ d <= p) -> r <= sumQ ps + e -> exists i, draw ps r = Ok i /\ (i < length ps)%nat.
Proof.
  intros Hd He Hed. induction ps as [|p ps IH]; intros r Hp (q & Hq & Hqd) Hr; [destruct Hq|]. cbn [draw].
  unfold approx_lt. destruct (Qltb_spec (p + tol * Qmax (Qabs p) (Qabs r)) r) as [E|E]; cbn [negb].
  2: { exists 0%nat. split; [reflexivity|simpl; lia]. }
  assert (Hex : exists p', In p' ps /\ d <= p').
  { destruct Hq as [<-|Hq]; [|eauto]. destruct (existsb (fun x => Qle_bool d x) ps) eqn:Ex.
    - apply existsb_exists in Ex. destruct Ex as (x & Hx & Hle). apply Qle_bool_iff in Hle. eauto.
    - exfalso. assert (Hz : sumQ ps == 0).
      { assert (forall x, In x ps -> x == 0).
        { intros x Hx. destruct (Hp x (or_intror Hx)) as [Hz|Hz]; [exact Hz|]. exfalso. assert (existsb (fun x => Qle_bool d x) ps = true); [|congruence].
          apply existsb_exists. exists x. split; [exact Hx|]. now apply Qle_bool_iff. }
        clear - H. induction ps as [|x ps IH]; simpl; [lra|]. rewrite (H x (or_introl eq_refl)), IH; [lra|]. intros; apply H; now right. }
      simpl in Hr. pose proof (Q.le_max_l (Qabs p) (Qabs r)). pose proof (Qle_Qabs p). unfold tol in *. lra. }
  destruct (IH (r - p)) as (i & Ei & Hi); [intros; apply Hp; now right|exact Hex|simpl in Hr; lra|].
  rewrite Ei. cbn [bind]. exists (S i). split; [reflexivity|simpl; lia].
Qed.
