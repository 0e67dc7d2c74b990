(** Proofs about the link models: order, traversal times. *)
From Verif Require Import Base Base_lemmas Model_Num Proof_Num Spec_Path Proof_Path Model_Link Spec_Link.

Lemma Zlen_app {A} (a b : list A) : Zlen (a ++ b) = Zlen a + Zlen b.
Proof. unfold Zlen. rewrite app_length. lia. Qed.
Lemma Zlen_nonneg {A} (a : list A) : 0 <= Zlen a.
Proof. unfold Zlen. lia. Qed.

Lemma move_queue_line a b n a' b' : move_queue a b n = Ok (a', b') -> b' ++ a' = b ++ a.
Proof.
  unfold move_queue. destruct (Zlen a <? n); [discriminate|]. intros [= <- <-].
  rewrite <- app_assoc, firstn_skipn. reflexivity.
Qed.
Lemma move_queue_all a b : move_queue a b (Zlen a) = Ok ([], b ++ a).
Proof.
  unfold move_queue. rewrite Z.ltb_irrefl. unfold Zlen. rewrite Nat2Z.id, firstn_all, skipn_all. reflexivity.
Qed.

(** ** subsequences *)
Lemma subseq_app {A} (a a' b b' : list A) : subseq a a' -> subseq b b' -> subseq (a ++ b) (a' ++ b').
Proof.
  intros H Hb. induction H; simpl.
  - induction l; simpl; [exact Hb|]. constructor. exact IHl.
  - constructor; auto.
  - constructor; auto.
Qed.
Lemma subseq_trans {A} (a b c : list A) : subseq a b -> subseq b c -> subseq a c.
Proof.
  intros H1 H2. revert a H1. induction H2; intros a H1.
  - inversion H1; subst; constructor.
  - inversion H1; subst; constructor; auto.
  - constructor; auto.
Qed.
Lemma subseq_length {A} (a b : list A) : subseq a b -> (length a <= length b)%nat.
Proof. induction 1; simpl; lia. Qed.
Lemma subseq_NoDup {A} (a b : list A) : subseq a b -> NoDup b -> NoDup a.
Proof.
  induction 1; intros N; [constructor| |]; inversion N; subst; auto.
  constructor; auto. intros C. apply H2. eapply subseq_In; eauto.
Qed.

(** ** CTM: explicit result of an update *)
Fixpoint shift (extra : list Z) (cs : list cell) (os : list Z) : list cell :=
  match cs, os with
  | c :: rest, o :: os' =>
      set_q c (skipn (Z.to_nat o) (c_q c) ++ extra) :: shift (firstn (Z.to_nat o) (c_q c)) rest os'
  | _, _ => []
  end.
Fixpoint last_out (cs : list cell) (os : list Z) : list Z :=
  match cs, os with
  | [c], [o] => firstn (Z.to_nat o) (c_q c)
  | _ :: rest, _ :: os' => last_out rest os'
  | _, _ => []
  end.

Lemma firstn_app_le {A} k (a b : list A) : (k <= length a)%nat -> firstn k (a ++ b) = firstn k a.
Proof. intros H. rewrite firstn_app. replace (k - length a)%nat with 0%nat by lia. simpl. apply app_nil_r. Qed.
Lemma skipn_app_le {A} k (a b : list A) : (k <= length a)%nat -> skipn k (a ++ b) = skipn k a ++ b.
Proof. intros H. rewrite skipn_app. replace (k - length a)%nat with 0%nat by lia. reflexivity. Qed.

Lemma move_cells_eq hn : forall cs os extra fin c,
  Forall2 (fun c o => o <= Zlen (c_q c)) (c :: cs) os ->
  move_cells hn (set_q c (c_q c ++ extra) :: cs) os fin =
  if forallb hn (last_out (c :: cs) os)
  then Ok (shift extra (c :: cs) os, fin ++ last_out (c :: cs) os) else Err EThrow.
Proof.
  induction cs as [|c' cs IH]; intros os extra fin c HF; inversion HF as [|? o ? os' Ho HF']; subst.
  - inversion HF'; subst. simpl.
    assert (Hk : (Z.to_nat o <= length (c_q c))%nat) by (unfold Zlen in Ho; lia).
    rewrite Zlen_app. replace (Zlen (c_q c) + Zlen extra <? o) with false
      by (symmetry; apply Z.ltb_ge; pose proof (Zlen_nonneg extra); lia).
    rewrite (firstn_app_le _ _ _ Hk), (skipn_app_le _ _ _ Hk).
    destruct (forallb hn (firstn (Z.to_nat o) (c_q c))); reflexivity.
  - inversion HF' as [|? o' ? os'' Ho' HF'']; subst.
    assert (Hk : (Z.to_nat o <= length (c_q c))%nat) by (unfold Zlen in Ho; lia).
    change (move_cells hn (set_q c (c_q c ++ extra) :: c' :: cs) (o :: o' :: os'') fin)
      with (do m <- move_queue (c_q c ++ extra) (c_q c') o;
            do r <- move_cells hn (set_q c' (snd m) :: cs) (o' :: os'') fin;
            Ok (set_q (set_q c (c_q c ++ extra)) (fst m) :: fst r, snd r)).
    unfold move_queue. rewrite Zlen_app.
    replace (Zlen (c_q c) + Zlen extra <? o) with false
      by (symmetry; apply Z.ltb_ge; pose proof (Zlen_nonneg extra); lia).
    cbn [bind fst snd]. rewrite (firstn_app_le _ _ _ Hk), (skipn_app_le _ _ _ Hk).
    rewrite (IH (o' :: os'') (firstn (Z.to_nat o) (c_q c)) fin c' HF').
    change (last_out (c :: c' :: cs) (o :: o' :: os'')) with (last_out (c' :: cs) (o' :: os'')).
    destruct (forallb hn (last_out (c' :: cs) (o' :: os''))); reflexivity.
Qed.

Lemma set_q_id c : set_q c (c_q c ++ []) = c.
Proof. destruct c; unfold set_q; simpl. rewrite app_nil_r. reflexivity. Qed.

Lemma out_vehs_le fs r : forall cs i, Forall2 (fun c o => o <= Zlen (c_q c)) cs (out_vehs fs r i cs).
Proof.
  induction cs as [|c cs IH]; intros i; [constructor|].
  destruct cs as [|c' cs].
  - simpl. constructor; [lia|constructor].
  - change (out_vehs fs r i (c :: c' :: cs)) with
      (Z.min (Zlen (c_q c)) (rround (r i) (Qmin (cell_demand fs c) (cell_supply fs c') * fs)) :: out_vehs fs r (S i) (c' :: cs)).
    constructor; [lia|apply IH].
Qed.

Lemma ctm_evolve_eq fs r hn c cs fin :
  ctm_evolve fs r hn (c :: cs) fin =
  let os := out_vehs fs r 0 (c :: cs) in
  let fin' := fin ++ last_out (c :: cs) os in
  if forallb hn (last_out (c :: cs) os) then Ok (recount (shift [] (c :: cs) os) fin', fin') else Err EThrow.
Proof.
  unfold ctm_evolve. rewrite <- (set_q_id c) at 1. rewrite (move_cells_eq hn cs _ [] fin c (out_vehs_le _ _ _ _)).
  cbv zeta. destruct (forallb hn (last_out (c :: cs) (out_vehs fs r 0 (c :: cs)))); reflexivity.
Qed.

Definition cline (cs : list cell) : list Z := concat (rev (map c_q cs)).
Lemma cline_cons c cs : cline (c :: cs) = cline cs ++ c_q c.
Proof. unfold cline. simpl. rewrite concat_app. simpl. rewrite app_nil_r. reflexivity. Qed.

Lemma recount_map f cs : map c_q (recount cs f) = map c_q cs.
Proof.
  induction cs as [|c cs IH]; [reflexivity|]. destruct cs; [reflexivity|].
  change (recount (c :: c0 :: cs) f) with (set_vol c (Zlen (c_q c)) :: recount (c0 :: cs) f).
  rewrite !map_cons, IH. reflexivity.
Qed.
Lemma cline_recount f cs : cline (recount cs f) = cline cs.
Proof. unfold cline. rewrite recount_map. reflexivity. Qed.

Lemma shift_line : forall cs os extra, Forall2 (fun c o => o <= Zlen (c_q c)) cs os -> cs <> [] ->
  last_out cs os ++ cline (shift extra cs os) = cline cs ++ extra.
Proof.
  induction cs as [|c cs IH]; intros os extra HF Hne; [contradiction|].
  inversion HF as [|? o ? os' Ho HF']; subst.
  destruct cs as [|c' cs].
  - inversion HF'; subst. simpl. rewrite !cline_cons. simpl.
    rewrite app_assoc, firstn_skipn. reflexivity.
  - assert (E : last_out (c :: c' :: cs) (o :: os') = last_out (c' :: cs) os') by (inversion HF'; subst; reflexivity).
    rewrite E. change (shift extra (c :: c' :: cs) (o :: os')) with
      (set_q c (skipn (Z.to_nat o) (c_q c) ++ extra) :: shift (firstn (Z.to_nat o) (c_q c)) (c' :: cs) os').
    rewrite !(cline_cons _ (shift _ _ _)), (cline_cons c). simpl c_q.
    rewrite !app_assoc. rewrite (IH os' (firstn (Z.to_nat o) (c_q c)) HF'); [|discriminate].
    rewrite <- !app_assoc. f_equal. rewrite app_assoc, firstn_skipn. reflexivity.
Qed.

Lemma ctm_evolve_line fs r hn cs fin cs' fin' : ctm_evolve fs r hn cs fin = Ok (cs', fin') ->
  fin' ++ cline cs' = fin ++ cline cs.
Proof.
  destruct cs as [|c cs]; [unfold ctm_evolve; simpl; discriminate|].
  rewrite ctm_evolve_eq. cbv zeta.
  destruct (forallb hn _); [|discriminate]. intros E. apply Ok_pair in E as [-> ->].
  rewrite cline_recount, <- app_assoc, shift_line; [rewrite app_nil_r; reflexivity|apply out_vehs_le|discriminate].
Qed.

Lemma ctm_clear_line fs cs inc cs' inc' : ctm_clear fs cs inc = Ok (cs', inc') ->
  inc' = [] /\ cline cs' = cline cs ++ inc /\ length cs' = length cs.
Proof.
  unfold ctm_clear. destruct cs as [|c cs]; [discriminate|].
  destruct (negb _); simpl; [|discriminate]. rewrite move_queue_all. simpl. intros [= <- <-].
  split; [reflexivity|]. rewrite !cline_cons. simpl. rewrite app_assoc. auto.
Qed.

(** ** PQ *)
Definition stamps_desc (q : list (Z * Z)) : Prop :=
  forall i j a b, (i <= j)%nat -> nth_error q i = Some a -> nth_error q j = Some b -> snd b <= snd a.

Lemma stamps_tail x q : stamps_desc (x :: q) -> stamps_desc q.
Proof. intros H i j a b L Ea Eb. apply (H (S i) (S j)); auto; lia. Qed.
Lemma stamps_head x q : stamps_desc (x :: q) -> forall y, In y q -> snd y <= snd x.
Proof.
  intros H y Hy. apply In_nth_error in Hy as (n & En). apply (H 0%nat (S n)); auto; lia.
Qed.
Lemma stamps_cons x q : stamps_desc q -> (forall y, In y q -> snd y <= snd x) -> stamps_desc (x :: q).
Proof.
  intros H Hx [|i] [|j] a b L Ea Eb; simpl in *; try lia.
  - injection Ea as <-. injection Eb as <-. lia.
  - injection Ea as <-. apply Hx. eapply nth_error_In; eauto.
  - apply (H i j); auto; lia.
Qed.

Lemma pq_scan_none ms q : (forall y, In y q -> ~ (Z.max 0 (ms - 1) <= snd y)) ->
  pq_scan ms q = (map (fun y => (fst y, snd y + 1)) q, []).
Proof.
  induction q as [|[v s] q IH]; intros H; simpl; [reflexivity|].
  rewrite IH by (intros; apply H; right; auto).
  destruct (Z.leb_spec (Z.max 0 (ms - 1)) s) as [L|L]; [exfalso; apply (H (v, s)); simpl; auto|reflexivity].
Qed.

Lemma pq_scan_line ms q : stamps_desc q -> snd (pq_scan ms q) ++ map fst (fst (pq_scan ms q)) = map fst q.
Proof.
  induction q as [|[v s] q IH]; intros H; simpl; [reflexivity|].
  destruct (Z.leb_spec (Z.max 0 (ms - 1)) s) as [L|L]; simpl.
  - f_equal. apply IH. eapply stamps_tail; eauto.
  - rewrite pq_scan_none.
    + simpl. f_equal. rewrite map_map. reflexivity.
    + intros y Hy. pose proof (stamps_head _ _ H y Hy). simpl in *. lia.
Qed.

Lemma pq_scan_In ms q y : In y (fst (pq_scan ms q)) <->
  exists s, In (fst y, s) q /\ s < Z.max 0 (ms - 1) /\ snd y = s + 1.
Proof.
  induction q as [|[v s] q IH]; simpl.
  - split; [intros []|intros (s & [] & _)].
  - destruct (Z.leb_spec (Z.max 0 (ms - 1)) s) as [L|L]; simpl; rewrite IH; split.
    + intros (s' & A & B & C). exists s'. auto.
    + intros (s' & [E|A] & B & C); [injection E as -> ->; lia|]. exists s'. auto.
    + intros [<-|(s' & A & B & C)]; [exists s; simpl; auto|exists s'; auto].
    + intros (s' & [E|A] & B & C).
      * injection E as E1 E2. left. subst s'. destruct y; simpl in *; subst; reflexivity.
      * right. exists s'. auto.
Qed.
Lemma pq_scan_fin ms q v : In v (snd (pq_scan ms q)) <-> exists s, In (v, s) q /\ Z.max 0 (ms - 1) <= s.
Proof.
  induction q as [|[w s] q IH]; simpl.
  - split; [intros []|intros (s & [] & _)].
  - destruct (Z.leb_spec (Z.max 0 (ms - 1)) s) as [L|L]; simpl; rewrite IH; split.
    + intros [<-|(s' & A & B)]; [exists s; auto|exists s'; auto].
    + intros (s' & [E|A] & B); [injection E as -> ->; auto|right; exists s'; auto].
    + intros (s' & A & B). exists s'; auto.
    + intros (s' & [E|A] & B); [injection E as -> ->; lia|exists s'; auto].
Qed.
Lemma pq_scan_desc ms q : stamps_desc q -> stamps_desc (fst (pq_scan ms q)).
Proof.
  induction q as [|[v s] q IH]; intros H; simpl; [exact H|].
  destruct (Z.leb_spec (Z.max 0 (ms - 1)) s) as [L|L]; simpl.
  - apply IH. eapply stamps_tail; eauto.
  - apply stamps_cons; [apply IH; eapply stamps_tail; eauto|].
    intros y Hy. apply pq_scan_In in Hy as (s' & A & B & C). rewrite C. simpl.
    pose proof (stamps_head _ _ H _ A). simpl in *. lia.
Qed.
Lemma stamps_app_zero q l : stamps_desc q -> (forall y, In y q -> 0 <= snd y) ->
  stamps_desc (q ++ map (fun v => (v, 0)) l).
Proof.
  induction q as [|x q IH]; intros H Hp; simpl.
  - intros i j a b _ Ea Eb. apply nth_error_In in Ea, Eb. apply in_map_iff in Ea as (? & <- & _), Eb as (? & <- & _). simpl. lia.
  - apply stamps_cons; [apply IH; [eapply stamps_tail; eauto|intros; apply Hp; right; auto]|].
    intros y Hy. apply in_app_or in Hy as [Hy|Hy].
    + eapply stamps_head; eauto.
    + apply in_map_iff in Hy as (? & <- & _). simpl. apply Hp. left; auto.
Qed.

(** ** LQ *)
Lemma lq_evolve_line p r q vol fin q' fin' : lq_evolve p r q vol fin = Ok (q', fin') -> fin' ++ q' = fin ++ q.
Proof.
  unfold lq_evolve. destruct (Qltb _ _).
  - intros [= <- <-]. rewrite app_assoc, firstn_skipn. reflexivity.
  - destruct (move_queue q fin _) as [[a b]|] eqn:E; simpl; [|discriminate]. intros [= <- <-].
    eapply move_queue_line; eauto.
Qed.

(** ** all kinds: internal invariant and order preservation *)
Definition body_inv (b : body) : Prop :=
  match b with
  | BPq _ q _ => stamps_desc q /\ (forall y, In y q -> 0 <= snd y)
  | _ => True
  end.

Lemma link_clear_line l l' : link_clear l = Ok l' -> body_inv (l_body l) ->
  body_inv (l_body l') /\ on_link l' = on_link l /\ l_fin l' = l_fin l /\ l_par l' = l_par l /\
  subseq (l_in l') (l_in l) /\ (forall v, In v (l_in l') -> In v (l_in l)).
Proof.
  intros E Hb. assert (Hs : body_inv (l_body l') /\ on_link l' = on_link l /\ l_fin l' = l_fin l /\ l_par l' = l_par l /\
      subseq (l_in l') (l_in l)).
  { unfold link_clear in E. unfold on_link. destruct l as [p inc fin [cs|m q vol|q vol]]; simpl in *.
    - destruct (ctm_clear (p_fs p) cs inc) as [[cs' inc']|] eqn:EC; [|discriminate]. simpl in E. injection E as <-.
      simpl. apply ctm_clear_line in EC as (-> & EL & _). unfold cline in EL. rewrite EL.
      split; [exact I|]. split; [rewrite app_nil_r; reflexivity|]. repeat split; constructor.
    - injection E as <-. simpl. destruct Hb as [H1 H2]. split.
      { split; [apply stamps_app_zero; auto|]. intros y Hy. apply in_app_or in Hy as [Hy|Hy]; auto.
        apply in_map_iff in Hy as (? & <- & _). simpl. lia. }
      split.
      { rewrite map_app, map_map. simpl. rewrite map_id, <- app_assoc, firstn_skipn. reflexivity. }
      repeat split. eapply subseq_skipn, subseq_refl.
    - destruct (lq_clear p q vol inc fin) as [[[q' inc'] vol']|] eqn:EC; [|discriminate]. simpl in E. injection E as <-.
      unfold lq_clear in EC. destruct (negb _); simpl in EC; [|discriminate]. rewrite move_queue_all in EC. simpl in EC.
      injection EC as <- <- <-. simpl. rewrite app_nil_r. repeat split; constructor. }
  destruct Hs as (A & B & C & D & F). split; [exact A|]. split; [exact B|]. split; [exact C|]. split; [exact D|].
  split; [exact F|]. apply subseq_In. exact F.
Qed.

Lemma link_evolve_line r hn l l' : link_evolve r hn l = Ok l' -> body_inv (l_body l) ->
  body_inv (l_body l') /\ on_link l' = on_link l /\ l_in l' = l_in l /\ l_par l' = l_par l.
Proof.
  unfold link_evolve, on_link. destruct l as [p inc fin [cs|m q vol|q vol]]; simpl; intros E Hb.
  - destruct (ctm_evolve (p_fs p) r hn cs fin) as [[cs' fin']|] eqn:EC; [|discriminate]. simpl in E. injection E as <-.
    simpl. apply ctm_evolve_line in EC. unfold cline in EC. rewrite !app_assoc, EC. repeat split.
  - injection E as <-. simpl. destruct Hb as [H1 H2]. split; [split; [apply pq_scan_desc; auto|]|split].
    + intros y Hy. apply pq_scan_In in Hy as (s & A & B & C). specialize (H2 _ A). simpl in *. lia.
    + rewrite <- (pq_scan_line m q H1), <- !app_assoc. reflexivity.
    + auto.
  - destruct (lq_evolve p (r 0%nat) q vol fin) as [[q' fin']|] eqn:EC; [|discriminate]. simpl in E. injection E as <-.
    simpl. apply lq_evolve_line in EC. rewrite !app_assoc, EC. repeat split.
Qed.

Lemma interval_line l arr l' : interval l arr l' -> body_inv (l_body l) ->
  body_inv (l_body l') /\ l_par l' = l_par l /\
  exists rest, subseq rest (l_fin l) /\ on_link l' = rest ++ inside (l_body l) ++ l_in l ++ arr.
Proof.
  intros (rest & r & hn & l1 & Hs & _ & E1 & E2) Hb.
  apply link_clear_line in E1 as (B1 & L1 & _ & P1 & _); [|exact Hb].
  apply link_evolve_line in E2 as (B2 & L2 & _ & P2); [|exact B1].
  split; [exact B2|]. split; [rewrite P2, P1; reflexivity|]. exists rest. split; [exact Hs|].
  rewrite L2, L1. reflexivity.
Qed.

Lemma interval_subseq l arr l' : interval l arr l' -> body_inv (l_body l) -> subseq (on_link l') (on_link l ++ arr).
Proof.
  intros H Hb. destruct (interval_line _ _ _ H Hb) as (_ & _ & rest & Hs & ->).
  unfold on_link. rewrite <- !app_assoc. apply subseq_app; [exact Hs|apply subseq_refl].
Qed.

Lemma history_prefix N s arr n : history N s arr -> (n <= N)%nat -> history n s arr.
Proof. intros H L i Hi. apply H. lia. Qed.
Lemma arrivals_S n arr : arrivals (S n) arr = arrivals n arr ++ arr n.
Proof. unfold arrivals. rewrite seq_S, map_app, concat_app. simpl. rewrite app_nil_r. reflexivity. Qed.

Lemma history_inv N s arr : history N s arr -> body_inv (l_body (s 0%nat)) -> on_link (s 0%nat) = [] ->
  body_inv (l_body (s N)) /\ l_par (s N) = l_par (s 0%nat) /\ subseq (on_link (s N)) (arrivals N arr).
Proof.
  induction N as [|N IH]; intros H Hb He.
  - rewrite He. repeat split; auto; constructor.
  - destruct IH as (A & B & C); auto. { eapply history_prefix; eauto. }
    assert (HI : interval (s N) (arr N) (s (S N))) by (apply H; lia).
    destruct (interval_line _ _ _ HI A) as (D & F & _). split; [exact D|]. split; [rewrite F, B; reflexivity|].
    rewrite arrivals_S. eapply subseq_trans; [apply (interval_subseq _ _ _ HI A)|].
    apply subseq_app; [exact C|apply subseq_refl].
Qed.

Lemma subseq_arrivals_mono n m arr : (n <= m)%nat -> subseq (arrivals n arr) (arrivals m arr).
Proof.
  induction 1; [apply subseq_refl|]. rewrite arrivals_S. eapply subseq_trans; [exact IHle|].
  rewrite <- (app_nil_r (arrivals m arr)) at 1. apply subseq_app; [apply subseq_refl|constructor].
Qed.
Lemma In_arrivals n arr v : In v (arrivals n arr) <-> exists i, (i < n)%nat /\ In v (arr i).
Proof.
  unfold arrivals. rewrite in_concat. split.
  - intros (l & Hl & Hv). apply in_map_iff in Hl as (i & <- & Hi). apply in_seq in Hi. exists i. split; [lia|auto].
  - intros (i & L & Hv). exists (arr i). split; [|auto]. apply in_map_iff. exists i. split; auto. apply in_seq. lia.
Qed.
Lemma NoDup_app_inv {A} (a b : list A) : NoDup (a ++ b) -> NoDup a /\ NoDup b /\ forall x, In x a -> ~ In x b.
Proof.
  induction a as [|x a IH]; simpl; intros H; [repeat split; auto; constructor|].
  inversion H; subst. destruct (IH H3) as (Na & Nb & D). split; [constructor; auto; intros C; apply H2, in_or_app; auto|].
  split; [exact Nb|]. intros y [<-|Hy]; [intros C; apply H2, in_or_app; auto|auto].
Qed.
Lemma arrivals_once N arr v i j : NoDup (arrivals N arr) -> (i < N)%nat -> (j < N)%nat ->
  In v (arr i) -> In v (arr j) -> i = j.
Proof.
  revert i j. induction N as [|N IH]; intros i j ND Li Lj Hi Hj; [lia|].
  rewrite arrivals_S in ND. apply NoDup_app_inv in ND as (Na & Nb & D).
  destruct (Nat.eq_dec i N) as [->|Ni]; destruct (Nat.eq_dec j N) as [->|Nj]; auto.
  - exfalso. apply (D v); auto. apply In_arrivals. exists j. split; [lia|auto].
  - exfalso. apply (D v); auto. apply In_arrivals. exists i. split; [lia|auto].
  - apply IH; auto; lia.
Qed.
