(** Lemmas on the shared vocabulary. *)
From Verif Require Import Base.

Lemma bind_ok {A B} (x : res A) (f : A -> res B) b :
  bind x f = Ok b -> exists a, x = Ok a /\ f a = Ok b.
Proof. destruct x as [a|e]; simpl; intros H; [eauto|discriminate]. Qed.

Ltac inv_bind :=
  repeat match goal with
  | H : bind _ _ = Ok _ |- _ =>
      let a := fresh "a" in let Ha := fresh "Ha" in
      apply bind_ok in H; destruct H as (a & Ha & H)
  | H : guard ?b _ = Ok _ |- _ =>
      let E := fresh "E" in
      unfold guard in H; destruct b eqn:E; [clear H | discriminate H]
  end.

Lemma upd_same {A} (m : Z -> A) k v : upd m k v k = v.
Proof. unfold upd. now rewrite Z.eqb_refl. Qed.
Lemma upd_other {A} (m : Z -> A) k v x : x <> k -> upd m k v x = m x.
Proof. unfold upd. destruct (Z.eqb_spec x k); congruence. Qed.

Lemma cnt_app x l l' : cnt x (l ++ l') = (cnt x l + cnt x l')%nat.
Proof. induction l as [|y l IH]; simpl; [reflexivity|]. rewrite IH. lia. Qed.
Lemma cnt_In x l : In x l <-> (0 < cnt x l)%nat.
Proof.
  induction l as [|y l IH]; simpl; [lia|].
  destruct (Z.eqb_spec x y); split; intros H; try lia.
  - destruct H; [congruence|]. apply IH in H. lia.
  - right. apply IH. lia.
Qed.
Lemma cnt_not_In x l : ~ In x l <-> cnt x l = 0%nat.
Proof. rewrite cnt_In. lia. Qed.
Lemma cnt_perm l l' : Permutation l l' -> forall x, cnt x l = cnt x l'.
Proof. induction 1; intros z; simpl; try lia. rewrite IHPermutation; lia. rewrite IHPermutation1; apply IHPermutation2. Qed.
Lemma perm_cnt l l' : (forall x, cnt x l = cnt x l') -> Permutation l l'.
Proof.
  revert l'. induction l as [|y l IH]; intros l' H.
  - destruct l' as [|z l']; [constructor|]. specialize (H z). simpl in H. rewrite Z.eqb_refl in H. lia.
  - assert (Hy : In y l'). { apply cnt_In. rewrite <- H. simpl. rewrite Z.eqb_refl. lia. }
    apply in_split in Hy. destruct Hy as (l1 & l2 & ->).
    rewrite <- Permutation_middle. constructor. apply IH. intros x.
    specialize (H x). rewrite cnt_app in *. simpl in H. lia.
Qed.
Lemma NoDup_cnt l : NoDup l <-> forall x, (cnt x l <= 1)%nat.
Proof.
  induction l as [|y l IH]; split; intros H.
  - simpl; lia.
  - constructor.
  - inversion_clear H as [|? ? Hn Hd]. intros x. simpl. destruct (Z.eqb_spec x y).
    + subst. apply cnt_not_In in Hn. lia.
    + pose proof (proj1 IH Hd x). lia.
  - constructor.
    + apply cnt_not_In. specialize (H y). simpl in H. rewrite Z.eqb_refl in H. lia.
    + apply IH. intros x. specialize (H x). simpl in H. lia.
Qed.
Lemma cnt_rev x l : cnt x (rev l) = cnt x l.
Proof. symmetry. apply cnt_perm, Permutation_rev. Qed.
Lemma memb_In x l : memb x l = true <-> In x l.
Proof.
  unfold memb. rewrite existsb_exists. split.
  - intros (y & Hy & E). apply Z.eqb_eq in E. now subst.
  - intros H. exists x. split; [exact H|apply Z.eqb_refl].
Qed.
Lemma memb_false x l : memb x l = false <-> ~ In x l.
Proof. rewrite <- memb_In. destruct (memb x l); intuition congruence. Qed.

Lemma sumQ_app l l' : (sumQ (l ++ l') == sumQ l + sumQ l')%Q.
Proof. induction l as [|x l IH]; simpl; [lra|]. rewrite IH. lra. Qed.
Lemma sumZ_app l l' : sumZ (l ++ l') = sumZ l + sumZ l'.
Proof. induction l as [|x l IH]; simpl; lia. Qed.

Lemma foldM_app {A S} (f : S -> A -> res S) s l1 l2 :
  foldM f s (l1 ++ l2) = bind (foldM f s l1) (fun s' => foldM f s' l2).
Proof.
  revert s. induction l1 as [|a l1 IH]; intros s; simpl; [reflexivity|].
  destruct (f s a); simpl; [apply IH|reflexivity].
Qed.
Lemma foldM_inv {A S} (f : S -> A -> res S) (I : S -> Prop) l s s' :
  (forall a s s', In a l -> I s -> f s a = Ok s' -> I s') ->
  I s -> foldM f s l = Ok s' -> I s'.
Proof.
  revert s. induction l as [|a l IH]; simpl; intros s Hf Hs H.
  - injection H as <-. exact Hs.
  - apply bind_ok in H. destruct H as (s1 & H1 & H2).
    eapply IH; [|eapply Hf; eauto|exact H2]. intros; eapply Hf; eauto.
Qed.

Lemma Ok_inj {A} (a b : A) : Ok a = Ok b -> a = b.
Proof. intros [= ->]. reflexivity. Qed.
Lemma Ok_pair {A B} (a a' : A) (b b' : B) : Ok (a, b) = Ok (a', b') -> a' = a /\ b' = b.
Proof. intros [= -> ->]. auto. Qed.
