(** is_FIFO and the searches with movement costs. *)
From Verif Require Import Base Base_lemmas Model_Num Proof_Num Model_Graph Spec_Graph Proof_Graph Proof_Graph2
  Model_SP Spec_SP Proof_SP Model_TDSP Spec_TDSP.

Lemma fifo_rows_spec c ut : forall n i, fifo_rows n c ut i = true <->
  forall j, i <= j < i + Z.of_nat n -> (c j <= ut + c (j + 1)%Z)%Q.
Proof.
  induction n as [|n IH]; intros i.
  - simpl. split; [intros _ j H; lia|reflexivity].
  - cbn [fifo_rows]. destruct (Qltb_spec (ut + c (i + 1)%Z) (c i)) as [H|H].
    + split; [discriminate|]. intros Hj. specialize (Hj i ltac:(lia)). lra.
    + rewrite IH. split; intros Hj j Hr.
      * destruct (Z.eq_dec j i) as [->|N]; [lra|]. apply Hj. lia.
      * apply Hj. lia.
Qed.
Lemma fifo_adjacent c ut M : (forall j, 0 <= j < 0 + Z.of_nat (Z.to_nat (M - 1)) -> (c j <= ut + c (j + 1)%Z)%Q) <->
  forall i j, 0 <= i <= j -> j < M -> (inject_Z i * ut + c i <= inject_Z j * ut + c j)%Q.
Proof.
  split.
  - intros H i j Hi Hj. remember (Z.to_nat (j - i)) as k eqn:Ek. revert j Hi Hj Ek.
    induction k as [|k IH]; intros j Hi Hj Ek.
    + assert (i = j) by lia. subst. lra.
    + specialize (IH (j - 1) ltac:(lia) ltac:(lia) ltac:(lia)). specialize (H (j - 1) ltac:(lia)).
      replace (j - 1 + 1) with j in H by lia.
      assert (E : (inject_Z j == inject_Z (j - 1) + 1)%Q). { change 1%Q with (inject_Z 1). rewrite <- inject_Z_plus. replace (j - 1 + 1) with j by lia. reflexivity. }
      rewrite E. lra.
  - intros H j Hj. specialize (H j (j + 1) ltac:(lia) ltac:(lia)). rewrite inject_Z_plus in H. change (inject_Z 1) with 1%Q in H. lra.
Qed.
Lemma is_FIFO_spec cost M ut : forall lids, (forall l, In l lids -> exists c, cost l = Some c) ->
  exists b, is_FIFO lids cost M ut = Ok b /\
    (b = true <-> forall l c, In l lids -> cost l = Some c ->
       forall i j, 0 <= i <= j -> j < M -> (inject_Z i * ut + c i <= inject_Z j * ut + c j)%Q).
Proof.
  induction lids as [|l lids IH]; intros H.
  - exists true. split; [reflexivity|]. split; [intros _ l c []|reflexivity].
  - cbn [is_FIFO]. destruct (H l (or_introl eq_refl)) as (c & Hc). rewrite Hc.
    destruct (fifo_rows (Z.to_nat (M - 1)) c ut 0) eqn:E.
    + destruct IH as (b & Eb & Hb); [intros; apply H; now right|]. exists b. split; [exact Eb|]. rewrite Hb.
      pose proof (proj1 (fifo_adjacent c ut M) (proj1 (fifo_rows_spec c ut _ 0) E)) as E'. clear E; rename E' into E. split.
      * intros HH l' c' [<-|Hl] Hc'; [assert (c' = c) by congruence; subst; exact E|eauto].
      * intros HH l' c' Hl Hc'. apply (HH l' c'); [now right|exact Hc'].
    + exists false. split; [reflexivity|]. split; [discriminate|]. intros HH.
      rewrite <- E. apply (proj2 (fifo_rows_spec c ut _ 0)). apply (proj2 (fifo_adjacent c ut M)). apply (HH l c); [now left|exact Hc].
Qed.
