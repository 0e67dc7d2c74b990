(** The curves and trees of a run as a time line. *)
From Verif Require Import Base Base_lemmas Model_Num Proof_Num Spec_Path Proof_Path Model_CC Spec_CC Proof_CC Proof_CC2 Proof_CC3 Model_Path Model_Link Spec_Link Spec_Node
  Proof_Link Proof_Link3 Proof_Link4 Proof_Link5 Model_World Model_Node Proof_Node Proof_Node2 Proof_Node3 Proof_Node4 Proof_Node5 Model_Sim Spec_Sim Proof_Sim1 Proof_Sim2 Proof_Sim3 Proof_Sim4 Proof_Sim7 Proof_Safe3 Spec_Curve Proof_Curve1 Proof_Curve2 Proof_Curve3.
Local Open Scope Z_scope.

Record timeline (fs : Q) (k : nat) (incs : list (Q * Q)) (n : nat -> Z) : Prop := {
  tl_time : forall r, In r incs -> exists j, (j < k)%nat /\ fst r = inject_Z (Z.of_nat j + 1);
  tl_amt : forall r, In r incs -> exists z, 0 <= z /\ snd r = (inject_Z z / fs)%Q;
  tl_mono : times_nondecreasing incs;
  tl_until : forall z, 0 <= z -> (amount_until incs (inject_Z z) == inject_Z (n (Nat.min (Z.to_nat z) k)) / fs)%Q }.

Lemma amount_app a b t : (amount_until (a ++ b) t == amount_until a t + amount_until b t)%Q.
Proof. unfold amount_until. rewrite filter_app, map_app. induction (map snd (filter _ a)) as [|x l IH]; unfold sumQ in *; simpl; [lra|]. rewrite IH. ring. Qed.
Lemma amount_all a t : (forall r, In r a -> (fst r <= t)%Q) -> amount_until a t = total_amount a.
Proof.
  intros H. unfold amount_until, total_amount. f_equal. f_equal. induction a as [|r a IH]; [reflexivity|]. simpl. rewrite (proj2 (Qle_bool_iff _ _) (H r (or_introl eq_refl))).
  f_equal. apply IH. intros r' Hr'. apply H. now right.
Qed.
Lemma amount_none a t : (forall r, In r a -> (t < fst r)%Q) -> amount_until a t = 0%Q.
Proof.
  intros H. unfold amount_until. replace (filter _ a) with (@nil (Q * Q)); [reflexivity|]. symmetry. induction a as [|r a IH]; [reflexivity|]. simpl.
  destruct (Qle_bool (fst r) t) eqn:E; [|apply IH; intros r' Hr'; apply H; now right]. apply Qle_bool_iff in E. specialize (H r (or_introl eq_refl)). lra.
Qed.
Lemma tl_nil fs n : n 0%nat = 0 -> timeline fs 0 [] n.
Proof.
  intros E. split; [intros r []|intros r []|intros i k ri rk _ H; destruct i; discriminate|].
  intros z Hz. rewrite Nat.min_0_r, E. unfold amount_until. simpl. symmetry. apply zero_div.
Qed.
Lemma tl_snoc fs k incs n new : timeline fs k incs n -> batch fs (Z.of_nat k) (n (S k) - n k) new -> timeline fs (S k) (incs ++ new) n.
Proof.
  intros [A1 A2 A3 A4] [B1 B2 B3]. split.
  - intros r Hr. apply in_app_or in Hr as [Hr|Hr]; [destruct (A1 r Hr) as (j & Hj & E); exists j; split; [lia|exact E]|exists k; split; [lia|auto]].
  - intros r Hr. apply in_app_or in Hr as [Hr|Hr]; auto.
  - intros i j ri rj L Hi Hj. destruct (Nat.lt_ge_cases j (length incs)) as [Lj|Lj].
    + rewrite nth_error_app1 in Hi, Hj by lia. eauto.
    + rewrite nth_error_app2 in Hj by exact Lj. apply nth_error_In in Hj. apply B1 in Hj. rewrite Hj. destruct (Nat.lt_ge_cases i (length incs)) as [Li|Li].
      * rewrite nth_error_app1 in Hi by exact Li. apply nth_error_In in Hi. destruct (A1 _ Hi) as (q & Hq & ->). rewrite <- Zle_Qle. lia.
      * rewrite nth_error_app2 in Hi by exact Li. apply nth_error_In in Hi. apply B1 in Hi. rewrite Hi. apply Qle_refl.
  - intros z Hz. rewrite amount_app, (A4 z Hz). destruct (Z_le_gt_dec z (Z.of_nat k)) as [L|G].
    + rewrite amount_none; [rewrite !Nat.min_l by lia; ring|]. intros r Hr. rewrite (B1 r Hr), <- Zlt_Qlt. lia.
    + rewrite amount_all; [|intros r Hr; rewrite (B1 r Hr), <- Zle_Qle; lia]. rewrite B3, !Nat.min_r by lia. unfold Z.sub. rewrite inject_Z_plus, inject_Z_opp. unfold Qdiv. ring.
Qed.

(** the part of a batch of tree entries with key [key] *)
Lemma key_seen key ls : length (filter (fun x : Z * Z => key_eqb key x) ls) = length (filter (fun x => (fst key =? fst x) && (snd key =? snd x)) ls).
Proof. reflexivity. Qed.
Lemma op_batch fs t w key us : batch fs t (times_seen key (map (label w) us)) (ops_of key (map (op fs t w) us)).
Proof.
  unfold ops_of. induction us as [|u us IH]; [apply batch_nil|]. cbn [map filter].
  change (fst (op fs t w u)) with (label w u). unfold times_seen in *. cbn [filter]. unfold key_eqb at 1. fold (key_eqb key).
  destruct ((fst key =? fst (label w u)) && (snd key =? snd (label w u))) eqn:E; [|exact IH].
  cbn [map length]. match goal with |- batch _ _ (Z.of_nat (S ?n)) _ => replace (Z.of_nat (S n)) with (1 + Z.of_nat n) by lia end.
  apply (batch_app fs t 1 _ [snd (op fs t w u)]); [|exact IH].
  split; [intros r [<-|[]]; reflexivity|intros r [<-|[]]; exists 1; split; [lia|reflexivity]|]. unfold total_amount, sumQ. simpl. change (inject_Z 1) with 1%Q. ring.
Qed.
Lemma op_batch_all fs t w us : batch fs t (Zlen us) (map snd (map (op fs t w) us)).
Proof.
  induction us as [|u us IH]; [apply batch_nil|]. cbn [map]. replace (Zlen (u :: us)) with (1 + Zlen us) by (unfold Zlen; cbn [length]; lia).
  apply (batch_app fs t 1 _ [snd (op fs t w u)]); [|exact IH].
  split; [intros r [<-|[]]; reflexivity|intros r [<-|[]]; exists 1; split; [lia|reflexivity]|]. unfold total_amount, sumQ. simpl. change (inject_Z 1) with 1%Q. ring.
Qed.
Lemma seen_perm key a b : Permutation a b -> times_seen key a = times_seen key b.
Proof.
  intros P. unfold times_seen. f_equal. induction P; simpl; auto; try congruence.
  - destruct (_ && _); simpl; congruence.
  - destruct (_ && _), (_ && _); reflexivity.
Qed.
Lemma seen_app key a b : times_seen key (a ++ b) = times_seen key a + times_seen key b.
Proof. unfold times_seen. rewrite filter_app, app_length. lia. Qed.

Section Run.
Context (N : net) (D : Z -> draws) (w0 : world) (K : net_ok N) (F : fresh_world N w0) (DV : forall t, draws_valid (D t)).
Notation st k s := (run N D k (init_state N w0) = Ok s).

Lemma st_igrow k s s' : st k s -> st (S k) s' -> exists E L, igrow N (Z.of_nat k) (s_w s) (s_w s') E L.
Proof.
  intros H H'. destruct (st_step N D w0 F DV _ _ _ H H') as (E & _). eapply load_once_igrow; [exact K|apply DV| |exact E]. eapply reached_sinv; [exact K|]. exists w0. eauto.
Qed.
Lemma during_S {A} (f : world -> world -> list A) k s s' : st k s -> st (S k) s' -> during N D w0 f (S k) = during N D w0 f k ++ f (s_w s) (s_w s').
Proof. intros H H'. cbn [during]. rewrite H, H'. reflexivity. Qed.

(** link curves *)
Lemma run_Nin l k s : In l (n_links N) -> st k s ->
  exists incs, cgrow incs (cc_Nin (w_cc w0) l) (cc_Nin (w_cc (s_w s)) l) /\ timeline (n_fs N) k incs (fun m => Zlen (entered N D w0 l m)).
Proof.
  intros Hl. revert s. induction k as [|k IH]; intros s H.
  - simpl in H. apply Ok_inj in H as <-. exists []. split; [apply cgrow_nil|now apply tl_nil].
  - pose proof H as H'. apply run_S in H' as (s1 & H1 & _). destruct (IH s1 H1) as (incs & G & T). destruct (st_igrow _ _ _ H1 H) as (E & L & [I1 I2 I3 I4 I5 I6]).
    destruct (I3 l) as (new & G' & B). exists (incs ++ new). split; [eapply cgrow_app; eauto|]. apply tl_snoc; [exact T|]. unfold entered. rewrite (during_S _ _ _ _ H1 H), Zlen_app.
    replace (Zlen (during N D w0 _ k) + _ - _) with (Zlen (E l)); [exact B|]. unfold Zlen. rewrite (Permutation_length (I1 l Hl)). lia.
Qed.
Lemma run_Nout l k s : In l (n_links N) -> st k s ->
  exists incs, cgrow incs (cc_Nout (w_cc w0) l) (cc_Nout (w_cc (s_w s)) l) /\ timeline (n_fs N) k incs (fun m => Zlen (exited N D w0 l m)).
Proof.
  intros Hl. revert s. induction k as [|k IH]; intros s H.
  - simpl in H. apply Ok_inj in H as <-. exists []. split; [apply cgrow_nil|now apply tl_nil].
  - pose proof H as H'. apply run_S in H' as (s1 & H1 & _). destruct (IH s1 H1) as (incs & G & T). destruct (st_igrow _ _ _ H1 H) as (E & L & [I1 I2 I3 I4 I5 I6]).
    destruct (I4 l) as (new & G' & B). exists (incs ++ new). split; [eapply cgrow_app; eauto|]. apply tl_snoc; [exact T|]. unfold exited. rewrite (during_S _ _ _ _ H1 H), Zlen_app.
    replace (Zlen (during N D w0 _ k) + _ - _) with (Zlen (L l)); [exact B|]. unfold Zlen. rewrite (Permutation_length (I2 l Hl)). lia.
Qed.
(** trees *)
Definition treeline (k : nat) (ops : list flow_op) (ls : nat -> list (Z * Z)) : Prop :=
  timeline (n_fs N) k (map snd ops) (fun m => Zlen (ls m)) /\
  (forall key, timeline (n_fs N) k (ops_of key ops) (fun m => times_seen key (ls m))) /\
  (forall key, (exists o, In o ops /\ fst o = key) <-> In key (ls k)).
Lemma treeline_snoc k ops ls w us new : treeline k ops ls -> ls (S k) = ls k ++ map (label w) new -> Permutation us new ->
  treeline (S k) (ops ++ map (op (n_fs N) (Z.of_nat k) w) us) ls.
Proof.
  intros (T1 & T2 & T3) El P. split; [|split].
  - rewrite map_app. apply tl_snoc; [exact T1|]. rewrite El, Zlen_app, Zlen_map. replace (Zlen (ls k) + Zlen new - Zlen (ls k)) with (Zlen us); [apply op_batch_all|].
    unfold Zlen. rewrite (Permutation_length P). lia.
  - intros key. rewrite ops_of_app. apply tl_snoc; [apply T2|]. rewrite El, seen_app. replace (_ + _ - _) with (times_seen key (map (label w) us)); [apply op_batch|].
    rewrite (seen_perm key _ _ (Permutation_map (label w) P)). lia.
  - intros key. rewrite El, in_app_iff, <- T3. split.
    + intros (o & Ho & E). apply in_app_or in Ho as [Ho|Ho]; [left; eauto|]. right. apply in_map_iff in Ho as (u & <- & Hu). rewrite <- E. apply in_map_iff. exists u. split; [reflexivity|]. eapply Permutation_in; eauto.
    + intros [(o & Ho & E)|Ho]; [exists o; split; [apply in_or_app; now left|exact E]|]. apply in_map_iff in Ho as (u & <- & Hu). exists (op (n_fs N) (Z.of_nat k) w u). split; [|reflexivity].
      apply in_or_app. right. apply in_map. eapply Permutation_in; [symmetry; exact P|exact Hu].
Qed.
Lemma treeline_nil ls : ls 0%nat = [] -> treeline 0 [] ls.
Proof.
  intros E. split; [|split]; [now apply tl_nil; rewrite E|intros key; apply tl_nil; now rewrite E|]. intros key. rewrite E. split; [intros (o & [] & _)|intros []].
Qed.
Lemma run_Tin l k s : In l (n_links N) -> ~ origin_fed N l -> st k s ->
  exists ops, tgrow ops (cc_Tin (w_cc w0) l) (cc_Tin (w_cc (s_w s)) l) /\ treeline k ops (entered_labels N D w0 l).
Proof.
  intros Hl Ho. revert s. induction k as [|k IH]; intros s H.
  - simpl in H. apply Ok_inj in H as <-. exists []. split; [apply tgrow_nil|now apply treeline_nil].
  - pose proof H as H'. apply run_S in H' as (s1 & H1 & _). destruct (IH s1 H1) as (ops & G & T). destruct (st_igrow _ _ _ H1 H) as (E & L & [I1 I2 I3 I4 I5 I6]).
    eexists. split; [eapply tgrow_app; [exact G|apply I5, Ho]|]. exact (treeline_snoc _ _ _ _ _ _ T (during_S (fun w w' => map (label w') (newcomers w w' l)) _ _ _ H1 H) (I1 l Hl)).
Qed.
Lemma run_Tout l k s : In l (n_links N) -> ~ dest_bound N l -> st k s ->
  exists ops, tgrow ops (cc_Tout (w_cc w0) l) (cc_Tout (w_cc (s_w s)) l) /\ treeline k ops (exited_labels N D w0 l).
Proof.
  intros Hl Ho. revert s. induction k as [|k IH]; intros s H.
  - simpl in H. apply Ok_inj in H as <-. exists []. split; [apply tgrow_nil|now apply treeline_nil].
  - pose proof H as H'. apply run_S in H' as (s1 & H1 & _). destruct (IH s1 H1) as (ops & G & T). destruct (st_igrow _ _ _ H1 H) as (E & L & [I1 I2 I3 I4 I5 I6]).
    destruct (I6 l Ho) as (us & P & X). eexists. split; [eapply tgrow_app; [exact G|exact X]|]. exact (treeline_snoc _ _ _ _ _ _ T (during_S (fun w w' => map (label w') (leavers w w' l)) _ _ _ H1 H) (perm_trans P (I2 l Hl))).
Qed.
End Run.
