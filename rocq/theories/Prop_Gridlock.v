(** C43: the cycle test of the gridlock checker. *)
From Verif Require Import Base Base_lemmas Model_Graph Spec_Graph Proof_Graph Proof_Graph2 Model_Gridlock Spec_Gridlock.
Local Open Scope Z_scope.

Lemma smallest_In l : forall x, In (smallest x l) (x :: l).
Proof.
  induction l as [|y l IH]; intros x; [now left|]. cbn [smallest]. destruct (IH (Z.min x y)) as [E|H]; [|right; now right].
  rewrite <- E. destruct (Z.min_spec x y) as [[_ ->]|[_ ->]]; [now left|right; now left].
Qed.
Lemma erase_In x l s : In x (erase l s) <-> In x s /\ x <> l.
Proof. unfold erase. rewrite filter_In, negb_true_iff, Z.eqb_neq. tauto. Qed.
Lemma erase_length l s : (length (erase l s) <= length s)%nat.
Proof. unfold erase. induction s as [|x s IH]; cbn; [lia|]. destruct (negb (x =? l)); cbn; lia. Qed.
Lemma erase_shrinks l s : In l s -> (length (erase l s) < length s)%nat.
Proof.
  induction s as [|x s IH]; [intros []|]. intros H. cbn. destruct (Z.eqb_spec x l) as [->|N]; cbn.
  - pose proof (erase_length l s). unfold erase in *. lia.
  - destruct H as [->|H]; [congruence|]. specialize (IH H). unfold erase in *. lia.
Qed.
Lemma erase_absent l s : ~ In l s -> erase l s = s.
Proof.
  induction s as [|x s IH]; intros H; [reflexivity|]. cbn. destruct (Z.eqb_spec x l) as [->|N]; [exfalso; apply H; now left|]. cbn. f_equal. apply IH. intros X. apply H. now right.
Qed.
Lemma push_all_some rem out : forall q q2, push_all rem q out = Some q2 -> q2 = q ++ out /\ forall l, In l out -> In l rem.
Proof.
  induction out as [|l out IH]; intros q q2; cbn [push_all].
  - intros [= <-]. split; [now rewrite app_nil_r|intros l []].
  - destruct (memb l rem) eqn:E; [|discriminate]. intros H. apply IH in H as [-> H]. split; [now rewrite <- app_assoc|]. intros x [<-|Hx]; [now apply memb_In|auto].
Qed.

Section Graph.
Context (ops : list gop).
Let g := gbuild ops.
Let a := a_build ops.
Lemma gr : Rep g a. Proof. exact (gbuild_rep ops). Qed.
Definition succs (l : Z) (out : list Z) : Prop := exists e, get_endpoints g l = Ok e /\ connections g (snd e) Outgoing = Ok out.
Lemma succs_total l : In l (g_lids g) -> exists out, succs l out.
Proof.
  intros H. pose proof gr as R. rewrite (rep_lids _ _ R) in H. apply in_map_iff in H as ([l' [f t]] & E & H). cbn in E. subst l'.
  exists (a_connections a t Outgoing). exists (f, t). split; [exact (rep_endpoints _ _ _ _ _ R H)|]. cbn [snd]. rewrite (rep_connections _ _ _ _ R).
  rewrite (proj2 (memb_In _ _)); [reflexivity|]. exact (proj1 (proj2 (rep_ends _ _ R l f t H))).
Qed.
Lemma succs_known l out : succs l out -> forall x, In x out -> In x (g_lids g).
Proof.
  intros (e & _ & H) x Hx. pose proof gr as R. rewrite (rep_connections _ _ _ _ R) in H. destruct (memb (snd e) (a_nodes a)); [|discriminate]. apply Ok_inj in H as <-.
  apply a_connections_In in Hx as (e' & He & _). rewrite (rep_lids _ _ R). change x with (fst (x, e')). now apply in_map.
Qed.
(** links following each other on a walk *)
Lemma follows l l2 f m t out : get_endpoints g l = Ok (f, m) -> get_endpoints g l2 = Ok (m, t) -> succs l out -> In l2 out.
Proof.
  intros E1 E2 (e & E & H). rewrite E1 in E. apply Ok_inj in E as <-. cbn [snd] in H. pose proof gr as R. rewrite (rep_connections _ _ _ _ R) in H.
  destruct (memb m (a_nodes a)); [|discriminate]. apply Ok_inj in H as <-. apply a_connections_In. exists (m, t). split; [now apply (rep_endpoints_iff _ _ _ _ _ R)|reflexivity].
Qed.
Lemma step_eq fuel rem l q out : succs l out -> cycle_loop (S fuel) g rem (l :: q) =
  match push_all (erase l rem) q out with None => Ok false | Some q2 => cycle_loop fuel g (erase l rem) q2 end.
Proof. intros (e & E & H). cbn [cycle_loop]. rewrite E. cbn [bind]. rewrite H. reflexivity. Qed.

(** termination *)
Definition gone (rem q : list Z) : nat := length (filter (fun x => negb (memb x rem)) q).
Lemma gone_app rem q out : (forall x, In x out -> In x rem) -> gone rem (q ++ out) = gone rem q.
Proof.
  intros H. unfold gone. rewrite filter_app, app_length. assert (E : filter (fun x => negb (memb x rem)) out = []); [|rewrite E; cbn; lia].
  induction out as [|x out IH]; [reflexivity|]. cbn. rewrite (proj2 (memb_In x rem)) by (apply H; now left). cbn. apply IH. intros; apply H; now right.
Qed.
Lemma loop_ends : forall n rem q, (length rem <= n)%nat -> (forall x, In x rem -> In x (g_lids g)) -> (forall x, In x q -> In x (g_lids g)) ->
  exists fuel b, cycle_loop fuel g rem q = Ok b.
Proof.
  induction n as [n IHn] using lt_wf_ind. intros rem q Hn Hr Hq.
  (* first the queue elements already erased, then a step that shrinks [rem] *)
  assert (Inner : forall m q, (gone rem q <= m)%nat -> (forall x, In x q -> In x (g_lids g)) -> q <> [] -> exists fuel b, cycle_loop fuel g rem q = Ok b).
  { induction m as [|m IHm]; intros q0 Hm Hq0 Hne; (destruct q0 as [|l q0]; [congruence|]); destruct (succs_total l (Hq0 l (or_introl eq_refl))) as (out & Ho).
    - assert (Hl : In l rem). { unfold gone in Hm. cbn in Hm. destruct (memb l rem) eqn:E; [now apply memb_In|cbn in Hm; lia]. }
      destruct (push_all (erase l rem) q0 out) as [q2|] eqn:Ep.
      + destruct (push_all_some _ _ _ _ Ep) as [-> Hout]. destruct (IHn (length (erase l rem))) with (rem := erase l rem) (q := q0 ++ out) as (fuel & b & H).
        * pose proof (erase_shrinks l rem Hl). lia.
        * lia.
        * intros x Hx. apply erase_In in Hx. now apply Hr.
        * intros x Hx. apply in_app_or in Hx as [Hx|Hx]; [apply Hq0; now right|exact (succs_known l out Ho x Hx)].
        * exists (S fuel), b. rewrite (step_eq _ _ _ _ out Ho), Ep. exact H.
      + exists 1%nat, false. rewrite (step_eq _ _ _ _ out Ho), Ep. reflexivity.
    - destruct (memb l rem) eqn:El.
      + apply memb_In in El. destruct (push_all (erase l rem) q0 out) as [q2|] eqn:Ep.
        * destruct (push_all_some _ _ _ _ Ep) as [-> Hout]. destruct (IHn (length (erase l rem))) with (rem := erase l rem) (q := q0 ++ out) as (fuel & b & H).
          -- pose proof (erase_shrinks l rem El). lia.
          -- lia.
          -- intros x Hx. apply erase_In in Hx. now apply Hr.
          -- intros x Hx. apply in_app_or in Hx as [Hx|Hx]; [apply Hq0; now right|exact (succs_known l out Ho x Hx)].
          -- exists (S fuel), b. rewrite (step_eq _ _ _ _ out Ho), Ep. exact H.
        * exists 1%nat, false. rewrite (step_eq _ _ _ _ out Ho), Ep. reflexivity.
      + apply memb_false in El. pose proof (erase_absent l rem El) as Er. destruct (push_all (erase l rem) q0 out) as [q2|] eqn:Ep.
        * destruct (push_all_some _ _ _ _ Ep) as [-> Hout]. rewrite Er in Hout. destruct (q0 ++ out) as [|y ys] eqn:Eq.
          -- destruct rem as [|x rem'].
             ++ exists 2%nat, true. rewrite (step_eq _ _ _ _ out Ho), Ep, Er. reflexivity.
             ++ (* the queue is empty: restart from the smallest remaining link *)
                assert (Hs : In (smallest x rem') (x :: rem')) by apply smallest_In. set (s := smallest x rem') in *.
                destruct (succs_total s (Hr s Hs)) as (out2 & Ho2). destruct (push_all (erase s (x :: rem')) [] out2) as [q3|] eqn:Ep3.
                ** destruct (push_all_some _ _ _ _ Ep3) as [-> Hout3]. destruct (IHn (length (erase s (x :: rem')))) with (rem := erase s (x :: rem')) (q := out2) as (fuel & b & H).
                   --- pose proof (erase_shrinks s (x :: rem') Hs). lia.
                   --- lia.
                   --- intros z Hz. apply erase_In in Hz. now apply Hr.
                   --- intros z Hz. exact (succs_known s out2 Ho2 z Hz).
                   --- exists (S (S (S fuel))), b. rewrite (step_eq _ _ _ _ out Ho), Ep, Er. change (cycle_loop (S (S fuel)) g (x :: rem') []) with (cycle_loop (S fuel) g (x :: rem') [s]).
                       rewrite (step_eq _ _ _ _ out2 Ho2), Ep3. exact H.
                ** exists 3%nat, false. rewrite (step_eq _ _ _ _ out Ho), Ep, Er. change (cycle_loop 2 g (x :: rem') []) with (cycle_loop 1 g (x :: rem') [s]).
                   rewrite (step_eq _ _ _ _ out2 Ho2), Ep3. reflexivity.
          -- destruct (IHm (y :: ys)) as (fuel & b & H).
             ++ rewrite <- Eq, (gone_app rem q0 out Hout). unfold gone in *. cbn [filter] in Hm. rewrite (proj2 (memb_false l rem) El) in Hm. cbn [negb length] in Hm. lia.
             ++ rewrite <- Eq. intros z Hz. apply in_app_or in Hz as [Hz|Hz]; [apply Hq0; now right|exact (succs_known l out Ho z Hz)].
             ++ discriminate.
             ++ exists (S fuel), b. rewrite (step_eq _ _ _ _ out Ho), Ep, Er. exact H.
        * exists 1%nat, false. rewrite (step_eq _ _ _ _ out Ho), Ep. reflexivity. }
  destruct q as [|l q]; [|exact (Inner (gone rem (l :: q)) (l :: q) ltac:(lia) Hq ltac:(discriminate))].
  destruct rem as [|x rem']; [exists 1%nat, true; reflexivity|].
  destruct (Inner (gone (x :: rem') [smallest x rem']) [smallest x rem']) as (fuel & b & H); [lia| |discriminate|exists (S fuel), b; exact H].
  intros z [<-|[]]. apply Hr. apply smallest_In.
Qed.

(** an answer "true" comes with an order in which links only lead to later links *)
Definition ordered (done : list Z) : Prop := forall pre l post out, done = pre ++ l :: post -> succs l out -> forall x, In x out -> ~ In x pre /\ x <> l.
Lemma ordered_snoc done l out : ordered done -> succs l out -> (forall x, In x out -> ~ In x done /\ x <> l) -> ordered (done ++ [l]).
Proof.
  intros O Hl Hn pre l' post out' E Ho x Hx. destruct post as [|p post] using rev_ind.
  - apply app_inj_tail in E as [<- <-]. destruct Hl as (e & E1 & E2), Ho as (e' & E1' & E2'). rewrite E1 in E1'. apply Ok_inj in E1' as <-. rewrite E2 in E2'. apply Ok_inj in E2' as <-. auto.
  - rewrite app_comm_cons, app_assoc in E. apply app_inj_tail in E as [E _]. exact (O pre l' post out' E Ho x Hx).
Qed.
Lemma true_ordered : forall fuel rem q done, cycle_loop fuel g rem q = Ok true -> ordered done -> (forall x, In x (g_lids g) <-> In x done \/ In x rem) -> (forall x, In x done -> ~ In x rem) ->
  (forall x, In x q -> In x (g_lids g)) -> exists all, ordered all /\ forall x, In x (g_lids g) <-> In x all.
Proof.
  induction fuel as [|fuel IH]; intros rem q done H O P Dj Hq; [discriminate|]. destruct q as [|l q].
  - cbn [cycle_loop] in H. destruct rem as [|x rem'].
    + exists done. split; [exact O|]. intros x. rewrite P. cbn. tauto.
    + apply (IH _ _ done H O P Dj). intros y [<-|[]]. apply P. right. apply smallest_In.
  - destruct (succs_total l (Hq l (or_introl eq_refl))) as (out & Ho). rewrite (step_eq _ _ _ _ out Ho) in H. destruct (push_all (erase l rem) q out) as [q2|] eqn:Ep; [|discriminate].
    destruct (push_all_some _ _ _ _ Ep) as [-> Hout].
    assert (Hq' : forall x, In x (q ++ out) -> In x (g_lids g)). { intros x Hx. apply in_app_or in Hx as [Hx|Hx]; [apply Hq; now right|exact (succs_known l out Ho x Hx)]. }
    destruct (in_dec Z.eq_dec l rem) as [Hl|Hl].
    + apply (IH _ _ (done ++ [l]) H).
      * apply (ordered_snoc done l out O Ho). intros x Hx. apply Hout, erase_In in Hx as [X1 X2]. split; [|exact X2]. intros D. exact (Dj x D X1).
      * intros x. rewrite P, in_app_iff, erase_In. cbn. destruct (Z.eq_dec x l) as [->|]; [tauto|]. intuition congruence.
      * intros x Hx. rewrite erase_In. apply in_app_or in Hx as [Hx|[<-|[]]]; [|tauto]. specialize (Dj x Hx). tauto.
      * exact Hq'.
    + rewrite (erase_absent _ _ Hl) in *. exact (IH _ _ done H O P Dj Hq').
Qed.
Lemma route_positions all u ls v : ordered all -> (forall x, In x (g_lids g) <-> In x all) -> route g u ls v ->
  forall l rest, ls = l :: rest -> forall x, In x rest -> exists pre post, all = pre ++ x :: post /\ In l pre.
Proof.
  intros O A. induction 1 as [u|u l w ls v E R IH]; intros l0 rest Els x Hx; [discriminate|]. injection Els as <- <-.
  destruct ls as [|l2 ls2]; [destruct Hx|]. inversion R as [|? ? t ? ? E2 R2]; subst.
  assert (Lk : forall k f t, get_endpoints g k = Ok (f, t) -> In k (g_lids g)).
  { intros k f t' Ek. pose proof gr as Rp. rewrite (rep_lids _ _ Rp). apply (rep_endpoints_iff _ _ _ _ _ Rp) in Ek. change k with (fst (k, (f, t'))). now apply in_map. }
  destruct (succs_total l (Lk _ _ _ E)) as (out & Ho). pose proof (follows l l2 u w t out E E2 Ho) as H2.
  assert (S1 : exists pre post, all = pre ++ l2 :: post /\ In l pre).
  { assert (In l all) as Hl by (apply A; exact (Lk _ _ _ E)). apply in_split in Hl as (pre & post & Ea). destruct (O pre l post out Ea Ho l2 H2) as [N1 N2].
    assert (In l2 all) as Hl2 by (apply A; exact (Lk _ _ _ E2)). rewrite Ea in Hl2. apply in_app_or in Hl2 as [X|[X|X]]; [contradiction|congruence|].
    apply in_split in X as (p1 & p2 & ->). exists (pre ++ l :: p1), p2. split; [rewrite Ea, <- app_assoc; reflexivity|]. apply in_or_app. right. now left. }
  destruct Hx as [<-|Hx]; [exact S1|]. destruct (IH l2 ls2 eq_refl x Hx) as (pre & post & Ea & Hin). destruct S1 as (p1 & p2 & Ea2 & Hin2).
  exists pre, post. split; [exact Ea|]. (* l is before l2, l2 before x *)
  apply in_split in Hin as (a1 & a2 & ->).
  assert (In l (a1 ++ l2 :: a2)); [|assumption]. destruct (in_dec Z.eq_dec l (a1 ++ l2 :: a2)) as [Y|Y]; [exact Y|exfalso].
  (* l occurs somewhere before an occurrence of l2, so l2 is a successor of an l that l2 precedes *)
  apply in_split in Hin2 as (b1 & b2 & ->). rewrite Ea in Ea2. rewrite <- !app_assoc in Ea2. cbn in Ea2. rewrite <- app_assoc in Ea.
  assert (Ex : all = (a1 ++ l2 :: a2 ++ []) ++ x :: post) by (rewrite Ea, app_nil_r, <- app_assoc; reflexivity).
  assert (In l (x :: post)) as Lx. { assert (In l all) as Hl by (apply A; exact (Lk _ _ _ E)). rewrite Ex in Hl. apply in_app_or in Hl as [Z|Z]; [rewrite app_nil_r in Z; contradiction|exact Z]. }
  apply in_split in Lx as (c1 & c2 & Ec). rewrite Ec in Ex. rewrite app_assoc in Ex. destruct (O _ l c2 out Ex Ho l2 H2) as [N1 _]. apply N1. apply in_or_app. left. apply in_or_app. right. now left.
Qed.
End Graph.

(** The test always terminates with an answer. *)
Theorem C43_test_terminates : forall ops, exists fuel b, has_cycle fuel (gbuild ops) = Ok b.
Proof. intros ops. apply (loop_ends ops (length (g_lids (gbuild ops)))); auto. intros x []. Qed.
Print Assumptions C43_test_terminates.

Lemma cycle_mono g : forall fuel rem q b, cycle_loop fuel g rem q = Ok b -> forall more, cycle_loop (fuel + more) g rem q = Ok b.
Proof.
  induction fuel as [|fuel IH]; intros rem q b H more; [discriminate|]. cbn [cycle_loop Nat.add] in *. destruct q as [|l q].
  - destruct rem; [exact H|]. now apply IH.
  - apply bind_ok in H as (e & E1 & H). apply bind_ok in H as (out & E2 & H). rewrite E1. cbn [bind]. rewrite E2. cbn [bind]. destruct (push_all _ _ _); [now apply IH|exact H].
Qed.
(** On a graph with a directed cycle the answer is always "false": the opposite of the claim. *)
Theorem C43_cyclic_graph_answers_false : forall ops fuel b, cyclic (gbuild ops) -> has_cycle fuel (gbuild ops) = Ok b -> b = false.
Proof.
  intros ops fuel b (u & ls & Hne & R) H. destruct b; [exfalso|reflexivity].
  destruct (true_ordered ops fuel (g_lids (gbuild ops)) [] [] H) as (all & O & A).
  - intros pre l post out E. destruct pre; discriminate.
  - intros x. cbn. tauto.
  - intros x [].
  - intros x [].
  - destruct ls as [|l rest]; [congruence|].
    (* walk twice around: the first link comes after itself *)
    pose proof (route_app _ _ _ _ _ _ R R) as RR. cbn [app] in RR.
    destruct (route_positions ops all _ _ _ O A RR l (rest ++ l :: rest) eq_refl l) as (pre & post & Ea & Hin); [apply in_or_app; right; now left|].
    (* its successor on the walk must come after an occurrence of l, but l precedes ... *)
    apply in_split in Hin as (a1 & a2 & ->).
    destruct rest as [|l2 rest2].
    + inversion R as [|? ? w ? ? E1 R1]; subst. inversion R1; subst. assert (Lk : In l (g_lids (gbuild ops))).
      { pose proof (gr ops) as Rp. rewrite (rep_lids _ _ Rp). apply (rep_endpoints_iff _ _ _ _ _ Rp) in E1. change l with (fst (l, (u, u))). now apply in_map. }
      destruct (succs_total ops l Lk) as (out & Ho). pose proof (follows ops l l u u u out E1 E1 Ho) as Hl.
      destruct (O a1 l (a2 ++ l :: post) out) with (x := l) as [_ N]; [now rewrite <- app_assoc|exact Ho|exact Hl|congruence].
    + inversion R as [|? ? w ? ? E1 R1]; subst. inversion R1 as [|? ? t ? ? E2 R2]; subst.
      assert (Lk : forall k f t, get_endpoints (gbuild ops) k = Ok (f, t) -> In k (g_lids (gbuild ops))).
      { intros k f t' Ek. pose proof (gr ops) as Rp. rewrite (rep_lids _ _ Rp). apply (rep_endpoints_iff _ _ _ _ _ Rp) in Ek. change k with (fst (k, (f, t'))). now apply in_map. }
      destruct (succs_total ops l (Lk _ _ _ E1)) as (out & Ho). pose proof (follows ops l l2 u w t out E1 E2 Ho) as H2.
      (* l2 precedes an occurrence of l, because l is also reached after l2 *)
      assert (RL : route (gbuild ops) w ((l2 :: rest2) ++ [l]) w). { apply route_app with (w := u); [exact R1|]. econstructor; [exact E1|constructor]. }
      destruct (route_positions ops _ _ _ _ O A RL l2 (rest2 ++ [l]) eq_refl l) as (p & s & Ep & Hp); [apply in_or_app; right; now left|].
      destruct (O p l s out Ep Ho l2 H2) as [N _]. contradiction.
Qed.
Print Assumptions C43_cyclic_graph_answers_false.

Definition ring_ops : list gop := [GNode 1; GNode 2; GNode 3; GLink 1 2 10; GLink 2 3 11; GLink 3 1 12].
Definition chain_ops : list gop := [GNode 1; GNode 2; GNode 3; GLink 2 3 10; GLink 1 2 11].
Definition line_ops : list gop := [GNode 1; GNode 2; GNode 3; GLink 1 2 10; GLink 2 3 11].
Lemma ring_cyclic : cyclic (gbuild ring_ops).
Proof. exists 1, [10; 11; 12]. split; [discriminate|]. repeat (econstructor; [reflexivity|]). constructor. Qed.
Lemma chain_acyclic : ~ cyclic (gbuild chain_ops).
Proof.
  assert (E : forall l f t, get_endpoints (gbuild chain_ops) l = Ok (f, t) -> f < t).
  { intros l f t H. apply (rep_endpoints_iff _ _ _ _ _ (gbuild_rep chain_ops)) in H. cbn in H. destruct H as [X|[X|[]]]; injection X as <- <- <-; lia. }
  assert (M : forall u ls v, route (gbuild chain_ops) u ls v -> ls <> [] -> u < v).
  { induction 1 as [|u l w ls v H R IH]; [congruence|]. intros _. apply E in H. destruct ls as [|l2 ls]; [inversion R; subst; exact H|]. specialize (IH ltac:(discriminate)). lia. }
  intros (u & ls & Hne & R). specialize (M _ _ _ R Hne). lia.
Qed.
(** The claim fails in both directions: a ring answers "false", a plain line answers "true". *)
Theorem C43_cycle_test_refuted :
  (exists ops, cyclic (gbuild ops) /\ (exists fuel, has_cycle fuel (gbuild ops) = Ok false)) /\
  (exists ops, ~ cyclic (gbuild ops) /\ (exists fuel, has_cycle fuel (gbuild ops) = Ok true)).
Proof.
  split.
  - exists ring_ops. split; [exact ring_cyclic|]. exists 10%nat. reflexivity.
  - exists line_ops. split; [|exists 10%nat; reflexivity].
    intros C. destruct (C43_test_terminates line_ops) as (fu & b & H). assert (has_cycle 10 (gbuild line_ops) = Ok true) as H2 by reflexivity.
    pose proof (C43_cyclic_graph_answers_false line_ops 10 true C H2). discriminate.
Qed.
Print Assumptions C43_cycle_test_refuted.
(** "false" says nothing either: it is also the answer for some graphs without a cycle. *)
Theorem C43_false_without_cycle : ~ cyclic (gbuild chain_ops) /\ has_cycle 10 (gbuild chain_ops) = Ok false.
Proof. split; [exact chain_acyclic|reflexivity]. Qed.
Print Assumptions C43_false_without_cycle.
Example C43_case : has_cycle 10 (gbuild ring_ops) = Ok false /\ cyclic (gbuild ring_ops).
Proof. split; [reflexivity|exact ring_cyclic]. Qed.
