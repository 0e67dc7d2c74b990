From Verif Require Import Base Base_lemmas Model_Graph Spec_Graph.

Inductive chain (g : graph) (d : direction) : option Z -> list Z -> Prop :=
| chain_nil : chain g d None []
| chain_cons l r ls : g_link g l = Some r -> chain g d (lk_next r d) ls -> chain g d (Some l) (l :: ls).

(** representation invariant *)
Record Rep (g : graph) (a : agraph) : Prop := {
  rep_nids : g_nids g = a_nodes a;
  rep_lids : g_lids g = map fst (a_links a);
  rep_nodes : forall n, In n (a_nodes a) <-> g_node g n <> None;
  rep_links : forall l f t, In (l, (f, t)) (a_links a) <->
      exists r, g_link g l = Some r /\ lk_end r Incoming = f /\ lk_end r Outgoing = t;
  rep_lnodup : NoDup (map fst (a_links a));
  rep_nnodup : NoDup (a_nodes a);
  rep_ends : forall l f t, In (l, (f, t)) (a_links a) -> In f (a_nodes a) /\ In t (a_nodes a) /\ f <> t;
  rep_chain : forall n nd d, g_node g n = Some nd -> chain g d (nd_next nd d) (a_connections a n d) }.

Lemma rep_empty : Rep empty_graph a_empty.
Proof.
  split; simpl; try reflexivity; try (constructor; fail).
  - intros n. split; [intros []|congruence].
  - intros l f t. split; [intros []|]. intros (r & H & _). discriminate.
  - intros l f t [].
  - intros n nd d H. discriminate.
Qed.

Lemma a_connections_add a n d id f t :
  a_connections {| a_nodes := a_nodes a; a_links := a_links a ++ [(id, (f, t))] |} n d =
  if listed_at d (f, t) =? n then id :: a_connections a n d else a_connections a n d.
Proof.
  unfold a_connections. simpl. rewrite filter_app, map_app, rev_app_distr. simpl.
  destruct (listed_at d (f, t) =? n); reflexivity.
Qed.

Lemma chain_ext g g' d cur ls :
  (forall l r, g_link g l = Some r -> g_link g' l = Some r) ->
  chain g d cur ls -> chain g' d cur ls.
Proof. intros H. induction 1; econstructor; eauto. Qed.

Lemma walk_chain g d fuel : forall cur ls, chain g d cur ls -> (length ls <= fuel)%nat -> walk fuel g d cur = Ok ls.
Proof.
  induction fuel as [|fuel IH]; intros cur ls H L.
  - inversion H; subst; [reflexivity|]. simpl in L. lia.
  - inversion H as [|l r ls' Hl Hc]; subst; [reflexivity|]. cbn [walk]. rewrite Hl.
    rewrite (IH _ _ Hc) by (simpl in L; lia). reflexivity.
Qed.

Lemma rep_link_none g a l : Rep g a -> (g_link g l = None <-> ~ In l (map fst (a_links a))).
Proof.
  intros R. split.
  - intros H C. apply in_map_iff in C. destruct C as ([l' [f t]] & E & Hin). simpl in E. subst l'.
    apply (rep_links _ _ R) in Hin. destruct Hin as (r & Hr & _). congruence.
  - intros H. destruct (g_link g l) as [r|] eqn:E; [|reflexivity]. exfalso. apply H.
    apply in_map_iff. exists (l, (lk_end r Incoming, lk_end r Outgoing)). split; [reflexivity|].
    apply (rep_links _ _ R). eauto.
Qed.
Lemma a_connections_length a n d : (length (a_connections a n d) <= length (map fst (a_links a)))%nat.
Proof.
  unfold a_connections. rewrite rev_length, !map_length.
  induction (a_links a) as [|x l IH]; simpl; [lia|]. destruct (listed_at d (snd x) =? n); simpl; lia.
Qed.

Lemma add_node_rep g a id : Rep g a ->
  match add_node g id with
  | Ok g' => a_accepts a (GNode id) = true /\ Rep g' (a_step a (GNode id))
  | Err e => e = EThrow /\ a_accepts a (GNode id) = false
  end.
Proof.
  intros R. unfold add_node, a_step, a_accepts. destruct (g_node g id) as [nd|] eqn:E.
  - split; [reflexivity|]. rewrite negb_false_iff. apply memb_In. apply (rep_nodes _ _ R). congruence.
  - assert (N : memb id (a_nodes a) = false). { apply memb_false. intros C. apply (rep_nodes _ _ R) in C. congruence. }
    rewrite N. simpl. split; [reflexivity|].
    assert (Nin : ~ In id (a_nodes a)) by (now apply memb_false).
    split; simpl.
    + now rewrite (rep_nids _ _ R).
    + apply (rep_lids _ _ R).
    + intros n. rewrite in_app_iff. simpl. unfold upd. destruct (Z.eqb_spec n id) as [->|Ne].
      * split; [congruence|]. intros _. right. left. reflexivity.
      * rewrite (rep_nodes _ _ R). intuition congruence.
    + apply (rep_links _ _ R).
    + apply (rep_lnodup _ _ R).
    + apply Permutation_NoDup with (id :: a_nodes a); [apply Permutation_cons_append|]. constructor; [exact Nin|apply (rep_nnodup _ _ R)].
    + intros l f t H. apply (rep_ends _ _ R) in H. rewrite !in_app_iff. intuition.
    + intros n nd d H. unfold upd in H. change (a_connections {| a_nodes := a_nodes a ++ [id]; a_links := a_links a |} n d) with (a_connections a n d).
      destruct (Z.eqb_spec n id) as [->|Ne].
      * injection H as <-. simpl. 
        assert (Em : a_connections a id d = []).
        { unfold a_connections. destruct (filter _ (a_links a)) as [|[l [f t]] ls] eqn:Ef; [reflexivity|exfalso].
          assert (Hin : In (l, (f, t)) (filter (fun l => listed_at d (snd l) =? id) (a_links a))) by (rewrite Ef; left; reflexivity).
          apply filter_In in Hin. destruct Hin as [Hin Heq]. apply (rep_ends _ _ R) in Hin. apply Z.eqb_eq in Heq.
          destruct d; simpl in Heq; subst; tauto. }
        rewrite Em. constructor.
      * apply (chain_ext g); [auto|]. apply (rep_chain _ _ R). exact H.
Qed.

Lemma NoDup_snoc {A} (l : list A) x : NoDup l -> ~ In x l -> NoDup (l ++ [x]).
Proof. intros H N. apply Permutation_NoDup with (x :: l); [apply Permutation_cons_append|]. now constructor. Qed.

Lemma add_link_rep g a f t id : Rep g a ->
  match add_link g f t id with
  | Ok g' => a_accepts a (GLink f t id) = true /\ Rep g' (a_step a (GLink f t id))
  | Err e => e = EThrow /\ a_accepts a (GLink f t id) = false
  end.
Proof.
  intros R. unfold add_link, a_step, a_accepts.
  destruct (g_node g f) as [nf|] eqn:Ef.
  2:{ split; [reflexivity|]. assert (N : memb f (a_nodes a) = false).
      { apply memb_false. intros C. apply (rep_nodes _ _ R) in C. congruence. } now rewrite N. }
  assert (If : In f (a_nodes a)) by (apply (rep_nodes _ _ R); congruence).
  rewrite (proj2 (memb_In f (a_nodes a)) If).
  destruct (g_node g t) as [nt|] eqn:Et.
  2:{ split; [reflexivity|]. assert (N : memb t (a_nodes a) = false).
      { apply memb_false. intros C. apply (rep_nodes _ _ R) in C. congruence. } now rewrite N. }
  assert (It : In t (a_nodes a)) by (apply (rep_nodes _ _ R); congruence).
  rewrite (proj2 (memb_In t (a_nodes a)) It). cbn [andb].
  destruct (g_link g id) as [lk|] eqn:El.
  { split; [reflexivity|]. assert (N : memb id (map fst (a_links a)) = true).
    { apply memb_In. destruct (in_dec Z.eq_dec id (map fst (a_links a))) as [|C]; [assumption|].
      apply (rep_link_none _ _ _ R) in C. congruence. }
    now rewrite N. }
  assert (Nid : ~ In id (map fst (a_links a))) by (now apply (rep_link_none _ _ _ R)).
  rewrite (proj2 (memb_false _ _) Nid). cbn [negb andb].
  destruct (Z.eqb_spec f t) as [->|Nft]; [split; reflexivity|]. cbn [negb]. split; [reflexivity|].
  assert (Ext : forall l r, g_link g l = Some r -> l <> id) by (intros l r H ->; congruence).
  split; cbn [g_node g_link g_nids g_lids a_nodes a_links].
  - apply (rep_nids _ _ R).
  - rewrite (rep_lids _ _ R), map_app. reflexivity.
  - intros n. unfold upd. rewrite (rep_nodes _ _ R).
    destruct (Z.eqb_spec n t) as [->|N1]; [split; [congruence|intros _; congruence]|].
    destruct (Z.eqb_spec n f) as [->|N2]; [split; [congruence|intros _; congruence]|]. reflexivity.
  - intros l f' t'. rewrite in_app_iff, (rep_links _ _ R). unfold upd. destruct (Z.eqb_spec l id) as [->|N].
    + split.
      * intros [(r & Hr & _)|[E|[]]]; [congruence|]. injection E as <- <-. eexists; split; [reflexivity|]. split; reflexivity.
      * intros (r & E & E1 & E2). right. left. injection E as <-. simpl in E1, E2. subst. reflexivity.
    + split.
      * intros [H|[E|[]]]; [exact H|]. congruence.
      * intros H. left. exact H.
  - rewrite map_app. simpl. apply NoDup_snoc; [apply (rep_lnodup _ _ R)|exact Nid].
  - apply (rep_nnodup _ _ R).
  - intros l f' t' H. apply in_app_or in H. destruct H as [H|[E|[]]]; [eapply (rep_ends _ _ R); eauto|].
    injection E as <- <- <-. auto.
  - intros n nd d H. rewrite (a_connections_add a).
    assert (CE : forall ls cur, chain g d cur ls ->
        chain {| g_node := upd (upd (g_node g) f (Some {| nd_next := set_next (nd_next nf) Outgoing id |})) t
                             (Some {| nd_next := set_next (nd_next nt) Incoming id |});
                 g_link := upd (g_link g) id (Some {| lk_end := fun d => match d with Incoming => f | Outgoing => t end;
                         lk_next := fun d => match d with Incoming => nd_next nt Incoming | Outgoing => nd_next nf Outgoing end |});
                 g_nids := g_nids g; g_lids := g_lids g ++ [id] |} d cur ls).
    { intros ls cur. apply chain_ext. intros l r Hl. cbn [g_link]. rewrite upd_other; [exact Hl|]. eapply Ext; eauto. }
    unfold upd in H. destruct (Z.eqb_spec n t) as [->|N1].
    + injection H as <-. cbn [nd_next]. destruct d; cbn [set_next listed_at fst snd].
      * rewrite Z.eqb_refl. econstructor; [cbn [g_link]; apply upd_same|]. cbn [lk_next]. apply CE. apply (rep_chain _ _ R). exact Et.
      * destruct (Z.eqb_spec f t); [congruence|]. apply CE. apply (rep_chain _ _ R). exact Et.
    + destruct (Z.eqb_spec n f) as [->|N2].
      * injection H as <-. cbn [nd_next]. destruct d; cbn [set_next listed_at fst snd].
        -- destruct (Z.eqb_spec t f); [congruence|]. apply CE. apply (rep_chain _ _ R). exact Ef.
        -- rewrite Z.eqb_refl. econstructor; [cbn [g_link]; apply upd_same|]. cbn [lk_next]. apply CE. apply (rep_chain _ _ R). exact Ef.
      * assert (E0 : listed_at d (f, t) =? n = false). { destruct d; simpl; apply Z.eqb_neq; congruence. }
        rewrite E0. apply CE. apply (rep_chain _ _ R). exact H.
Qed.

Lemma gcall_rep g a o : Rep g a ->
  match gcall g o with
  | Ok g' => a_accepts a o = true /\ Rep g' (a_step a o)
  | Err e => e = EThrow /\ a_accepts a o = false
  end.
Proof. destruct o; intros R; [now apply add_node_rep|now apply add_link_rep]. Qed.

Lemma gstep_rep g a o : Rep g a -> Rep (gstep g o) (a_step a o).
Proof.
  intros R. unfold gstep. pose proof (gcall_rep g a o R) as H. destruct (gcall g o).
  - apply H.
  - destruct H as [_ H]. unfold a_step. rewrite H. exact R.
Qed.
Lemma gbuild_rep ops : Rep (gbuild ops) (a_build ops).
Proof.
  unfold gbuild, a_build. generalize rep_empty. generalize empty_graph, a_empty.
  induction ops as [|o ops IH]; intros g a R; simpl; [exact R|]. apply IH. now apply gstep_rep.
Qed.

Lemma rep_connections g a n d : Rep g a ->
  connections g n d = if memb n (a_nodes a) then Ok (a_connections a n d) else Err EThrow.
Proof.
  intros R. unfold connections. destruct (g_node g n) as [nd|] eqn:E.
  - rewrite (proj2 (memb_In n (a_nodes a))) by (apply (rep_nodes _ _ R); congruence).
    apply walk_chain; [now apply (rep_chain _ _ R)|]. rewrite (rep_lids _ _ R).
    pose proof (a_connections_length a n d). lia.
  - assert (N : memb n (a_nodes a) = false) by (apply memb_false; intros C; apply (rep_nodes _ _ R) in C; congruence).
    now rewrite N.
Qed.
Lemma rep_connections_und g a n : Rep g a -> In n (a_nodes a) ->
  connections_und g n = Ok (a_connections a n Incoming ++ a_connections a n Outgoing).
Proof.
  intros R Hn. unfold connections_und. apply (rep_nodes _ _ R) in Hn. destruct (g_node g n) as [nd|] eqn:E; [|congruence].
  assert (W : forall d, walk (S (length (g_lids g))) g d (nd_next nd d) = Ok (a_connections a n d)).
  { intros d. apply walk_chain; [now apply (rep_chain _ _ R)|]. rewrite (rep_lids _ _ R).
    pose proof (a_connections_length a n d). lia. }
  destruct (nd_next nd Incoming) eqn:EI.
  - cbn zeta. cbn [invert]. rewrite !W. reflexivity.
  - cbn [invert]. rewrite !W. cbn [bind].
    assert (a_connections a n Incoming = []) as ->.
    { pose proof (rep_chain _ _ R n nd Incoming E) as C. rewrite EI in C. inversion C. reflexivity. }
    now rewrite app_nil_r.
Qed.
Lemma rep_endpoints g a l f t : Rep g a -> In (l, (f, t)) (a_links a) -> get_endpoints g l = Ok (f, t).
Proof.
  intros R H. apply (rep_links _ _ R) in H. destruct H as (r & Hr & <- & <-). unfold get_endpoints. now rewrite Hr.
Qed.
Lemma rep_endpoints_unknown g a l : Rep g a -> ~ In l (map fst (a_links a)) -> get_endpoints g l = Err EThrow.
Proof. intros R H. apply (rep_link_none _ _ _ R) in H. unfold get_endpoints. now rewrite H. Qed.

Lemma a_connections_In a n d l : In l (a_connections a n d) <-> exists e, In (l, e) (a_links a) /\ listed_at d e = n.
Proof.
  unfold a_connections. rewrite <- in_rev, in_map_iff. split.
  - intros ([l' e] & <- & H). apply filter_In in H. destruct H as [H E]. apply Z.eqb_eq in E. exists e. auto.
  - intros (e & H & E). exists (l, e). split; [reflexivity|]. apply filter_In. split; [exact H|]. now apply Z.eqb_eq.
Qed.
Lemma NoDup_map_filter {A B} (f : A -> B) (p : A -> bool) l : NoDup (map f l) -> NoDup (map f (filter p l)).
Proof.
  induction l as [|x l IH]; simpl; intros H; [constructor|]. inversion_clear H as [|? ? Hn Hd].
  destruct (p x); simpl; [|auto]. constructor; [|auto]. intros C. apply Hn.
  apply in_map_iff in C. destruct C as (y & E & Hy). apply filter_In in Hy. apply in_map_iff. exists y. tauto.
Qed.
Lemma a_connections_NoDup g a n d : Rep g a -> NoDup (a_connections a n d).
Proof.
  intros R. unfold a_connections. apply NoDup_rev. apply NoDup_map_filter. apply (rep_lnodup _ _ R).
Qed.

(** neighbours: only the endpoint of the most recent link is ever produced *)
Lemma nstep_loop_drain g d ls : forall fuel cur seen,
  chain g d cur ls -> (length ls < fuel)%nat ->
  exists seen', nstep_loop fuel g {| ns_cur := cur; ns_dir := d; ns_seen := seen; ns_refill := None |}
    = Ok {| ns_cur := None; ns_dir := d; ns_seen := seen'; ns_refill := None |}.
Proof.
  induction ls as [|l ls IH]; intros fuel cur seen C L; inversion C as [|? r ? Hl Hc]; subst; destruct fuel as [|fuel]; try (simpl in L; lia).
  - eexists. reflexivity.
  - cbn [nstep_loop ns_cur ns_refill ns_dir ns_seen]. rewrite Hl.
    assert (M : memb (lk_end r d) (lk_end r d :: seen) = true) by (apply memb_In; left; reflexivity).
    rewrite M. apply IH; [exact Hc|simpl in L; lia].
Qed.
Lemma neighbors_first_only g a n d : Rep g a -> In n (a_nodes a) ->
  neighbors g n d = Ok (match a_connections a n d with
                        | [] => []
                        | l :: _ => match g_link g l with Some r => [lk_end r d] | None => [] end
                        end).
Proof.
  intros R Hn. unfold neighbors. apply (rep_nodes _ _ R) in Hn. destruct (g_node g n) as [nd|] eqn:E; [|congruence].
  pose proof (rep_chain _ _ R n nd d E) as C.
  pose proof (a_connections_length a n d) as Len. rewrite <- (rep_lids _ _ R) in Len.
  destruct (a_connections a n d) as [|l ls]; inversion C as [|? r ? Hl Hc]; subst.
  - reflexivity.
  - cbn [niter ns_cur]. rewrite Hl. unfold nstep. cbn [ns_cur ns_dir ns_seen]. rewrite Hl. cbn [memb existsb negb guard bind].
    destruct (nstep_loop_drain g d (l :: ls) (2 * S (length (g_lids g))) (Some l) []) as (seen' & ->); [now econstructor; eauto|simpl in *; lia|].
    cbn [bind]. destruct (length (g_lids g)); reflexivity.
Qed.
