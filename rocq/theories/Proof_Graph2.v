(** reverse_graph *)
From Verif Require Import Base Base_lemmas Model_Graph Spec_Graph Proof_Graph.

Lemma foldM_add_node nids : forall g a, Rep g a -> NoDup (a_nodes a ++ nids) ->
  exists g', foldM add_node g nids = Ok g' /\ Rep g' {| a_nodes := a_nodes a ++ nids; a_links := a_links a |}.
Proof.
  induction nids as [|n nids IH]; intros g a R Hn.
  - exists g. split; [reflexivity|]. rewrite app_nil_r. destruct a; exact R.
  - cbn [foldM]. pose proof (add_node_rep g a n R) as H.
    assert (Nin : ~ In n (a_nodes a)).
    { apply NoDup_remove_2 in Hn. intros C. apply Hn. apply in_or_app. left. exact C. }
    assert (Acc : a_accepts a (GNode n) = true) by (simpl; rewrite (proj2 (memb_false _ _) Nin); reflexivity).
    destruct (add_node g n) as [g1|e].
    + destruct H as [_ R1]. unfold a_step in R1. rewrite Acc in R1. cbn [bind].
      destruct (IH g1 _ R1) as (g' & E & R').
      * cbn [a_nodes]. rewrite <- app_assoc. exact Hn.
      * exists g'. split; [exact E|]. cbn [a_nodes a_links] in R'. rewrite <- app_assoc in R'. exact R'.
    + destruct H as [_ H]. congruence.
Qed.

Definition swap (x : Z * (Z * Z)) : Z * (Z * Z) := (fst x, (snd (snd x), fst (snd x))).

Lemma foldM_add_links g0 a0 ls : Rep g0 a0 -> forall g a, Rep g a ->
  (forall n, In n (a_nodes a0) -> In n (a_nodes a)) ->
  (forall x, In x ls -> In x (a_links a0)) ->
  NoDup (map fst (a_links a) ++ map fst ls) ->
  exists g', foldM (fun g' l => do e <- get_endpoints g0 l; add_link g' (snd e) (fst e) l) g (map fst ls) = Ok g' /\
    Rep g' {| a_nodes := a_nodes a; a_links := a_links a ++ map swap ls |}.
Proof.
  intros R0. induction ls as [|[l [f t]] ls IH]; intros g a R Hn Hin Hd.
  - exists g. split; [reflexivity|]. simpl. rewrite app_nil_r. destruct a; exact R.
  - cbn [map fst foldM]. assert (Hl : In (l, (f, t)) (a_links a0)) by (apply Hin; left; reflexivity).
    rewrite (rep_endpoints _ _ _ _ _ R0 Hl). cbn [bind fst snd].
    pose proof (add_link_rep g a t f l R) as H.
    destruct (rep_ends _ _ R0 _ _ _ Hl) as (Hf & Ht & Hne).
    assert (Nin : ~ In l (map fst (a_links a))).
    { cbn [map fst] in Hd. apply NoDup_remove_2 in Hd. intros C. apply Hd. apply in_or_app. left. exact C. }
    assert (Acc : a_accepts a (GLink t f l) = true).
    { simpl. rewrite (proj2 (memb_In _ _) (Hn _ Hf)), (proj2 (memb_In _ _) (Hn _ Ht)), (proj2 (memb_false _ _) Nin).
      simpl. destruct (Z.eqb_spec t f); [congruence|reflexivity]. }
    destruct (add_link g t f l) as [g1|e].
    + destruct H as [_ R1]. unfold a_step in R1. rewrite Acc in R1.
      destruct (IH g1 _ R1) as (g' & E & R').
      * exact Hn.
      * intros x Hx. apply Hin. right. exact Hx.
      * cbn [a_links]. rewrite map_app. cbn [map fst]. rewrite <- app_assoc. exact Hd.
      * exists g'. split; [exact E|]. cbn [a_nodes a_links] in R'. rewrite <- app_assoc in R'. exact R'.
    + destruct H as [_ H]. congruence.
Qed.

Lemma reverse_rep g a nids lids :
  Rep g a -> Permutation nids (g_nids g) -> Permutation lids (g_lids g) ->
  exists g' a', reverse_graph g nids lids = Ok g' /\ Rep g' a' /\ a_nodes a' = nids /\
    (forall l f t, In (l, (f, t)) (a_links a') <-> In (l, (t, f)) (a_links a)) /\ map fst (a_links a') = lids.
Proof.
  intros R Pn Pl. unfold reverse_graph.
  rewrite (rep_nids _ _ R) in Pn. rewrite (rep_lids _ _ R) in Pl.
  destruct (foldM_add_node nids empty_graph a_empty rep_empty) as (g1 & E1 & R1).
  { simpl. eapply Permutation_NoDup; [symmetry; exact Pn|apply (rep_nnodup _ _ R)]. }
  rewrite E1. cbn [bind].
  apply Permutation_map_inv in Pl. destruct Pl as (ls & -> & Pls).
  destruct (foldM_add_links g a ls R g1 _ R1) as (g' & E2 & R').
  { intros n Hn. cbn [a_nodes]. simpl. eapply Permutation_in; [symmetry; exact Pn|exact Hn]. }
  { intros x Hx. eapply Permutation_in; [symmetry; exact Pls|exact Hx]. }
  { simpl. eapply Permutation_NoDup; [apply Permutation_map; exact Pls|apply (rep_lnodup _ _ R)]. }
  exists g'. eexists. split; [exact E2|]. split; [exact R'|]. cbn [a_nodes a_links]. simpl. split; [reflexivity|]. split.
  - intros l f t. rewrite in_map_iff. split.
    + intros ([l' [f' t']] & E & Hx). unfold swap in E. simpl in E. injection E as -> -> ->.
      eapply Permutation_in; [symmetry; exact Pls|exact Hx].
    + intros H. exists (l, (t, f)). split; [reflexivity|]. eapply Permutation_in; [exact Pls|exact H].
  - rewrite map_map. reflexivity.
Qed.

Lemma rep_endpoints_iff g a l f t : Rep g a -> (get_endpoints g l = Ok (f, t) <-> In (l, (f, t)) (a_links a)).
Proof.
  intros R. rewrite (rep_links _ _ R). unfold get_endpoints. destruct (g_link g l) as [r|]; split.
  - injection 1 as <- <-. eauto.
  - intros (r' & E & <- & <-). injection E as <-. reflexivity.
  - discriminate.
  - intros (r' & E & _). discriminate.
Qed.
Lemma route_app g u l1 w l2 v : route g u l1 w -> route g w l2 v -> route g u (l1 ++ l2) v.
Proof. induction 1; simpl; [auto|]. intros. econstructor; eauto. Qed.

Lemma route_rev g g' : (forall l f t, get_endpoints g l = Ok (f, t) -> get_endpoints g' l = Ok (t, f)) ->
  forall u ls v, route g u ls v -> route g' v (rev ls) u.
Proof.
  intros H u ls v R. induction R as [u|u l w ls v E R IH]; [constructor|]. simpl.
  eapply route_app; [exact IH|]. econstructor; [apply H; exact E|constructor].
Qed.
