(** Correctness of the label-correcting searches. *)
From Verif Require Import Base Base_lemmas Model_Num Proof_Num Model_Graph Spec_Graph Proof_Graph Proof_Graph2 Model_SP Spec_SP.

Definition ele (a b : ext) : Prop :=
  match b with None => True | Some y => match a with Some x => (x <= y)%Q | None => False end end.

Lemma ele_refl a : ele a a.
Proof. destruct a; simpl; auto. lra. Qed.
Lemma ele_trans a b c : ele a b -> ele b c -> ele a c.
Proof. destruct a, b, c; simpl; try tauto. lra. Qed.
Lemma eltb_spec a b : eltb a b = true <-> ele a b /\ ~ ele b a.
Proof.
  destruct a as [x|], b as [y|]; simpl.
  - destruct (Qltb_spec x y); split; intros H; try discriminate; try reflexivity; try (split; lra). lra.
  - tauto.
  - split; [discriminate|tauto].
  - split; [discriminate|tauto].
Qed.
Lemma eltb_false a b : eltb a b = false -> ele b a.
Proof.
  destruct a as [x|], b as [y|]; simpl; auto; try discriminate.
  destruct (Qltb_spec x y); [discriminate|]. intros _. lra.
Qed.

Section LC.
Variables (g : graph) (a : agraph).
Hypothesis HR : Rep g a.
Variables (cm : cost_map) (dest : Z).
Hypothesis Hcost : costs_ok g cm.
Hypothesis Hdest : In dest (a_nodes a).

Let L := a_links a.
Let cost := cost_of cm.

Lemma cost_nonneg l e q : In (l, e) L -> cost l = Some q -> (0 <= q)%Q.
Proof.
  destruct e as [f t]. intros H C. apply (rep_endpoints _ _ _ _ _ HR) in H. destruct (Hcost _ _ H) as (c & E & N).
  unfold cost, cost_of in C. rewrite E in C. subst c. exact N.
Qed.
Lemma L_fun l e e' : In (l, e) L -> In (l, e') L -> e = e'.
Proof.
  destruct e as [f t], e' as [f' t']. intros H H'.
  apply (rep_endpoints _ _ _ _ _ HR) in H. apply (rep_endpoints _ _ _ _ _ HR) in H'. congruence.
Qed.
Lemma L_nodes l u v : In (l, (u, v)) L -> In u (a_nodes a) /\ In v (a_nodes a) /\ u <> v.
Proof. intros H. apply (rep_ends _ _ HR) in H. exact H. Qed.

(** labels are costs of simple paths all of whose suffixes are no shorter than the labels *)
Inductive lab (dist : Z -> ext) : Z -> list Z -> list Z -> Q -> Prop :=
| lab_nil : ele (dist dest) (Some 0%Q) -> lab dist dest [] [dest] 0%Q
| lab_cons l u w k P ns c : In (l, (u, w)) L -> cost l = Some k -> lab dist w P ns c ->
    ele (dist u) (Some (k + c)%Q) -> lab dist u (l :: P) (u :: ns) (k + c)%Q.

Lemma lab_mono d d' u P ns c : (forall x, ele (d' x) (d x)) -> lab d u P ns c -> lab d' u P ns c.
Proof.
  intros H. induction 1; econstructor; eauto using ele_trans.
Qed.
Lemma lab_nonneg d u P ns c : lab d u P ns c -> (0 <= c)%Q.
Proof.
  induction 1 as [|l u w k P ns c Hl Hk Hlab IH He]; [lra|]. pose proof (cost_nonneg _ _ _ Hl Hk). lra.
Qed.
Lemma lab_le d u P ns c x : lab d u P ns c -> In x ns -> ele (d x) (Some c).
Proof.
  induction 1 as [He|l u w k P ns c Hl Hk Hlab IH He]; intros Hx; simpl in Hx.
  - destruct Hx as [<-|[]]. exact He.
  - destruct Hx as [<-|Hx]; [exact He|]. eapply ele_trans; [apply IH; exact Hx|].
    simpl. pose proof (cost_nonneg _ _ _ Hl Hk). lra.
Qed.

(** following the output map *)
Inductive tp (out : Z -> option Z) : Z -> list Z -> list Z -> Prop :=
| tp_nil : tp out dest [] [dest]
| tp_cons u l w P ns : u <> dest -> out u = Some l -> In (l, (u, w)) L -> tp out w P ns -> tp out u (l :: P) (u :: ns).

Lemma tp_upd out u l x P ns : tp out x P ns -> ~ In u ns -> tp (upd out u (Some l)) x P ns.
Proof.
  induction 1 as [|x l' w P ns Hx Ho Hl Ht IH]; intros N; [constructor|].
  apply tp_cons with w; auto.
  - rewrite upd_other; [exact Ho|]. intros ->. apply N. now left.
  - apply IH. intros C. apply N. now right.
Qed.
Lemma tp_head out x P ns : tp out x P ns -> exists ns', ns = x :: ns'.
Proof. intros H. inversion H; subst; eauto. Qed.

Record Inv (pend : Z -> Prop) (dist : Z -> ext) (out : Z -> option Z) (todo : Z -> Z -> Prop) : Prop := {
  inv_dest : dist dest = Some 0%Q;
  inv_lab : forall v d, dist v = Some d -> In v (a_nodes a) /\ exists P ns c, lab dist v P ns c /\ NoDup ns /\ (c == d)%Q;
  inv_ptr : forall v d, v <> dest -> dist v = Some d ->
      exists l w k dw, out v = Some l /\ In (l, (v, w)) L /\ cost l = Some k /\ dist w = Some dw /\ (dw + k <= d)%Q;
  inv_tree : forall v d, dist v = Some d -> exists P ns, tp out v P ns;
  inv_none : forall v, In v (a_nodes a) -> v <> dest -> dist v = None -> out v = Some (-1);
  inv_pend : forall v, pend v -> exists d, dist v = Some d;
  inv_bell : forall v d l u k, dist v = Some d -> ~ pend v -> In (l, (u, v)) L -> cost l = Some k ->
      todo v l \/ ele (dist u) (Some (d + k)%Q) }.

Lemma tp_le dist out v P ns :
  (forall v d, v <> dest -> dist v = Some d ->
      exists l w k dw, out v = Some l /\ In (l, (v, w)) L /\ cost l = Some k /\ dist w = Some dw /\ (dw + k <= d)%Q) ->
  tp out v P ns -> forall d, dist v = Some d -> forall x, In x ns -> ele (dist x) (Some d).
Proof.
  intros HP. induction 1 as [|u l w P ns Hu Ho Hl Ht IH]; intros d Hd x Hx; simpl in Hx.
  - destruct Hx as [<-|[]]. rewrite Hd. simpl. lra.
  - destruct Hx as [<-|Hx]; [rewrite Hd; simpl; lra|].
    destruct (HP u d Hu Hd) as (l' & w' & k & dw & Ho' & Hl' & Hk & Hw & Hle).
    assert (l' = l) by congruence. subst l'. assert (E : (u, w') = (u, w)) by (eapply L_fun; eauto). injection E as ->.
    eapply ele_trans; [apply (IH dw Hw x Hx)|]. simpl. pose proof (cost_nonneg _ _ _ Hl Hk). lra.
Qed.

(** one improvement *)
Lemma inv_improve (pend pend' : Z -> Prop) dist out todo v0 dv l u k :
  Inv pend dist out todo -> dist v0 = Some dv -> In (l, (u, v0)) L -> cost l = Some k ->
  eltb (Some (dv + k)%Q) (dist u) = true ->
  pend' u -> (forall x, pend x -> pend' x) -> (forall x, pend' x -> pend x \/ x = u) ->
  (u <> dest /\ exists P ns c, lab (upd dist u (Some (dv + k)%Q)) u P ns c /\ NoDup ns /\ (c == dv + k)%Q) /\
  Inv pend' (upd dist u (Some (dv + k)%Q)) (upd out u (Some l)) (fun v l' => todo v l' /\ l' <> l).
Proof.
  intros I Hv Hl Hk Hlt Pu Pm Pi.
  destruct (L_nodes _ _ _ Hl) as (Nu & Nv & Nuv).
  pose proof (cost_nonneg _ _ _ Hl Hk) as Kpos.
  apply eltb_spec in Hlt. destruct Hlt as [Hle Hnle].
  assert (Mono : forall x, ele (upd dist u (Some (dv + k)%Q) x) (dist x)).
  { intros x. unfold upd. destruct (Z.eqb_spec x u); [subst; exact Hle|apply ele_refl]. }
  destruct (inv_lab _ _ _ _ I v0 dv Hv) as (_ & P & ns & c & Hlab & Hnd & Hc).
  assert (Nun : ~ In u ns).
  { intros C. apply Hnle. eapply ele_trans; [eapply lab_le; eauto|]. simpl. lra. }
  assert (Nud : u <> dest).
  { intros ->. rewrite (inv_dest _ _ _ _ I) in Hnle. apply Hnle. simpl.
    pose proof (lab_nonneg _ _ _ _ _ Hlab). lra. }
  assert (NL : lab (upd dist u (Some (dv + k)%Q)) u (l :: P) (u :: ns) (k + c)%Q).
  { apply lab_cons with v0; auto.
    - eapply lab_mono; eauto.
    - rewrite upd_same. simpl. lra. }
  assert (NN : NoDup (u :: ns)) by (constructor; assumption).
  split.
  { split; [exact Nud|]. exists (l :: P), (u :: ns), (k + c)%Q. split; [exact NL|]. split; [exact NN|]. lra. }
  assert (TPu : exists P ns, tp out v0 P ns /\ ~ In u ns).
  { destruct (inv_tree _ _ _ _ I v0 dv Hv) as (P' & ns' & Ht). exists P', ns'. split; [exact Ht|].
    intros C. apply Hnle. eapply ele_trans; [eapply tp_le; eauto using (inv_ptr _ _ _ _ I)|]. simpl. lra. }
  destruct TPu as (Pt & nst & Ht & Nt).
  split.
  - rewrite upd_other by congruence. apply (inv_dest _ _ _ _ I).
  - intros v d Hd. unfold upd in Hd. destruct (Z.eqb_spec v u).
    + subst v. injection Hd as <-. split; [exact Nu|]. exists (l :: P), (u :: ns), (k + c)%Q.
      split; [exact NL|]. split; [exact NN|]. lra.
    + destruct (inv_lab _ _ _ _ I v d Hd) as (Hn & P1 & ns1 & c1 & H1 & H2 & H3). split; [exact Hn|].
      exists P1, ns1, c1. split; [eapply lab_mono; eauto|auto].
  - intros v d Nvd Hd. destruct (Z.eq_dec v u) as [->|Nvu].
    + rewrite upd_same in Hd. injection Hd as <-. exists l, v0, k, dv. rewrite upd_same, upd_other by congruence.
      repeat split; auto. lra.
    + rewrite upd_other in Hd by exact Nvu.
      destruct (inv_ptr _ _ _ _ I v d Nvd Hd) as (l1 & w & k1 & dw & Ho & Hl1 & Hk1 & Hw & Hle1).
      rewrite (upd_other out) by exact Nvu.
      specialize (Mono w). destruct (upd dist u (Some (dv + k)%Q) w) as [dw'|] eqn:E; rewrite Hw in Mono; simpl in Mono; [|tauto].
      exists l1, w, k1, dw'. repeat split; auto. lra.
  - intros v d Hd.
    assert (Hold : v = u \/ exists d0, dist v = Some d0).
    { unfold upd in Hd. destruct (Z.eqb_spec v u); [left; assumption|right; eauto]. }
    assert (New : tp (upd out u (Some l)) u (l :: Pt) (u :: nst)).
    { apply tp_cons with v0; auto; [apply upd_same|now apply tp_upd]. }
    destruct Hold as [->|(d0 & Hd0)]; [eauto|].
    destruct (inv_tree _ _ _ _ I v d0 Hd0) as (P1 & ns1 & H1). clear Hd Hd0 d0 d.
    induction H1 as [|x l1 w P1 ns1 Hx Ho Hl1 H1 IH]; [exists [], [dest]; constructor|].
    destruct (Z.eq_dec x u) as [->|Nxu]; [eauto|].
    destruct IH as (P2 & ns2 & H2). exists (l1 :: P2), (x :: ns2). apply tp_cons with w; auto.
    rewrite upd_other; auto.
  - intros v Hn Nvd Hd. unfold upd in *. destruct (Z.eqb_spec v u); [discriminate|]. now apply (inv_none _ _ _ _ I).
  - intros v Hp. unfold upd. destruct (Z.eqb_spec v u); [eauto|].
    destruct (Pi v Hp); [|contradiction]. now apply (inv_pend _ _ _ _ I).
  - intros v d l1 u1 k1 Hd Np Hl1 Hk1.
    assert (Nvu : v <> u) by (intros ->; auto).
    rewrite upd_other in Hd by exact Nvu.
    destruct (Z.eq_dec l1 l) as [->|Nl].
    + right. assert (E : (u1, v) = (u, v0)) by (eapply L_fun; eauto). injection E as -> ->.
      rewrite upd_same. simpl. assert (d = dv) by congruence. assert (k1 = k) by congruence. subst. lra.
    + destruct (inv_bell _ _ _ _ I v d l1 u1 k1 Hd (fun p => Np (Pm _ p)) Hl1 Hk1) as [Htd|Hb]; [left; auto|].
      right. eapply ele_trans; eauto.
Qed.

Lemma inv_skip pend dist out todo v0 dv l u :
  Inv pend dist out todo -> dist v0 = Some dv -> In (l, (u, v0)) L ->
  eltb (eadd (Some dv) (cost l)) (dist u) = false ->
  Inv pend dist out (fun v l' => todo v l' /\ l' <> l).
Proof.
  intros I Hv Hl Hlt. apply eltb_false in Hlt. destruct I. split; auto.
  intros v d l1 u1 k1 Hd Np Hl1 Hk1. destruct (Z.eq_dec l1 l) as [->|Nl].
  - right. assert (E : (u1, v) = (u, v0)) by (eapply L_fun; eauto). injection E as -> ->.
    rewrite Hk1 in Hlt. assert (d = dv) by congruence. subst d. exact Hlt.
  - destruct (inv_bell0 v d l1 u1 k1 Hd Np Hl1 Hk1); auto.
Qed.

(** ** Termination measure *)
Fixpoint lists_upto (n : nat) (ids : list Z) : list (list Z) :=
  match n with
  | O => [[]]
  | S n' => [] :: flat_map (fun l => map (cons l) (lists_upto n' ids)) ids
  end.
Lemma lists_upto_In ids : forall n P, (length P <= n)%nat -> (forall l, In l P -> In l ids) -> In P (lists_upto n ids).
Proof.
  induction n as [|n IH]; intros [|l P] Hlen Hin; simpl in *; try lia; auto.
  right. apply in_flat_map. exists l. split; [apply Hin; auto|]. apply in_map. apply IH; [lia|]. intros; apply Hin; auto.
Qed.

Fixpoint ends_b (u : Z) (P : list Z) : bool :=
  match P with
  | [] => u =? dest
  | l :: P' => match get_endpoints g l with Ok (f, t) => (f =? u) && ends_b t P' | Err _ => false end
  end.
Definition allP := lists_upto (length (a_nodes a)) (map fst L).
Definition rank (v : Z) (d : ext) : nat :=
  length (filter (fun P => ends_b v P && eltb (total_cost cost P) d) allP).

Lemma filter_len_le {A} (p q : A -> bool) l : (forall x, p x = true -> q x = true) ->
  (length (filter p l) <= length (filter q l))%nat.
Proof.
  intros H. induction l as [|x l IH]; simpl; [lia|]. specialize (H x).
  destruct (p x), (q x); simpl; try lia; discriminate H; reflexivity.
Qed.
Lemma filter_len_lt {A} (p q : A -> bool) l y : (forall x, p x = true -> q x = true) -> In y l ->
  p y = false -> q y = true -> (length (filter p l) < length (filter q l))%nat.
Proof.
  intros H. induction l as [|x l IH]; simpl; [intros []|]. intros [->|Hy] Py Qy.
  - rewrite Py, Qy. simpl. pose proof (filter_len_le p q l H). lia.
  - specialize (IH Hy Py Qy). specialize (H x).
    destruct (p x), (q x); simpl; try lia; discriminate H; reflexivity.
Qed.
Lemma eltb_le_trans x d d' : ele d d' -> eltb x d = true -> eltb x d' = true.
Proof. intros H E. apply eltb_spec in E. apply eltb_spec. destruct E as [E N]. split; [eapply ele_trans; eauto|]. intros C. apply N. eapply ele_trans; eauto. Qed.
Lemma rank_mono v d d' : ele d d' -> (rank v d <= rank v d')%nat.
Proof.
  intros H. apply filter_len_le. intros P. rewrite !andb_true_iff. intros [E1 E2]. split; [exact E1|]. eapply eltb_le_trans; eauto.
Qed.
Lemma lab_links d u P ns c : lab d u P ns c ->
  ends_b u P = true /\ (forall l, In l P -> In l (map fst L)) /\ length ns = S (length P) /\ (forall x, In x ns -> In x (a_nodes a)) /\
  exists c', total_cost cost P = Some c' /\ (c' == c)%Q.
Proof.
  induction 1 as [He|l u w k P ns c Hl Hk Hlab IH He].
  - simpl. repeat split; auto; try (intros ? []); [apply Z.eqb_refl|subst; auto|tauto|]. exists 0%Q. split; [reflexivity|lra].
  - destruct IH as (H1 & H2 & H3 & H4 & c' & H5 & H6). simpl. repeat split.
    + rewrite (rep_endpoints _ _ _ _ _ HR Hl), Z.eqb_refl. exact H1.
    + intros x [<-|Hx]; [apply (in_map fst) in Hl; exact Hl|auto].
    + lia.
    + intros x [<-|Hx]; [apply (L_nodes _ _ _ Hl)|auto].
    + rewrite H5, Hk. exists (k + c')%Q. split; [reflexivity|lra].
Qed.
Lemma rank_decr d u P ns c dn dold : lab d u P ns c -> NoDup ns -> (c == dn)%Q -> eltb (Some dn) dold = true ->
  (rank u (Some dn) < rank u dold)%nat.
Proof.
  intros Hlab Hnd Hc Hlt. destruct (lab_links _ _ _ _ _ Hlab) as (H1 & H2 & H3 & H4 & c' & H5 & H6).
  apply filter_len_lt with P.
  - intros Q. rewrite !andb_true_iff. intros [E1 E2]. split; [exact E1|]. eapply eltb_le_trans; [|exact E2]. apply eltb_spec in Hlt. tauto.
  - apply lists_upto_In; [|exact H2]. assert (length ns <= length (a_nodes a))%nat by (apply NoDup_incl_length; auto). lia.
  - rewrite H1, H5. cbn [andb]. unfold eltb. destruct (Qltb_spec c' dn); [lra|reflexivity].
  - rewrite H1, H5. cbn [andb]. apply eltb_spec in Hlt. apply eltb_spec. destruct dold as [dd|]; simpl in *; [|tauto].
    destruct Hlt. split; lra.
Qed.

Definition msr (ns : list Z) (dist : Z -> ext) : nat := fold_right (fun v n => (rank v (dist v) + n)%nat) 0%nat ns.
Lemma msr_other ns dist u d : ~ In u ns -> msr ns (upd dist u d) = msr ns dist.
Proof.
  induction ns as [|x ns IH]; simpl; intros N; [reflexivity|]. rewrite IH by tauto. rewrite upd_other; [reflexivity|]. intros ->. tauto.
Qed.
Lemma msr_decr ns dist u d : NoDup ns -> In u ns -> (rank u d < rank u (dist u))%nat -> (msr ns (upd dist u d) < msr ns dist)%nat.
Proof.
  induction ns as [|x ns IH]; simpl; intros Nd Hu Hr; [tauto|]. inversion_clear Nd as [|? ? Hn Hd].
  destruct (Z.eq_dec x u) as [->|Nx].
  - rewrite upd_same, msr_other by exact Hn. lia.
  - rewrite upd_other by exact Nx. destruct Hu as [|Hu]; [contradiction|]. specialize (IH Hd Hu Hr). lia.
Qed.

Lemma inv_weaken (pend : Z -> Prop) dist out (todo todo' : Z -> Z -> Prop) : (forall v l, In (l, v) (map (fun x => (fst x, snd (snd x))) L) -> todo v l -> todo' v l) ->
  Inv pend dist out todo -> Inv pend dist out todo'.
Proof.
  intros H []. split; auto. intros v d l u k Hd Np Hl Hk. destruct (inv_bell0 v d l u k Hd Np Hl Hk); [left|right; assumption].
  apply H; [|assumption]. apply in_map_iff. exists (l, (u, v)). auto.
Qed.

(** ** Loops *)
Variables (push : list Z * (Z -> bool) -> Z -> list Z * (Z -> bool))
    (pop : nat -> list Z * (Z -> bool) -> option (Z * (list Z * (Z -> bool))))
    (QI : list Z * (Z -> bool) -> Prop).
Hypothesis push_ok : forall qf u, QI qf -> QI (push qf u) /\ In u (fst (push qf u)) /\
  (forall x, In x (fst qf) -> In x (fst (push qf u))) /\
  (forall x, In x (fst (push qf u)) -> In x (fst qf) \/ x = u) /\
  (length (fst (push qf u)) <= S (length (fst qf)))%nat.
Hypothesis pop_ok : forall i qf, QI qf ->
  match pop i qf with
  | None => fst qf = []
  | Some (v, qf') => QI qf' /\ Permutation (fst qf) (v :: fst qf')
  end.

Definition SInv (s : sstate) (todo : Z -> Z -> Prop) : Prop :=
  QI (s_q s, s_flag s) /\ Inv (fun x => In x (s_q s)) (s_dist s) (s_out s) todo.
Definition mu (s : sstate) : nat := (2 * msr (a_nodes a) (s_dist s) + length (s_q s))%nat.

Lemma relax_ok s v dv ls l :
  SInv s (fun v' l' => v' = v /\ In l' (l :: ls)) -> s_dist s v = Some dv ->
  In l (a_connections a v Incoming) ->
  exists s', relax push g cm (Some dv) s l = Ok s' /\ SInv s' (fun v' l' => v' = v /\ In l' ls) /\
    s_dist s' v = Some dv /\ (mu s' <= mu s)%nat.
Proof.
  intros [HQ I] Hv Hl. apply a_connections_In in Hl. destruct Hl as ([u v'] & Hl & E). simpl in E. subst v'.
  unfold relax. pose proof (rep_endpoints _ _ _ _ _ HR Hl) as He. rewrite He. cbn [bind fst snd].
  destruct (Hcost _ _ He) as (c & Hc & Hcn). rewrite Hc.
  assert (Ec : cost l = c) by (unfold cost, cost_of; now rewrite Hc).
  destruct (eltb (eadd (Some dv) c) (s_dist s u)) eqn:Elt.
  - destruct c as [k|]; [|discriminate Elt]. cbn [eadd] in *.
    destruct (push_ok (s_q s, s_flag s) u HQ) as (Q1 & Q2 & Q3 & Q4 & Q5). cbn [fst] in *.
    destruct (inv_improve _ (fun x => In x (fst (push (s_q s, s_flag s) u))) _ _ _ v dv l u k I Hv Hl Ec Elt Q2 Q3 Q4) as [(Nd & P & ns & c & H1 & H2 & H3) I'].
    destruct (L_nodes _ _ _ Hl) as (Nu & Nv & Nuv).
    eexists. split; [reflexivity|]. split; [|split].
    + split; cbn [s_q s_flag s_dist s_out]; [destruct (push (s_q s, s_flag s) u); exact Q1|].
      eapply inv_weaken; [|exact I']. cbn. intros v' l' _ [[E1 [E2|E2]] E3]; [congruence|auto].
    + cbn. rewrite upd_other by congruence. exact Hv.
    + unfold mu. cbn [s_dist s_q].
      pose proof (msr_decr (a_nodes a) (s_dist s) u (Some (dv + k)%Q) (rep_nnodup _ _ HR) Nu
        (rank_decr _ _ _ _ _ _ _ H1 H2 H3 Elt)). lia.
  - exists s. split; [reflexivity|]. split; [|split; [exact Hv|lia]]. split; [exact HQ|].
    eapply inv_weaken; [|eapply (inv_skip _ _ _ _ v dv l u I Hv Hl)]; [|rewrite Ec; exact Elt].
    cbn. intros v' l' _ [[E1 [E2|E2]] E3]; [congruence|auto].
Qed.

Lemma relax_all_ok v dv : forall ls s,
  SInv s (fun v' l' => v' = v /\ In l' ls) -> s_dist s v = Some dv ->
  (forall l, In l ls -> In l (a_connections a v Incoming)) ->
  exists s', foldM (relax push g cm (Some dv)) s ls = Ok s' /\ SInv s' (fun _ _ => False) /\ (mu s' <= mu s)%nat.
Proof.
  induction ls as [|l ls IH]; intros s I Hv Hin; simpl.
  - exists s. split; [reflexivity|]. split; [|lia]. destruct I as [HQ I]. split; [exact HQ|].
    eapply inv_weaken; [|exact I]. simpl. intros v' l' _ [_ []].
  - destruct (relax_ok s v dv ls l I Hv (Hin l (or_introl eq_refl))) as (s1 & E1 & I1 & D1 & M1).
    rewrite E1. cbn [bind]. destruct (IH s1 I1 D1 (fun l' H => Hin l' (or_intror H))) as (s2 & E2 & I2 & M2).
    exists s2. split; [exact E2|]. split; [exact I2|lia].
Qed.

Lemma loop_ok : forall fuel i s, SInv s (fun _ _ => False) -> (mu s <= fuel)%nat ->
  exists s', search_loop fuel (fun v => connections g v Incoming) push pop g cm i s = Ok s' /\
    SInv s' (fun _ _ => False) /\ s_q s' = [].
Proof.
  induction fuel as [|fuel IH]; intros i s [HQ I] Hm; cbn [search_loop];
  pose proof (pop_ok i (s_q s, s_flag s) HQ) as HP;
  destruct (pop i (s_q s, s_flag s)) as [[v qf]|];
  try (exists s; split; [reflexivity|]; split; [split; assumption|exact HP]);
  destruct HP as [HQ' HP]; cbn [fst] in HP; pose proof (Permutation_length HP) as HL; cbn [length] in HL.
  - unfold mu in Hm. lia.
  - assert (Hvq : In v (s_q s)) by (eapply Permutation_in; [symmetry; exact HP|left; reflexivity]).
    destruct (inv_pend _ _ _ _ I v Hvq) as (dv & Hdv).
    destruct (inv_lab _ _ _ _ I v dv Hdv) as (Hn & _).
    rewrite (rep_connections _ _ _ _ HR), (proj2 (memb_In _ _) Hn), Hdv. cbn [bind].
    set (s1 := {| s_dist := s_dist s; s_out := s_out s; s_q := fst qf; s_flag := snd qf |}).
    assert (I1 : SInv s1 (fun v' l' => v' = v /\ In l' (a_connections a v Incoming))).
    { split; [cbn; destruct qf; exact HQ'|]. destruct I as [J1 J2 J3 J4 J5 J6 J7]. split; cbn; auto.
      - intros x Hx. apply J6. eapply Permutation_in; [symmetry; exact HP|right; exact Hx].
      - intros v' d l u k Hd Np Hl Hk. destruct (Z.eq_dec v' v) as [->|Nv].
        + left. split; [reflexivity|]. apply a_connections_In. exists (u, v). auto.
        + destruct (J7 v' d l u k Hd) as [[]|]; auto. intros C. apply (Permutation_in _ HP) in C.
          destruct C; [congruence|contradiction]. }
    destruct (relax_all_ok v dv (a_connections a v Incoming) s1 I1 Hdv (fun _ H => H)) as (s2 & E2 & I2 & M2).
    rewrite E2. cbn [bind]. apply IH; [exact I2|]. unfold mu in *. cbn [s1 s_q s_dist] in M2. lia.
Qed.

(** the search ends and its result is optimal *)
Lemma init_inv out0 : (forall v, In v (a_nodes a) -> v <> dest -> out0 v = Some (-1)) ->
  forall fl, QI ([dest], fl) -> SInv {| s_dist := init_dist dest; s_out := out0; s_q := [dest]; s_flag := fl |} (fun _ _ => False).
Proof.
  intros Ho fl HQ. split; [exact HQ|]. cbn. unfold init_dist. split.
  - now rewrite Z.eqb_refl.
  - intros v d. destruct (Z.eqb_spec v dest); [|discriminate]. intros E. injection E as <-. subst v. split; [exact Hdest|].
    exists [], [dest], 0%Q. split; [constructor; rewrite Z.eqb_refl; simpl; lra|]. split; [|lra].
    constructor; [intros []|constructor].
  - intros v d N. destruct (Z.eqb_spec v dest); [contradiction|discriminate].
  - intros v d. destruct (Z.eqb_spec v dest); [|discriminate]. intros _. subst. exists [], [dest]. constructor.
  - intros v Hv N _. auto.
  - intros v [<-|[]]. rewrite Z.eqb_refl. eauto.
  - intros v d l u k. destruct (Z.eqb_spec v dest); [|discriminate]. intros _ N. exfalso. apply N. simpl. auto.
Qed.

Lemma bellman_le dist :
  (forall v d l u k, dist v = Some d -> In (l, (u, v)) L -> cost l = Some k -> ele (dist u) (Some (d + k)%Q)) ->
  dist dest = Some 0%Q ->
  forall u ls v, route g u ls v -> v = dest -> forall c, total_cost cost ls = Some c -> ele (dist u) (Some c).
Proof.
  intros HB H0 u ls v R. induction R as [u|u l w ls v E R IH]; intros Ev c Hc; subst.
  - injection Hc as <-. rewrite H0. simpl. lra.
  - simpl in Hc. destruct (cost l) as [k|] eqn:Ek; [|discriminate].
    destruct (total_cost cost ls) as [c'|] eqn:Et; [|discriminate].
    injection Hc as <-. specialize (IH eq_refl c' eq_refl). apply (rep_endpoints_iff _ _ _ _ _ HR) in E.
    destruct (dist w) as [dw|] eqn:Ew; simpl in IH; [|tauto].
    eapply ele_trans; [eapply HB; eauto|]. simpl. lra.
Qed.

Lemma tp_result dist out :
  (forall v d, v <> dest -> dist v = Some d ->
      exists l w k dw, out v = Some l /\ In (l, (v, w)) L /\ cost l = Some k /\ dist w = Some dw /\ (dw + k <= d)%Q) ->
  (forall v d l u k, dist v = Some d -> In (l, (u, v)) L -> cost l = Some k -> ele (dist u) (Some (d + k)%Q)) ->
  dist dest = Some 0%Q -> ~ In (-1) (map fst L) ->
  forall v P ns, tp out v P ns -> forall d, dist v = Some d ->
  route g v P dest /\ visits g v P ns /\ follows g out v P dest /\ exists c, total_cost cost P = Some c /\ (c == d)%Q.
Proof.
  intros HP HB H0 Hneg v P ns Ht. induction Ht as [|u l w P ns Hu Ho Hl Ht IH]; intros d Hd.
  - repeat split; try constructor. exists 0%Q. split; [reflexivity|]. rewrite Hd in H0. injection H0 as ->. lra.
  - destruct (HP u d Hu Hd) as (l' & w' & k & dw & Ho' & Hl' & Hk & Hw & Hle).
    assert (l' = l) by congruence. subst l'. assert (E : (u, w') = (u, w)) by (eapply L_fun; eauto). injection E as ->.
    destruct (IH dw Hw) as (R1 & R2 & R3 & c & R4 & R5).
    pose proof (rep_endpoints _ _ _ _ _ HR Hl) as He.
    assert (Hll : ele (dist u) (Some (dw + k)%Q)) by (eapply HB; eauto).
    rewrite Hd in Hll. simpl in Hll.
    split; [econstructor; eauto|]. split; [econstructor; eauto|]. split.
    + econstructor; eauto. intros ->. apply Hneg. apply in_map_iff. exists (-1, (u, w)). auto.
    + simpl. rewrite Hk, R4. exists (k + c)%Q. split; [reflexivity|]. lra.
Qed.

Lemma tp_det out v P ns : tp out v P ns -> forall P' ns', tp out v P' ns' -> P = P' /\ ns = ns'.
Proof.
  induction 1 as [|u l w P ns Hu Ho Hl Ht IH]; intros P' ns' H'; inversion H'; subst; auto; try contradiction.
  assert (l0 = l) by congruence. subst l0. assert (E : (u, w0) = (u, w)) by (eapply L_fun; eauto). injection E as ->.
  match goal with T : tp out w _ _ |- _ => destruct (IH _ _ T) as [-> ->]; auto end.
Qed.
Lemma tp_suffix out v P ns : tp out v P ns -> forall x, In x ns -> exists P' ns', tp out x P' ns' /\ (length P' <= length P)%nat.
Proof.
  induction 1 as [|u l w P ns Hu Ho Hl Ht IH]; intros x Hx; simpl in Hx.
  - destruct Hx as [<-|[]]. exists [], [dest]. split; [constructor|simpl; lia].
  - destruct Hx as [<-|Hx].
    + exists (l :: P), (u :: ns). split; [econstructor; eauto|simpl; lia].
    + destruct (IH x Hx) as (P' & ns' & H' & Hlen). exists P', ns'. split; [exact H'|simpl; lia].
Qed.
Lemma tp_NoDup out v P ns : tp out v P ns -> NoDup ns.
Proof.
  induction 1 as [|u l w P ns Hu Ho Hl Ht IH].
  - constructor; [intros []|constructor].
  - constructor; [|exact IH]. intros C. destruct (tp_suffix _ _ _ _ Ht u C) as (P' & ns' & H' & Hlen).
    assert (E : tp out u (l :: P) (u :: ns)) by (econstructor; eauto).
    destruct (tp_det _ _ _ _ E _ _ H') as [<- _]. simpl in Hlen. lia.
Qed.

Definition sp_result (dist : Z -> ext) (out : Z -> option Z) : Prop :=
  forall n, In n (a_nodes a) ->
    (dist n = None /\ unreachable g cost n dest /\ n <> dest /\ out n = Some (-1)) \/
    (exists d ls ns, dist n = Some d /\ least_cost g cost n dest d /\
       follows g out n ls dest /\ visits g n ls ns /\ NoDup ns /\ exists c, total_cost cost ls = Some c /\ (c == d)%Q).

Lemma final_ok s : SInv s (fun _ _ => False) -> s_q s = [] -> ~ In (-1) (map fst L) ->
  sp_result (s_dist s) (s_out s).
Proof.
  intros [_ I] Hq Hneg n Hn.
  assert (HB : forall v d l u k, s_dist s v = Some d -> In (l, (u, v)) L -> cost l = Some k -> ele (s_dist s u) (Some (d + k)%Q)).
  { intros v d l u k Hd Hl Hk. destruct (inv_bell _ _ _ _ I v d l u k Hd) as [[]|]; auto. rewrite Hq. intros []. }
  pose proof (inv_dest _ _ _ _ I) as H0.
  destruct (s_dist s n) as [d|] eqn:Ed.
  - right. destruct (inv_tree _ _ _ _ I n d Ed) as (P & ns & Ht).
    destruct (tp_result _ _ (inv_ptr _ _ _ _ I) HB H0 Hneg _ _ _ Ht d Ed) as (R1 & R2 & R3 & c & R4 & R5).
    exists d, P, ns. split; [reflexivity|]. split; [|eauto 10 using tp_NoDup]. split; [eauto|].
    intros ls c' Hr Hc. pose proof (bellman_le _ HB H0 _ _ _ Hr eq_refl _ Hc) as Hle. rewrite Ed in Hle. exact Hle.
  - left. split; [reflexivity|]. split.
    + intros ls Hr. destruct (total_cost cost ls) as [c|] eqn:Ec; [|reflexivity].
      pose proof (bellman_le _ HB H0 _ _ _ Hr eq_refl _ Ec) as Hle. rewrite Ed in Hle. destruct Hle.
    + assert (n <> dest) by congruence. split; [assumption|]. now apply (inv_none _ _ _ _ I).
Qed.
End LC.

(** ** Instances *)
Definition QI_fifo (qf : list Z * (Z -> bool)) : Prop := NoDup (fst qf) /\ forall x, snd qf x = true <-> In x (fst qf).
Lemma push_back_ok qf u : QI_fifo qf -> QI_fifo (push_back qf u) /\ In u (fst (push_back qf u)) /\
  (forall x, In x (fst qf) -> In x (fst (push_back qf u))) /\
  (forall x, In x (fst (push_back qf u)) -> In x (fst qf) \/ x = u) /\
  (length (fst (push_back qf u)) <= S (length (fst qf)))%nat.
Proof.
  destruct qf as [q fl]. intros [H1 H2]. unfold push_back. cbn [fst snd] in *. destruct (fl u) eqn:E.
  - repeat split; auto; try apply H2; auto.
  - cbn [fst snd]. assert (N : ~ In u q) by (rewrite <- H2; congruence).
    split; [split; cbn [fst snd]|].
    + now apply NoDup_snoc.
    + intros x. rewrite in_app_iff. simpl. unfold upd. destruct (Z.eqb_spec x u); [subst; tauto|]. rewrite H2. intuition congruence.
    + split; [apply in_app_iff; simpl; auto|]. split; [intros; apply in_app_iff; auto|]. split.
      * intros x. rewrite in_app_iff. simpl. intuition.
      * rewrite app_length. simpl. lia.
Qed.
Lemma pop_front_ok i qf : QI_fifo qf ->
  match pop_front i qf with None => fst qf = [] | Some (v, qf') => QI_fifo qf' /\ Permutation (fst qf) (v :: fst qf') end.
Proof.
  destruct qf as [[|v q] fl]; intros [H1 H2]; cbn in *; [reflexivity|]. inversion_clear H1 as [|? ? N D].
  split; [|reflexivity]. split; cbn; [exact D|]. intros x. unfold upd. destruct (Z.eqb_spec x v).
  - subst. intuition congruence.
  - rewrite H2. intuition congruence.
Qed.
Lemma push_heap_ok qf u : True -> True /\ In u (fst (push_heap qf u)) /\
  (forall x, In x (fst qf) -> In x (fst (push_heap qf u))) /\
  (forall x, In x (fst (push_heap qf u)) -> In x (fst qf) \/ x = u) /\
  (length (fst (push_heap qf u)) <= S (length (fst qf)))%nat.
Proof.
  intros _. unfold push_heap. cbn [fst]. rewrite app_length. simpl. repeat split; try lia.
  - apply in_app_iff. simpl. auto.
  - intros; apply in_app_iff; auto.
  - intros x. rewrite in_app_iff. simpl. intuition.
Qed.
Lemma pop_heap_ok pick i qf : True ->
  match pop_heap pick i qf with None => fst qf = [] | Some (v, qf') => True /\ Permutation (fst qf) (v :: fst qf') end.
Proof.
  intros _. destruct qf as [[|x q] fl]; [reflexivity|]. unfold pop_heap. cbn [fst]. split; [exact I|].
  set (k := (pick i mod length (x :: q))%nat).
  assert (Hk : (k < length (x :: q))%nat) by (apply Nat.mod_upper_bound; simpl; lia).
  cbn [fst]. rewrite Permutation_middle.
  rewrite <- (firstn_skipn k (x :: q)) at 1. apply Permutation_app_head.
  clearbody k. revert Hk. generalize (x :: q) as l. clear. intros l. revert k. induction l as [|y l IH]; intros k Hk; simpl in Hk; [lia|].
  destruct k as [|k]; [reflexivity|]. simpl. apply IH. lia.
Qed.

Lemma fifo_ok g a cm dest out0 : Rep g a -> costs_ok g cm -> In dest (a_nodes a) -> ~ In (-1) (map fst (a_links a)) ->
  exists N, forall fuel, (N <= fuel)%nat -> exists s, all_to_one_FIFO fuel g dest cm out0 = Ok s /\
    sp_result g a cm dest (s_dist s) (s_out s).
Proof.
  intros HR HC HD HN. exists (mu g a cm dest (fifo_init g dest out0)). intros fuel Hf.
  assert (I0 : SInv a cm dest QI_fifo (fifo_init g dest out0) (fun _ _ => False)).
  { unfold fifo_init. apply init_inv; auto.
    - intros v Hv N. rewrite (rep_nids _ _ HR), (proj2 (memb_In _ _) Hv). destruct (Z.eqb_spec v dest); [contradiction|reflexivity].
    - split; cbn; [constructor; [intros []|constructor]|]. intros x. destruct (Z.eqb_spec x dest); intuition congruence. }
  destruct (loop_ok g a HR cm dest HC HD push_back pop_front QI_fifo push_back_ok pop_front_ok fuel 0%nat _ I0 Hf) as (s & E & I1 & Hq).
  exists s. split; [exact E|]. eapply final_ok; eauto. exact push_back_ok.
Qed.

Lemma dijkstra_ok g a cm dest out0 pick : Rep g a -> costs_ok g cm -> In dest (a_nodes a) -> ~ In (-1) (map fst (a_links a)) ->
  (forall n, In n (a_nodes a) -> n <> dest -> out0 n = None \/ out0 n = Some (-1)) ->
  exists N, forall fuel, (N <= fuel)%nat -> exists s, all_to_one_Dijkstra fuel pick g dest cm out0 = Ok s /\
    sp_result g a cm dest (s_dist s) (s_out s).
Proof.
  intros HR HC HD HN HO. exists (mu g a cm dest (dijkstra_init g dest out0)). intros fuel Hf.
  assert (I0 : SInv a cm dest (fun _ => True) (dijkstra_init g dest out0) (fun _ _ => False)).
  { unfold dijkstra_init. apply init_inv; auto.
    intros v Hv N. rewrite (rep_nids _ _ HR), (proj2 (memb_In _ _) Hv). destruct (Z.eqb_spec v dest); [contradiction|].
    destruct (HO v Hv N) as [-> | ->]; reflexivity. }
  destruct (loop_ok g a HR cm dest HC HD push_heap (pop_heap pick) (fun _ => True) push_heap_ok (pop_heap_ok pick) fuel 0%nat _ I0 Hf) as (s & E & I1 & Hq).
  exists s. split; [exact E|]. eapply final_ok; eauto. exact push_heap_ok.
Qed.

(** ** Extraction *)
Lemma visits_last g u ls ns v : visits g u ls ns -> route g u ls v -> In v ns.
Proof.
  intros H. revert v. induction H as [u|u l w ls ns E H IH]; intros v R; inversion R; subst; [left; reflexivity|].
  right. apply IH. assert (w0 = w) by congruence. subst. assumption.
Qed.
Lemma follows_route g out u ls v : follows g out u ls v -> route g u ls v.
Proof. induction 1; econstructor; eauto. Qed.
Lemma extract_ok g dest out : forall u ls ns fuel, follows g out u ls dest -> visits g u ls ns -> NoDup ns ->
  (length ls <= fuel)%nat -> extract_path fuel g dest out u = Ok (Some (ns, ls)).
Proof.
  intros u ls ns fuel F. remember dest as v eqn:Ev. revert ns fuel. induction F as [u|u l w ls v Ho Hm He F IH]; intros ns fuel V N Hf.
  - inversion V; subst. destruct fuel; simpl; rewrite Z.eqb_refl; reflexivity.
  - subst v. inversion V as [|u' l' w' ls' ns' E' V']; subst. assert (w' = w) by congruence. subst w'.
    inversion_clear N as [|? ? Nu Nd]. destruct fuel as [|fuel]; [simpl in Hf; lia|].
    cbn [extract_path]. destruct (Z.eqb_spec u dest) as [->|_].
    { exfalso. apply Nu. eapply visits_last; [exact V'|]. eapply follows_route; eauto. }
    rewrite Ho. destruct (Z.eqb_spec l (-1)); [contradiction|]. rewrite He. cbn [bind snd].
    rewrite (IH eq_refl ns' fuel V' Nd) by (simpl in Hf; lia). reflexivity.
Qed.
Lemma visits_length g u ls ns : visits g u ls ns -> length ns = S (length ls).
Proof. induction 1; simpl; congruence. Qed.
Lemma visits_nodes g a u ls ns : Rep g a -> In u (a_nodes a) -> visits g u ls ns -> forall x, In x ns -> In x (a_nodes a).
Proof.
  intros R Hu V. induction V as [u|u l w ls ns E V IH]; intros x Hx; simpl in Hx.
  - destruct Hx as [<-|[]]. exact Hu.
  - destruct Hx as [<-|Hx]; [exact Hu|]. apply IH; [|exact Hx]. apply (rep_endpoints_iff _ _ _ _ _ R) in E. apply (rep_ends _ _ R) in E. tauto.
Qed.
Lemma extract_result g a cm dest dist out n : Rep g a -> sp_result g a cm dest dist out -> In n (a_nodes a) ->
  forall fuel, (length (a_nodes a) <= fuel)%nat ->
  (extract_path fuel g dest out n = Ok None /\ unreachable g (cost_of cm) n dest) \/
  (exists ns ls d c, extract_path fuel g dest out n = Ok (Some (ns, ls)) /\ route g n ls dest /\ visits g n ls ns /\ NoDup ns /\
     least_cost g (cost_of cm) n dest d /\ total_cost (cost_of cm) ls = Some c /\ (c == d)%Q).
Proof.
  intros HR HS Hn fuel Hf. destruct (HS n Hn) as [(Hd & Hu & Hnd & Ho)|(d & ls & ns & Hd & Hl & F & V & N & c & Hc & Hcd)].
  - left. split; [|exact Hu]. destruct fuel as [|fuel].
    + destruct (a_nodes a); [destruct Hn|simpl in Hf; lia].
    + simpl. destruct (Z.eqb_spec n dest); [contradiction|]. now rewrite Ho.
  - right. exists ns, ls, d, c. split; [|split; [eapply follows_route; eauto|auto]].
    apply extract_ok; auto. pose proof (visits_length _ _ _ _ V).
    assert (length ns <= length (a_nodes a))%nat by (apply NoDup_incl_length; [exact N|intros x Hx; eapply visits_nodes; eauto]). lia.
Qed.
