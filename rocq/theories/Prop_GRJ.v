(** C50: flows of the general road junction (GRJ). *)
From Verif Require Import Base Base_lemmas Model_Num Proof_Num Model_CC Model_Path Model_Link Spec_Node
  Model_World Model_Node Model_GRJ Proof_Node Proof_Node2 Proof_Node3 Proof_Node4 Proof_Node5 Proof_Safe2 Proof_GRJ Ex_Net Prop_Node.
From Coq Require Import Lqa.
Local Open Scope Q_scope.

(** A junction with one out-link [b]: [m a] vehicles wait on in-link [a], which could
    send at most [C a]; [b] accepts [s].  All computed flows are numbers between 0 and
    the demand, and together they respect the supply. *)
Theorem C50_one_out_link : forall (m C : Z -> Q) (s : Q) ins b, ins <> [] -> 0 <= s ->
  (forall a, In a ins -> 0 <= m a <= C a) ->
  exists fl q, grj_flow m C (fun a _ => m a) (fun _ => s) ins [b] = Ok fl /\
    (forall a, In a ins -> fl a b = Fin (q a) /\ 0 <= q a <= m a) /\ sumQ (map q ins) <= s.
Proof.
  intros m C s ins b Hne Hs H.
  destruct (grj_one m C (fun a _ => m a) (fun _ => s) ins b Hne Hs) as (fl & q & E & F & T).
  - intros a Ha. apply H, Ha.
  - reflexivity.
  - intros a Ha. apply H, Ha.
  - exists fl, q. split; [exact E|]. split; [|exact T]. intros a Ha. destruct (F a Ha) as (A & B & G). auto.
Qed.
Print Assumptions C50_one_out_link.

Lemma headed_one N w n b q : n_out N n = [b] -> all_headed N w n q -> filter (goes w b) q = q.
Proof.
  intros E H. induction q as [|v q IH]; [reflexivity|]. cbn [filter].
  assert (goes w b v = true) as ->.
  { destruct (H v (or_introl eq_refl)) as (b' & Hb & G). rewrite E in Hb. destruct Hb as [<-|[]]. now apply goes_next. }
  rewrite IH; auto. intros u Hu. apply H. now right.
Qed.

(** Such a junction never fails (the random trimming loop may only run out of the
    model's bound), in every state where its update is expected to work. *)
Theorem C50_one_out_link_never_fails : forall N D t n w b e, junction_ready N D t n w ->
  n_out N n = [b] -> n_in N n <> [] -> (forall a, In a (n_in N n) -> exists s, link_supply (w_link w a) = Ok s) ->
  grj_evolve (n_fs N) (n_in N n) (n_out N n) D t n w = Err e -> e = EFuel.
Proof.
  intros N D t n w b e R Eo Hne HI H. destruct R as [Hf Ht (NI & NO & DJ) DV Pr TM HS HH].
  pose proof DV as (_ & _ & _ & _ & _ & Hd & Hsh & _).
  unfold grj_evolve in H.
  destruct (mapM_keyed_total (fun b => link_supply (w_link w b)) (n_out N n)) as (sup & Es).
  { intros x Hx. destruct (HS x Hx) as (s & E & _). eauto. }
  rewrite Es in H. cbn [bind] in H.
  destruct (mapM_keyed_total (outcap (n_fs N) w) (n_in N n)) as (cap & Ec).
  { intros a Ha. destruct (HI a Ha) as (s & E). unfold outcap. rewrite E. cbn [bind]. eauto. }
  rewrite Ec in H. cbn [bind] in H. cbv zeta in H.
  match type of H with context [grj_flow ?d ?c ?m ?s _ _] => set (C := c) in *; set (S0 := s) in * end.
  destruct (grj_one (outflux (n_fs N) w) C (demand (n_fs N) w) S0 (n_in N n) b Hne) as (fl & q & E & F & T).
  - unfold S0. apply mapM_keyed in Es as [E1 E2]. assert (In b (n_out N n)) as Hb by (rewrite Eo; left; auto).
    assert (Hb' := Hb). rewrite <- E1 in Hb'. apply in_map_iff in Hb' as ([b' s] & Eb & I). cbn [fst] in Eb. subst b'.
    rewrite (find_keyed sup b s) by congruence || auto. cbn [snd]. destruct (HS b Hb) as (s' & Es' & Ps).
    rewrite (E2 _ _ I) in Es'. apply Ok_inj in Es'. now subst.
  - intros a Ha. unfold demand. apply Qle_shift_div_l; [exact Hf|]. rewrite Qmult_0_l. change 0 with (inject_Z 0). rewrite <- Zle_Qle.
    unfold count_if, Zlen. lia.
  - intros a Ha. unfold outflux, demand, count_if. rewrite (headed_one N w n b _ Eo (HH a Ha)). reflexivity.
  - intros a Ha. unfold C. apply mapM_keyed in Ec as [E1 E2]. assert (Ha' := Ha). rewrite <- E1 in Ha'.
    apply in_map_iff in Ha' as ([a' c] & Ea & I). cbn [fst] in Ea. subst a'.
    rewrite (find_keyed cap a c) by congruence || auto. cbn [snd]. specialize (E2 _ _ I). unfold outcap in E2.
    destruct (HI a Ha) as (s & Ei). rewrite Ei in E2. cbn [bind] in E2. apply Ok_inj in E2. rewrite <- E2.
    destruct (Qltb _ s) eqn:El; [apply qltb_t in El; lra|lra].
  - rewrite Eo in H. rewrite E in H. cbn [bind] in H.
    destruct (mapM (fun a => mapM (fun b0 => finite (fl a b0)) [b]) (n_in N n)) as [u|e'] eqn:Ef.
    + cbn [bind] in H. rewrite <- Eo in H. eapply junction_total in H; eauto.
      * intros x. apply Hsh.
      * intros x y. apply Hd.
      * now apply ready_right.
      * intros supply a x Hsup Ha Hx. rewrite Eo in Hx. destruct Hx as [<-|[]]. destruct (F a Ha) as (-> & P1 & P2). auto.
    + exfalso. destruct (mapM_total (fun a => mapM (fun b0 => finite (fl a b0)) [b]) (fun _ _ => True) (n_in N n)) as (u & Eu & _); [|congruence].
      intros a Ha. destruct (F a Ha) as (Ea & _). cbn [mapM]. rewrite Ea. cbn [finite bind]. eauto.
Qed.
Print Assumptions C50_one_out_link_never_fails.

(** The computed flows are one of the flow matrices that the simulation model allows
    at a general junction, so the theorems about whole runs cover it. *)
Theorem C50_evolve_is_covered : forall N D t n w w',
  grj_evolve (n_fs N) (n_in N n) (n_out N n) D t n w = Ok w' ->
  exists g, node_evolve N
    {| d_rel := d_rel D; d_adapt := d_adapt D; d_oshuf := d_oshuf D; d_route := d_route D; d_orig := d_orig D; d_node := d_node D;
       d_pick := d_pick D; d_fuel := d_fuel D; d_inshuf := d_inshuf D; d_grj := g; d_cell := d_cell D; d_tree := d_tree D; d_any := d_any D |}
    t w (n, NGrj) = Ok w'.
Proof.
  intros N D t n w w' H. unfold grj_evolve in H.
  apply bind_ok in H as (sup & _ & H). apply bind_ok in H as (cap & _ & H). cbv zeta in H.
  apply bind_ok in H as (fl & _ & H). apply bind_ok in H as (u & _ & H).
  exists (fun _ a b => match fl a b with Fin q => q | _ => 0%Q end). exact H.
Qed.
Print Assumptions C50_evolve_is_covered.

(** With two out-links the claim is false.  One in-link, demand 4 for an out-link that
    accepts 1 and demand 1 for one that accepts 100: the first flow is 20. *)
Theorem C50_two_out_links_refuted : exists (d C : Z -> Q) (m : Z -> Z -> Q) (s : Z -> Q) fl,
  d 1%Z == m 1%Z 2%Z + m 1%Z 3%Z /\ d 1%Z <= C 1%Z /\ 0 < s 2%Z /\ 0 < s 3%Z /\
  grj_flow d C m s [1%Z] [2%Z; 3%Z] = Ok fl /\
  exists q, fl 1%Z 2%Z = Fin q /\ m 1%Z 2%Z < q /\ s 2%Z < q.
Proof.
  exists (fun _ => 5), (fun _ => 5), (fun _ b => if (b =? 2)%Z then 4 else 1), (fun b => if (b =? 2)%Z then 1 else 100).
  eexists. split; [reflexivity|]. split; [vm_compute; discriminate|]. split; [reflexivity|]. split; [reflexivity|].
  split; [reflexivity|]. eexists. split; [vm_compute; reflexivity|]. split; reflexivity.
Qed.
Print Assumptions C50_two_out_links_refuted.

(** Ten vehicles wait on link 10 at node 2 of the example network: number 1 for link
    20, the others for link 25.  Each out-link accepts five. *)
Definition gj_queue : list Z := [1; 2; 3; 4; 5; 6; 7; 8; 9; 10]%Z.
Definition gj_busy : world :=
  set_vehs (set_link xn_world 10 (set_fin (xn_link 10) gj_queue)) (fun v => xn_veh 1 (Some (if (v =? 1)%Z then 20%Z else 25%Z))).

(** In a state where every junction update is expected to work, the general junction
    tries to send two vehicles where one waits: the loading throws. *)
Theorem C50_junction_throws_refuted : junction_ready xn xn_draws 2 2 gj_busy /\
  grj_evolve (n_fs xn) (n_in xn 2) (n_out xn 2) xn_draws 2 2 gj_busy = Err EThrow.
Proof.
  split; [constructor|].
  - vm_compute. reflexivity.
  - lia.
  - split; [|split]; vm_compute; try (repeat constructor; simpl; intuition congruence).
  - apply xn_draws_valid.
  - intros l. simpl. split; discriminate.
  - apply xn_timely; [lia|reflexivity].
  - intros b [<-|[<-|[]]]; eexists; (split; [vm_compute; reflexivity|vm_compute; discriminate]).
  - intros a Ha. assert (Hn : forall v, exists b, In b (n_out xn 2) /\ v_next (w_veh gj_busy v) = Some b).
    { intros v. simpl. destruct (v =? 1)%Z; [exists 20%Z|exists 25%Z]; split; auto. }
    intros v _. apply Hn.
  - vm_compute. reflexivity.
Qed.
Print Assumptions C50_junction_throws_refuted.

(** Node 3 of the network, between links 20, 25 and 30 *)
Definition gj_merge : world :=
  set_vehs (set_link (set_link xn_world 20 (set_fin (xn_link 20) [1; 2; 3; 4]%Z)) 25 (set_fin (xn_link 25) [5%Z])) (fun v => xn_veh 1 (Some 30%Z)).
Definition gj_after : world :=
  match grj_evolve (n_fs xn) (n_in xn 3) (n_out xn 3) xn_draws 2 3 gj_merge with Ok w => w | Err _ => xn_world end.
Example C50_case : junction_ready xn xn_draws 2 3 gj_merge /\ n_out xn 3 = [30%Z] /\ n_in xn 3 <> [] /\
  (forall a, In a (n_in xn 3) -> exists s, link_supply (w_link gj_merge a) = Ok s) /\
  l_in (w_link gj_after 30) = [1]%Z /\ l_fin (w_link gj_after 20) = [2; 3; 4]%Z.
Proof.
  split; [constructor|].
  - vm_compute. reflexivity.
  - lia.
  - split; [|split]; vm_compute; try (repeat constructor; simpl; intuition congruence).
  - apply xn_draws_valid.
  - intros l. simpl. split; discriminate.
  - apply xn_timely; [lia|reflexivity].
  - intros b [<-|[]]; eexists; (split; [vm_compute; reflexivity|vm_compute; discriminate]).
  - intros a Ha v _. exists 30%Z. split; [left; reflexivity|reflexivity].
  - split; [reflexivity|]. split; [discriminate|]. split.
    + intros b [<-|[<-|[]]]; eexists; (vm_compute; reflexivity).
    + split; vm_compute; reflexivity.
Qed.
