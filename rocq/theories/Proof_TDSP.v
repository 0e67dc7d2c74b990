(** Correctness of the time-dependent tree and of path extraction from it. *)
From Verif Require Import Base Base_lemmas Model_Num Proof_Num Model_Graph Spec_Graph Proof_Graph Proof_Graph2
  Model_SP Spec_SP Proof_SP Model_TDSP Spec_TDSP.

Lemma round_time_ok M t x : exists t', round_time M t x = Ok t' /\ next_interval M t x t' /\ (t' = M - 1 \/ t < t' < M - 1).
Proof.
  unfold round_time. destruct (round_up_time_total x tol) as (n & E & Hn). rewrite E. cbn [bind].
  unfold guard. destruct (Z.ltb_spec t (t + n)); [|lia]. cbn [bind].
  destruct (Z.leb_spec (M - 1) (t + n)).
  - exists (M - 1). split; [reflexivity|]. split; [|auto]. exists n. split; [exact E|lia].
  - exists (t + n). split; [reflexivity|]. split; [|lia]. exists n. split; [exact E|lia].
Qed.
Lemma next_interval_fun M t x a b : next_interval M t x a -> next_interval M t x b -> a = b.
Proof. intros (n & E & ->) (m & E' & ->). congruence. Qed.

Section TD.
Variables (g : graph) (a : agraph).
Hypothesis HR : Rep g a.
Variables (cost : td_cost) (tt : td_tt) (dest M : Z).
Hypothesis HM : 1 <= M.
Hypothesis HT : td_tables_ok g M cost tt.
Hypothesis HD : In dest (a_nodes a).
Hypothesis Hneg : ~ In (-1) (map fst (a_links a)).
Let C := cost_at cost.
Let T := tt_at tt.
Let way := td_way g C T M.

Lemma C_nonneg l e t k : get_endpoints g l = Ok e -> 0 <= t < M -> C l t = Some k -> (0 <= k)%Q.
Proof.
  intros He Ht Hk. destruct (HT l e He) as (_ & c & Hc & H). unfold C, cost_at in Hk. rewrite Hc in Hk.
  specialize (H t Ht). rewrite Hk in H. exact H.
Qed.
Lemma next_range t x t' : 0 <= t < M -> next_interval M t x t' -> 0 <= t' < M /\ (t' = M - 1 \/ t < t').
Proof.
  intros Ht H. destruct (round_time_ok M t x) as (b & _ & Hb & Hr). rewrite (next_interval_fun _ _ _ _ _ H Hb). lia.
Qed.
Lemma way_nonneg u t ls v c x : way u t ls v c x -> 0 <= t < M -> (0 <= c)%Q.
Proof.
  induction 1 as [|u t l w t' ls v k c x He Hk Hn Hw IH]; intros Ht; [lra|].
  pose proof (C_nonneg _ _ _ _ He Ht Hk). destruct (next_range _ _ _ Ht Hn) as [Ht' _]. specialize (IH Ht'). lra.
Qed.

(** ways that start in the last interval are static paths *)
Definition cmM : cost_map := fun l => match cost l with Some c => Some (c (M - 1)) | None => None end.
Lemma cmM_cost l : cost_of cmM l = C l (M - 1).
Proof. unfold cost_of, cmM, C, cost_at. destruct (cost l); reflexivity. Qed.
Lemma way_static u t ls v c x : way u t ls v c x -> t = M - 1 ->
  route g u ls v /\ exists c', total_cost (cost_of cmM) ls = Some c' /\ (c' == c)%Q.
Proof.
  induction 1 as [|u t l w t' ls v k c x He Hk Hn Hw IH]; intros Ht.
  - split; [constructor|]. exists 0%Q. split; [reflexivity|lra].
  - subst t. assert (E : t' = M - 1). { destruct Hn as (n & E & ->). destruct (round_up_time_total (T l (M - 1)) tol) as (m & E' & Hm). fold T in E.
      assert (n = m) by congruence. lia. }
    destruct (IH E) as (R & c' & E1 & E2). split; [econstructor; eauto|].
    simpl. rewrite cmM_cost. rewrite Hk, E1. exists (k + c')%Q. split; [reflexivity|lra].
Qed.
Lemma static_way u ls v : route g u ls v -> forall c, total_cost (cost_of cmM) ls = Some c ->
  exists c' x, way u (M - 1) ls v c' x /\ (c' == c)%Q.
Proof.
  induction 1 as [|u l w ls v He R IH]; intros c Hc; simpl in Hc.
  - injection Hc as <-. exists 0%Q, 0%Q. split; [constructor|lra].
  - rewrite cmM_cost in Hc. destruct (C l (M - 1)) as [k|] eqn:Ek; [|discriminate].
    destruct (total_cost (cost_of cmM) ls) as [c1|] eqn:E1; [|discriminate]. injection Hc as <-.
    destruct (IH c1 eq_refl) as (c' & x & Hw & Hc').
    exists (k + c')%Q, (T l (M - 1) + x)%Q. split; [|lra]. eapply td_cons; eauto.
    destruct (round_time_ok M (M - 1) (T l (M - 1))) as (b & _ & Hb & Hr). replace b with (M - 1) in Hb by lia. exact Hb.
Qed.

(** what is right about one entry *)
Definition entry_ok (s : tdtree) (n t : Z) : Prop :=
  td_least g C T M n t dest (td_dist s n t) /\
  match td_dist s n t with
  | None => td_tree s n t = -1
  | Some d => n = dest \/ exists w k t' d', td_tree s n t <> -1 /\ get_endpoints g (td_tree s n t) = Ok (n, w) /\
      C (td_tree s n t) t = Some k /\ next_interval M t (T (td_tree s n t) t) t' /\ td_dist s w t' = Some d' /\ (d == k + d')%Q
  end.

Lemma entry_ext s s' n t : (forall m u, t <= u -> td_dist s' m u = td_dist s m u /\ td_tree s' m u = td_tree s m u) ->
  0 <= t < M -> entry_ok s n t -> entry_ok s' n t.
Proof.
  intros H Ht. destruct (H n t (Z.le_refl t)) as [Ed Et]. unfold entry_ok. rewrite Ed, Et.
  intros [H1 H2]. split; [exact H1|]. destruct (td_dist s n t) as [d|]; [|exact H2].
  destruct H2 as [?|(w & k & t' & d' & H3 & H4 & H5 & H6 & H7 & H8)]; [left; assumption|right].
  exists w, k, t', d'. repeat split; auto. destruct (next_range _ _ _ Ht H6) as [? ?].
  rewrite (proj1 (H w t' ltac:(lia))). exact H7.
Qed.

Lemma static_entry (sd : Z -> ext) (so : Z -> option Z) s :
  sp_result g a cmM dest sd so ->
  (forall n, td_dist s n (M - 1) = sd n) ->
  (forall n, td_tree s n (M - 1) = match so n with Some l => l | None => -1 end) ->
  forall n, In n (a_nodes a) -> entry_ok s n (M - 1).
Proof.
  intros HS Hd Ht n Hn. unfold entry_ok. rewrite Hd, Ht.
  destruct (HS n Hn) as [(E & Hu & Hnd & Ho)|(d & ls & ns & E & Hl & F & V & N & c & Hc & Hcd)]; rewrite E.
  - rewrite Ho. split; [|reflexivity]. intros ls c x Hw. destruct (way_static _ _ _ _ _ _ Hw eq_refl) as (R & c' & E1 & _).
    rewrite (Hu ls R) in E1. discriminate.
  - split.
    + simpl. destruct Hl as [(ls1 & c1 & R1 & T1 & Q1) Hmin]. split.
      * destruct (static_way _ _ _ R1 _ T1) as (c' & x & Hw & Hc'). exists ls1, c', x. split; [exact Hw|lra].
      * intros ls2 c2 x Hw. destruct (way_static _ _ _ _ _ _ Hw eq_refl) as (R & c' & E1 & E2).
        pose proof (Hmin _ _ R E1). lra.
    + inversion F as [|? l w ls' ? Ho Hm1 He F']; subst; [left; reflexivity|right]. rewrite Ho.
      simpl in Hc. rewrite cmM_cost in Hc. destruct (C l (M - 1)) as [k|] eqn:Ek; [|discriminate].
      destruct (total_cost (cost_of cmM) ls') as [c1|] eqn:E1; [|discriminate]. injection Hc as <-.
      assert (Hw : In w (a_nodes a)). { apply (rep_endpoints_iff _ _ _ _ _ HR) in He. apply (rep_ends _ _ HR) in He. tauto. }
      destruct (HS w Hw) as [(_ & Hu & _)|(d' & ls2 & _ & Ed' & [(ls3 & c3 & R3 & T3 & Q3) Hmin'] & _)].
      * rewrite (Hu ls') in E1; [discriminate|]. eapply follows_route; eauto.
      * exists w, k, (M - 1), d'. repeat split; auto.
        -- destruct (round_time_ok M (M - 1) (T l (M - 1))) as (b & _ & Hb & Hr). replace b with (M - 1) in Hb by lia. exact Hb.
        -- rewrite Hd. exact Ed'.
        -- destruct Hl as [_ Hmin]. pose proof (Hmin' ls' c1 (follows_route _ _ _ _ _ F') E1).
           assert (H2 : route g n (l :: ls3) dest) by (econstructor; eauto).
           assert (H3 : total_cost (cost_of cmM) (l :: ls3) = Some (k + c3)%Q). { simpl. rewrite cmM_cost. rewrite Ek, T3. reflexivity. }
           pose proof (Hmin _ _ H2 H3). lra.
Qed.

(** one interval of the backward loop *)
Record SI (s0 s : tdtree) (t : Z) (done : list Z) : Prop := {
  si_other : forall n u, u <> t -> td_dist s n u = td_dist s0 n u /\ td_tree s n u = td_tree s0 n u;
  si_dest : td_dist s dest t = Some 0%Q;
  si_val : forall n, n <> dest -> (td_dist s n t = None /\ td_tree s n t = -1) \/
     exists w k t' d', td_tree s n t <> -1 /\ get_endpoints g (td_tree s n t) = Ok (n, w) /\
      C (td_tree s n t) t = Some k /\ next_interval M t (T (td_tree s n t) t) t' /\ td_dist s0 w t' = Some d' /\
      td_dist s n t = Some (k + d')%Q;
  si_le : forall l u w k t' d', In l done -> get_endpoints g l = Ok (u, w) -> C l t = Some k ->
     next_interval M t (T l t) t' -> td_dist s0 w t' = Some d' -> ele (td_dist s u t) (Some (k + d')%Q) }.

Lemma si_step s0 s t done l u w :
  0 <= t < M - 1 ->
  (forall n t', In n (a_nodes a) -> t < t' < M -> entry_ok s0 n t') ->
  SI s0 s t done -> get_endpoints g l = Ok (u, w) ->
  exists s', td_step M g cost tt t s l = Ok s' /\ SI s0 s' t (l :: done).
Proof.
  intros Ht HE I He. unfold td_step. rewrite He. cbn [bind fst snd].
  destruct (HT l _ He) as ((wt & Hwt) & c & Hc & Hnn). rewrite Hc, Hwt.
  assert (EC : C l t = c t) by (unfold C, cost_at; now rewrite Hc).
  assert (ET : T l t = wt t) by (unfold T, tt_at; now rewrite Hwt).
  destruct (c t) as [k|] eqn:Ek.
  - destruct (round_time_ok M t (wt t)) as (t' & E & Hnx & Hr). rewrite E. cbn [bind].
    assert (Htt : t' <> t) by lia.
    destruct (si_other _ _ _ _ I w t' Htt) as [Ewd _]. rewrite Ewd.
    assert (Kn : (0 <= k)%Q) by (specialize (Hnn t ltac:(lia)); rewrite Ek in Hnn; exact Hnn).
    assert (Hwn : In w (a_nodes a)). { pose proof He as He'. apply (rep_endpoints_iff _ _ _ _ _ HR) in He'. apply (rep_ends _ _ HR) in He'. tauto. }
    destruct (eltb (eadd (Some k) (td_dist s0 w t')) (td_dist s u t)) eqn:Elt.
    + eexists. split; [reflexivity|].
      destruct (td_dist s0 w t') as [d'|] eqn:Ed'; [|discriminate Elt]. cbn [eadd] in *.
      assert (Nud : u <> dest).
      { intros ->. rewrite (si_dest _ _ _ _ I) in Elt. apply eltb_spec in Elt. destruct Elt as [_ Elt]. apply Elt. simpl.
        destruct (HE w t' Hwn ltac:(lia)) as [Hl _]. rewrite Ed' in Hl. destruct Hl as [(ls & c' & x & Hw & Hq) _].
        pose proof (way_nonneg _ _ _ _ _ _ Hw ltac:(lia)). lra. }
      assert (Nl : l <> -1).
      { intros ->. apply Hneg. apply (rep_endpoints_iff _ _ _ _ _ HR) in He. apply (in_map fst) in He. exact He. }
      split; cbn [td_dist td_tree]; unfold set2.
      * intros n x Hx. unfold upd. destruct (Z.eqb_spec n u); [subst|].
        -- destruct (Z.eqb_spec x t); [contradiction|]. apply (si_other _ _ _ _ I); assumption.
        -- apply (si_other _ _ _ _ I); assumption.
      * rewrite upd_other by congruence. apply (si_dest _ _ _ _ I).
      * intros n Nn. destruct (Z.eq_dec n u) as [->|Nnu].
        -- right. rewrite !upd_same. exists w, k, t', d'. rewrite ET. repeat split; auto.
        -- rewrite !(upd_other _ _ _ _ Nnu). apply (si_val _ _ _ _ I); assumption.
      * intros l1 u1 w1 k1 t1 d1 [<-|Hin] He1 Hk1 Hn1 Hd1.
        -- assert (u1 = u /\ w1 = w) as [-> ->] by (split; congruence). rewrite !upd_same. rewrite ET in Hn1.
           pose proof (next_interval_fun _ _ _ _ _ Hn1 Hnx). subst t1. assert (d1 = d') by congruence. assert (k1 = k) by congruence. subst. simpl. lra.
        -- pose proof (si_le _ _ _ _ I l1 u1 w1 k1 t1 d1 Hin He1 Hk1 Hn1 Hd1) as Hle.
           destruct (Z.eq_dec u1 u) as [->|N]; [|rewrite upd_other by exact N; exact Hle].
           rewrite !upd_same. eapply ele_trans; [|exact Hle]. apply eltb_spec in Elt. apply Elt.
    + exists s. split; [reflexivity|]. destruct I as [I1 I2 I3 I4]. split; auto.
      intros l1 u1 w1 k1 t1 d1 [<-|Hin] He1 Hk1 Hn1 Hd1; [|eapply I4; eauto].
      assert (u1 = u /\ w1 = w) as [-> ->] by (split; congruence). rewrite ET in Hn1.
      pose proof (next_interval_fun _ _ _ _ _ Hn1 Hnx). subst t1. assert (k1 = k) by congruence. subst.
      rewrite Hd1 in Elt. apply eltb_false in Elt. exact Elt.
  - exists s. split; [reflexivity|]. destruct I as [I1 I2 I3 I4]. split; auto.
    intros l1 u1 w1 k1 t1 d1 [<-|Hin] He1 Hk1 Hn1 Hd1; [congruence|eapply I4; eauto].
Qed.

Lemma si_fold s0 t : 0 <= t < M - 1 ->
  (forall n t', In n (a_nodes a) -> t < t' < M -> entry_ok s0 n t') ->
  forall lids s done, SI s0 s t done -> (forall l, In l lids -> In l (map fst (a_links a))) ->
  exists s', foldM (td_step M g cost tt t) s lids = Ok s' /\ SI s0 s' t (rev lids ++ done).
Proof.
  intros Ht HE. induction lids as [|l lids IH]; intros s done I Hin; simpl.
  - exists s. auto.
  - assert (Hl : In l (map fst (a_links a))) by (apply Hin; now left). apply in_map_iff in Hl. destruct Hl as ([l' [u w]] & El & Hl). simpl in El. subst l'.
    destruct (si_step s0 s t done l u w Ht HE I) as (s1 & E1 & I1); [now apply (rep_endpoints _ _ _ _ _ HR)|].
    rewrite E1. cbn [bind]. destruct (IH s1 (l :: done) I1) as (s2 & E2 & I2); [intros; apply Hin; now right|].
    exists s2. split; [exact E2|]. rewrite <- app_assoc. exact I2.
Qed.

Lemma si_entry s0 s t done : 0 <= t < M - 1 ->
  (forall n t', In n (a_nodes a) -> t < t' < M -> entry_ok s0 n t') ->
  (forall l, In l (map fst (a_links a)) -> In l done) ->
  SI s0 s t done -> forall n, In n (a_nodes a) -> entry_ok s n t.
Proof.
  intros Ht HE Hall I n Hn.
  assert (Hlow : forall ls c x, way n t ls dest c x -> ls <> [] -> ele (td_dist s n t) (Some c)).
  { intros ls c x Hw Hne. inversion Hw as [|? ? l w t' ls' ? k c' x' He Hk Hnx Hw']; subst; [contradiction|].
    assert (Hwn : In w (a_nodes a) /\ In l done).
    { pose proof He as He'. apply (rep_endpoints_iff _ _ _ _ _ HR) in He'. split; [apply (rep_ends _ _ HR) in He'; tauto|].
      apply Hall. apply (in_map fst) in He'. exact He'. }
    destruct Hwn as [Hwn Hld]. destruct (next_range t _ t' ltac:(lia) Hnx) as [Hr1 Hr2].
    destruct (HE w t' Hwn ltac:(lia)) as [Hl _]. destruct (td_dist s0 w t') as [d'|] eqn:Ed'.
    - destruct Hl as [_ Hmin]. pose proof (Hmin _ _ _ Hw').
      eapply ele_trans; [eapply (si_le _ _ _ _ I l n w k t' d'); eauto|]. simpl. lra.
    - exfalso. eapply Hl; eauto. }
  unfold entry_ok. destruct (Z.eq_dec n dest) as [->|Nn].
  - rewrite (si_dest _ _ _ _ I). split; [|left; reflexivity]. simpl. split.
    + exists [], 0%Q, 0%Q. split; [constructor|lra].
    + intros ls c x Hw. eapply way_nonneg; [exact Hw|lia].
  - destruct (si_val _ _ _ _ I n Nn) as [[E1 E2]|(w & k & t' & d' & H1 & H2 & H3 & H4 & H5 & H6)].
    + rewrite E1. split; [|exact E2]. intros ls c x Hw. pose proof (Hlow ls c x Hw) as Hle. rewrite E1 in Hle. apply Hle.
      intros ->. inversion Hw; subst; contradiction.
    + rewrite H6. destruct (next_range t _ t' ltac:(lia) H4) as [Hr1 Hr2]. split.
      * simpl. split.
        -- assert (Hwn : In w (a_nodes a)). { pose proof H2 as He'. apply (rep_endpoints_iff _ _ _ _ _ HR) in He'. apply (rep_ends _ _ HR) in He'. tauto. }
           destruct (HE w t' Hwn ltac:(lia)) as [Hl _]. rewrite H5 in Hl. destruct Hl as [(ls & c & x & Hw & Hc) _].
           eexists (_ :: ls), (k + c)%Q, _. split; [eapply td_cons; eauto|lra].
        -- intros ls c x Hw. pose proof (Hlow ls c x Hw) as Hle. rewrite H6 in Hle. apply Hle. intros ->. inversion Hw; subst; contradiction.
      * right. exists w, k, t', d'. split; [exact H1|]. split; [exact H2|]. split; [exact H3|]. split; [exact H4|]. split; [|lra].
        rewrite (proj1 (si_other _ _ _ _ I w t' ltac:(lia))). exact H5.
Qed.

Lemma back_ok lids : (forall l, In l lids <-> In l (map fst (a_links a))) ->
  forall n s, Z.of_nat n <= M - 1 ->
  (forall m t, In m (a_nodes a) -> Z.of_nat n <= t < M -> entry_ok s m t) ->
  (forall m t, 0 <= t < Z.of_nat n -> td_dist s m t = init_dist dest m /\ td_tree s m t = -1) ->
  exists s', td_back n M g lids cost tt s = Ok s' /\
    (forall m t, In m (a_nodes a) -> 0 <= t < M -> entry_ok s' m t) /\
    (forall m t, Z.of_nat n <= t -> td_dist s' m t = td_dist s m t /\ td_tree s' m t = td_tree s m t).
Proof.
  intros Hl. induction n as [|n IH]; intros s Hn HE HI.
  - exists s. split; [reflexivity|]. split; [exact HE|auto].
  - cbn [td_back]. assert (Ht : 0 <= Z.of_nat n < M - 1) by lia.
    assert (HE' : forall m t', In m (a_nodes a) -> Z.of_nat n < t' < M -> entry_ok s m t') by (intros; apply HE; [assumption|lia]).
    assert (I0 : SI s s (Z.of_nat n) []).
    { split.
      - auto.
      - destruct (HI dest (Z.of_nat n)) as [-> _]; [lia|]. unfold init_dist. now rewrite Z.eqb_refl.
      - intros m Nm. left. destruct (HI m (Z.of_nat n)) as [-> ->]; [lia|]. unfold init_dist. destruct (Z.eqb_spec m dest); [contradiction|auto].
      - intros ? ? ? ? ? ? []. }
    destruct (si_fold s (Z.of_nat n) Ht HE' lids s [] I0) as (s1 & E1 & I1); [intros; now apply Hl|].
    rewrite E1. cbn [bind]. destruct (IH s1) as (s2 & E2 & H2 & H3); [lia| | |].
    + intros m t Hm Hr. destruct (Z.eq_dec t (Z.of_nat n)) as [->|Nt].
      * apply si_entry with (s0 := s) (done := rev lids ++ []); auto. intros l Hin. rewrite app_nil_r, <- in_rev. now apply Hl.
      * apply entry_ext with s; [|lia|apply HE; [assumption|lia]]. intros m' u Hu. apply (si_other _ _ _ _ I1). lia.
    + intros m t Hr. destruct (si_other _ _ _ _ I1 m t ltac:(lia)) as [-> ->]. apply HI. lia.
    + exists s2. split; [exact E2|]. split; [exact H2|]. intros m t Hr. destruct (H3 m t ltac:(lia)) as [-> ->]. apply (si_other _ _ _ _ I1). lia.
Qed.

Definition tree_last (s : tdtree) : Prop :=
  forall n, In n (a_nodes a) -> td_dist s n (M - 1) <> None ->
    exists ls ns, follows g (fun m => Some (td_tree s m (M - 1))) n ls dest /\ visits g n ls ns /\ NoDup ns.

Lemma update_tree_ok lids : (forall l, In l lids <-> In l (map fst (a_links a))) ->
  exists N, forall fuel, (N <= fuel)%nat -> exists s, update_tree fuel g lids dest M cost tt = Ok s /\
    (forall n t, In n (a_nodes a) -> 0 <= t < M -> entry_ok s n t) /\ tree_last s.
Proof.
  intros Hl.
  assert (HC : costs_ok g cmM).
  { intros l e He. destruct (HT l e He) as (_ & c & Hc & H). exists (c (M - 1)). unfold cmM. rewrite Hc. split; [reflexivity|]. apply H. lia. }
  destruct (fifo_ok g a cmM dest (fun _ => Some (-1)) HR HC HD Hneg) as (N & HN). exists N. intros fuel Hf.
  destruct (HN fuel Hf) as (s & E & HS). unfold update_tree. unfold guard. destruct (Z.leb_spec 1 M); [|lia]. cbn [bind].
  fold cmM. rewrite E. cbn [bind].
  set (s0 := {| td_dist := _; td_tree := _ |}).
  assert (Ed : forall n, td_dist s0 n (M - 1) = s_dist s n) by (intros; cbn; now rewrite Z.eqb_refl).
  assert (Et : forall n, td_tree s0 n (M - 1) = match s_out s n with Some l => l | None => -1 end) by (intros; cbn; now rewrite Z.eqb_refl).
  destruct (back_ok lids Hl (Z.to_nat (M - 1)) s0) as (s' & E' & H1 & H2).
  - lia.
  - intros m t Hm Hr. replace t with (M - 1) by lia. eapply static_entry; eauto.
  - intros m t Hr. cbn. destruct (Z.eqb_spec t (M - 1)); [lia|auto].
  - exists s'. split; [exact E'|]. split; [exact H1|]. intros n Hn Hd.
    destruct (H2 n (M - 1)) as [E1 _]; [lia|]. rewrite E1, Ed in Hd.
    destruct (HS n Hn) as [(E2 & _)|(d & ls & ns & _ & _ & F & V & Nd & _)]; [contradiction|].
    exists ls, ns. split; [|auto]. clear - F H2 Et HM. induction F as [u|u l w ls v Ho Hm He F IH]; [constructor|].
    econstructor; eauto. rewrite (proj2 (H2 u (M - 1) ltac:(lia))), Et, Ho. reflexivity.
Qed.

(** extraction *)
Lemma follow_last s : tree_last s -> (forall n t, In n (a_nodes a) -> 0 <= t < M -> entry_ok s n t) ->
  forall u ls, follows g (fun m => Some (td_tree s m (M - 1))) u ls dest -> forall ns, visits g u ls ns -> NoDup ns ->
  In u (a_nodes a) -> forall fuel acc ns0 ls0, (length ls <= fuel)%nat ->
  exists c x d x', td_follow fuel g dest M tt s u (M - 1) acc ns0 ls0 = Ok (x', (ns0 ++ ns, ls0 ++ ls)) /\ (x' == acc + x)%Q /\
    way u (M - 1) ls dest c x /\ td_dist s u (M - 1) = Some d /\ (c == d)%Q.
Proof.
  intros HTL HE u ls F. remember dest as v eqn:Ev. revert Ev.
  induction F as [u|u l w ls v Ho Hm He F IH]; intros Ev ns V Nd Hu fuel acc ns0 ls0 Hf.
  - subst u. inversion V; subst. exists 0%Q, 0%Q.
    destruct (HE dest (M - 1) Hu ltac:(lia)) as [Hl _].
    destruct (td_dist s dest (M - 1)) as [d|]; [|exfalso; eapply (Hl [] 0%Q 0%Q); constructor].
    destruct Hl as [(ls & c & x & Hw & Hc) Hmin]. pose proof (Hmin [] 0%Q 0%Q (td_nil _ _ _ _ _ _)).
    pose proof (way_nonneg _ _ _ _ _ _ Hw ltac:(lia)).
    exists d, acc. split; [destruct fuel; simpl; rewrite Z.eqb_refl, app_nil_r; reflexivity|]. split; [lra|].
    split; [constructor|]. split; [reflexivity|lra].
  - subst v. inversion V as [|u' l' w' ls' ns' E' V']; subst. assert (w' = w) by congruence. subst w'.
    inversion_clear Nd as [|? ? Nu Nd']. destruct fuel as [|fuel]; [simpl in Hf; lia|].
    cbn [td_follow]. destruct (Z.eqb_spec u dest) as [->|Nud].
    { exfalso. apply Nu. eapply visits_last; [exact V'|]. eapply follows_route; eauto. }
    injection Ho as Ho. rewrite Ho. destruct (Z.eqb_spec l (-1)); [contradiction|].
    destruct (HT l _ He) as ((wt & Hwt) & _). rewrite Hwt.
    destruct (round_time_ok M (M - 1) (wt (M - 1))) as (t' & Et & Hnx & Hr). rewrite Et. cbn [bind]. rewrite He. cbn [bind snd].
    assert (t' = M - 1) by lia. subst t'.
    assert (Hw : In w (a_nodes a)). { pose proof He as He'. apply (rep_endpoints_iff _ _ _ _ _ HR) in He'. apply (rep_ends _ _ HR) in He'. tauto. }
    destruct (IH HD eq_refl ns' V' Nd' Hw fuel (acc + wt (M - 1)%Z)%Q (ns0 ++ [u]) (ls0 ++ [l])) as (c & x & d & x' & E1 & Ex & Wy & Ed & Hc); [simpl in Hf; lia|].
    destruct (HE u (M - 1) Hu ltac:(lia)) as [_ Hv].
    destruct (HE u (M - 1) Hu ltac:(lia)) as [Hl _].
    assert (ET : T l (M - 1) = wt (M - 1)) by (unfold T, tt_at; now rewrite Hwt).
    destruct (td_dist s u (M - 1)) as [du|] eqn:Edu.
    + destruct Hv as [?|(w1 & k & t1 & d1 & _ & He1 & Hk & Hn1 & Hd1 & Hq)]; [contradiction|].
      rewrite Ho in *. assert (w1 = w) by congruence. subst w1.
      assert (t1 = M - 1) by (destruct (next_range (M - 1) _ t1 ltac:(lia) Hn1); lia). subst t1.
      assert (d1 = d) by congruence. subst d1.
      exists (k + c)%Q, (T l (M - 1) + x)%Q, du, x'. split; [rewrite E1; rewrite <- !app_assoc; reflexivity|].
      split; [rewrite ET; lra|]. split; [eapply td_cons; eauto|]. split; [reflexivity|lra].
    + exfalso. rewrite Ho in Hv. contradiction.
Qed.

Lemma follow_ok s : tree_last s -> (forall n t, In n (a_nodes a) -> 0 <= t < M -> entry_ok s n t) ->
  forall k u t, M - 1 - t <= Z.of_nat k -> 0 <= t < M -> In u (a_nodes a) ->
  forall fuel acc ns0 ls0, (k + length (a_nodes a) <= fuel)%nat ->
  match td_dist s u t with
  | None => td_follow fuel g dest M tt s u t acc ns0 ls0 = Ok ((-1)%Q, (ns0 ++ [u], ls0))
  | Some d => exists ls ns c x x', td_follow fuel g dest M tt s u t acc ns0 ls0 = Ok (x', (ns0 ++ ns, ls0 ++ ls)) /\ (x' == acc + x)%Q /\
      way u t ls dest c x /\ visits g u ls ns /\ (c == d)%Q
  end.
Proof.
  intros HTL HE. induction k as [|k IH]; intros u t Hk Ht Hu fuel acc ns0 ls0 Hf;
  destruct (HE u t Hu Ht) as [Hl Hv];
  (assert (Hlen : (1 <= length (a_nodes a))%nat) by (destruct (a_nodes a); [destruct Hu|simpl; lia]));
  destruct (td_dist s u t) as [d|] eqn:Ed.
  1: { assert (t = M - 1) by lia. subst t.
    destruct (HTL u Hu) as (ls & ns & F & V & Nd); [congruence|].
    destruct (follow_last s HTL HE u ls F ns V Nd Hu fuel acc ns0 ls0) as (c & x & d1 & x' & E1 & Ex & Wy & Ed1 & Hc).
    { pose proof (visits_length _ _ _ _ V).
      assert (length ns <= length (a_nodes a))%nat by (apply NoDup_incl_length; [exact Nd|intros y Hy; eapply visits_nodes; eauto]). lia. }
    exists ls, ns, c, x, x'. split; [exact E1|]. split; [exact Ex|]. split; [exact Wy|]. split; [exact V|]. assert (d1 = d) by congruence. subst. exact Hc. }
  1, 3: assert (Nud : u <> dest) by (intros ->; eapply (Hl [] 0%Q 0%Q); constructor);
    destruct fuel as [|fuel]; [lia|]; cbn [td_follow]; destruct (Z.eqb_spec u dest); [contradiction|]; rewrite Hv; reflexivity.
  destruct (Z.eq_dec u dest) as [->|Nud].
  { exists [], [dest], 0%Q, 0%Q, acc. split; [destruct fuel; cbn; rewrite Z.eqb_refl, app_nil_r; reflexivity|]. split; [lra|].
    split; [constructor|]. split; [constructor|]. destruct Hl as [(ls & c & x & Hw & Hc) Hmin].
    pose proof (Hmin [] 0%Q 0%Q (td_nil _ _ _ _ _ _)). pose proof (way_nonneg _ _ _ _ _ _ Hw Ht). lra. }
  destruct (Z.eq_dec t (M - 1)) as [->|Nt].
  { pose proof (IH u (M - 1) ltac:(lia) Ht Hu fuel acc ns0 ls0 ltac:(lia)) as H. rewrite Ed in H. exact H. }
  destruct Hv as [?|(w & q & t' & d' & Hm1 & He & Hq & Hnx & Hd' & Hdq)]; [contradiction|].
  destruct fuel as [|fuel]; [lia|]. cbn [td_follow]. destruct (Z.eqb_spec u dest); [contradiction|].
  destruct (Z.eqb_spec (td_tree s u t) (-1)); [contradiction|].
  destruct (HT _ _ He) as ((wt & Hwt) & _). rewrite Hwt.
  assert (ET : T (td_tree s u t) t = wt t) by (unfold T, tt_at; now rewrite Hwt).
  destruct (round_time_ok M t (wt t)) as (t1 & Et & Hnx1 & Hr). rewrite Et. cbn [bind]. rewrite He. cbn [bind snd].
  rewrite ET in Hnx. pose proof (next_interval_fun _ _ _ _ _ Hnx Hnx1). subst t1.
  assert (Hw : In w (a_nodes a)). { pose proof He as He'. apply (rep_endpoints_iff _ _ _ _ _ HR) in He'. apply (rep_ends _ _ HR) in He'. tauto. }
  pose proof (IH w t' ltac:(lia) ltac:(lia) Hw fuel (acc + wt t)%Q (ns0 ++ [u]) (ls0 ++ [td_tree s u t]) ltac:(lia)) as HI.
  rewrite Hd' in HI. destruct HI as (ls & ns & c & x & x' & E1 & Ex & Wy & V & Hc).
  exists (td_tree s u t :: ls), (u :: ns), (q + c)%Q, (wt t + x)%Q, x'. split; [rewrite E1, <- !app_assoc; reflexivity|].
  split; [lra|]. split; [rewrite <- ET; eapply td_cons; eauto; rewrite ET; exact Hnx|]. split; [econstructor; eauto|lra].
Qed.
End TD.
