(** The tree with movement costs. *)
From Coq Require Import Qround.
From Verif Require Import Base Base_lemmas Model_Num Proof_Num Model_Graph Spec_Graph Proof_Graph Proof_Graph2 Model_SP Spec_SP Proof_SP
  Model_TDSP Spec_TDSP Proof_TDSP Model_TdspApi Spec_TdspApi.

Lemma round_up_comp x y n : (x == y)%Q -> round_up_time x tol = Ok n -> round_up_time y tol = Ok n.
Proof.
  intros E Hx. destruct (round_up_time_total y tol) as (m & Hy & _). rewrite Hy. f_equal.
  pose proof (round_up_time_mono x y tol n m ltac:(unfold tol; lra) ltac:(lra) Hx Hy).
  pose proof (round_up_time_mono y x tol m n ltac:(unfold tol; lra) ltac:(lra) Hy Hx). lia.
Qed.
Lemma round_time_comp M t x y a : (x == y)%Q -> round_time M t x = Ok a -> round_time M t y = Ok a.
Proof.
  intros E. unfold round_time. intros H. apply bind_ok in H as (n & Hn & H). rewrite (round_up_comp _ _ _ E Hn). exact H.
Qed.
Lemma ceil_zero x : (x == 0)%Q -> ceil x = 0.
Proof. unfold ceil, Qeq. cbn. intros H. rewrite Z.mul_1_r in H. rewrite H. reflexivity. Qed.

Section NC.
Variables (g : graph) (a : agraph).
Hypothesis HR : Rep g a.
Variables (cost : td_cost) (nc : td_move) (tt : td_tt) (ntt : td_move) (dest M : Z).
Hypothesis HM : 1 <= M.
Hypothesis Hneg : ~ In (-1) (map fst (a_links a)).
Hypothesis Hcost : forall l c t k, cost l = Some c -> 0 <= t < M -> c t = Some k -> (0 <= k)%Q.
Hypothesis Hnc : forall i o f t, nc i o = Some f -> 0 <= t < M -> (0 <= f t)%Q.
Hypothesis Hntt : forall i o h t, ntt i o = Some h -> 0 <= t < M -> (h t == 0)%Q.

Lemma move_end_zero l ls t : 0 <= t < M -> move_end ntt M l ls t = t.
Proof.
  intros Ht. unfold move_end. assert (E : (move_at ntt l ls t == 0)%Q).
  { destruct ls as [|o ls]; cbn [move_at]; [reflexivity|]. destruct (ntt l o) as [h|] eqn:E; [|reflexivity]. eapply Hntt; eauto. }
  rewrite (Qceiling_comp _ _ E). change (Qceiling 0) with 0. lia.
Qed.
Lemma link_neg l e : get_endpoints g l = Ok e -> l <> -1.
Proof.
  intros H ->. destruct e as [u w]. apply (rep_endpoints_iff _ _ _ _ _ HR) in H. apply Hneg. apply (in_map fst) in H. exact H.
Qed.

(** last interval *)
Definition enonneg (x : ext) : Prop := match x with Some q => (0 <= q)%Q | None => True end.
Definition cmL : cost_map := fun l => match cost l with Some c => Some (c (M - 1)) | None => None end.
Definition ncL : Z -> Z -> option Q := fun i o => match nc i o with Some f => Some (f (M - 1)) | None => None end.
Definition lab (s : sstate) (u : Z) : Prop :=
  u = dest \/ s_dist s u = None \/
  exists l w k, s_out s u = Some l /\ get_endpoints g l = Ok (u, w) /\ cost_at cost l (M - 1) = Some k /\ s_dist s w <> None.
Record FI (s : sstate) : Prop := { fi_pos : forall u, enonneg (s_dist s u); fi_dest : s_dist s dest = Some 0%Q; fi_lab : forall u, lab s u }.

Lemma relax_FI v dv s l s' : FI s -> enonneg dv -> (dv <> None -> s_dist s v <> None) -> (exists u, get_endpoints g l = Ok (u, v)) ->
  relax_nc g cmL ncL dest v dv s l = Ok s' -> FI s' /\ (forall w, s_dist s w <> None -> s_dist s' w <> None).
Proof.
  intros I Hd Hv (u & He) H. unfold relax_nc in H. rewrite He in H. cbn [bind fst] in H.
  unfold cmL in H. destruct (cost l) as [c|] eqn:Ec; [|discriminate].
  apply bind_ok in H as (alt & Ea & H).
  assert (Hpos : forall x, alt = Some x -> (0 <= x)%Q /\ dv <> None /\ exists k, c (M - 1) = Some k).
  { intros x ->. destruct dv as [d|]; unfold enonneg in Hd.
    2:{ exfalso. cbn [eadd] in Ea. destruct (v =? dest); [discriminate|]. destruct (s_out s v); [|discriminate].
        destruct (_ =? -1); [discriminate|]. destruct (ncL _ _); discriminate. }
    destruct (c (M - 1)) as [k|] eqn:Ek.
    2:{ exfalso. cbn [eadd] in Ea. destruct (v =? dest); [discriminate|]. destruct (s_out s v); [|discriminate].
        destruct (_ =? -1); [discriminate|]. destruct (ncL _ _); discriminate. }
    pose proof (Hcost l c (M - 1) k Ec ltac:(lia) Ek) as Hk. split; [|split; [discriminate|eauto]].
    cbn [eadd] in Ea. destruct (v =? dest); [injection Ea as <-; lra|]. destruct (s_out s v) as [o|]; [|discriminate].
    destruct (o =? -1); [injection Ea as <-; lra|]. unfold ncL in Ea. destruct (nc l o) as [f|] eqn:Ef; [|injection Ea as <-; lra].
    injection Ea as <-. pose proof (Hnc _ _ _ (M - 1) Ef ltac:(lia)). lra. }
  destruct (eltb alt (s_dist s u)) eqn:El; [|injection H as <-; auto].
  destruct alt as [x|]; [|discriminate]. destruct (Hpos x eq_refl) as (Hx & Hdv & k & Ek).
  injection H as <-.
  assert (Hud : u <> dest). { intros ->. rewrite (fi_dest _ I) in El. cbn in El. destruct (Qltb_spec x 0) in El; [lra|discriminate]. }
  assert (Mon : forall w, s_dist s w <> None -> upd (s_dist s) u (Some x) w <> None).
  { intros w Hw. unfold upd. destruct (w =? u); [discriminate|exact Hw]. }
  split; [|exact Mon]. constructor; cbn [s_dist].
  - intros w. unfold upd. destruct (w =? u); [exact Hx|apply (fi_pos _ I)].
  - rewrite upd_other by congruence. apply (fi_dest _ I).
  - intros w. unfold lab. cbn [s_dist s_out]. destruct (Z.eq_dec w u) as [->|N].
    + right. right. exists l, v, k. rewrite upd_same. split; [reflexivity|]. split; [exact He|]. split; [unfold cost_at; now rewrite Ec|auto].
    + rewrite (upd_other (s_dist s) u (Some x) w N), (upd_other (s_out s) u (Some l) w N). destruct (fi_lab _ I w) as [?|[?|(l0 & w0 & k0 & A1 & A2 & A3 & A4)]]; [auto|auto|].
      right. right. exists l0, w0, k0. auto.
Qed.

Lemma loop_FI : forall fuel s s', FI s -> nc_loop fuel g cmL ncL dest s = Ok s' -> FI s'.
Proof.
  induction fuel as [|fuel IH]; intros s s' I H; cbn [nc_loop] in H; destruct (pop_front 0 (s_q s, s_flag s)) as [[v qf]|] eqn:Ep;
    try discriminate; try (injection H as <-; exact I).
  apply bind_ok in H as (ls & El & H). apply bind_ok in H as (s1 & E1 & H). apply (IH _ _) with (2 := H). clear H IH.
  assert (Hls : forall l, In l ls -> exists u, get_endpoints g l = Ok (u, v)).
  { rewrite (rep_connections _ _ _ _ HR) in El. destruct (memb v (a_nodes a)); [|discriminate]. injection El as <-. intros l Hl.
    apply a_connections_In in Hl as ([u v'] & Hl & E). cbn in E. subst v'. exists u. now apply (rep_endpoints_iff _ _ _ _ _ HR). }
  set (s0 := {| s_dist := s_dist s |}) in E1. assert (I0 : FI s0). { constructor; cbn; [apply (fi_pos _ I)|apply (fi_dest _ I)|apply (fi_lab _ I)]. }
  assert (Hv : s_dist s v <> None -> s_dist s0 v <> None) by auto.
  pose proof (fi_pos _ I v) as Hd. clearbody s0. clear I El Ep. revert s0 I0 Hv E1.
  induction ls as [|l ls IHl]; intros s0 I0 Hv E1; cbn [foldM] in E1; [injection E1 as <-; exact I0|].
  apply bind_ok in E1 as (s2 & E2 & E1).
  destruct (relax_FI _ _ _ _ _ I0 Hd Hv ltac:(apply Hls; now left) E2) as [I2 Mn].
  apply (IHl ltac:(intros; apply Hls; now right) s2 I2); auto.
Qed.

Lemma fifo_FI : FI (fifo_init g dest (fun _ => Some (-1))).
Proof.
  constructor; cbn; unfold init_dist.
  - intros u. destruct (u =? dest); unfold enonneg; [lra|exact I].
  - now rewrite Z.eqb_refl.
  - intros u. unfold lab. cbn. unfold init_dist. destruct (Z.eqb_spec u dest); auto.
Qed.

(** one entry of the tree *)
Definition entry (s : tdtree) (u t : Z) : Prop :=
  u = dest \/
  match td_dist s u t with
  | None => True
  | Some q => exists w k b d', get_endpoints g (td_tree s u t) = Ok (u, w) /\ cost_at cost (td_tree s u t) t = Some k /\
      next_interval M t (tt_at tt (td_tree s u t) t) b /\ (b = M - 1 \/ t < b < M - 1) /\ td_dist s w b = Some d' /\
      (t < M - 1 -> (q == k + (if w =? dest then 0 else move_at nc (td_tree s u t) [td_tree s w b] b) + d')%Q)
  end.
Definition labels_ok (s : tdtree) (t : Z) : Prop :=
  (forall u, enonneg (td_dist s u t)) /\ td_dist s dest t = Some 0%Q /\ (forall u, entry s u t).
Lemma entry_keep s s' u t : t < M -> (forall m b, t <= b -> td_dist s' m b = td_dist s m b /\ td_tree s' m b = td_tree s m b) ->
  entry s u t -> entry s' u t.
Proof.
  intros HtM H. destruct (H u t (Z.le_refl t)) as [Ed Et]. unfold entry. rewrite Ed, Et. intros [?|E]; [auto|right].
  destruct (td_dist s u t) as [q|]; [|exact I]. destruct E as (w & k & b & d' & A1 & A2 & A3 & A4 & A5 & A6).
  exists w, k, b, d'. destruct (H w b ltac:(lia)) as [Ew Et2]. rewrite Ew, Et2. auto 10.
Qed.

Lemma step_nc t s l s' : 0 <= t < M - 1 -> (forall b, t < b < M -> labels_ok s b) -> labels_ok s t ->
  td_step_nc dest M g cost nc tt ntt t s l = Ok s' ->
  labels_ok s' t /\ (forall m b, b <> t -> td_dist s' m b = td_dist s m b /\ td_tree s' m b = td_tree s m b).
Proof.
  intros Ht HB (P0 & D0 & E0) H. unfold td_step_nc in H. apply bind_ok in H as ([u w] & He & H). cbn [fst snd] in H.
  destruct (cost l) as [c|] eqn:Ec; [|discriminate]. destruct (tt l) as [wt|] eqn:Ew; [|discriminate].
  destruct (c t) as [k|] eqn:Ek; [|injection H as <-; split; [split; [exact P0|split; [exact D0|exact E0]]|auto]].
  apply bind_ok in H as ([k1 x1] & Ekx & H). apply bind_ok in H as (b & Eb & H). cbn [fst snd] in H, Eb.
  destruct (round_time_ok M t (wt t)) as (b0 & Eb0 & Hnx & Hb0).
  pose proof (Hcost l c t k Ec ltac:(lia) Ek) as Hk.
  assert (KX : exists m, (k1 == k + m)%Q /\ (0 <= m)%Q /\ (x1 == wt t)%Q /\
     m = (if w =? dest then 0%Q else if td_tree s w b0 =? -1 then 0%Q else move_at nc l [td_tree s w b0] b0)).
  { destruct (w =? dest); [injection Ekx as <- <-; exists 0%Q; split; [lra|]; split; [lra|]; split; [lra|reflexivity]|].
    rewrite Eb0 in Ekx. cbn [bind] in Ekx. destruct (td_tree s w b0 =? -1); [injection Ekx as <- <-; exists 0%Q; split; [lra|]; split; [lra|]; split; [lra|reflexivity]|].
    cbn [move_at]. destruct (nc l (td_tree s w b0)) as [f|] eqn:Ef; [|injection Ekx as <- <-; exists 0%Q; split; [lra|]; split; [lra|]; split; [lra|reflexivity]].
    destruct (ntt l (td_tree s w b0)) as [h|] eqn:Eh; [|discriminate]. injection Ekx as <- <-.
    exists (f b0). split; [lra|]. pose proof (Hnc _ _ _ b0 Ef ltac:(lia)). pose proof (Hntt _ _ _ b0 Eh ltac:(lia)). split; [assumption|]. split; [lra|reflexivity]. }
  destruct KX as (m & Em & Hm & Ex & Dm).
  pose proof (round_time_comp _ _ _ _ _ Ex Eb) as Eb'. rewrite Eb0 in Eb'. injection Eb' as <-. clear Eb.
  destruct (HB b0 ltac:(lia)) as (PB & DB & EB).
  destruct (eltb (eadd (Some k1) (td_dist s w b0)) (td_dist s u t)) eqn:El; [|injection H as <-; split; [split; [exact P0|split; [exact D0|exact E0]]|auto]].
  destruct (td_dist s w b0) as [d'|] eqn:Ed'; [|discriminate]. cbn [eadd] in *.
  pose proof (PB w) as Hd'. rewrite Ed' in Hd'. unfold enonneg in Hd'.
  injection H as <-. cbn [td_dist td_tree].
  assert (Hud : u <> dest). { intros ->. rewrite D0 in El. cbn in El. destruct (Qltb_spec (k1 + d') 0) in El; [lra|discriminate]. }
  assert (Keep : forall A (f : Z -> Z -> A) (x : A) n i, (n <> u \/ i <> t) -> set2 f u t x n i = f n i).
  { intros A f x n i Hni. unfold set2. destruct (Z.eq_dec n u) as [->|N]; [rewrite upd_same, upd_other by (destruct Hni; congruence); reflexivity|rewrite upd_other by congruence; reflexivity]. }
  assert (Same : forall A (f : Z -> Z -> A) (x : A), set2 f u t x u t = x) by (intros; unfold set2; now rewrite !upd_same).
  split.
  - split; [|split]; cbn [td_dist].
    + intros n. destruct (Z.eq_dec n u) as [->|N]; [rewrite Same; unfold enonneg; lra|rewrite Keep by auto; apply P0].
    + rewrite Keep by auto. exact D0.
    + intros n. unfold entry. cbn [td_dist td_tree]. destruct (Z.eq_dec n u) as [->|N].
      * right. rewrite !Same. exists w, k, b0, d'. rewrite !(Keep _ _ _ w b0) by (right; lia). rewrite Ed'.
        split; [exact He|]. split; [unfold cost_at; rewrite Ec; exact Ek|]. split; [unfold tt_at; rewrite Ew; exact Hnx|].
        split; [exact Hb0|]. split; [reflexivity|]. intros _.
        destruct (Z.eqb_spec w dest) as [->|Nw]; [rewrite Dm in Em; rewrite Em; reflexivity|].
        destruct (EB w) as [?|E]; [congruence|]. rewrite Ed' in E. destruct E as (w2 & k2 & b2 & d2 & A1 & _).
        pose proof (link_neg _ _ A1) as Nl. destruct (Z.eqb_spec (td_tree s w b0) (-1)) as [|_]; [congruence|]. rewrite <- Dm. rewrite Em. reflexivity.
      * rewrite !(Keep _ _ _ n t) by auto. destruct (E0 n) as [?|E]; [auto|right].
        destruct (td_dist s n t) as [q|]; [|exact I]. destruct E as (w2 & k2 & b2 & d2 & A1 & A2 & A3 & A4 & A5 & A6).
        exists w2, k2, b2, d2. rewrite !(Keep _ _ _ w2 b2) by (right; lia). auto 10.
  - intros n i Hi. rewrite !Keep by auto. auto.
Qed.

Lemma fold_nc t : 0 <= t < M - 1 -> forall lids s s', (forall b, t < b < M -> labels_ok s b) -> labels_ok s t ->
  foldM (td_step_nc dest M g cost nc tt ntt t) s lids = Ok s' ->
  labels_ok s' t /\ (forall m b, b <> t -> td_dist s' m b = td_dist s m b /\ td_tree s' m b = td_tree s m b).
Proof.
  intros Ht. induction lids as [|l lids IH]; intros s s' HB H0 H; cbn [foldM] in H; [injection H as <-; auto|].
  apply bind_ok in H as (s1 & E1 & H). destruct (step_nc _ _ _ _ Ht HB H0 E1) as [H1 K1].
  assert (HB1 : forall b, t < b < M -> labels_ok s1 b).
  { intros b Hb. destruct (HB b Hb) as (P & D & E). repeat split.
    - intros u. rewrite (proj1 (K1 u b ltac:(lia))). apply P.
    - rewrite (proj1 (K1 dest b ltac:(lia))). exact D.
    - intros u. apply entry_keep with s; [lia| |apply E]. intros m i Hi. apply K1. lia. }
  destruct (IH _ _ HB1 H1 H) as [H2 K2]. split; [exact H2|]. intros m b Hb. destruct (K1 m b Hb) as [-> ->] || idtac.
  destruct (K2 m b Hb) as [-> ->]. apply K1. exact Hb.
Qed.

Lemma back_nc lids : forall n s s', Z.of_nat n <= M - 1 -> (forall b, Z.of_nat n <= b < M -> labels_ok s b) ->
  (forall m b, 0 <= b < Z.of_nat n -> td_dist s m b = init_dist dest m) ->
  td_back_nc n dest M g lids cost nc tt ntt s = Ok s' -> forall b, 0 <= b < M -> labels_ok s' b.
Proof.
  induction n as [|n IH]; intros s s' Hn HB HI H b Hb; cbn [td_back_nc] in H; [injection H as <-; apply HB; lia|].
  apply bind_ok in H as (s1 & E1 & H).
  assert (H0 : labels_ok s (Z.of_nat n)).
  { assert (Hi : forall m, td_dist s m (Z.of_nat n) = init_dist dest m) by (intros; apply HI; lia). split; [|split].
    - intros u. rewrite Hi. unfold init_dist. destruct (u =? dest); unfold enonneg; [lra|exact I].
    - rewrite Hi. unfold init_dist. now rewrite Z.eqb_refl.
    - intros u. unfold entry. rewrite Hi. unfold init_dist. destruct (Z.eqb_spec u dest); auto. }
  destruct (fold_nc (Z.of_nat n) ltac:(lia) _ _ _ ltac:(intros; apply HB; lia) H0 E1) as [H1 K1].
  apply (IH s1 s'); [lia| | |exact H|exact Hb].
  - intros i Hi. destruct (Z.eq_dec i (Z.of_nat n)) as [->|N]; [exact H1|]. destruct (HB i ltac:(lia)) as (P & D & E). repeat split.
    + intros u. rewrite (proj1 (K1 u i N)). apply P.
    + rewrite (proj1 (K1 dest i N)). exact D.
    + intros u. apply entry_keep with s; [lia| |apply E]. intros m j Hj. apply K1. lia.
  - intros m i Hi. rewrite (proj1 (K1 m i ltac:(lia))). apply HI. lia.
Qed.

Lemma update_nc fuel lids s : update_tree_nc fuel g lids dest M cost nc tt ntt = Ok s -> forall b, 0 <= b < M -> labels_ok s b.
Proof.
  intros H. unfold update_tree_nc in H. apply bind_ok in H as (u & _ & H). apply bind_ok in H as (s0 & E0 & H).
  pose proof (loop_FI _ _ _ fifo_FI E0) as F0. apply back_nc with (4 := H); [lia| |].
  - intros b Hb. replace b with (M - 1) by lia. split; [|split]; cbn [td_dist].
    + intros n. rewrite Z.eqb_refl. apply (fi_pos _ F0).
    + rewrite Z.eqb_refl. apply (fi_dest _ F0).
    + intros n. unfold entry. cbn [td_dist td_tree]. rewrite Z.eqb_refl. destruct (fi_lab _ F0 n) as [?|[->|(l & w & k & A1 & A2 & A3 & A4)]]; [auto|auto|].
      right. destruct (s_dist s0 n) as [q|]; [|exact I]. rewrite A1. destruct (s_dist s0 w) as [d'|] eqn:Ed; [|congruence].
      exists w, k, (M - 1), d'. split; [exact A2|]. split; [exact A3|].
      destruct (round_time_ok M (M - 1) (tt_at tt l (M - 1))) as (b2 & _ & Hn2 & Hb2). replace b2 with (M - 1) in Hn2 by lia.
      split; [exact Hn2|]. split; [auto|]. rewrite Z.eqb_refl. split; [exact Ed|]. lia.
  - intros m b Hb. cbn [td_dist]. destruct (Z.eqb_spec b (M - 1)); [lia|reflexivity].
Qed.

Lemma follow_nc s src : (forall b, 0 <= b < M -> labels_ok s b) ->
  forall fuel cur t prev acc ns0 ls0 x ns ls d, 0 <= t < M -> td_dist s cur t = Some d ->
  td_follow_nc fuel g dest M tt ntt s src cur t prev acc ns0 ls0 = Ok (x, (ns, ls)) ->
  exists ns1 ls1 ts c, ns = ns0 ++ ns1 /\ ls = ls0 ++ ls1 /\ visits g cur ls1 ns1 /\ mwalk g (cost_at cost) nc (tt_at tt) ntt M dest cur t ls1 ts c /\
    (t < M - 1 -> Forall (fun b => b < M - 1) ts -> (d == c)%Q) /\
    ls1 = (if cur =? dest then [] else td_tree s cur t :: tl ls1).
Proof.
  intros HB. induction fuel as [|fuel IH]; intros cur t prev acc ns0 ls0 x ns ls d Ht Hd H; cbn [td_follow_nc] in H.
  - destruct (Z.eqb_spec cur dest) as [->|]; [|discriminate]. injection H as <- <- <-. exists [dest], [], [], 0%Q.
    split; [reflexivity|]. split; [now rewrite app_nil_r|]. split; [constructor|]. split; [constructor|]. split; [|reflexivity].
    intros _ _. destruct (HB t Ht) as (_ & D & _). rewrite D in Hd. injection Hd as <-. lra.
  - destruct (Z.eqb_spec cur dest) as [->|Nc].
    { injection H as <- <- <-. exists [dest], [], [], 0%Q.
      split; [reflexivity|]. split; [now rewrite app_nil_r|]. split; [constructor|]. split; [constructor|]. split; [|reflexivity].
      intros _ _. destruct (HB t Ht) as (_ & D & _). rewrite D in Hd. injection Hd as <-. lra. }
    destruct (HB t Ht) as (_ & _ & E). destruct (E cur) as [?|Ec]; [congruence|]. rewrite Hd in Ec.
    destruct Ec as (w & k & b & d' & A1 & A2 & A3 & A4 & A5 & A6). set (l := td_tree s cur t) in *.
    pose proof (link_neg _ _ A1) as Nl. destruct (Z.eqb_spec l (-1)) as [|_]; [congruence|].
    set (mv := match prev with Some p => _ | None => None end) in H.
    assert (T1 : match mv with Some h => if t + ceil (h t) <? M then t + ceil (h t) else M - 1 | None => t end = t).
    { destruct mv as [h|] eqn:Em; [|reflexivity]. assert (h t == 0)%Q.
      { unfold mv in Em. destruct prev as [p|]; [|discriminate]. destruct (cur =? src); [discriminate|]. eapply Hntt; eauto. }
      rewrite ceil_zero by assumption. rewrite Z.add_0_r. destruct (Z.ltb_spec t M); [reflexivity|lia]. }
    rewrite T1 in H. apply bind_ok in H as (uu & _ & H). destruct (tt l) as [wt|] eqn:Ew; [|discriminate].
    apply bind_ok in H as (b' & Eb & H). rewrite A1 in H. cbn [bind snd] in H.
    assert (b' = b). { destruct (round_time_ok M t (wt t)) as (b2 & E2 & N2 & _). rewrite E2 in Eb. injection Eb as <-.
      eapply next_interval_fun; [exact N2|]. unfold tt_at in A3. rewrite Ew in A3. exact A3. }
    subst b'. destruct (IH w b (Some l) _ _ _ _ _ _ d' ltac:(lia) A5 H) as (ns1 & ls1 & ts & c & B1 & B2 & B3 & B4 & B5 & B6).
    exists (cur :: ns1), (l :: ls1), (b :: ts), (k + move_at nc l ls1 b + c)%Q.
    split; [rewrite B1, <- app_assoc; reflexivity|]. split; [rewrite B2, <- app_assoc; reflexivity|].
    split; [econstructor; eauto|]. split; [econstructor; [exact A1|exact A2|exact A3|]; rewrite move_end_zero by lia; exact B4|]. split; [|reflexivity].
    intros Hlt Hall. inversion Hall as [|? ? Hb Hts]; subst. rewrite (A6 Hlt). rewrite (B5 Hb Hts).
    rewrite B6. destruct (w =? dest); cbn [move_at]; [lra|]. reflexivity.
Qed.
End NC.

(** no movement of the tables belongs to the graph *)
Section Plain.
Variables (g : graph) (cost : td_cost) (nc : td_move) (tt : td_tt) (ntt : td_move) (dest M : Z).
Hypothesis Hnone : forall l e o, get_endpoints g l = Ok e -> nc l o = None /\ ntt l o = None.

Lemma relax_plain cm v dv s l : s_out s v <> None ->
  relax_nc g cm (fun i o => match nc i o with Some f => Some (f (M - 1)) | None => None end) dest v dv s l = relax push_back g cm dv s l.
Proof.
  intros Hv. unfold relax_nc, relax. destruct (get_endpoints g l) as [e|] eqn:E; [|reflexivity]. cbn [bind].
  destruct (cm l) as [c|]; [|reflexivity]. destruct (s_out s v) as [o|]; [|congruence].
  rewrite (proj1 (Hnone _ _ o E)). destruct (v =? dest), (o =? -1); reflexivity.
Qed.
Lemma relax_out push cm dv s l s' : relax push g cm dv s l = Ok s' -> (forall v, s_out s v <> None) -> forall v, s_out s' v <> None.
Proof.
  unfold relax. intros H Hs v. apply bind_ok in H as (e & _ & H). destruct (cm l); [|discriminate].
  destruct (eltb _ _); injection H as <-; [|apply Hs]. cbn. unfold upd. destruct (v =? fst e); [discriminate|apply Hs].
Qed.
Lemma fold_plain cm v dv : forall ls s, (forall v, s_out s v <> None) ->
  foldM (relax_nc g cm (fun i o => match nc i o with Some f => Some (f (M - 1)) | None => None end) dest v dv) s ls =
  foldM (relax push_back g cm dv) s ls /\
  (forall s', foldM (relax push_back g cm dv) s ls = Ok s' -> forall v, s_out s' v <> None).
Proof.
  induction ls as [|l ls IH]; intros s Hs; cbn [foldM]; [split; [reflexivity|intros s' H; injection H as <-; exact Hs]|].
  rewrite relax_plain by apply Hs. destruct (relax push_back g cm dv s l) as [s1|e] eqn:E; cbn [bind]; [|split; [reflexivity|discriminate]].
  apply IH. eapply relax_out; eauto.
Qed.
Lemma loop_plain cm : forall fuel i s, (forall v, s_out s v <> None) ->
  nc_loop fuel g cm (fun i o => match nc i o with Some f => Some (f (M - 1)) | None => None end) dest s =
  search_loop fuel (fun v => connections g v Incoming) push_back pop_front g cm i s.
Proof.
  induction fuel as [|fuel IH]; intros i s Hs; cbn [nc_loop search_loop]; change (pop_front i) with (pop_front 0);
    destruct (pop_front 0 (s_q s, s_flag s)) as [[v qf]|]; try reflexivity.
  destruct (connections g v Incoming) as [ls|]; [|reflexivity]. cbn [bind].
  destruct (fold_plain cm v (s_dist s v) ls {| s_dist := s_dist s; s_out := s_out s; s_q := fst qf; s_flag := snd qf |} Hs) as [E F].
  rewrite E. destruct (foldM (relax push_back g cm (s_dist s v)) _ ls) as [s1|] eqn:E1; [|reflexivity]. cbn [bind]. apply IH. apply (F s1 eq_refl).
Qed.
Lemma step_plain t s l : td_step_nc dest M g cost nc tt ntt t s l = td_step M g cost tt t s l.
Proof.
  unfold td_step_nc, td_step. destruct (get_endpoints g l) as [e|] eqn:E; [|reflexivity]. cbn [bind].
  destruct (cost l) as [c|]; [|reflexivity]. destruct (tt l) as [w|]; [|reflexivity]. destruct (c t) as [k|]; [|reflexivity].
  destruct (snd e =? dest); cbn [bind fst snd]; [reflexivity|]. destruct (round_time_ok M t (w t)) as (b & Eb & _). rewrite Eb. cbn [bind].
  destruct (td_tree s (snd e) b =? -1); cbn [bind fst snd]; [rewrite Eb; reflexivity|].
  rewrite (proj1 (Hnone _ _ _ E)). cbn [bind fst snd]. rewrite Eb. reflexivity.
Qed.
Lemma back_plain lids : forall n s, td_back_nc n dest M g lids cost nc tt ntt s = td_back n M g lids cost tt s.
Proof.
  induction n as [|n IH]; intros s; [reflexivity|]. cbn [td_back_nc td_back].
  assert (E : foldM (td_step_nc dest M g cost nc tt ntt (Z.of_nat n)) s lids = foldM (td_step M g cost tt (Z.of_nat n)) s lids).
  { clear IH. revert s. induction lids as [|l lids IHl]; intros s; [reflexivity|]. cbn [foldM]. rewrite step_plain.
    destruct (td_step _ _ _ _ _ _ _); [|reflexivity]. cbn [bind]. apply IHl. }
  rewrite E. destruct (foldM (td_step M g cost tt (Z.of_nat n)) s lids); [|reflexivity]. cbn [bind]. apply IH.
Qed.
Lemma update_plain fuel lids : update_tree_nc fuel g lids dest M cost nc tt ntt = update_tree fuel g lids dest M cost tt.
Proof.
  unfold update_tree_nc, update_tree, all_to_one_FIFO_nc, all_to_one_FIFO. destruct (guard _ _); [|reflexivity]. cbn [bind].
  assert (Hi : forall v, s_out (fifo_init g dest (fun _ => Some (-1))) v <> None).
  { intros v. unfold fifo_init. cbn [s_out]. destruct (memb v (g_nids g) && negb (v =? dest)); discriminate. }
  rewrite (loop_plain _ fuel 0 _ Hi).
  destruct (search_loop _ _ _ _ _ _ _ _); [|reflexivity]. cbn [bind]. apply back_plain.
Qed.
Lemma follow_plain s src : forall fuel cur t prev acc ns ls, 0 <= t -> 1 <= M -> (forall p, prev = Some p -> exists e, get_endpoints g p = Ok e) ->
  td_follow_nc fuel g dest M tt ntt s src cur t prev acc ns ls = td_follow fuel g dest M tt s cur t acc ns ls.
Proof.
  induction fuel as [|fuel IH]; intros cur t prev acc ns ls Ht HM Hp; cbn [td_follow_nc td_follow]; [reflexivity|].
  destruct (cur =? dest); [reflexivity|]. destruct (td_tree s cur t =? -1); [reflexivity|].
  assert (E : match prev with Some p => if cur =? src then None else ntt p (td_tree s cur t) | None => None end = None).
  { destruct prev as [p|]; [|reflexivity]. destruct (Hp p eq_refl) as (e & He). rewrite (proj2 (Hnone _ _ (td_tree s cur t) He)). destruct (cur =? src); reflexivity. }
  rewrite E. unfold guard. destruct (Z.leb_spec 0 t); [|lia]. cbn [bind]. destruct (tt (td_tree s cur t)) as [w|]; [|reflexivity].
  destruct (round_time_ok M t (w t)) as (b & Eb & _ & Hb). rewrite Eb. cbn [bind].
  destruct (get_endpoints g (td_tree s cur t)) as [e|] eqn:Ee; [|reflexivity]. cbn [bind]. apply IH; [lia|lia|].
  intros p Hpp. injection Hpp as <-. eauto.
Qed.
Lemma get_plain fuel s src time : 1 <= M -> get_tdsp_nc fuel g dest M tt ntt s src time = get_tdsp fuel g dest M tt s src time.
Proof.
  intros HM. unfold get_tdsp_nc, get_tdsp, guard. destruct (Z.leb_spec 0 time); [|reflexivity]. cbn [bind].
  apply follow_plain; [destruct (time <? M); lia|lia|discriminate].
Qed.
End Plain.
