(** Two-class runs: where the vehicles are, and what nodes do to them. *)
From Verif Require Import Base Base_lemmas Model_Num Proof_Num Spec_Path Proof_Path Model_CC Spec_CC Proof_CC Model_Path Model_Link Spec_Link Spec_Node
  Proof_Link Proof_Link3 Proof_Link4 Model_World Model_Node Proof_Node Model_Sim Spec_Sim Proof_Sim1 Proof_Sim3
  Model_McLink Spec_McLink Proof_McLink Model_McNode Spec_McNode Proof_McNode Proof_McNode2 Proof_McNode3 Proof_McNode4 Proof_McNode5 Model_McSim Spec_McSim.
Local Open Scope Z_scope.

(** everybody on a link, whatever the class *)
Definition minall (b : mbody) : list Z :=
  match b with
  | MCtm _ cs => Proof_McLink.mline false cs ++ Proof_McLink.mline true cs
  | MLq _ qc qt _ _ _ => qc ++ qt
  | MPq _ pool _ _ => map fst pool
  end.
Definition mall (l : mlink) : list Z := ml_fin l ++ minall (ml_body l) ++ ml_in l.

Lemma zc_class cls k v l : zc v (of_class cls k l) = if Bool.eqb (cls v) k then zc v l else 0.
Proof.
  unfold of_class. induction l as [|x l IH]; [destruct (Bool.eqb _ _); reflexivity|]. cbn [filter].
  change (x :: l) with ([x] ++ l). rewrite zc_app.
  destruct (Z.eq_dec v x) as [<-|Ne].
  - destruct (Bool.eqb (cls v) k); [|exact IH]. change (v :: filter (fun v0 : Z => Bool.eqb (cls v0) k) l) with ([v] ++ filter (fun v0 : Z => Bool.eqb (cls v0) k) l).
    rewrite zc_app, IH. reflexivity.
  - assert (Z0 : zc v [x] = 0) by (unfold zc; simpl; destruct (Z.eqb_spec v x); [contradiction|reflexivity]).
    rewrite Z0. destruct (Bool.eqb (cls x) k).
    + change (x :: filter (fun v0 : Z => Bool.eqb (cls v0) k) l) with ([x] ++ filter (fun v0 : Z => Bool.eqb (cls v0) k) l). rewrite zc_app, Z0, IH. destruct (Bool.eqb _ _); lia.
    + rewrite IH. destruct (Bool.eqb _ _); lia.
Qed.
Lemma zc_all_class cls k k' v l : all_class cls k l -> zc v (of_class cls k' l) = if Bool.eqb k k' then zc v l else 0.
Proof.
  intros A. destruct (Bool.eqb k k') eqn:E.
  - apply Bool.eqb_prop in E as <-. now rewrite of_class_all.
  - assert (k' = negb k) by (destruct k, k'; cbn in E |- *; congruence). subst. now rewrite of_class_none.
Qed.
Lemma minside_class cls k b v : mbody_inv cls b -> zc v (minside cls k b) = if Bool.eqb (cls v) k then zc v (minall b) else 0.
Proof.
  destruct b as [f cs|f qc qt vc vt sp|m pool vc vt]; cbn [mbody_inv minside minall]; intros H.
  - change (concat (rev (map (fun c : mcell => if k then mc_qt c else mc_qc c) cs))) with (Proof_McLink.mline k cs).
    rewrite <- (of_class_all cls k (Proof_McLink.mline k cs)) by apply H. rewrite zc_class, zc_app.
    pose proof (zc_all_class cls false k v _ (H false)) as A. pose proof (zc_all_class cls true k v _ (H true)) as B.
    rewrite zc_class in A, B. destruct (Bool.eqb (cls v) k); [|reflexivity]. destruct k; cbn [Bool.eqb] in A, B; lia.
  - destruct H as [H1 H2]. rewrite zc_app. pose proof (zc_all_class cls false k v _ H1) as A. pose proof (zc_all_class cls true k v _ H2) as B.
    rewrite <- (of_class_all cls k (if k then qt else qc)) by (destruct k; assumption). rewrite zc_class.
    rewrite zc_class in A, B. destruct (Bool.eqb (cls v) k); [|reflexivity]. destruct k; cbn [Bool.eqb] in A, B; lia.
  - apply zc_class.
Qed.
Lemma on_mlink_class cls k l v : mbody_inv cls (ml_body l) -> zc v (on_mlink cls k l) = if Bool.eqb (cls v) k then zc v (mall l) else 0.
Proof.
  intros H. unfold on_mlink, mall. rewrite !zc_app, !zc_class, minside_class by exact H. destruct (Bool.eqb _ _); lia.
Qed.
(** all of a link is the cars and the trucks *)
Lemma mall_split cls l v : mbody_inv cls (ml_body l) -> zc v (mall l) = zc v (on_mlink cls false l) + zc v (on_mlink cls true l).
Proof. intros H. rewrite !on_mlink_class by exact H. destruct (cls v); cbn [Bool.eqb]; lia. Qed.

(** classes of vehicles not there do not matter *)
Lemma of_class_ext cls cls' k l : (forall v, In v l -> cls' v = cls v) -> of_class cls' k l = of_class cls k l.
Proof. intros H. unfold of_class. apply filter_ext_in. intros v Hv. now rewrite H. Qed.
Lemma mbody_inv_ext cls cls' b : (forall v, In v (minall b) -> cls' v = cls v) -> mbody_inv cls b -> mbody_inv cls' b.
Proof.
  destruct b as [f cs|f qc qt vc vt sp|m pool vc vt]; cbn [mbody_inv minall]; intros E H.
  - intros k v Hv. rewrite E by (apply in_or_app; destruct k; auto). now apply H.
  - destruct H as [H1 H2]. split; intros v Hv; rewrite E by (apply in_or_app; auto); auto.
  - exact H.
Qed.
Lemma on_mlink_ext cls cls' k l : (forall v, In v (mall l) -> cls' v = cls v) -> on_mlink cls' k l = on_mlink cls k l.
Proof.
  unfold mall, on_mlink. intros E. rewrite (of_class_ext cls cls' k (ml_fin l)), (of_class_ext cls cls' k (ml_in l)).
  2:{ intros v Hv. apply E. apply in_or_app. right. apply in_or_app. now right. }
  2:{ intros v Hv. apply E. apply in_or_app. now left. }
  f_equal. f_equal. destruct (ml_body l) as [f cs|f qc qt vc vt sp|m pool vc vt]; try reflexivity. cbn [minside minall] in *.
  apply of_class_ext. intros v Hv. apply E. apply in_or_app. right. apply in_or_app. now left.
Qed.

(** ** where vehicle [v] is *)
Definition mzo (M : mnet) (w : mworld) (v : Z) : Z := sumZ (map (fun n => zc v (mw_oq w n)) (map og_node (mn_origins M))).
Definition mzl (M : mnet) (w : mworld) (v : Z) : Z := sumZ (map (fun l => zc v (mall (mw_link w l))) (mn_links M)).
Definition mzd (M : mnet) (w : mworld) (v : Z) : Z := sumZ (map (fun n => zc v (mw_dq w n)) (mn_dests M)).
Definition mzcount (M : mnet) (w : mworld) (v : Z) : Z := mzo M w v + mzl M w v + mzd M w v.

Lemma sumZ_perm1 l l' : Permutation l l' -> sumZ l = sumZ l'.
Proof. induction 1; cbn [sumZ fold_right] in *; unfold sumZ in *; cbn [fold_right]; lia. Qed.
Lemma sumZ_nonneg {A} (f : A -> Z) l : (forall x, 0 <= f x) -> 0 <= sumZ (map f l).
Proof. intros H. induction l as [|a l IH]; simpl; [lia|]. specialize (H a). lia. Qed.
Lemma sumZ_ge {A} (f : A -> Z) l x : (forall x, 0 <= f x) -> In x l -> f x <= sumZ (map f l).
Proof.
  intros H. induction l as [|a l IH]; simpl; [intros []|]. intros [->|I].
  - pose proof (sumZ_nonneg f l H). lia.
  - specialize (IH I). pose proof (H a). lia.
Qed.
Lemma mzo_nonneg M w v : 0 <= mzo M w v. Proof. apply sumZ_nonneg. intros; apply zc_nonneg. Qed.
Lemma mzl_nonneg M w v : 0 <= mzl M w v. Proof. apply sumZ_nonneg. intros; apply zc_nonneg. Qed.
Lemma mzd_nonneg M w v : 0 <= mzd M w v. Proof. apply sumZ_nonneg. intros; apply zc_nonneg. Qed.
Lemma mzl_ge M w v l : In l (mn_links M) -> zc v (mall (mw_link w l)) <= mzl M w v.
Proof. intros H. unfold mzl. apply (sumZ_ge (fun l => zc v (mall (mw_link w l)))); [intros; apply zc_nonneg|exact H]. Qed.
Lemma mzd_ge M w v n : In n (mn_dests M) -> zc v (mw_dq w n) <= mzd M w v.
Proof. intros H. unfold mzd. apply (sumZ_ge (fun n => zc v (mw_dq w n))); [intros; apply zc_nonneg|exact H]. Qed.

Lemma sumZ_if {A} (b : bool) (f : A -> Z) l : sumZ (map (fun x => if b then f x else 0) l) = if b then sumZ (map f l) else 0.
Proof. destruct b; [reflexivity|]. apply sumZ_map_zero. reflexivity. Qed.
Lemma mzcount_places M w v k : (forall l, In l (mn_links M) -> mbody_inv (mw_cls w) (ml_body (mw_link w l))) ->
  zc v (m_at_origins M w k ++ m_on_links M w k ++ m_at_dests M w k) = if Bool.eqb (mw_cls w v) k then mzcount M w v else 0.
Proof.
  intros H. unfold m_at_origins, m_on_links, m_at_dests. rewrite !zc_app, !zc_concat.
  rewrite (sumZ_map_ext (fun o => zc v (of_class (mw_cls w) k (mw_oq w (og_node o)))) (fun o => if Bool.eqb (mw_cls w v) k then zc v (mw_oq w (og_node o)) else 0)) by (intros; apply zc_class).
  rewrite (sumZ_map_ext (fun l => zc v (on_mlink (mw_cls w) k (mw_link w l))) (fun l => if Bool.eqb (mw_cls w v) k then zc v (mall (mw_link w l)) else 0)) by (intros l Hl; apply on_mlink_class; auto).
  rewrite (sumZ_map_ext (fun n => zc v (of_class (mw_cls w) k (mw_dq w n))) (fun n => if Bool.eqb (mw_cls w v) k then zc v (mw_dq w n) else 0)) by (intros; apply zc_class).
  rewrite !sumZ_if. unfold mzcount, mzo, mzl, mzd. rewrite map_map. destruct (Bool.eqb _ _); lia.
Qed.

(** ** nodes *)
Definition cadds (x : Q) (c c' : option curve) : Prop :=
  match c, c' with None, None => True | Some c, Some c' => (cum_total c' == cum_total c + x)%Q | _, _ => False end.
Lemma counts_adds T x c c' : counts T x c c' -> cadds x c c'.
Proof. destruct c, c'; simpl; try tauto. Qed.
Lemma cadds_refl x c : (x == 0)%Q -> cadds x c c.
Proof. intros E. destruct c; simpl; [|exact I]. rewrite E. lra. Qed.

(** the effect of the update of any node: [e l] entered link [l], [lv l] left it *)
Record meff (M : mnet) (w w' : mworld) (e lv : Z -> list Z) : Prop := {
  me_plans : same_plans w w';
  me_body : forall l, ml_body (mw_link w' l) = ml_body (mw_link w l) /\ ml_par (mw_link w' l) = ml_par (mw_link w l);
  me_in : forall l, ml_in (mw_link w' l) = ml_in (mw_link w l) ++ e l;
  me_fin : forall l, Permutation (ml_fin (mw_link w l)) (lv l ++ ml_fin (mw_link w' l));
  me_Nin : forall k l, cadds (class_count (mw_cls w) k (e l) / mn_fs M) (mk_Nin (mw_cc w) k l) (mk_Nin (mw_cc w') k l);
  me_Nout : forall k l, cadds (class_count (mw_cls w) k (lv l) / mn_fs M) (mk_Nout (mw_cc w) k l) (mk_Nout (mw_cc w') k l);
  me_count : forall v, mzcount M w' v = mzcount M w v }.

Lemma class_count_nil cls k fs : (class_count cls k [] / fs == 0)%Q.
Proof. unfold class_count, Qdiv. change (inject_Z (Zlen (of_class cls k []))) with 0%Q. lra. Qed.
Lemma zc_mall_in v l e : zc v (mall (ml_set_in l (ml_in l ++ e))) = zc v (mall l) + zc v e.
Proof. unfold mall, ml_set_in, with_body. cbn [ml_fin ml_body ml_in]. rewrite !zc_app. lia. Qed.
Lemma zc_mall_fin v l f e : Permutation (ml_fin l) (e ++ f) -> zc v (mall (ml_set_fin l f)) = zc v (mall l) - zc v e.
Proof. intros P. unfold mall, ml_set_fin, with_body. cbn [ml_fin ml_body ml_in]. rewrite !zc_app, (zc_perm v _ _ P), zc_app. lia. Qed.

Lemma dec_in (l : Z) ls : {In l ls} + {~ In l ls}. Proof. apply in_dec, Z.eq_dec. Qed.
Definition onl (ls : list Z) (f : Z -> list Z) (l : Z) : list Z := if memb l ls then f l else [].
Lemma onl_in ls f l : In l ls -> onl ls f l = f l. Proof. intros H. unfold onl. apply memb_In in H. now rewrite H. Qed.
Lemma onl_out ls f l : ~ In l ls -> onl ls f l = []. Proof. intros H. unfold onl. apply memb_false in H. now rewrite H. Qed.

Section Node.
Context (M : mnet) (K : mnet_ok M).

Lemma junction_meff n shuf pcu t w w' : (forall b, shuffle (shuf b)) ->
  mjunction_evolve (mn_fs M) pcu (mn_in M n) (mn_out M n) shuf t w = Ok w' -> exists e lv, meff M w w' e lv.
Proof.
  intros Hs H. set (ins := mn_in M n) in *. set (outs := mn_out M n) in *. pose proof (mno_around M K n) as A. fold ins outs in A.
  assert (P : forall b, Permutation (shuf b ins) ins) by (intros b; apply Hs). pose proof (mno_fs M K) as Hf.
  destruct (mjunction_ok _ _ _ _ _ _ _ _ Hf A P H) as (supply & w1 & Hsup & _ & Mv & R).
  pose proof (junction_passage _ _ _ _ _ _ _ _ _ _ Hf A P Mv R) as PA. pose proof (junction_curves _ _ _ _ _ _ _ _ _ _ Hf A P Mv R) as (C1 & C2 & C3 & C4).
  pose proof (junction_plans _ _ _ _ _ _ _ _ _ _ Hf A Mv R) as PL.
  match type of PA with mpassage _ _ _ _ ?p => set (pass := p) in * end.
  destruct PA as [Ff Fs Fp Fe Fi Fo Fx [Fq Fd]].
  assert (EX : forall b, exists new, In b outs -> ml_in (mw_link w' b) = ml_in (mw_link w b) ++ new /\ forall v, zc v new = sumZ (map (fun a => zc v (pass a b)) ins)).
  { intros b. destruct (dec_in b outs) as [Hb|Hb]; [|exists []; intros; contradiction]. destruct (Fe b Hb) as (order & Po & E). eexists. intros _. split; [exact E|].
    intros v. rewrite zc_concat. apply sumZ_perm1. exact (Permutation_map (fun a => zc v (pass a b)) Po). }
  (* choose the entering list from the state itself *)
  set (e := onl outs (fun b => skipn (length (ml_in (mw_link w b))) (ml_in (mw_link w' b)))).
  set (lv := onl ins (fun a => concat (map (pass a) outs))).
  assert (Ee : forall b, In b outs -> ml_in (mw_link w' b) = ml_in (mw_link w b) ++ e b /\ forall v, zc v (e b) = sumZ (map (fun a => zc v (pass a b)) ins)).
  { intros b Hb. destruct (EX b) as (new & N). destruct (N Hb) as [E Zn]. unfold e. rewrite onl_in by exact Hb.
    assert (X : skipn (length (ml_in (mw_link w b))) (ml_in (mw_link w' b)) = new) by (rewrite E, skipn_app, skipn_all, Nat.sub_diag; reflexivity).
    rewrite X. auto. }
  pose proof A as (NI & NO & DJ).
  assert (IO : forall l, In l ins -> e l = []) by (intros l Hl; apply onl_out, DJ, Hl).
  assert (OI : forall l, In l outs -> lv l = []) by (intros l Hl; apply onl_out; intros C; exact (DJ l C Hl)).
  assert (LI : forall a, In a ins -> lv a = concat (map (pass a) outs)) by (intros a Ha; unfold lv; now apply onl_in).
  exists e, lv. constructor.
  - exact PL.
  - intros l. destruct (dec_in l ins) as [Hi|Hi]; [rewrite (Fi l Hi); split; reflexivity|].
    destruct (dec_in l outs) as [Ho|Ho]; [rewrite (Fo l Ho); split; reflexivity|]. rewrite Fx by assumption. auto.
  - intros l. destruct (dec_in l outs) as [Ho|Ho]; [now apply Ee|]. unfold e. rewrite (onl_out _ _ _ Ho), app_nil_r.
    destruct (dec_in l ins) as [Hi|Hi]; [rewrite (Fi l Hi); reflexivity|]. now rewrite Fx.
  - intros l. destruct (dec_in l ins) as [Hi|Hi]; [rewrite (LI l Hi); now apply Fp|]. unfold lv. rewrite (onl_out _ _ _ Hi).
    destruct (dec_in l outs) as [Ho|Ho]; [rewrite (Fo l Ho); apply Permutation_refl|]. rewrite Fx by assumption. apply Permutation_refl.
  - intros k l. destruct (dec_in l outs) as [Ho|Ho]; [eapply counts_adds, C1; [exact Ho|now apply Ee]|]. rewrite (C2 k l Ho). unfold e. rewrite (onl_out _ _ _ Ho).
    apply cadds_refl, class_count_nil.
  - intros k l. destruct (dec_in l ins) as [Hi|Hi]; [eapply counts_adds, C3; [exact Hi|rewrite (LI l Hi); now apply Fp]|]. rewrite (C4 k l Hi). unfold lv. rewrite (onl_out _ _ _ Hi).
    apply cadds_refl, class_count_nil.
  - intros v. unfold mzcount, mzo, mzd. rewrite Fq, Fd. enough (mzl M w' v = mzl M w v) by lia. unfold mzl.
    enough (E : sumZ (map (fun l => zc v (mall (mw_link w' l)) - zc v (mall (mw_link w l))) (mn_links M)) = 0) by (rewrite sumZ_map_minus in E; lia).
    rewrite (sumZ_support _ (ins ++ outs)); [|apply (mno_links M K)| | |].
    + rewrite map_app, sumZ_app.
      rewrite (sumZ_map_ext _ (fun a => - sumZ (map (fun b => zc v (pass a b)) outs)) ins).
      2:{ intros a Ha. rewrite (Fi a Ha). rewrite (zc_mall_fin v (mw_link w a) _ _ (Fp a Ha)), zc_concat. lia. }
      rewrite (sumZ_map_ext _ (fun b => sumZ (map (fun a => zc v (pass a b)) ins)) outs).
      2:{ intros b Hb. rewrite (Fo b Hb). destruct (Ee b Hb) as [-> Zb]. rewrite zc_mall_in, Zb. lia. }
      rewrite <- (sumZ_swap (fun a b => zc v (pass a b))). rewrite <- sumZ_map_plus. apply sumZ_map_zero. intros; lia.
    + apply NoDup_app_intro; auto.
    + intros l Hl. apply in_app_or in Hl as [Hl|Hl]; [apply (mno_in M K n l Hl)|apply (mno_out M K n l Hl)].
    + intros l _ Hn. rewrite Fx; [lia| |]; intros C; apply Hn; apply in_or_app; auto.
Qed.

Lemma origin_meff n r t w w' : In n (map og_node (mn_origins M)) -> (forall b, unit_draw (r b)) ->
  morigin_evolve (mn_fs M) (mn_out M n) r t n w = Ok w' -> exists e lv, meff M w w' e lv.
Proof.
  intros Hn Hr H. set (outs := mn_out M n) in *. pose proof (mno_around M K n) as (_ & NO & _). fold outs in NO.
  apply morigin_ok in H as (kf & Hk & O); [|apply (mno_fs M K)|intros b; apply Hr|exact NO].
  destruct O as [W1 I1 D1 O1 S1 P1 Q1 C1 L1 Y1 M1 U1 A1 A2 B1 B1'].
  assert (IK : forall b, In b outs -> In (b, kf b) (map (fun b => (b, kf b)) outs)) by (intros b Hb; apply in_map_iff; eauto).
  assert (NK : forall l, ~ In l outs -> ~ In l (map fst (map (fun b => (b, kf b)) outs))) by (intros l Hl; rewrite map_map; cbn [fst]; now rewrite map_id).
  set (e := onl outs (fun b => otake w n (b, kf b))).
  exists e, (fun _ => []). constructor; auto.
  - intros l. destruct (dec_in l outs) as [Ho|Ho]; [rewrite (L1 _ _ (IK l Ho)); split; reflexivity|]. rewrite (M1 l (NK l Ho)). auto.
  - intros l. unfold e. destruct (dec_in l outs) as [Ho|Ho]; [rewrite (L1 _ _ (IK l Ho)), onl_in by exact Ho; reflexivity|]. rewrite (M1 l (NK l Ho)), onl_out, app_nil_r by exact Ho. reflexivity.
  - intros l. destruct (dec_in l outs) as [Ho|Ho]; [rewrite (L1 _ _ (IK l Ho)); apply Permutation_refl|]. rewrite (M1 l (NK l Ho)). apply Permutation_refl.
  - intros k l. unfold e. destruct (dec_in l outs) as [Ho|Ho].
    + rewrite onl_in by exact Ho. eapply counts_adds, B1. now apply IK.
    + rewrite (B1' k l (NK l Ho)), onl_out by exact Ho. apply cadds_refl, class_count_nil.
  - intros k l. rewrite A1. apply cadds_refl, class_count_nil.
  - intros v. unfold mzcount, mzd. rewrite D1.
    assert (E1 : mzo M w' v - mzo M w v = - sumZ (map (fun b => zc v (otake w n (b, kf b))) outs)).
    { unfold mzo. rewrite <- sumZ_map_minus. rewrite (sumZ_support1 _ _ n (mno_origins M K) Hn).
      - specialize (C1 v). rewrite map_map in C1. rewrite <- zc_concat. unfold zc. lia.
      - intros y _ Hy. rewrite O1 by exact Hy. lia. }
    assert (E2 : mzl M w' v - mzl M w v = sumZ (map (fun b => zc v (otake w n (b, kf b))) outs)).
    { unfold mzl. rewrite <- sumZ_map_minus. rewrite (sumZ_support _ outs); [|apply (mno_links M K)|exact NO| |].
      - apply sumZ_map_ext. intros b Hb. rewrite (L1 _ _ (IK b Hb)), zc_mall_in. lia.
      - intros b Hb. apply (mno_out M K n b Hb).
      - intros l _ Ho. rewrite (M1 l (NK l Ho)). lia. }
    lia.
Qed.

Lemma dest_meff n t w w' : In n (mn_dests M) -> mdest_evolve (mn_fs M) (mn_in M n) t n w = Ok w' -> exists e lv, meff M w w' e lv.
Proof.
  intros Hn H. set (ins := mn_in M n) in *. pose proof (mno_around M K n) as (NI & _ & _). fold ins in NI.
  apply mdest_ok in H; [|apply (mno_fs M K)|exact NI]. destruct H as [W1 I1 O1 D1 E1 X1 Y1 L1 M1 U1 A1 A2 B1 B1'].
  set (lv := onl ins (fun a => ml_fin (mw_link w a))).
  exists (fun _ => []), lv. constructor; auto.
  - intros l. destruct (dec_in l ins) as [Ho|Ho]; [rewrite (L1 l Ho); split; reflexivity|]. rewrite (M1 l Ho). auto.
  - intros l. rewrite app_nil_r. destruct (dec_in l ins) as [Ho|Ho]; [rewrite (L1 l Ho); reflexivity|]. now rewrite (M1 l Ho).
  - intros l. unfold lv. destruct (dec_in l ins) as [Ho|Ho].
    + rewrite (L1 l Ho), onl_in by exact Ho. unfold ml_set_fin, with_body. cbn [ml_fin]. rewrite app_nil_r. apply Permutation_refl.
    + rewrite (M1 l Ho), onl_out by exact Ho. apply Permutation_refl.
  - intros k l. rewrite A1. apply cadds_refl, class_count_nil.
  - intros k l. unfold lv. destruct (dec_in l ins) as [Ho|Ho].
    + rewrite onl_in by exact Ho. eapply counts_adds, B1. exact Ho.
    + rewrite (B1' k l Ho), onl_out by exact Ho. apply cadds_refl, class_count_nil.
  - intros v. unfold mzcount, mzo. rewrite O1.
    assert (F1 : mzd M w' v - mzd M w v = sumZ (map (fun a => zc v (ml_fin (mw_link w a))) ins)).
    { unfold mzd. rewrite <- sumZ_map_minus. rewrite (sumZ_support1 _ _ n (mno_dests M K) Hn).
      - rewrite E1, zc_app, zc_concat. lia.
      - intros y _ Hy. rewrite D1 by exact Hy. lia. }
    assert (F2 : mzl M w' v - mzl M w v = - sumZ (map (fun a => zc v (ml_fin (mw_link w a))) ins)).
    { unfold mzl. rewrite <- sumZ_map_minus. rewrite (sumZ_support _ ins); [|apply (mno_links M K)|exact NI| |].
      - rewrite (sumZ_map_ext _ (fun a => 0 - zc v (ml_fin (mw_link w a)))).
        + rewrite (sumZ_map_minus (fun _ => 0)). rewrite (sumZ_map_zero (fun _ : Z => 0)); [lia|reflexivity].
        + intros a Ha. rewrite (L1 a Ha), (zc_mall_fin v (mw_link w a) [] (ml_fin (mw_link w a))); [lia|]. rewrite app_nil_r. apply Permutation_refl.
      - intros a Ha. apply (mno_in M K n a Ha).
      - intros l _ Ho. rewrite (M1 l Ho). lia. }
    lia.
Qed.

Lemma node_meff D t w w' nk : mdraws_valid D -> In nk (mn_nodes M) ->
  mnode_evolve (mn_fs M) (mn_pcu M) (mn_out M) (mn_in M) (r_node D) t w nk = Ok w' -> exists e lv, meff M w w' e lv.
Proof.
  intros (_ & _ & _ & Ho & Hs & _) Hin H. destruct nk as [n []]; cbn [mnode_evolve] in H.
  - eapply junction_meff; [|exact H]. intros b. apply Hs.
  - refine (origin_meff n _ _ _ _ (mno_orig_nodes M K n Hin) _ H). intros b. apply Ho.
  - exact (dest_meff n _ _ _ (mno_dest_nodes M K n Hin) H).
Qed.
End Node.
