(** Gradient projection. *)
From Coq Require Import Lia Lqa.
From Verif Require Import Base Base_lemmas Model_Num Model_SP Model_Node Model_Split Model_Mmp Spec_Mmp Proof_Num Proof_Link4 Proof_Mmp Proof_Mmp2.
Local Open Scope Q_scope.

Lemma mapM_all2 {A B} (g : A -> res B) l : forall l', mapM g l = Ok l' -> Forall2 (fun a b => g a = Ok b) l l'.
Proof.
  induction l as [|a l IH]; intros l'; cbn [mapM].
  - intros E. apply Ok_inj in E as <-. constructor.
  - intros H. apply bind_ok in H as (b & Hb & H). apply bind_ok in H as (bs & Hbs & H). apply Ok_inj in H as <-. constructor; auto.
Qed.
Lemma mapM_all {A B} (g : A -> res B) l : (forall a, In a l -> exists b, g a = Ok b) -> exists l', mapM g l = Ok l'.
Proof.
  induction l as [|a l IH]; intros H; cbn [mapM]; [eauto|]. destruct (H a (or_introl eq_refl)) as (b & ->). cbn [bind].
  destruct IH as (l' & ->); [intros; apply H; now right|]. cbn [bind]. eauto.
Qed.
Lemma mapM_throw {A B} (g : A -> res B) l : (forall a, In a l -> (exists b, g a = Ok b) \/ g a = Err EThrow) -> (exists a, In a l /\ g a = Err EThrow) -> mapM g l = Err EThrow.
Proof.
  induction l as [|a l IH]; intros H (x & I & E); cbn [mapM]; [destruct I|].
  destruct (H a (or_introl eq_refl)) as [(b & Eb)|Eb]; rewrite Eb; cbn [bind]; [|reflexivity].
  destruct I as [->|I]; [congruence|]. rewrite IH; [reflexivity| |eauto]. intros; apply H; now right.
Qed.

Lemma takes_iff k c p : takes_part k c p = true <-> weighed k c p.
Proof.
  unfold takes_part, weighed. rewrite orb_true_iff. unfold is_best. rewrite same_path_iff. destruct (Qltb_spec 0 (pp_flow p c)); split; intuition (try easy; try lra).
Qed.
Lemma dis_ok c p d : dis_of c p = Ok d <-> nth_error (pp_dis p) c = Some d.
Proof. unfold dis_of. destruct (nth_error (pp_dis p) c); split; intros H; try discriminate; [apply Ok_inj in H|injection H as ->]; congruence. Qed.
Definition dd (c : nat) (p : ppath) : Q := match nth_error (pp_dis p) c with Some d => d | None => 0 end.
Lemma mapM_dis c l ds : mapM (dis_of c) l = Ok ds -> ds = map (dd c) l /\ (forall p, In p l -> dis_of c p = Ok (dd c p)).
Proof.
  intros H. apply mapM_all2 in H. induction H as [|p d l ds H _ (IH1 & IH2)]; [split; [reflexivity|easy]|].
  assert (E : dd c p = d) by (apply dis_ok in H; unfold dd; now rewrite H). cbn [map]. split; [congruence|]. intros q [<- |Hq]; [congruence|auto].
Qed.
Lemma tally_filter k c : forall l, (forall p, In p (filter (takes_part k c) l) -> dis_of c p = Ok (dd c p)) ->
  exists s, tally (weighed k c) c l (length (filter (takes_part k c) l)) s /\ s == sumQ (map (dd c) (filter (takes_part k c) l)).
Proof.
  induction l as [|p l IH]; cbn [filter]; intros H; [exists 0; split; [constructor|reflexivity]|].
  destruct (takes_part k c p) eqn:E.
  - destruct IH as (s & T & Es); [intros; apply H; now right|]. exists (dd c p + s). split.
    + cbn [length]. apply Tally_in; [now apply takes_iff| |assumption]. apply dis_ok. apply H. now left.
    + cbn [map]. unfold sumQ in *. cbn [fold_right]. rewrite Es. reflexivity.
  - destruct IH as (s & T & Es); [exact H|]. exists s. split; [|exact Es]. apply Tally_out; [|assumption]. rewrite <- takes_iff. congruence.
Qed.
Lemma len_sum {A} (a : Q) (l : list A) : sumQ (map (fun _ => a) l) == a * inject_Z (Z.of_nat (length l)).
Proof.
  unfold sumQ. induction l as [|x l IH]; cbn [map fold_right length]; [change (inject_Z (Z.of_nat 0)) with 0; ring|].
  rewrite IH, Nat2Z.inj_succ. unfold Z.succ. rewrite inject_Z_plus. change (inject_Z 1) with 1. ring.
Qed.
(** the changes add up to nothing *)
Lemma avg_zero c (l : list ppath) : l <> [] -> sumQ (map (fun p => dd c p - sumQ (map (dd c) l) / inject_Z (Z.of_nat (length l))) l) == 0.
Proof.
  intros N. rewrite sum_minus, len_sum. field. destruct l; [congruence|]. cbn [length]. rewrite Nat2Z.inj_succ. unfold Z.succ. rewrite inject_Z_plus.
  change (inject_Z 1) with 1. assert (0 <= inject_Z (Z.of_nat (length l))) by (change 0 with (inject_Z 0); rewrite <- Zle_Qle; lia). lra.
Qed.

Definition cand (de : denv) (c : nat) (avg : Q) (p : ppath) : Q := de_step de * pp_flow p c / (dd c p - avg).
Lemma tau_ok de c avg : forall l t0 t, (forall p, In p l -> dis_of c p = Ok (dd c p)) -> foldM (tau_step de c avg) t0 l = Ok t ->
  match t with
  | None => t0 = None /\ (forall p, In p l -> dd c p <= avg)
  | Some x => (match t0 with Some y => x <= y | None => True end) /\ (forall p, In p l -> avg < dd c p -> x <= cand de c avg p) /\
              (t0 = Some x \/ exists p, In p l /\ avg < dd c p /\ x = cand de c avg p)
  end.
Proof.
  induction l as [|p l IH]; intros t0 t D H; cbn [foldM] in H.
  - apply Ok_inj in H. subst t. destruct t0; repeat split; try easy; [lra|now left].
  - apply bind_ok in H as (t1 & H1 & H). unfold tau_step in H1. rewrite (D p (or_introl eq_refl)) in H1. cbn [bind] in H1. apply Ok_inj in H1.
    specialize (IH t1 t (fun q Hq => D q (or_intror Hq)) H). fold (cand de c avg p) in H1. destruct (Qltb_spec 0 (dd c p - avg)) as [B|B].
    + destruct t0 as [y|].
      * destruct (Qltb_spec (cand de c avg p) y) as [C|C]; subst t1; destruct t as [x|].
        -- destruct IH as (I1 & I2 & I3). split; [lra|]. split.
           ++ intros q [<- |Hq] Hd; [assumption|auto].
           ++ right. destruct I3 as [I3|(q & I3 & I4 & I5)]; [injection I3 as <-; exists p; repeat split; [now left|lra]|exists q; repeat split; auto; now right].
        -- destruct IH; discriminate.
        -- destruct IH as (I1 & I2 & I3). split; [assumption|]. split.
           ++ intros q [<- |Hq] Hd; [lra|auto].
           ++ destruct I3 as [I3|(q & I3 & I4 & I5)]; [now left|]. right. exists q. repeat split; auto. now right.
        -- destruct IH; discriminate.
      * subst t1. destruct t as [x|]; [|destruct IH; discriminate]. destruct IH as (I1 & I2 & I3). split; [exact I|]. split.
        -- intros q [<- |Hq] Hd; [assumption|auto].
        -- right. destruct I3 as [I3|(q & I3 & I4 & I5)]; [injection I3 as <-; exists p; repeat split; [now left|lra]|exists q; repeat split; auto; now right].
    + subst t1. destruct t as [x|].
      * destruct IH as (I1 & I2 & I3). split; [assumption|]. split.
        -- intros q [<- |Hq] Hd; [lra|auto].
        -- destruct I3 as [I3|(q & I3 & I4 & I5)]; [now left|]. right. exists q. repeat split; auto. now right.
      * destruct IH as (I1 & I2). split; [assumption|]. intros q [<- |Hq]; [lra|auto].
Qed.
Lemma tau_total de c avg : forall l t0, (forall p, In p l -> dis_of c p = Ok (dd c p)) -> exists t, foldM (tau_step de c avg) t0 l = Ok t.
Proof.
  induction l as [|p l IH]; intros t0 D; cbn [foldM]; [eauto|]. unfold tau_step at 1. rewrite (D p (or_introl eq_refl)). cbn [bind]. apply IH. intros. apply D. now right.
Qed.
Lemma by_path_leaving (R : ppath -> ppath -> Prop) (g : ppath -> Q) c o o' : path_by_path R o o' -> (forall p p', In p (paths o) -> R p p' -> pp_flow p' c == g p) -> leaving o' c == sumQ (map g (paths o)).
Proof.
  unfold path_by_path, leaving. intros F H. induction F as [|[m ps] [m' ps'] r r' (_ & F1) F2 IH]; [reflexivity|].
  rewrite paths_cons, map_app, sumQ_app. cbn [map snd fst] in *. unfold sumQ at 1. cbn [fold_right]. apply Qplus_comp.
  - assert (G : forall p p', In p ps -> R p p' -> pp_flow p' c == g p) by (intros; apply (H p p'); [rewrite paths_cons; apply in_or_app; now left|assumption]).
    clear - F1 G. induction F1 as [|p p' l l' HR F IH]; [reflexivity|]. cbn [map]. unfold sumQ in *. cbn [fold_right].
    rewrite (G p p' (or_introl eq_refl) HR), IH; [reflexivity|]. intros. eapply G; [now right|assumption].
  - apply IH. intros p p' Hp. apply H. rewrite paths_cons. apply in_or_app. now right.
Qed.
Lemma project_ok k c avg tau p p' : project k c avg tau p = Ok p' ->
  pp_key p' = pp_key p /\ pp_dis p' = pp_dis p /\ (forall c', c' <> c -> pp_flow p' c' = pp_flow p c') /\
  pp_flow p' c == pp_flow p c - (if takes_part k c p then tau * (dd c p - avg) else 0) /\ (takes_part k c p = true -> 0 <= pp_flow p' c).
Proof.
  unfold project. destruct (takes_part k c p).
  - intros H. apply bind_ok in H as (d & D & H). apply bind_ok in H as (u & G & H). apply guard_ok in G. apply Ok_inj in H. subst p'. cbn [pp_key pp_flow pp_dis].
    assert (E : dd c p = d) by (apply dis_ok in D; unfold dd; now rewrite D). subst d. repeat split.
    + intros c' NE. apply Nat.eqb_neq in NE. now rewrite NE.
    + rewrite Nat.eqb_refl. ring.
    + intros _. rewrite Nat.eqb_refl. destruct (Qltb_spec (pp_flow p c - tau * (dd c p - avg)) 0); [discriminate|lra].
  - intros H. apply Ok_inj in H. subst p'. repeat split; try easy. ring.
Qed.
Lemma by_path_mapM (f : ppath -> res ppath) o o' : mapM (fun s => do ps <- mapM f (snd s); Ok (fst s, ps)) o = Ok o' -> path_by_path (fun p p' => f p = Ok p') o o'.
Proof.
  intros H. apply mapM_all2 in H. unfold path_by_path. revert H. apply forall2_imp. intros [m ps] [m' ps'] _ H. cbn [fst snd] in *.
  apply bind_ok in H as (l & H1 & H). apply Ok_inj in H. injection H as <- <-. split; [reflexivity|]. now apply mapM_all2.
Qed.
Lemma by_path_refl (R : ppath -> ppath -> Prop) o : (forall p, listed_path o p -> R p p) -> path_by_path R o o.
Proof.
  intros H. unfold path_by_path. assert (G : forall o0, (forall s, In s o0 -> In s o) -> Forall2 (fun s s' => fst s' = fst s /\ Forall2 R (snd s) (snd s')) o0 o0); [|now apply G].
  induction o0 as [|[m ps] r IH]; intros I; constructor; [|apply IH; intros; apply I; now right]. split; [reflexivity|]. cbn [snd].
  assert (J : forall p, In p ps -> R p p) by (intros p Hp; apply H; exists m, ps; split; [apply I; now left|assumption]). clear - J.
  induction ps; constructor; [apply J; now left|]. apply IHps. intros; apply J; now right.
Qed.

(** one column *)
Lemma gp_ok de cg demand k o c o' : gp_column de cg demand k o c = Ok o' ->
  exists o1, perhaps_with k o o1 /\ (forall c', leaving o' c' == leaving o1 c') /\
    path_by_path (fun p p' => pp_key p' = pp_key p /\ pp_dis p' = pp_dis p /\ (forall c', c' <> c -> pp_flow p' c' = pp_flow p c')) o1 o' /\
    ((o' = o1 /\ (forall p, In p (paths o1) -> weighed k c p -> dis_of c p = Ok (dd c p)) /\
        settled k c o1) \/
     exists avg tau, average k c o1 avg /\ (forall p, In p (paths o1) -> weighed k c p -> dis_of c p = Ok (dd c p)) /\
       path_by_path (fun p p' => pp_flow p' c == pp_flow p c - (if takes_part k c p then tau * (dd c p - avg) else 0) /\ (weighed k c p -> 0 <= pp_flow p' c)) o1 o' /\
       (0 <= de_step de -> (forall p, listed_path o1 p -> 0 <= pp_flow p c) -> 0 <= tau) /\
       (forall p, In p (paths o1) -> weighed k c p -> avg < dd c p -> tau <= cand de c avg p)).
Proof.
  unfold gp_column. intros H. apply bind_ok in H as (ex & _ & H). apply bind_ok in H as (o1 & H1 & H). apply bind_ok in H as (ds & H2 & H).
  apply bind_ok in H as (tau & H3 & H). exists o1. split.
  { destruct ex; [apply Ok_inj in H1; now left|]. apply bind_ok in H1 as (d & _ & H1). now apply push_perhaps in H1. }
  set (part := filter (takes_part k c) (paths o1)) in *. apply mapM_dis in H2 as (-> & D).
  assert (DW : forall p, In p (paths o1) -> weighed k c p -> dis_of c p = Ok (dd c p)).
  { intros p Hp W. apply D. apply filter_In. split; [assumption|now apply takes_iff]. }
  set (avg := sumQ (map (dd c) part) / inject_Z (Z.of_nat (length part))) in *.
  apply tau_ok in H3; [|exact D]. destruct tau as [t|].
  - apply bind_ok in H as (o2 & H4 & H). apply bind_ok in H as (u & _ & H). apply Ok_inj in H. subst o2. apply by_path_mapM in H4.
    assert (F : path_by_path (fun p p' => pp_key p' = pp_key p /\ pp_dis p' = pp_dis p /\ (forall c', c' <> c -> pp_flow p' c' = pp_flow p c') /\
       pp_flow p' c == pp_flow p c - (if takes_part k c p then t * (dd c p - avg) else 0) /\ (takes_part k c p = true -> 0 <= pp_flow p' c)) o1 o').
    { revert H4. apply by_path_imp. intros p p' _. apply project_ok. }
    destruct H3 as (_ & T2 & T3). destruct T3 as [T3|(p0 & I0 & A0 & E0)]; [discriminate|].
    assert (NP : part <> []) by (intros X; rewrite X in I0; destruct I0).
    split; [|split; [|right; exists avg, t; split; [|split; [exact DW|split; [|split]]]]].
    + intros c'. destruct (Nat.eq_dec c' c) as [->|NE].
      * rewrite (by_path_leaving _ (fun p => pp_flow p c - (if takes_part k c p then t * (dd c p - avg) else 0)) c _ _ F); [|intros p p' _ HR; apply HR].
        rewrite sum_minus, <- leaving_paths. rewrite <- (sum_filter (takes_part k c) (fun p => t * (dd c p - avg))). fold part.
        rewrite sum_scale. pose proof (avg_zero c part NP) as Z0. fold avg in Z0. rewrite Z0. ring.
      * rewrite (by_path_leaving _ (fun p => pp_flow p c') c' _ _ F); [|intros p p' _ (_ & _ & E & _); rewrite E by assumption; reflexivity]. symmetry. apply leaving_paths.
    + revert F. apply by_path_imp. intros p p' _ HR. intuition.
    + destruct (tally_filter k c (paths o1) D) as (s & T & Es). fold part in T, Es. exists (length part), s. split; [exact T|]. split.
      * destruct part; [congruence|cbn; lia].
      * rewrite Es. unfold avg. field. destruct part; [congruence|]. cbn [length]. rewrite Nat2Z.inj_succ. unfold Z.succ. rewrite inject_Z_plus.
        change (inject_Z 1) with 1. assert (0 <= inject_Z (Z.of_nat (length part))) by (change 0 with (inject_Z 0); rewrite <- Zle_Qle; lia). lra.
    + revert F. apply by_path_imp. intros p p' _ (_ & _ & _ & E & G). split; [exact E|]. intros W. apply G. now apply takes_iff.
    + intros S0 P. rewrite E0. unfold cand. apply filter_In in I0 as [I0 _]. apply listed_iff in I0. specialize (P p0 I0).
      apply Qle_shift_div_l; [lra|]. nra.
    + intros p Hp W A. apply T2; [|assumption]. apply filter_In. split; [assumption|now apply takes_iff].
  - apply Ok_inj in H. subst o'. destruct H3 as (_ & T). split; [reflexivity|]. split; [apply by_path_refl; auto|]. left. split; [reflexivity|]. split; [exact DW|].
    assert (Z1 : forall p, In p part -> dd c p == avg).
    { assert (G : forall l, (forall p, In p l -> dd c p - avg <= 0) -> 0 <= sumQ (map (fun p => dd c p - avg) l) -> forall p, In p l -> dd c p == avg).
      { induction l as [|x l IH]; intros B S0 p Hp; [destruct Hp|]. cbn [map] in S0. unfold sumQ in S0. cbn [fold_right] in S0.
        change (fold_right Qplus 0 (map (fun p => dd c p - avg) l)) with (sumQ (map (fun p => dd c p - avg) l)) in S0.
        assert (SL : sumQ (map (fun p => dd c p - avg) l) <= 0).
        { assert (X : 0 <= sumQ (map (fun p => avg - dd c p) l)) by (apply sum_pos; intros y Hy; specialize (B y (or_intror Hy)); lra).
          rewrite sum_minus in X |- *. lra. }
        pose proof (B x (or_introl eq_refl)). destruct Hp as [<- |Hp]; [lra|]. apply IH; [intros; apply B; now right|lra|assumption]. }
      intros p Hp. apply (G part); [intros q Hq; specialize (T q Hq); lra| |assumption].
      assert (NP : part <> []) by (intros X; rewrite X in Hp; destruct Hp). pose proof (avg_zero c part NP) as Z0. fold avg in Z0. rewrite Z0. lra. }
    intros p q d e Lp Lq Wp Wq Dp Dq. apply listed_iff in Lp, Lq.
    assert (Ip : In p part) by (apply filter_In; split; [assumption|now apply takes_iff]). assert (Iq : In q part) by (apply filter_In; split; [assumption|now apply takes_iff]).
    pose proof (Z1 p Ip) as Ep. pose proof (Z1 q Iq) as Eq. unfold dd in Ep, Eq. rewrite Dp in Ep. rewrite Dq in Eq. rewrite Ep, Eq. reflexivity.
Qed.

Lemma cand_mult de c avg p : avg < dd c p -> cand de c avg p * (dd c p - avg) == de_step de * pp_flow p c.
Proof. intros H. unfold cand. field. lra. Qed.
Lemma gp_total de demand k o c : (forall p, listed_path o p -> weighed k c p -> exists d, nth_error (pp_dis p) c = Some d) ->
  (forall p, listed_path o p -> 0 <= pp_flow p c) -> 0 <= de_step de <= 1 -> leaving o c == demand c ->
  exists o', gp_column de false demand k o c = Ok o'.
Proof.
  intros K P [S1 S2] L. unfold gp_column. cbn [exists_in bind].
  set (part := filter (takes_part k c) (paths o)).
  assert (D : forall p, In p part -> dis_of c p = Ok (dd c p)).
  { intros p Hp. apply filter_In in Hp as [Hp W]. apply listed_iff in Hp. apply takes_iff in W. destruct (K p Hp W) as (d & E). apply dis_ok. unfold dd. now rewrite E. }
  destruct (mapM_all (dis_of c) part) as (ds & Hds); [intros p Hp; eauto|]. rewrite Hds. cbn [bind]. apply mapM_dis in Hds as (-> & _).
  set (avg := sumQ (map (dd c) part) / inject_Z (Z.of_nat (length part))).
  destruct (tau_total de c avg part None D) as (tau & Ht). rewrite Ht. cbn [bind]. destruct tau as [t|]; [|eauto].
  apply tau_ok in Ht as (_ & T2 & T3); [|exact D]. destruct T3 as [T3|(p0 & I0 & A0 & E0)]; [discriminate|].
  assert (T0 : 0 <= t).
  { rewrite E0. unfold cand. apply filter_In in I0 as [I0 _]. apply listed_iff in I0. specialize (P p0 I0). apply Qle_shift_div_l; [lra|]. nra. }
  assert (M : exists o2, mapM (fun s => do ps <- mapM (project k c avg t) (snd s); Ok (fst s, ps)) o = Ok o2).
  { apply mapM_all. intros [m ps] Hs. cbn [fst snd]. destruct (mapM_all (project k c avg t) ps) as (ps' & E); [|rewrite E; cbn [bind]; eauto].
    intros p Hp. assert (Lp : listed_path o p) by (exists m, ps; auto). unfold project. destruct (takes_part k c p) eqn:W; [|eauto].
    assert (Ip : In p part) by (apply filter_In; split; [now apply listed_iff|assumption]). rewrite (D p Ip). cbn [bind].
    assert (NN : 0 <= pp_flow p c - t * (dd c p - avg)).
    { specialize (P p Lp). destruct (Qlt_le_dec avg (dd c p)) as [A|A]; [|nra]. specialize (T2 p Ip A). pose proof (cand_mult de c avg p A). nra. }
    destruct (Qltb_spec (pp_flow p c - t * (dd c p - avg)) 0); [lra|]. cbn [negb guard bind]. eauto. }
  destruct M as (o2 & M). rewrite M. cbn [bind].
  assert (EQ : column_total o2 c == demand c).
  { change (leaving o2 c == demand c). rewrite <- L. apply by_path_mapM in M.
    assert (NP : part <> []) by (intros X; rewrite X in I0; destruct I0).
    rewrite (by_path_leaving _ (fun p => pp_flow p c - (if takes_part k c p then t * (dd c p - avg) else 0)) c _ _ M); [|intros p p' _ HR; apply project_ok in HR; apply HR].
    rewrite sum_minus, <- leaving_paths. rewrite <- (sum_filter (takes_part k c) (fun p => t * (dd c p - avg))). fold part.
    rewrite sum_scale. pose proof (avg_zero c part NP) as Z0. fold avg in Z0. rewrite Z0. ring. }
  unfold approx_eq. rewrite (check_close _ _ tol); [cbn [guard bind]; eauto|unfold tol; lra|exact EQ].
Qed.
Lemma ex_above c avg : forall l : list ppath, sumQ (map (fun p => dd c p - avg) l) == 0 -> (exists p, In p l /\ ~ dd c p == avg) -> exists p, In p l /\ avg < dd c p.
Proof.
  intros l S0 (p & Ip & NE). 
  assert (Dec : (exists p, In p l /\ avg < dd c p) \/ (forall p, In p l -> dd c p <= avg)).
  { clear. induction l as [|x l IH]; [right; easy|]. destruct (Qlt_le_dec avg (dd c x)); [left; exists x; split; [now left|assumption]|].
    destruct IH as [(p & I & A)|A]; [left; exists p; split; [now right|assumption]|right]. intros p [<- |Hp]; auto. }
  destruct Dec as [?|B]; [assumption|]. exfalso. apply NE. clear NE.
  revert p Ip S0. induction l as [|x l IH]; intros p Hp S0; [destruct Hp|]. cbn [map] in S0. unfold sumQ in S0. cbn [fold_right] in S0.
  change (fold_right Qplus 0 (map (fun p => dd c p - avg) l)) with (sumQ (map (fun p => dd c p - avg) l)) in S0.
  assert (SL : sumQ (map (fun p => dd c p - avg) l) <= 0).
  { assert (X : 0 <= sumQ (map (fun p => avg - dd c p) l)) by (apply sum_pos; intros y Hy; specialize (B y (or_intror Hy)); lra).
    rewrite sum_minus in X |- *. lra. }
  pose proof (B x (or_introl eq_refl)). destruct Hp as [<- |Hp]; [lra|]. apply IH; [intros; apply B; now right|assumption|lra].
Qed.
Lemma least_below c : forall (l : list ppath) (x : Q), l <> [] -> (forall p, In p l -> x <= dd c p) -> x <= sumQ (map (dd c) l) / inject_Z (Z.of_nat (length l)).
Proof.
  intros l x N H. assert (P : 0 < inject_Z (Z.of_nat (length l))) by (change 0 with (inject_Z 0); rewrite <- Zlt_Qlt; destruct l; [congruence|cbn [length]; lia]).
  apply Qle_shift_div_l; [assumption|]. rewrite <- len_sum.
  assert (X : 0 <= sumQ (map (fun p => dd c p - x) l)) by (apply sum_pos; intros p Hp; specialize (H p Hp); lra).
  rewrite sum_minus in X. lra.
Qed.
Lemma gp_throw de demand k o c p1 p2 d1 d2 : 1 < de_step de -> (forall p, listed_path o p -> weighed k c p -> exists d, nth_error (pp_dis p) c = Some d) ->
  (forall p q d e, listed_path o p -> listed_path o q -> same_trip (pp_key p) k -> weighed k c q -> nth_error (pp_dis p) c = Some d -> nth_error (pp_dis q) c = Some e -> d <= e) ->
  listed_path o p1 -> listed_path o p2 -> weighed k c p1 -> weighed k c p2 -> nth_error (pp_dis p1) c = Some d1 -> nth_error (pp_dis p2) c = Some d2 -> d1 < d2 ->
  gp_column de false demand k o c = Err EThrow.
Proof.
  intros S1 K B L1 L2 W1 W2 D1 D2 LT. unfold gp_column. cbn [exists_in bind].
  set (part := filter (takes_part k c) (paths o)).
  assert (D : forall p, In p part -> dis_of c p = Ok (dd c p)).
  { intros p Hp. apply filter_In in Hp as [Hp W]. apply listed_iff in Hp. apply takes_iff in W. destruct (K p Hp W) as (d & E). apply dis_ok. unfold dd. now rewrite E. }
  destruct (mapM_all (dis_of c) part) as (ds & Hds); [intros p Hp; eauto|]. rewrite Hds. cbn [bind]. apply mapM_dis in Hds as (-> & _).
  set (avg := sumQ (map (dd c) part) / inject_Z (Z.of_nat (length part))).
  destruct (tau_total de c avg part None D) as (tau & Ht). rewrite Ht. cbn [bind].
  assert (I1 : In p1 part) by (apply filter_In; split; [now apply listed_iff|now apply takes_iff]).
  assert (I2 : In p2 part) by (apply filter_In; split; [now apply listed_iff|now apply takes_iff]).
  assert (NP : part <> []) by (intros X; rewrite X in I1; destruct I1). pose proof (avg_zero c part NP) as Z0. fold avg in Z0.
  assert (E1 : dd c p1 = d1) by (unfold dd; now rewrite D1). assert (E2 : dd c p2 = d2) by (unfold dd; now rewrite D2).
  assert (AB : exists p, In p part /\ avg < dd c p).
  { apply ex_above; [exact Z0|]. destruct (Qeq_dec (dd c p1) avg) as [X|X]; [|eauto]. exists p2. split; [assumption|]. rewrite E2. rewrite E1 in X. lra. }
  apply tau_ok in Ht; [|exact D]. destruct tau as [t|]; [|destruct Ht as (_ & T); destruct AB as (p & Ip & A); specialize (T p Ip); lra].
  destruct Ht as (_ & T2 & [T3|(p0 & I0 & A0 & E0)]); [discriminate|]. apply filter_In in I0 as [I0 T0]. pose proof I0 as I0'. apply listed_iff in I0'.
  assert (U0 : 0 < pp_flow p0 c).
  { apply takes_iff in T0 as W0. destruct W0 as [W0|W0]; [|assumption]. exfalso.
    assert (LB : dd c p0 <= avg).
    { apply least_below; [assumption|]. intros q Hq. pose proof (D q Hq) as Dq. apply filter_In in Hq as [Hq1 Hq2]. apply listed_iff in Hq1. apply takes_iff in Hq2.
      assert (D0 : dis_of c p0 = Ok (dd c p0)) by (apply D; apply filter_In; auto). apply dis_ok in D0, Dq. exact (B p0 q _ _ I0' Hq1 W0 Hq2 D0 Dq). }
    lra. }
  assert (TH : project k c avg t p0 = Err EThrow).
  { unfold project. rewrite T0. rewrite D by (apply filter_In; auto). cbn [bind].
    assert (NEG : pp_flow p0 c - t * (dd c p0 - avg) < 0) by (rewrite E0, (cand_mult de c avg p0 A0); nra).
    destruct (Qltb_spec (pp_flow p0 c - t * (dd c p0 - avg)) 0); [reflexivity|lra]. }
  assert (OR : forall p, listed_path o p -> (exists p', project k c avg t p = Ok p') \/ project k c avg t p = Err EThrow).
  { intros p Hp. unfold project. destruct (takes_part k c p) eqn:W; [|eauto]. rewrite D by (apply filter_In; split; [now apply listed_iff|assumption]). cbn [bind].
    destruct (negb (Qltb (pp_flow p c - t * (dd c p - avg)) 0)); cbn [guard bind]; eauto. }
  rewrite (mapM_throw (fun s => do ps <- mapM (project k c avg t) (snd s); Ok (fst s, ps)) o); [reflexivity| |].
  - intros [m ps] Hs. cbn [fst snd].
    assert (X : (exists l, mapM (project k c avg t) ps = Ok l) \/ mapM (project k c avg t) ps = Err EThrow).
    { assert (Y : forall p, In p ps -> listed_path o p) by (intros p Hp; exists m, ps; auto). clear - OR Y.
      induction ps as [|p ps IH]; cbn [mapM]; [eauto|]. destruct (OR p (Y p (or_introl eq_refl))) as [(p' & ->)| ->]; cbn [bind]; [|auto].
      destruct IH as [(l & ->)| ->]; [intros; apply Y; now right| |]; cbn [bind]; eauto. }
    destruct X as [(l & ->)| ->]; cbn [bind]; eauto.
  - destruct I0' as (m & ps & J1 & J2). exists (m, ps). split; [assumption|]. cbn [fst snd].
    rewrite (mapM_throw (project k c avg t) ps); [reflexivity| |eauto]. intros p Hp. apply OR. exists m, ps. auto.
Qed.
