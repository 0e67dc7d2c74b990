(** Proofs about route generation. *)
From Verif Require Import Base Base_lemmas Model_Num Proof_Num Model_Graph Spec_Graph Proof_Graph Proof_Graph2 Model_SP Spec_SP Proof_SP Proof_Link4 Model_Pathset Spec_Pathset.
Local Open Scope Q_scope.

(** ** results that no longer change when more search steps are allowed *)
Definition conv {A} (f : nat -> res A) (r : res A) : Prop := exists N, forall n, (N <= n)%nat -> f n = r.

Lemma conv_const {A} (r : res A) : conv (fun _ => r) r.
Proof. exists 0%nat. auto. Qed.
Lemma conv_bind {A B} (f : nat -> res A) (k : nat -> A -> res B) a r :
  conv f (Ok a) -> conv (fun n => k n a) r -> conv (fun n => bind (f n) (k n)) r.
Proof.
  intros (N & H) (M & K). exists (Nat.max N M). intros n Hn. rewrite H by lia. cbn. apply K. lia.
Qed.
Lemma conv_bind_err {A B} (f : nat -> res A) (k : nat -> A -> res B) e :
  conv f (Err e) -> conv (fun n => bind (f n) (k n)) (Err e).
Proof. intros (N & H). exists N. intros n Hn. now rewrite H. Qed.
Lemma conv_ext {A} (f g : nat -> res A) r : (forall n, f n = g n) -> conv f r -> conv g r.
Proof. intros E (N & H). exists N. intros n Hn. rewrite <- E. auto. Qed.

Lemma conv_foldM {S X} (f : nat -> S -> X -> res S) (Inv : list X -> S -> Prop) (Bad : Prop) l s0 :
  Inv [] s0 ->
  (forall done x rest s, l = (done ++ x :: rest)%list -> Inv done s ->
     (conv (fun n => f n s x) (Err EThrow) /\ Bad) \/ exists s', conv (fun n => f n s x) (Ok s') /\ Inv (done ++ [x])%list s') ->
  (conv (fun n => foldM (f n) s0 l) (Err EThrow) /\ Bad) \/ exists s', conv (fun n => foldM (f n) s0 l) (Ok s') /\ Inv l s'.
Proof.
  intros I0 Step.
  assert (G : forall rest done s, l = (done ++ rest)%list -> Inv done s ->
    (conv (fun n => foldM (f n) s rest) (Err EThrow) /\ Bad) \/ exists s', conv (fun n => foldM (f n) s rest) (Ok s') /\ Inv l s').
  { induction rest as [|x rest IH]; intros done s E I.
    - right. exists s. split; [exists 0%nat; intros; reflexivity|]. rewrite app_nil_r in E. now subst.
    - destruct (Step done x rest s E I) as [[C B]|(s1 & C & I1)].
      + left. split; [|exact B]. apply (conv_ext (fun n => bind (f n s x) (fun s1 => foldM (f n) s1 rest))); [reflexivity|]. now apply conv_bind_err.
      + destruct (IH (done ++ [x])%list s1) as [[C' B]|(s' & C' & I')]; [rewrite <- app_assoc; exact E|exact I1| |].
        * left. split; [|exact B]. apply (conv_ext (fun n => bind (f n s x) (fun s1 => foldM (f n) s1 rest))); [reflexivity|].
          apply (conv_bind _ (fun n s1 => foldM (f n) s1 rest) s1); assumption.
        * right. exists s'. split; [|exact I']. apply (conv_ext (fun n => bind (f n s x) (fun s1 => foldM (f n) s1 rest))); [reflexivity|].
          apply (conv_bind _ (fun n s1 => foldM (f n) s1 rest) s1); assumption. }
  apply (G l [] s0); auto.
Qed.

Lemma search_loop_mono scan push pop g cm fuel : forall fuel' i s s', (fuel <= fuel')%nat ->
  search_loop fuel scan push pop g cm i s = Ok s' -> search_loop fuel' scan push pop g cm i s = Ok s'.
Proof.
  induction fuel as [|fuel IH]; intros fuel' i s s' L E.
  - cbn [search_loop] in E. destruct fuel'; cbn [search_loop]; destruct (pop i (s_q s, s_flag s)) as [[v qf]|]; try discriminate; exact E.
  - destruct fuel' as [|fuel']; [lia|]. cbn [search_loop] in *. destruct (pop i (s_q s, s_flag s)) as [[v qf]|]; [|exact E].
    apply bind_ok in E as (ls & -> & E). cbn [bind]. apply bind_ok in E as (s1 & -> & E). cbn [bind]. apply IH; [lia|exact E].
Qed.

(** ** the setting *)
Section Paths.
Variable P : pnet.
Variable a : agraph.
Hypothesis HR : Rep (pn_g P) a.
Hypothesis HP : pnet_ok P.

Definition finite_costs (cm : cost_map) : Prop :=
  forall l e, get_endpoints (pn_g P) l = Ok e -> exists q, cm l = Some (Some q) /\ 0 <= q.
Lemma finite_ok cm : finite_costs cm -> costs_ok (pn_g P) cm.
Proof. intros F l e E. destruct (F l e E) as (q & Eq & Hq). exists (Some q). auto. Qed.

Lemma route_cost cm o ls d : finite_costs cm -> route (pn_g P) o ls d -> exists c, total_cost (cost_of cm) ls = Some c.
Proof.
  intros F. induction 1 as [u|u l w ls v E R (c & IH)]; [exists 0; reflexivity|].
  destruct (F _ _ E) as (q & Eq & _). exists (q + c). unfold total_cost in *. cbn [fold_right]. rewrite IH. unfold cost_of. now rewrite Eq.
Qed.

(** a tree search followed by an extraction *)
Lemma tree_conv cm d out0 : finite_costs cm -> In d (g_nids (pn_g P)) ->
  exists s, conv (fun n => all_to_one_FIFO n (pn_g P) d cm out0) (Ok s) /\
  forall o, In o (g_nids (pn_g P)) ->
    (extract_path (length (g_nids (pn_g P))) (pn_g P) d (s_out s) o = Ok None /\ ~ connected P o d) \/
    exists p, extract_path (length (g_nids (pn_g P))) (pn_g P) d (s_out s) o = Ok (Some p) /\
      visits (pn_g P) o (snd p) (fst p) /\ NoDup (fst p) /\ cheapest P (cost_of cm) o d (snd p).
Proof.
  intros F Hd. pose proof (rep_nids _ _ HR) as EN. rewrite EN in *.
  assert (Hm : ~ In (-1)%Z (map fst (a_links a))) by (rewrite <- (rep_lids _ _ HR); apply HP).
  destruct (fifo_ok (pn_g P) a cm d out0 HR (finite_ok _ F) Hd Hm) as (N & H).
  destruct (H N (Nat.le_refl _)) as (s & E & R). exists s. split.
  - exists N. intros n Hn. unfold all_to_one_FIFO in *. exact (search_loop_mono _ _ _ _ _ _ n _ _ _ Hn E).
  - intros o Ho. destruct (extract_result _ _ _ _ _ _ o HR R Ho (length (a_nodes a)) (Nat.le_refl _)) as [[X U]|(ns & ls & dd & c & X & Rt & V & ND & [_ L] & C & Cd)].
    + left. split; [exact X|]. intros (ls & Rt). destruct (route_cost cm o ls d F Rt) as (c & C). rewrite (U ls Rt) in C. discriminate.
    + right. exists (ns, ls). split; [exact X|]. split; [exact V|]. split; [exact ND|]. split; [exact Rt|].
      exists c. split; [exact C|]. intros ls' c' R' C'. pose proof (L ls' c' R' C'). lra.
Qed.

(** ** lengths *)
Lemma route_ids o ls d : route (pn_g P) o ls d -> forall l, In l ls -> In l (pn_ids P).
Proof. induction 1 as [u|u l w ls v E R IH]; intros x I; [destruct I|]. destruct I as [<-|I]; [eapply (po_ids _ HP); eauto|now apply IH]. Qed.
Lemma path_length_ok ls : (forall l, In l ls -> In l (pn_ids P)) -> exists v, path_length P ls = Ok v /\ v == route_length P ls.
Proof.
  intros H. unfold path_length, route_length.
  assert (G : forall ls a0, (forall l, In l ls -> In l (pn_ids P)) -> exists v,
    foldM (fun acc l => if memb l (pn_ids P) then Ok (acc + pn_len P l) else Err EThrow) a0 ls = Ok v /\ v == a0 + sumQ (map (pn_len P) ls)).
  { clear. induction ls as [|l ls IH]; intros a0 H; cbn [foldM map].
    - exists a0. split; [reflexivity|]. unfold sumQ. cbn. ring.
    - rewrite (proj2 (memb_In _ _) (H l (or_introl eq_refl))). cbn [bind].
      destruct (IH (a0 + pn_len P l)) as (v & E & V); [intros x I; apply H; right; exact I|]. exists v. split; [exact E|]. rewrite V.
      unfold sumQ. cbn [map fold_right]. ring. }
  destruct (G ls 0 H) as (v & E & V). exists v. split; [exact E|]. rewrite V. ring.
Qed.

Lemma same_links_eq x y : same_links x y = true <-> x = y.
Proof.
  revert y. induction x as [|u x IH]; intros [|v y]; cbn; try (split; congruence).
  rewrite Bool.andb_true_iff, Z.eqb_eq, IH. split; [intros [-> ->]; reflexivity|intros [= -> ->]; auto].
Qed.
Lemma is_in_iff ps p : is_in ps p = true <-> In (snd p) (map snd ps).
Proof.
  unfold is_in. rewrite existsb_exists. split.
  - intros (q & I & E). apply same_links_eq in E. rewrite <- E. now apply in_map.
  - intros I. apply in_map_iff in I as (q & E & I). exists q. split; [exact I|]. now apply same_links_eq.
Qed.

Definition put (T : table) (o d : Z) (ps : list path) : table :=
  fun o' d' => if (o' =? o)%Z && (d' =? d)%Z then Some ps else T o' d'.
Lemma put_same T o d ps : put T o d ps o d = Some ps.
Proof. unfold put. now rewrite !Z.eqb_refl. Qed.
Lemma put_other T o d ps o' d' : o' <> o \/ d' <> d -> put T o d ps o' d' = T o' d'.
Proof. unfold put. intros H. destruct (Z.eqb_spec o' o), (Z.eqb_spec d' d); cbn; try reflexivity. intuition. Qed.

(** ** the first phase *)
Variables vot minlen : Q.
Hypothesis Hvot : 0 < vot.
Lemma free_finite : finite_costs (free_cost P vot).
Proof.
  intros l e E. unfold free_cost. rewrite (proj2 (memb_In _ _) (po_ids _ HP l e E)). eexists. split; [reflexivity|].
  pose proof (po_tt _ HP l). pose proof (po_toll _ HP l). nra.
Qed.
Lemma free_total o ls d : route (pn_g P) o ls d -> total_cost (cost_of (free_cost P vot)) ls = total_cost (link_cost P vot) ls.
Proof.
  induction 1 as [u|u l w ls v E R IH]; [reflexivity|]. unfold total_cost in *. cbn [fold_right]. rewrite IH.
  unfold cost_of, free_cost, link_cost at 1. now rewrite (proj2 (memb_In _ _) (po_ids _ HP l _ E)).
Qed.
Lemma free_cheapest o ls d : cheapest P (cost_of (free_cost P vot)) o d ls -> cheapest P (link_cost P vot) o d ls.
Proof.
  intros (R & c & C & L). split; [exact R|]. exists c. rewrite <- (free_total _ _ _ R). split; [exact C|].
  intros ls' c' R' C'. apply (L ls' c' R'). rewrite (free_total _ _ _ R'). exact C'.
Qed.

Definition best_entry (o d : Z) (ps : list path) : Prop :=
  exists p, visits (pn_g P) o (snd p) (fst p) /\ NoDup (fst p) /\ cheapest P (link_cost P vot) o d (snd p) /\
    ps = if Qltb minlen (route_length P (snd p)) then [p] else [].

Definition disconnected : Prop := exists o d, In o (pn_os P) /\ In d (pn_ds P) /\ pn_dem P o d = true /\ ~ connected P o d.

(** table after the destinations [done] and, for the current one, the origins selected by [now] *)
Record phase1 (finished : Z -> Z -> Prop) (T : table) : Prop := {
  p1_none : forall o d, (In o (pn_os P) /\ In d (pn_ds P) /\ pn_dem P o d = true) \/ T o d = None;
  p1_done : forall o d, In o (pn_os P) -> In d (pn_ds P) -> pn_dem P o d = true -> finished o d ->
    exists ps, T o d = Some ps /\ best_entry o d ps;
  p1_todo : forall o d, In o (pn_os P) -> In d (pn_ds P) -> pn_dem P o d = true -> ~ finished o d -> T o d = Some [] }.

Lemma add_long_ok T o d p ps : T o d = Some ps -> route (pn_g P) o (snd p) d ->
  exists T', add_long P minlen T o d p = Ok T' /\ (forall o' d', o' <> o \/ d' <> d -> T' o' d' = T o' d') /\
    T' o d = Some (if Qltb minlen (route_length P (snd p)) then ps ++ [p] else ps)%list.
Proof.
  intros E R. unfold add_long. destruct (path_length_ok (snd p) (route_ids _ _ _ R)) as (v & Ev & V). rewrite Ev. cbn [bind].
  assert (B : Qltb minlen v = Qltb minlen (route_length P (snd p))).
  { destruct (Qltb_spec minlen v), (Qltb_spec minlen (route_length P (snd p))); try reflexivity; lra. }
  rewrite B. destruct (Qltb minlen (route_length P (snd p))).
  - unfold add_path. rewrite E. eexists. split; [reflexivity|]. fold (put T o d (ps ++ [p])%list). split; [intros; now apply put_other|apply put_same].
  - exists T. auto.
Qed.

Lemma best_origin_step d out T o fin :
  In o (pn_os P) -> In d (pn_ds P) -> ~ fin o d ->
  (forall o, In o (g_nids (pn_g P)) ->
    (extract_path (length (g_nids (pn_g P))) (pn_g P) d out o = Ok None /\ ~ connected P o d) \/
    exists p, extract_path (length (g_nids (pn_g P))) (pn_g P) d out o = Ok (Some p) /\
      visits (pn_g P) o (snd p) (fst p) /\ NoDup (fst p) /\ cheapest P (cost_of (free_cost P vot)) o d (snd p)) ->
  phase1 fin T ->
  (best_origin P minlen d out T o = Err EThrow /\ disconnected) \/
  exists T', best_origin P minlen d out T o = Ok T' /\ phase1 (fun o' d' => fin o' d' \/ (o' = o /\ d' = d)) T'.
Proof.
  intros Ho Hd Nf X W. unfold best_origin. destruct (pn_dem P o d) eqn:Dm.
  - destruct (X o (po_os _ HP o Ho)) as [[E U]|(p & E & V & ND & C)]; rewrite E; cbn [bind].
    + left. split; [reflexivity|]. exists o, d. auto.
    + right. destruct (add_long_ok T o d p [] (p1_todo _ _ W o d Ho Hd Dm Nf) (proj1 C)) as (T' & E' & Ot & Sm).
      exists T'. split; [exact E'|]. split.
      * intros o' d'. destruct (Z.eq_dec o' o) as [->|No]; [destruct (Z.eq_dec d' d) as [->|Nd]; [left; auto|]|]; rewrite Ot by auto; apply W.
      * intros o' d' I1 I2 I3 F. destruct (Z.eq_dec o' o) as [->|No]; [destruct (Z.eq_dec d' d) as [->|Nd]|].
        -- eexists. split; [exact Sm|]. exists p. split; [exact V|]. split; [exact ND|]. split; [now apply free_cheapest|reflexivity].
        -- rewrite Ot by auto. apply (p1_done _ _ W); auto. destruct F as [F|[_ F]]; [exact F|contradiction].
        -- rewrite Ot by auto. apply (p1_done _ _ W); auto. destruct F as [F|[F _]]; [exact F|contradiction].
      * intros o' d' I1 I2 I3 F. destruct (Z.eq_dec o' o) as [->|No]; [destruct (Z.eq_dec d' d) as [->|Nd]|].
        -- exfalso. apply F. right. auto.
        -- rewrite Ot by auto. apply (p1_todo _ _ W); auto.
        -- rewrite Ot by auto. apply (p1_todo _ _ W); auto.
  - right. exists T. split; [reflexivity|]. split; [apply W| |].
    + intros o' d' I1 I2 I3 [F|[-> ->]]; [now apply (p1_done _ _ W)|congruence].
    + intros o' d' I1 I2 I3 F. apply (p1_todo _ _ W); auto.
Qed.

Lemma phase1_weaken (f f' : Z -> Z -> Prop) T : (forall o d, In o (pn_os P) -> In d (pn_ds P) -> (f o d <-> f' o d)) -> phase1 f T -> phase1 f' T.
Proof.
  intros H W. split; [apply W| |]; intros o d I1 I2 I3 F.
  - apply (p1_done _ _ W); auto. now apply H.
  - apply (p1_todo _ _ W); auto. intros C. apply F. now apply H.
Qed.

Lemma phase1_conv :
  (conv (fun n => foldM (best_dest n P (free_cost P vot) minlen) (empty_table P, fun _ => None) (pn_ds P)) (Err EThrow) /\ disconnected) \/
  exists r, conv (fun n => foldM (best_dest n P (free_cost P vot) minlen) (empty_table P, fun _ => None) (pn_ds P)) (Ok r) /\
    phase1 (fun _ d => In d (pn_ds P)) (fst r).
Proof.
  apply (conv_foldM (fun n => best_dest n P (free_cost P vot) minlen) (fun done r => phase1 (fun _ d => In d done) (fst r))).
  - cbn [fst]. split.
    + intros o d. unfold empty_table. destruct (memb o (pn_os P)) eqn:A; [|right; reflexivity].
      destruct (memb d (pn_ds P)) eqn:B; [|right; reflexivity]. cbn. destruct (pn_dem P o d); [|right; reflexivity].
      apply memb_In in A. apply memb_In in B. left. auto.
    + intros o d _ _ _ [].
    + intros o d I1 I2 I3 _. unfold empty_table. now rewrite (proj2 (memb_In _ _) I1), (proj2 (memb_In _ _) I2), I3.
  - intros done d rest [T out] El W. cbn [fst] in W. unfold best_dest. cbn [snd fst].
    assert (Id : In d (pn_ds P)) by (rewrite El; apply in_or_app; right; left; reflexivity).
    destruct (tree_conv (free_cost P vot) d out free_finite (po_ds _ HP d Id)) as (s & C & X).
    assert (Nd : ~ In d done).
    { pose proof (po_nds _ HP) as N. rewrite El in N. apply NoDup_remove_2 in N. intros I. apply N. apply in_or_app. auto. }
    destruct (conv_foldM (fun _ => best_origin P minlen d (s_out s)) (fun os T => phase1 (fun o d' => In d' done \/ (In o os /\ d' = d)) T) disconnected (pn_os P) T) as [[C' B]|(T' & C' & W')].
    + eapply phase1_weaken; [|exact W]. cbn. intuition.
    + intros os o rest' T0 Eo W0.
      assert (Io : In o (pn_os P)) by (rewrite Eo; apply in_or_app; right; left; reflexivity).
      assert (No : ~ In o os).
      { pose proof (po_nos _ HP) as N. rewrite Eo in N. apply NoDup_remove_2 in N. intros I. apply N. apply in_or_app. auto. }
      assert (Nf : ~ (fun o d' => In d' done \/ (In o os /\ d' = d)) o d) by (cbn; intros [F|[F _]]; auto).
      destruct (best_origin_step d (s_out s) T0 o _ Io Id Nf X W0) as [[E B]|(T1 & E & W1)].
      * left. split; [|exact B]. exists 0%nat. intros n _. exact E.
      * right. exists T1. split; [exists 0%nat; intros n _; exact E|]. eapply phase1_weaken; [|exact W1]. cbn.
        intros o' d' _ _. rewrite in_app_iff. cbn. intuition; subst; auto.
    + left. split; [|exact B]. apply (conv_bind _ (fun n s => do T0 <- foldM (best_origin P minlen d (s_out s)) T (pn_os P); Ok (T0, s_out s)) s _ C).
      apply (conv_bind_err (fun _ => foldM (best_origin P minlen d (s_out s)) T (pn_os P)) (fun _ T0 => Ok (T0, s_out s))). exact C'.
    + right. exists (T', s_out s). split.
      * apply (conv_bind _ (fun n s => do T0 <- foldM (best_origin P minlen d (s_out s)) T (pn_os P); Ok (T0, s_out s)) s _ C).
        apply (conv_bind (fun _ => foldM (best_origin P minlen d (s_out s)) T (pn_os P)) (fun _ T0 => Ok (T0, s_out s)) T' _ C'). apply conv_const.
      * cbn [fst]. eapply phase1_weaken; [|exact W']. intros o' d' I1 _. cbn. rewrite in_app_iff. cbn. intuition; subst; auto.
Qed.

(** ** the second phase *)
Variables mid heavy : Q.
Hypothesis Hmid : 0 <= mid.
Hypothesis Hheavy : 0 <= heavy.

Record entry_ok (o d : Z) (n : nat) (ps : list path) : Prop := {
  eo_first : exists first rest, ps = (first ++ rest)%list /\ best_entry o d first;
  eo_good : forall p, In p ps -> good_path P minlen o d p;
  eo_nodup : NoDup (map snd ps);
  eo_len : (length ps <= n)%nat }.

Record phase2 (count : Z -> Z -> nat) (T : table) : Prop := {
  p2_none : forall o d, (In o (pn_os P) /\ In d (pn_ds P) /\ pn_dem P o d = true) \/ T o d = None;
  p2_entry : forall o d, In o (pn_os P) -> In d (pn_ds P) -> pn_dem P o d = true ->
    exists ps, T o d = Some ps /\ entry_ok o d (count o d) ps }.

Lemma best_entry_ok o d ps : best_entry o d ps -> entry_ok o d 1 ps.
Proof.
  intros B. pose proof B as (p & V & ND & C & E). split.
  - exists ps, []. rewrite app_nil_r. auto.
  - intros q I. rewrite E in I. destruct (Qltb_spec minlen (route_length P (snd p))) as [H|H]; [|destruct I].
    destruct I as [<-|[]]. split; auto. apply C.
  - rewrite E. destruct (Qltb minlen (route_length P (snd p))); cbn; constructor; auto; constructor.
  - rewrite E. destruct (Qltb minlen (route_length P (snd p))); cbn; lia.
Qed.

Lemma phase1_2 T : phase1 (fun _ d => In d (pn_ds P)) T -> phase2 (fun _ _ => 1%nat) T.
Proof.
  intros W. split; [apply W|]. intros o d I1 I2 I3. destruct (p1_done _ _ W o d I1 I2 I3 I2) as (ps & E & B).
  exists ps. split; [exact E|]. now apply best_entry_ok.
Qed.

Lemma entry_grow o d n ps p : entry_ok o d n ps -> good_path P minlen o d p -> ~ In (snd p) (map snd ps) -> entry_ok o d (S n) (ps ++ [p])%list.
Proof.
  intros [(f & r & E & B) G N L] Gp Np. split.
  - exists f, (r ++ [p])%list. rewrite E, app_assoc. auto.
  - intros q I. apply in_app_or in I as [I|[<-|[]]]; auto.
  - rewrite map_app. cbn. apply (Permutation_NoDup (Permutation_cons_append (map snd ps) (snd p))). constructor; assumption.
  - rewrite app_length. cbn. lia.
Qed.
Lemma entry_weaken o d n n' ps : (n <= n')%nat -> entry_ok o d n ps -> entry_ok o d n' ps.
Proof. intros L [A B C D]. split; auto. lia. Qed.

Definition bump (count : Z -> Z -> nat) (o d : Z) (k : nat) : Z -> Z -> nat :=
  fun o' d' => if (o' =? o)%Z && (d' =? d)%Z then (count o' d' + k)%nat else count o' d'.
Lemma bump_same c o d k : bump c o d k o d = (c o d + k)%nat.
Proof. unfold bump. now rewrite !Z.eqb_refl. Qed.
Lemma bump_other c o d k o' d' : o' <> o \/ d' <> d -> bump c o d k o' d' = c o' d'.
Proof. unfold bump. intros H. destruct (Z.eqb_spec o' o), (Z.eqb_spec d' d); cbn; try reflexivity. intuition. Qed.
Lemma phase2_weaken (c c' : Z -> Z -> nat) T : (forall o d, In o (pn_os P) -> In d (pn_ds P) -> (c o d <= c' o d)%nat) -> phase2 c T -> phase2 c' T.
Proof.
  intros H W. split; [apply W|]. intros o d I1 I2 I3. destruct (p2_entry _ _ W o d I1 I2 I3) as (ps & E & Eo).
  exists ps. split; [exact E|]. eapply entry_weaken; [|exact Eo]. auto.
Qed.


(** what a trial adds *)
Definition grows (T T' : table) : Prop := forall o d ps, T o d = Some ps -> exists add, T' o d = Some (ps ++ add)%list.
Lemma grows_refl T : grows T T.
Proof. intros o d ps E. exists []. now rewrite app_nil_r. Qed.
Lemma grows_trans T T1 T2 : grows T T1 -> grows T1 T2 -> grows T T2.
Proof.
  intros A B o d ps E. destruct (A o d ps E) as (x & E1). destruct (B o d _ E1) as (y & E2). exists (x ++ y)%list. now rewrite app_assoc.
Qed.
Definition holds (T : table) (o d : Z) (ls : list Z) : Prop := exists ps, T o d = Some ps /\ In ls (map snd ps).
Lemma holds_grows T T' o d ls : grows T T' -> holds T o d ls -> holds T' o d ls.
Proof.
  intros G (ps & E & I). destruct (G o d ps E) as (add & E'). exists (ps ++ add)%list. split; [exact E'|]. rewrite map_app. apply in_or_app. auto.
Qed.
Definition found (cm : cost_map) (T : table) (o d : Z) : Prop :=
  exists ls, cheapest P (cost_of cm) o d ls /\ (minlen < route_length P ls -> holds T o d ls).
Lemma found_grows cm T T' o d : grows T T' -> found cm T o d -> found cm T' o d.
Proof. intros G (ls & C & H). exists ls. split; [exact C|]. intros L. eapply holds_grows; eauto. Qed.

Lemma add_new_ok count T o d q : In o (pn_os P) -> In d (pn_ds P) -> pn_dem P o d = true -> phase2 count T ->
  route (pn_g P) o (snd q) d -> visits (pn_g P) o (snd q) (fst q) -> NoDup (fst q) ->
  exists T', add_new P minlen T o d (Some q) = Ok T' /\ phase2 (bump count o d 1) T' /\ grows T T' /\
    (minlen < route_length P (snd q) -> holds T' o d (snd q)).
Proof.
  intros Ho Hd Dm W R V ND. unfold add_new.
  assert (W1 : phase2 (bump count o d 1) T).
  { eapply phase2_weaken; [|exact W]. intros o' d' _ _. unfold bump. destruct (_ && _); lia. }
  destruct (p2_entry _ _ W o d Ho Hd Dm) as (ps & E & Eo). rewrite E.
  destruct (is_in ps q) eqn:Ii.
  { exists T. split; [reflexivity|]. split; [exact W1|]. split; [apply grows_refl|]. intros _. exists ps. split; [exact E|]. now apply is_in_iff. }
  assert (Np : ~ In (snd q) (map snd ps)) by (intros C; apply is_in_iff in C; congruence).
  destruct (add_long_ok T o d q ps E R) as (T' & E' & Ot & Sm). exists T'. split; [exact E'|]. split; [|split].
  - split.
    + intros o' d'. destruct (Z.eq_dec o' o) as [->|No]; [destruct (Z.eq_dec d' d) as [->|Nd]; [left; auto|]|]; rewrite Ot by auto; apply W.
    + intros o' d' I1 I2 I3. destruct (Z.eq_dec o' o) as [->|No]; [destruct (Z.eq_dec d' d) as [->|Nd]|].
      * rewrite bump_same. eexists. split; [exact Sm|]. destruct (Qltb_spec minlen (route_length P (snd q))) as [H|H].
        -- rewrite Nat.add_1_r. apply entry_grow; auto. split; auto.
        -- eapply entry_weaken; [|exact Eo]. lia.
      * rewrite Ot, bump_other by auto. now apply W.
      * rewrite Ot, bump_other by auto. now apply W.
  - intros o' d' ps' E1. destruct (Z.eq_dec o' o) as [->|No]; [destruct (Z.eq_dec d' d) as [->|Nd]|].
    + rewrite E in E1. injection E1 as <-. rewrite Sm. destruct (Qltb minlen (route_length P (snd q))).
      * exists [q]. reflexivity.
      * exists []. now rewrite app_nil_r.
    + exists []. rewrite Ot, app_nil_r by auto. exact E1.
    + exists []. rewrite Ot, app_nil_r by auto. exact E1.
  - intros L. rewrite (proj2 (Qltb_lt _ _) L) in Sm. eexists. split; [exact Sm|]. rewrite map_app. apply in_or_app. right. left. reflexivity.
Qed.

Definition tree_ok (cm : cost_map) (d : Z) (out : Z -> option Z) : Prop :=
  forall o, In o (g_nids (pn_g P)) -> connected P o d ->
  exists p, extract_path (length (g_nids (pn_g P))) (pn_g P) d out o = Ok (Some p) /\
    visits (pn_g P) o (snd p) (fst p) /\ NoDup (fst p) /\ cheapest P (cost_of cm) o d (snd p).

Lemma alt_origin_ok count T o d cm ch om oh : In o (pn_os P) -> In d (pn_ds P) -> tree_ok cm d om -> tree_ok ch d oh -> phase2 count T ->
  exists T', alt_origin P minlen d om oh T o = Ok T' /\ phase2 (bump count o d 2) T' /\ grows T T' /\
    (pn_dem P o d = true -> found cm T' o d /\ found ch T' o d).
Proof.
  intros Ho Hd Xm Xh W. unfold alt_origin. destruct (pn_dem P o d) eqn:Dm.
  - assert (Co : connected P o d).
    { destruct (p2_entry _ _ W o d Ho Hd Dm) as (ps & _ & [(f & r & _ & (p & _ & _ & C & _)) _ _ _]). exists (snd p). apply C. }
    destruct (Xm o (po_os _ HP o Ho) Co) as (pm & Em & Vm & Nm & Cm). destruct (Xh o (po_os _ HP o Ho) Co) as (ph & Eh & Vh & Nh & Ch).
    rewrite Em, Eh. cbn [bind].
    destruct (add_new_ok count T o d pm Ho Hd Dm W (proj1 Cm) Vm Nm) as (T1 & E1 & W1 & G1 & L1). rewrite E1. cbn [bind].
    destruct (add_new_ok _ T1 o d ph Ho Hd Dm W1 (proj1 Ch) Vh Nh) as (T2 & E2 & W2 & G2 & L2). rewrite E2. exists T2. split; [reflexivity|]. split; [|split].
    + eapply phase2_weaken; [|exact W2]. intros o' d' _ _. unfold bump. destruct (_ && _); lia.
    + eapply grows_trans; eauto.
    + intros _. split; [|exists (snd ph); auto]. exists (snd pm). split; [exact Cm|]. intros L. eapply holds_grows; eauto.
  - exists T. split; [reflexivity|]. split; [|split; [apply grows_refl|discriminate]].
    eapply phase2_weaken; [|exact W]. intros o' d' _ _. unfold bump. destruct (_ && _); lia.
Qed.

Lemma tree_conv_ok cm d out0 : finite_costs cm -> In d (pn_ds P) ->
  exists s, conv (fun n => all_to_one_FIFO n (pn_g P) d cm out0) (Ok s) /\ tree_ok cm d (s_out s).
Proof.
  intros F Hd. destruct (tree_conv cm d out0 F (po_ds _ HP d Hd)) as (s & C & X). exists s. split; [exact C|].
  intros o Ho Co. destruct (X o Ho) as [[E N]|(p & E & V & ND & Ch)]; [contradiction|]. exists p. auto.
Qed.

Lemma alt_dest_ok k cmid cheavy T outs :
  finite_costs cmid -> finite_costs cheavy -> phase2 (fun _ _ => k) T ->
  exists r, conv (fun n => foldM (alt_dest n P cmid cheavy minlen) (T, outs) (pn_ds P)) (Ok r) /\ phase2 (fun _ _ => (k + 2)%nat) (fst r) /\
    grows T (fst r) /\
    forall o d, In o (pn_os P) -> In d (pn_ds P) -> pn_dem P o d = true -> found cmid (fst r) o d /\ found cheavy (fst r) o d.
Proof.
  intros Fm Fh W.
  destruct (conv_foldM (fun n => alt_dest n P cmid cheavy minlen)
    (fun done r => phase2 (fun _ d => (k + if memb d done then 2 else 0)%nat) (fst r) /\ grows T (fst r) /\
       forall o d, In o (pn_os P) -> In d done -> pn_dem P o d = true -> found cmid (fst r) o d /\ found cheavy (fst r) o d) False (pn_ds P) (T, outs)) as [[_ []]|(r & C & Wr & Gr & Fr)].
  - cbn [fst memb]. split; [|split; [apply grows_refl|intros o d _ []]]. eapply phase2_weaken; [|exact W]. intros. lia.
  - intros done d rest [T0 o0] El (W0 & G0 & F0). cbn [fst] in W0, G0, F0. unfold alt_dest. cbn [fst snd].
    assert (Id : In d (pn_ds P)) by (rewrite El; apply in_or_app; right; left; reflexivity).
    assert (Nd : ~ In d done).
    { pose proof (po_nds _ HP) as N. rewrite El in N. apply NoDup_remove_2 in N. intros I. apply N. apply in_or_app. auto. }
    destruct (tree_conv_ok cmid d (fst o0) Fm Id) as (sm & Cm & Xm). destruct (tree_conv_ok cheavy d (snd o0) Fh Id) as (sh & Ch & Xh).
    destruct (conv_foldM (fun _ => alt_origin P minlen d (s_out sm) (s_out sh))
      (fun os T1 => phase2 (fun o d' => (k + if memb d' done || (memb o os && (d' =? d)%Z) then 2 else 0)%nat) T1 /\ grows T0 T1 /\
         forall o, In o os -> pn_dem P o d = true -> found cmid T1 o d /\ found cheavy T1 o d) False (pn_os P) T0) as [[_ []]|(T' & C' & W' & G' & F')].
    + split; [|split; [apply grows_refl|intros o []]]. eapply phase2_weaken; [|exact W0]. cbn. intros o' d' _ _. destruct (memb d' done); cbn; lia.
    + intros os o rest' T1 Eo (W1 & G1 & F1). right.
      assert (Io : In o (pn_os P)) by (rewrite Eo; apply in_or_app; right; left; reflexivity).
      assert (No : ~ In o os).
      { pose proof (po_nos _ HP) as N. rewrite Eo in N. apply NoDup_remove_2 in N. intros I. apply N. apply in_or_app. auto. }
      destruct (alt_origin_ok _ T1 o d cmid cheavy (s_out sm) (s_out sh) Io Id Xm Xh W1) as (T2 & E2 & W2 & G2 & F2).
      exists T2. split; [exists 0%nat; intros n _; exact E2|]. split; [|split; [eapply grows_trans; eauto|]].
      * eapply phase2_weaken; [|exact W2]. cbn. intros o' d' _ _. unfold bump.
        assert (M : memb o' (os ++ [o]) = memb o' os || (o' =? o)%Z).
        { apply Bool.eq_iff_eq_true. rewrite Bool.orb_true_iff, !memb_In, in_app_iff, Z.eqb_eq. cbn. intuition. }
        rewrite M. destruct (Z.eqb_spec o' o) as [->|]; destruct (Z.eqb_spec d' d) as [->|]; cbn.
        -- assert (Z1 : memb d done = false) by (apply memb_false; exact Nd). assert (Z2 : memb o os = false) by (apply memb_false; exact No).
           rewrite Z1, Z2. cbn. lia.
        -- rewrite !Bool.andb_false_r. lia.
        -- rewrite !Bool.orb_false_r. lia.
        -- rewrite !Bool.andb_false_r. lia.
      * intros o' I Dm. apply in_app_or in I as [I|[<-|[]]]; [|auto].
        destruct (F1 o' I Dm). split; eapply found_grows; eauto.
    + right. exists (T', (s_out sm, s_out sh)). split.
      * apply (conv_bind _ (fun n sm => do sh <- all_to_one_FIFO n (pn_g P) d cheavy (snd o0); do T1 <- foldM (alt_origin P minlen d (s_out sm) (s_out sh)) T0 (pn_os P); Ok (T1, (s_out sm, s_out sh))) sm _ Cm).
        apply (conv_bind _ (fun n sh => do T1 <- foldM (alt_origin P minlen d (s_out sm) (s_out sh)) T0 (pn_os P); Ok (T1, (s_out sm, s_out sh))) sh _ Ch).
        apply (conv_bind (fun _ => foldM (alt_origin P minlen d (s_out sm) (s_out sh)) T0 (pn_os P)) (fun _ T1 => Ok (T1, (s_out sm, s_out sh))) T' _ C'). apply conv_const.
      * cbn [fst]. split; [|split; [eapply grows_trans; eauto|]].
        -- eapply phase2_weaken; [|exact W']. intros o' d' I1 _. cbn.
           assert (M : memb d' (done ++ [d]) = memb d' done || (d' =? d)%Z).
           { apply Bool.eq_iff_eq_true. rewrite Bool.orb_true_iff, !memb_In, in_app_iff, Z.eqb_eq. cbn. intuition. }
           rewrite M, (proj2 (memb_In _ _) I1). cbn. lia.
        -- intros o' d' I1 I2 Dm. apply in_app_or in I2 as [I2|[<-|[]]]; [|auto].
           destruct (F0 o' d' I1 I2 Dm). split; eapply found_grows; eauto.
  - exists r. split; [exact C|]. split; [|auto]. eapply phase2_weaken; [|exact Wr]. cbn. intros o d _ I2. rewrite (proj2 (memb_In _ _) I2). lia.
Qed.

(** ** the penalised costs *)
Definition used (T : table) (l : Z) : Prop := exists o d ps p, T o d = Some ps /\ In p ps /\ In l (snd p).
Lemma used_grows T T' l : grows T T' -> used T l -> used T' l.
Proof.
  intros G (o & d & ps & p & E & I & J). destruct (G o d ps E) as (add & E'). exists o, d, (ps ++ add)%list, p. split; [exact E'|]. split; [apply in_or_app; auto|exact J].
Qed.
Definition pen (scale : Q) (l : Z) : Q := vot * pn_tt P l * scale + pn_toll P l.
Definition free (l : Z) : Q := vot * pn_tt P l + pn_toll P l.
Definition costs_in (scale : Q) (T : table) (cm : cost_map) : Prop :=
  forall l e, get_endpoints (pn_g P) l = Ok e -> (cm l = Some (Some (pen scale l)) /\ used T l) \/ cm l = Some (Some (free l)).
Definition costs_out (scale : Q) (T : table) (cm : cost_map) : Prop :=
  forall l e, get_endpoints (pn_g P) l = Ok e -> (cm l = Some (Some (pen scale l)) /\ used T l) \/ (cm l = Some (Some (free l)) /\ ~ used T l).
Lemma costs_out_in scale T T' cm : grows T T' -> costs_out scale T cm -> costs_in scale T' cm.
Proof. intros G H l e E. destruct (H l e E) as [[A B]|[A B]]; [left|right; exact A]. split; [exact A|]. eapply used_grows; eauto. Qed.
Lemma costs_out_finite scale T cm : 0 <= scale -> costs_out scale T cm -> finite_costs cm.
Proof.
  intros Hs H l e E. pose proof (po_tt _ HP l). pose proof (po_toll _ HP l). assert (0 <= vot * pn_tt P l) by nra.
  destruct (H l e E) as [[A _]|[A _]]; rewrite A; (eexists; split; [reflexivity|]); unfold pen, free; nra.
Qed.
Lemma free_in scale T : costs_in scale T (free_cost P vot).
Proof. intros l e E. right. unfold free_cost. now rewrite (proj2 (memb_In _ _) (po_ids _ HP l e E)). Qed.

Lemma all_paths_used T count l : phase2 count T -> (In l (concat (map snd (all_paths P T))) <-> used T l).
Proof.
  intros W. split.
  - intros I. apply in_concat in I as (ls & I1 & I2). apply in_map_iff in I1 as (p & <- & I1).
    unfold all_paths in I1. apply in_concat in I1 as (x & Ix & I1). apply in_map_iff in Ix as (o & <- & Io).
    apply in_concat in I1 as (y & Iy & I1). apply in_map_iff in Iy as (d & <- & Id).
    destruct (T o d) as [ps|] eqn:E; [|destruct I1]. exists o, d, ps, p. auto.
  - intros (o & d & ps & p & E & I & J). destruct (p2_none _ _ W o d) as [(Io & Id & _)|N]; [|congruence].
    apply in_concat. exists (snd p). split; [|exact J]. apply in_map. unfold all_paths. apply in_concat.
    eexists. split; [apply in_map; exact Io|]. apply in_concat. eexists. split; [apply in_map; exact Id|]. rewrite E. exact I.
Qed.
Lemma penalise_list scale ls : (forall l, In l ls -> In l (pn_ids P)) -> forall cm,
  exists cm', foldM (penalise P vot scale) cm ls = Ok cm' /\
    forall l, (In l ls -> cm' l = Some (Some (pen scale l))) /\ (~ In l ls -> cm' l = cm l).
Proof.
  induction ls as [|x ls IH]; intros K cm; [exists cm; split; [reflexivity|]; intros l; split; [intros []|reflexivity]|].
  cbn [foldM]. unfold penalise at 1. rewrite (proj2 (memb_In _ _) (K x (or_introl eq_refl))). cbn [bind].
  destruct (IH (fun l I => K l (or_intror I)) (upd cm x (Some (Some (vot * pn_tt P x * scale + pn_toll P x))))) as (cm' & E & H).
  exists cm'. split; [exact E|]. intros l. destruct (H l) as [H1 H2]. split.
  - intros [<-|I]; [|auto]. destruct (in_dec Z.eq_dec x ls) as [I|N]; [auto|]. rewrite (H2 N), upd_same. reflexivity.
  - intros N. rewrite H2 by (intros I; apply N; right; exact I). apply upd_other. intros ->. apply N. left. reflexivity.
Qed.
Lemma penalise_ok scale T cm count : phase2 count T -> costs_in scale T cm ->
  exists cm', penalise_table P vot scale T cm = Ok cm' /\ costs_out scale T cm'.
Proof.
  intros W F. unfold penalise_table.
  assert (K : forall l, In l (concat (map snd (all_paths P T))) -> In l (pn_ids P)).
  { intros l I. apply (all_paths_used _ _ _ W) in I as (o & d & ps & p & E & I1 & I2).
    destruct (p2_none _ _ W o d) as [(Io & Id & Dm)|N]; [|congruence].
    destruct (p2_entry _ _ W o d Io Id Dm) as (ps' & E' & Eo). assert (ps' = ps) as -> by congruence.
    eapply route_ids; [apply (eo_good _ _ _ _ Eo p I1)|exact I2]. }
  destruct (penalise_list scale _ K cm) as (cm' & E & H). exists cm'. split; [exact E|].
  intros l e El. destruct (H l) as [H1 H2]. destruct (in_dec Z.eq_dec l (concat (map snd (all_paths P T)))) as [I|N].
  - left. split; [auto|]. now apply (all_paths_used _ _ _ W).
  - right. assert (Nu : ~ used T l) by (intros U; apply N; now apply (all_paths_used _ _ _ W)). split; [|exact Nu].
    rewrite (H2 N). destruct (F l e El) as [[_ U]|A]; [contradiction|exact A].
Qed.

(** one trial *)
Lemma trial_ok k T cm ch outs : costs_in mid T cm -> costs_in heavy T ch -> phase2 (fun _ _ => k) T ->
  exists T' cm' ch' outs', conv (fun m => trial m P vot mid heavy minlen (T, ((cm, ch), outs))) (Ok (T', ((cm', ch'), outs'))) /\
    phase2 (fun _ _ => (k + 2)%nat) T' /\ grows T T' /\ costs_out mid T cm' /\ costs_out heavy T ch' /\
    forall o d, In o (pn_os P) -> In d (pn_ds P) -> pn_dem P o d = true -> found cm' T' o d /\ found ch' T' o d.
Proof.
  intros Fm Fh W.
  destruct (penalise_ok mid T cm _ W Fm) as (cm' & Em & Fm'). destruct (penalise_ok heavy T ch _ W Fh) as (ch' & Eh & Fh').
  destruct (alt_dest_ok k cm' ch' T outs (costs_out_finite _ _ _ Hmid Fm') (costs_out_finite _ _ _ Hheavy Fh') W) as ([T' outs'] & C & W' & G & Fo). cbn [fst] in *.
  exists T', cm', ch', outs'. split; [|auto]. unfold trial. rewrite Em, Eh. cbn [bind].
  apply (conv_bind (fun m => foldM (alt_dest m P cm' ch' minlen) (T, outs) (pn_ds P)) (fun _ r => Ok (fst r, ((cm', ch'), snd r))) (T', outs') _ C). apply conv_const.
Qed.

Lemma trials_snoc m n : forall st, trials m P vot mid heavy minlen (S n) st = bind (trials m P vot mid heavy minlen n st) (trial m P vot mid heavy minlen).
Proof.
  induction n as [|n IH]; intros st.
  - cbn [trials bind]. destruct (trial m P vot mid heavy minlen st); reflexivity.
  - cbn [trials] in *. destruct (trial m P vot mid heavy minlen st) as [st1|e]; cbn [bind]; [|reflexivity]. apply IH.
Qed.

Lemma trials_ok n : forall k T cm ch outs, costs_in mid T cm -> costs_in heavy T ch -> phase2 (fun _ _ => k) T ->
  exists T' cm' ch' outs', conv (fun m => trials m P vot mid heavy minlen n (T, ((cm, ch), outs))) (Ok (T', ((cm', ch'), outs'))) /\
    phase2 (fun _ _ => (k + 2 * n)%nat) T' /\ costs_in mid T' cm' /\ costs_in heavy T' ch'.
Proof.
  induction n as [|n IH]; intros k T cm ch outs Fm Fh W.
  - exists T, cm, ch, outs. split; [exists 0%nat; intros; reflexivity|]. split; [|auto]. eapply phase2_weaken; [|exact W]. intros. lia.
  - destruct (trial_ok k T cm ch outs Fm Fh W) as (T1 & cm1 & ch1 & outs1 & C1 & W1 & G1 & A1 & B1 & _).
    destruct (IH (k + 2)%nat T1 cm1 ch1 outs1 (costs_out_in _ _ _ _ G1 A1) (costs_out_in _ _ _ _ G1 B1) W1) as (T2 & cm2 & ch2 & outs2 & C2 & W2 & A2 & B2).
    exists T2, cm2, ch2, outs2. split; [|split; [|auto]].
    + cbn [trials]. apply (conv_bind (fun m => trial m P vot mid heavy minlen (T, ((cm, ch), outs))) (fun m st' => trials m P vot mid heavy minlen n st') _ _ C1 C2).
    + eapply phase2_weaken; [|exact W2]. intros; cbn beta; lia.
Qed.

Lemma build_step maxiter :
  (conv (fun n => build_pathset n P minlen maxiter vot mid heavy) (Err EThrow) /\ disconnected) \/
  exists T T' cm ch, conv (fun n => build_pathset n P minlen maxiter vot mid heavy) (Ok T) /\
    conv (fun n => build_pathset n P minlen (S maxiter) vot mid heavy) (Ok T') /\
    phase2 (fun _ _ => (1 + 2 * maxiter)%nat) T /\ phase2 (fun _ _ => (1 + 2 * S maxiter)%nat) T' /\ grows T T' /\ costs_out mid T cm /\ costs_out heavy T ch /\
    forall o d, In o (pn_os P) -> In d (pn_ds P) -> pn_dem P o d = true -> found cm T' o d /\ found ch T' o d.
Proof.
  assert (G : guard (Qltb 0 vot) EAssert = Ok tt) by (rewrite (proj2 (Qltb_lt _ _) Hvot); reflexivity).
  set (st0 := fun r : table * (Z -> option Z) => (fst r, ((free_cost P vot, free_cost P vot), ((fun _ => None, fun _ => None) : (Z -> option Z) * (Z -> option Z))))).
  destruct phase1_conv as [[C B]|(r & C & W)].
  - left. split; [|exact B]. unfold build_pathset. rewrite G. cbn [bind].
    apply (conv_bind_err _ (fun n r => do st <- trials n P vot mid heavy minlen maxiter (st0 r); Ok (fst st))). exact C.
  - right. destruct (trials_ok maxiter 1 (fst r) (free_cost P vot) (free_cost P vot) (fun _ => None, fun _ => None) (free_in _ _) (free_in _ _) (phase1_2 _ W)) as (T & cm & ch & outs & C1 & W1 & A1 & B1).
    destruct (trial_ok _ T cm ch outs A1 B1 W1) as (T' & cm' & ch' & outs' & C2 & W2 & G2 & A2 & B2 & F2).
    exists T, T', cm', ch'. split; [|split; [|split; [exact W1|split; [|split; [exact G2|auto]]]]].
    + unfold build_pathset. rewrite G. cbn [bind].
      apply (conv_bind _ (fun n r => do st <- trials n P vot mid heavy minlen maxiter (st0 r); Ok (fst st)) r _ C).
      apply (conv_bind _ (fun _ st => Ok (fst st)) _ _ C1). apply conv_const.
    + unfold build_pathset. rewrite G. cbn [bind].
      apply (conv_bind _ (fun n r => do st <- trials n P vot mid heavy minlen (S maxiter) (st0 r); Ok (fst st)) r _ C).
      apply (conv_bind (fun n => trials n P vot mid heavy minlen (S maxiter) (st0 r)) (fun _ st => Ok (fst st)) (T', ((cm', ch'), outs'))); [|apply conv_const].
      apply (conv_ext (fun n => bind (trials n P vot mid heavy minlen maxiter (st0 r)) (trial n P vot mid heavy minlen))); [intros n; symmetry; apply trials_snoc|].
      exact (conv_bind _ (fun n => trial n P vot mid heavy minlen) _ _ C1 C2).
    + eapply phase2_weaken; [|exact W2]. intros; cbn beta; lia.
Qed.

Lemma build_ok maxiter :
  (conv (fun n => build_pathset n P minlen maxiter vot mid heavy) (Err EThrow) /\ disconnected) \/
  exists T, conv (fun n => build_pathset n P minlen maxiter vot mid heavy) (Ok T) /\ phase2 (fun _ _ => (1 + 2 * maxiter)%nat) T.
Proof.
  destruct (build_step maxiter) as [H|(T & T' & cm & ch & C & _ & W & _)]; [left; exact H|right; eauto].
Qed.

(** ** the shortest path set *)
Lemma tt_finite : finite_costs (tt_cost P).
Proof.
  intros l e E. unfold tt_cost. rewrite (proj2 (memb_In _ _) (po_ids _ HP l e E)). eexists. split; [reflexivity|]. apply (po_tt _ HP l).
Qed.
Lemma tt_total o ls d : route (pn_g P) o ls d -> total_cost (cost_of (tt_cost P)) ls = total_cost (fun l => Some (pn_tt P l)) ls.
Proof.
  induction 1 as [u|u l w ls v E R IH]; [reflexivity|]. unfold total_cost in *. cbn [fold_right]. rewrite IH.
  unfold cost_of, tt_cost. now rewrite (proj2 (memb_In _ _) (po_ids _ HP l _ E)).
Qed.
Lemma tt_cheapest o ls d : cheapest P (cost_of (tt_cost P)) o d ls -> cheapest P (fun l => Some (pn_tt P l)) o d ls.
Proof.
  intros (R & c & C & L). split; [exact R|]. exists c. rewrite <- (tt_total _ _ _ R). split; [exact C|].
  intros ls' c' R' C'. apply (L ls' c' R'). rewrite (tt_total _ _ _ R'). exact C'.
Qed.

Definition quickest_entry (o d : Z) (ps : list path) : Prop :=
  exists p, ps = [p] /\ visits (pn_g P) o (snd p) (fst p) /\ NoDup (fst p) /\ cheapest P (fun l => Some (pn_tt P l)) o d (snd p).
Definition some_unreachable : Prop := exists o d, In o (pn_os P) /\ In d (pn_ds P) /\ ~ connected P o d.

Record phaseS (finished : Z -> Z -> Prop) (T : table) : Prop := {
  ps_none : forall o d, (In o (pn_os P) /\ In d (pn_ds P)) \/ T o d = None;
  ps_done : forall o d, In o (pn_os P) -> In d (pn_ds P) -> finished o d -> exists ps, T o d = Some ps /\ quickest_entry o d ps;
  ps_todo : forall o d, In o (pn_os P) -> In d (pn_ds P) -> ~ finished o d -> T o d = Some [] }.
Lemma phaseS_weaken (f f' : Z -> Z -> Prop) T : (forall o d, In o (pn_os P) -> In d (pn_ds P) -> (f o d <-> f' o d)) -> phaseS f T -> phaseS f' T.
Proof.
  intros H W. split; [apply W| |]; intros o d I1 I2 F.
  - apply (ps_done _ _ W); auto. now apply H.
  - apply (ps_todo _ _ W); auto. intros C. apply F. now apply H.
Qed.

Lemma shortest_origin_step d out T o fin :
  In o (pn_os P) -> In d (pn_ds P) -> ~ fin o d ->
  (forall o, In o (g_nids (pn_g P)) ->
    (extract_path (length (g_nids (pn_g P))) (pn_g P) d out o = Ok None /\ ~ connected P o d) \/
    exists p, extract_path (length (g_nids (pn_g P))) (pn_g P) d out o = Ok (Some p) /\
      visits (pn_g P) o (snd p) (fst p) /\ NoDup (fst p) /\ cheapest P (cost_of (tt_cost P)) o d (snd p)) ->
  phaseS fin T ->
  (shortest_origin P d out T o = Err EThrow /\ some_unreachable) \/
  exists T', shortest_origin P d out T o = Ok T' /\ phaseS (fun o' d' => fin o' d' \/ (o' = o /\ d' = d)) T'.
Proof.
  intros Ho Hd Nf X W. unfold shortest_origin.
  destruct (X o (po_os _ HP o Ho)) as [[E U]|(p & E & V & ND & C)]; rewrite E; cbn [bind].
  - left. split; [reflexivity|]. exists o, d. auto.
  - right. unfold add_path. rewrite (ps_todo _ _ W o d Ho Hd Nf). cbn [app].
    exists (put T o d [p]). split; [reflexivity|].
    assert (Ot : forall o' d', o' <> o \/ d' <> d -> put T o d [p] o' d' = T o' d') by (intros; now apply put_other). split.
    + intros o' d'. destruct (Z.eq_dec o' o) as [->|No]; [destruct (Z.eq_dec d' d) as [->|Nd]; [left; auto|]|]; rewrite Ot by auto; apply W.
    + intros o' d' I1 I2 F. destruct (Z.eq_dec o' o) as [->|No]; [destruct (Z.eq_dec d' d) as [->|Nd]|].
      * exists [p]. split; [apply put_same|]. exists p. split; [reflexivity|]. split; [exact V|]. split; [exact ND|]. now apply tt_cheapest.
      * rewrite Ot by auto. apply (ps_done _ _ W); auto. destruct F as [F|[_ F]]; [exact F|contradiction].
      * rewrite Ot by auto. apply (ps_done _ _ W); auto. destruct F as [F|[F _]]; [exact F|contradiction].
    + intros o' d' I1 I2 F. destruct (Z.eq_dec o' o) as [->|No]; [destruct (Z.eq_dec d' d) as [->|Nd]|].
      * exfalso. apply F. right. auto.
      * rewrite Ot by auto. apply (ps_todo _ _ W); auto.
      * rewrite Ot by auto. apply (ps_todo _ _ W); auto.
Qed.

Lemma shortest_ok :
  (conv (fun n => build_shortest_pathset n P) (Err EThrow) /\ some_unreachable) \/
  exists T, conv (fun n => build_shortest_pathset n P) (Ok T) /\ phaseS (fun _ d => In d (pn_ds P)) T.
Proof.
  set (T0 := fun o d => if memb o (pn_os P) && memb d (pn_ds P) then Some (@nil path) else None).
  destruct (conv_foldM (fun n => shortest_dest n P) (fun done r => phaseS (fun _ d => In d done) (fst r)) some_unreachable (pn_ds P) (T0, fun _ => None)) as [[C B]|(r & C & W)].
  - cbn [fst]. split.
    + intros o d. unfold T0. destruct (memb o (pn_os P)) eqn:A; [|right; reflexivity].
      destruct (memb d (pn_ds P)) eqn:B; [|right; reflexivity]. cbn.
      apply memb_In in A. apply memb_In in B. left. auto.
    + intros o d _ _ [].
    + intros o d I1 I2 _. unfold T0. now rewrite (proj2 (memb_In _ _) I1), (proj2 (memb_In _ _) I2).
  - intros done d rest [T out] El W. cbn [fst] in W. unfold shortest_dest. cbn [snd fst].
    assert (Id : In d (pn_ds P)) by (rewrite El; apply in_or_app; right; left; reflexivity).
    destruct (tree_conv (tt_cost P) d out tt_finite (po_ds _ HP d Id)) as (s & C & X).
    assert (Nd : ~ In d done).
    { pose proof (po_nds _ HP) as N. rewrite El in N. apply NoDup_remove_2 in N. intros I. apply N. apply in_or_app. auto. }
    destruct (conv_foldM (fun _ => shortest_origin P d (s_out s)) (fun os T => phaseS (fun o d' => In d' done \/ (In o os /\ d' = d)) T) some_unreachable (pn_os P) T) as [[C' B]|(T' & C' & W')].
    + eapply phaseS_weaken; [|exact W]. cbn. intuition.
    + intros os o rest' T1 Eo W1.
      assert (Io : In o (pn_os P)) by (rewrite Eo; apply in_or_app; right; left; reflexivity).
      assert (No : ~ In o os).
      { pose proof (po_nos _ HP) as N. rewrite Eo in N. apply NoDup_remove_2 in N. intros I. apply N. apply in_or_app. auto. }
      assert (Nf : ~ (fun o d' => In d' done \/ (In o os /\ d' = d)) o d) by (cbn; intros [F|[F _]]; auto).
      destruct (shortest_origin_step d (s_out s) T1 o _ Io Id Nf X W1) as [[E B]|(T2 & E & W2)].
      * left. split; [|exact B]. exists 0%nat. intros n _. exact E.
      * right. exists T2. split; [exists 0%nat; intros n _; exact E|]. eapply phaseS_weaken; [|exact W2]. cbn.
        intros o' d' _ _. rewrite in_app_iff. cbn. intuition; subst; auto.
    + left. split; [|exact B]. apply (conv_bind _ (fun n s => do T1 <- foldM (shortest_origin P d (s_out s)) T (pn_os P); Ok (T1, s_out s)) s _ C).
      apply (conv_bind_err (fun _ => foldM (shortest_origin P d (s_out s)) T (pn_os P)) (fun _ T1 => Ok (T1, s_out s))). exact C'.
    + right. exists (T', s_out s). split.
      * apply (conv_bind _ (fun n s => do T1 <- foldM (shortest_origin P d (s_out s)) T (pn_os P); Ok (T1, s_out s)) s _ C).
        apply (conv_bind (fun _ => foldM (shortest_origin P d (s_out s)) T (pn_os P)) (fun _ T1 => Ok (T1, s_out s)) T' _ C'). apply conv_const.
      * cbn [fst]. eapply phaseS_weaken; [|exact W']. intros o' d' I1 _. cbn. rewrite in_app_iff. cbn. intuition; subst; auto.
  - left. split; [|exact B]. unfold build_shortest_pathset. fold T0. apply (conv_bind_err _ (fun _ r => Ok (fst r))). exact C.
  - right. exists (fst r). split; [|exact W]. unfold build_shortest_pathset. fold T0.
    apply (conv_bind _ (fun _ r => Ok (fst r)) r _ C). apply conv_const.
Qed.

End Paths.
