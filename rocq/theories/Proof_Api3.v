(** The assignment ratio matrix: entries and row sums. *)
From Verif Require Import Base Base_lemmas Model_Num Proof_Num Model_CC Spec_CC Proof_CC Model_Link Spec_Link Proof_Link Proof_Link3 Proof_Link4 Model_World Model_Node Proof_Node Model_Sim Proof_Sim1
  Model_Grad Spec_Grad Proof_Grad1 Model_Dso Proof_Dso Model_Api Spec_Api Proof_McNode4 Proof_Api Proof_Api2.
Local Open Scope Z_scope.

Lemma register_map known old ids g : (g_vec old = [] -> g_map old = []) -> register_paths known old ids = (g, None) -> NoDup ids ->
  Zlen (g_map g) = Zlen ids /\ forall p j, path_index (g_map g) p = Some j <-> 0 <= j /\ nth_error ids (Z.to_nat j) = Some p.
Proof.
  intros Ho H ND. unfold register_paths in H.
  set (o := match g_vec old with [] => old | _ => {| g_vec := []; g_map := [] |} end) in H.
  assert (Eo : g_map o = []) by (unfold o; destruct (g_vec old); [apply Ho; reflexivity|reflexivity]).
  assert (P : forall p, path_index (g_map o) p = None) by (intros p; rewrite Eo; reflexivity).
  split.
  - rewrite (reg_paths_size _ _ _ _ _ H ND) by (intros; apply P). rewrite Eo. reflexivity.
  - intros p j. destruct (reg_paths_index known ids o 0 g p H (P p)) as [(A & B)|(i & (F1 & F2) & A)]; rewrite A.
    + split; [discriminate|]. intros [_ N]. destruct B. exact (nth_error_In _ _ N).
    + rewrite Z.add_0_l. split.
      * intros E. injection E as <-. split; [lia|]. now rewrite Nat2Z.id.
      * intros [Hj N]. f_equal. assert (i = Z.to_nat j); [|lia]. eapply NoDup_nth_error; [exact ND| |congruence]. apply nth_error_Some. congruence.
Qed.

Section Matrix.
Context (pm : Z -> option Z) (ids : list Z) (trees : list cctree) (ws : list (Z * Z)) (n : Z) (f : list Q) (cur : Z).
Notation np := (Zlen ids).
Notation nl := (Zlen trees).
Context (PM : forall p j, pm p = Some j <-> 0 <= j /\ nth_error ids (Z.to_nat j) = Some p) (ND : NoDup ids).
Context (GT : forall t, In t trees -> good_tree n t) (CV : covers ids trees f) (GW : Forall (good_window cur) ws) (LW : Zlen ws <= n).

Lemma pm_range p j : pm p = Some j -> 0 <= j < np.
Proof. intros H. apply PM in H as [A N]. split; [exact A|]. assert (Z.to_nat j < length ids)%nat by (apply nth_error_Some; congruence). unfold Zlen. lia. Qed.
Lemma tree_curves t x : In t trees -> In x t -> recorded_curve (snd x).
Proof. intros Ht Hx. destruct x as [[p a] c]. apply (proj2 (GT t Ht)) in Hx as [R _]. exact R. Qed.
Lemma flowing_inv w x pi fl : flowing pm w x = Some (pi, fl) -> pm (fst (fst x)) = Some pi /\ fl = wflow (snd x) w /\ (dbl_eps < fl)%Q.
Proof.
  unfold flowing. destruct (pm _) as [q|]; [|discriminate]. destruct (Qltb_spec dbl_eps (wflow (snd x) w)); [|discriminate]. intros E. injection E as <- <-. auto.
Qed.
Lemma flowing_fine t w x pi fl : In t trees -> In x t -> flowing pm w x = Some (pi, fl) ->
  0 <= pi + np * snd (fst x) /\ exists fy, nth_error f (Z.to_nat (pi + np * snd (fst x))) = Some fy /\ ~ (fy == 0)%Q.
Proof.
  intros Ht Hx F. apply flowing_inv in F as (P & _ & _). destruct x as [[p a] c]. cbn [fst snd] in *. destruct (proj2 (GT t Ht) p a c Hx) as [_ Ha]. pose proof (pm_range p pi P) as R.
  split; [unfold Zlen in *; nia|]. apply PM in P as [A N]. destruct (CV t p a c (Z.to_nat pi) Ht Hx N) as (y & Ny & NZ). rewrite Z2Nat.id in Ny by exact A. eauto.
Qed.

Definition block (i t : Z) (w : Z * Z) : list (Z * Z * Q) :=
  match nth_error trees (Z.to_nat i) with Some tr => flat_map (trip1 pm w (i + nl * t) np f) tr | None => [] end.
Definition triplets : list (Z * Z * Q) :=
  flat_map (fun i => flat_map (fun t => match nth_error ws (Z.to_nat t) with Some p => block i t p | None => [] end) (ints 0 (length ws))) (ints 0 (length trees)).

Lemma row_at_map {A B} (h : A -> B) r i x : row_at r i = Ok x -> row_at (map h r) i = Ok (h x).
Proof. unfold row_at. destruct (i <? 0); [discriminate|]. rewrite nth_error_map. destruct (nth_error r (Z.to_nat i)); [|discriminate]. intros H. apply Ok_inj in H as <-. reflexivity. Qed.
Lemma Zlen_mapS {A B} (h : A -> B) l : Zlen (map h l) = Zlen l. Proof. unfold Zlen. now rewrite map_length. Qed.
Lemma triplets_ok : over_windows cur (length (map Some trees)) ws
    (fun acc i t p => do tr <- row_at (map Some trees) i; add_dar_records_eigen acc pm tr (inject_Z (fst p)) (inject_Z (snd p)) i t nl np f) [] = Ok triplets.
Proof.
  rewrite map_length. rewrite (ow_append cur (length trees) ws _ (fun i t p => block i t p) GW); [reflexivity|].
  intros acc i t p Hi Np Ht. destruct (row_at_ok trees i) as (tr & Nt & Et); [unfold Zlen; lia|]. rewrite (row_at_map _ _ _ _ Et). cbn [bind]. unfold block. rewrite Nt.
  pose proof (nth_error_In _ _ Nt) as Itr. apply eigen_closed; [intros x Hx; eapply tree_curves; eauto|]. intros x pi fl Hx. apply flowing_fine with (t := tr); auto.
Qed.
Lemma save_ok (links : list Z) : length links = length trees -> (forall p pi, pm p = Some pi -> pi = p) ->
  over_windows cur (length (combine links (map Some trees))) ws
    (fun acc i t p => do l <- row_at (combine links (map Some trees)) i;
       do rs <- add_dar_records [] (fun q => match pm q with Some _ => true | None => false end) (fst l) (snd l) (inject_Z (fst p)) (inject_Z (snd p));
       do lines <- mapM (save_line np f (i + Zlen (combine links (map Some trees)) * t)) rs;
       Ok (acc ++ lines)) [] = Ok triplets.
Proof.
  intros Ll Hid. assert (LC : length (combine links (map Some trees)) = length trees) by (rewrite combine_length, map_length; lia).
  assert (LZ : Zlen (combine links (map Some trees)) = nl) by (unfold Zlen; now rewrite LC). rewrite LZ, LC.
  rewrite (ow_append cur (length trees) ws _ (fun i t p => block i t p) GW); [reflexivity|].
  intros acc i t p Hi Np Ht. destruct (row_at_ok (combine links (map Some trees)) i) as ((l & tr') & Nl & El); [rewrite LZ; unfold Zlen; lia|]. rewrite El. cbn [bind fst snd].
  assert (exists tr, tr' = Some tr /\ nth_error trees (Z.to_nat i) = Some tr) as (tr & -> & Nt).
  { assert (X : forall (a : list Z) (b : list cctree) k x y, nth_error (combine a (map Some b)) k = Some (x, y) -> exists z, y = Some z /\ nth_error b k = Some z).
    { induction a as [|u a IH]; intros [|v b] [|k] x y; cbn; try discriminate; [intros E; injection E as <- <-; eauto|apply IH]. }
    exact (X _ _ _ _ _ Nl). }
  pose proof (nth_error_In _ _ Nt) as Itr.
  change (fun q => match pm q with Some _ => true | None => false end) with (fun q => is_some (pm q)).
  rewrite dar_closed by (intros x Hx; eapply tree_curves; eauto). cbn [bind app]. unfold block. rewrite Nt.
  rewrite save_closed; [reflexivity|intros x Hx; eapply tree_curves; eauto|exact Hid|]. intros x pi fl Hx. apply flowing_fine with (t := tr); auto.
Qed.
Lemma in_block i t w e : In e (block i t w) -> 0 <= i -> fst (fst e) = i + nl * t /\ 0 <= snd (fst e) < n * np.
Proof.
  unfold block. intros H Hi. destruct (nth_error trees (Z.to_nat i)) as [tr|] eqn:Nt; [|destruct H]. pose proof (nth_error_In _ _ Nt) as Itr.
  apply in_flat_map in H as (x & Hx & He). unfold trip1 in He. destruct (flowing pm w x) as [[pi fl]|] eqn:F; [|destruct He]. cbn [In] in He. destruct He as [<-|[]].
  cbn [fst snd]. split; [reflexivity|]. apply flowing_inv in F as (P & _ & _). apply pm_range in P. destruct x as [[p a] c]. cbn [fst snd].
  destruct (proj2 (GT tr Itr) p a c Hx) as [_ Ha]. nia.
Qed.
Lemma triplets_range : forallb (fun e : Z * Z * Q => let '(x, y, _) := e in (0 <=? x) && (x <? n * nl) && (0 <=? y) && (y <? n * np)) triplets = true.
Proof.
  apply forallb_forall. intros e He. unfold triplets in He. apply in_flat_map in He as (i & Hi & He). apply in_flat_map in He as (t & Ht & He). apply ints_In in Hi, Ht.
  destruct (nth_error ws (Z.to_nat t)) as [w|]; [|destruct He]. apply in_block in He as [E1 E2]; [|lia]. destruct e as [[x y] v]. cbn [fst snd] in *.
  assert (0 <= x < n * nl) by (unfold Zlen in *; nia).
  destruct (Z.leb_spec 0 x), (Z.ltb_spec x (n * nl)), (Z.leb_spec 0 y), (Z.ltb_spec y (n * np)); auto; lia.
Qed.

(** a sum over one row is a sum over one link and window *)
Lemma row_only (g : Z * Z * Q -> Q) i t w : 0 <= i < nl -> 0 <= t -> nth_error ws (Z.to_nat t) = Some w -> (forall e, fst (fst e) <> i + nl * t -> (g e == 0)%Q) ->
  (sumQ (map g triplets) == sumQ (map g (block i t w)))%Q.
Proof.
  intros Hi Ht Nw Hg. unfold triplets. rewrite sumQ_flat.
  assert (B0 : forall i' t' w', 0 <= i' < nl -> 0 <= t' -> (i', t') <> (i, t) -> (sumQ (map g (block i' t' w')) == 0)%Q).
  { intros i' t' w' Hi' Ht' Ne. apply sumQ_ext0. intros e He. apply Hg. apply in_block in He as [-> _]; [|lia]. intros E. apply Ne. destruct (col_inj nl i' i t' t) as [-> ->]; auto. }
  rewrite (sumQ_one _ _ i (ints_NoDup _ _)); [|apply ints_In; unfold Zlen in Hi; lia|].
  - rewrite sumQ_flat. rewrite (sumQ_one _ _ t (ints_NoDup _ _)); [now rewrite Nw| |].
    + apply ints_In. assert (Z.to_nat t < length ws)%nat by (apply nth_error_Some; congruence). lia.
    + intros t' Ht' Ne. apply ints_In in Ht'. destruct (nth_error ws (Z.to_nat t')); [|reflexivity]. apply B0; auto; [lia|congruence].
  - intros i' Hi' Ne. apply ints_In in Hi'. rewrite sumQ_flat. apply sumQ_ext0. intros t' Ht'. apply ints_In in Ht'. destruct (nth_error ws (Z.to_nat t')); [|reflexivity].
    apply B0; [unfold Zlen; lia|lia|congruence].
Qed.
Lemma row_beyond (g : Z * Z * Q -> Q) x : nl * Zlen ws <= x -> (forall e, fst (fst e) <> x -> (g e == 0)%Q) -> (sumQ (map g triplets) == 0)%Q.
Proof.
  intros Hx Hg. apply sumQ_ext0. intros e He. apply Hg. unfold triplets in He. apply in_flat_map in He as (i & Hi & He). apply in_flat_map in He as (t & Ht & He). apply ints_In in Hi, Ht.
  destruct (nth_error ws (Z.to_nat t)) as [w|]; [|destruct He]. apply in_block in He as [-> _]; [|lia]. unfold Zlen in *. nia.
Qed.

Definition mat (x y : Z) : Q := sumQ (map (fun e : Z * Z * Q => let '(x', y', v) := e in if (x' =? x) && (y' =? y) then v else 0%Q) triplets).
Lemma mat_row i t w tr y : 0 <= t -> nth_error trees (Z.to_nat i) = Some tr -> 0 <= i -> nth_error ws (Z.to_nat t) = Some w ->
  (mat (i + nl * t) y == sumQ (map (fun x => match flowing pm w x with Some (pi, fl) => if pi + np * snd (fst x) =? y then fl / nth (Z.to_nat y) f 0 else 0 | None => 0 end) tr))%Q.
Proof.
  intros Ht Nt Hi Nw. assert (Hil : 0 <= i < nl) by (split; [exact Hi|]; assert (Z.to_nat i < length trees)%nat by (apply nth_error_Some; congruence); unfold Zlen; lia).
  unfold mat. rewrite (row_only _ i t w Hil Ht Nw).
  - unfold block. rewrite Nt, sumQ_flat. apply sumQ_ext_in. intros x _. unfold trip1. destruct (flowing pm w x) as [[pi fl]|]; [|reflexivity]. unfold sumQ. cbn [map fold_right].
    rewrite Z.eqb_refl. cbn [andb]. destruct (Z.eqb_spec (pi + np * snd (fst x)) y) as [->|_]; apply Qplus_0_r.
  - intros [[x' y'] v] Hne. cbn [fst] in Hne. destruct (Z.eqb_spec x' (i + nl * t)); [contradiction|]. reflexivity.
Qed.
Lemma mat_entry i t w tr j a p x : nth_error trees i = Some tr -> nth_error ws t = Some w -> nth_error ids j = Some p -> path_flow tr p a w x ->
  let y := Z.of_nat j + np * a in (mat (Z.of_nat i + nl * Z.of_nat t) y * nth (Z.to_nat y) f 0 == x)%Q.
Proof.
  intros Nt Nw Nj PF y. pose proof (nth_error_In _ _ Nt) as Itr. destruct (GT tr Itr) as [NDk _]. assert (NDt : NoDup tr) by (eapply NoDup_map_inv; exact NDk).
  rewrite (mat_row (Z.of_nat i) (Z.of_nat t) w tr y) by (rewrite ?Nat2Z.id; auto; lia).
  assert (Pj : pm p = Some (Z.of_nat j)) by (apply PM; rewrite Nat2Z.id; split; [lia|exact Nj]).
  assert (Only : forall z pi fl, In z tr -> flowing pm w z = Some (pi, fl) -> pi + np * snd (fst z) = y -> fst z = (p, a)).
  { intros [[p' a'] c'] pi fl Hz F E. apply flowing_inv in F as (P' & _ & _). cbn [fst snd] in *. destruct (col_inj np pi (Z.of_nat j) a' a) as [-> ->]; [eapply pm_range; eauto|eapply pm_range; eauto|exact E|].
    apply PM in P' as [_ N']. rewrite Nat2Z.id in N'. congruence. }
  destruct PF as [(c & Hc & v & Wv & V)|[None ->]].
  - rewrite (sumQ_one _ _ ((p, a), c) NDt Hc).
    + pose proof (wflow_ok c w (tree_curves tr _ Itr Hc)) as Wc. unfold window_flow in Wc, Wv. rewrite Wv in Wc. apply Ok_inj in Wc.
      destruct (flowing pm w ((p, a), c)) as [[pi fl]|] eqn:F.
      * destruct (flowing_fine tr w _ pi fl Itr Hc F) as (_ & fy & Ny & NZ). apply flowing_inv in F as (P' & Ef & G). cbn [fst snd] in *. rewrite Pj in P'. injection P' as <-. fold y in Ny |- *.
        rewrite Z.eqb_refl. rewrite (nth_error_nth _ _ 0%Q Ny). destruct V as [[_ ->]|[Le _]]; [|rewrite <- Wc in Ef; subst fl; lra]. rewrite Ef, <- Wc. field. exact NZ.
      * unfold flowing in F. cbn [fst snd] in F. rewrite Pj in F. destruct (Qltb_spec dbl_eps (wflow c w)); [discriminate|]. destruct V as [[G _]|[_ ->]]; [rewrite <- Wc in *; lra|]. ring.
    + intros z Hz Ne. destruct (flowing pm w z) as [[pi fl]|] eqn:F; [|reflexivity]. destruct (Z.eqb_spec (pi + np * snd (fst z)) y) as [E|_]; [|reflexivity].
      exfalso. apply Ne. pose proof (Only z pi fl Hz F E) as Ek. clear - NDk Hz Hc Ek.
      revert NDk Hz Hc. induction tr as [|u tr IH]; intros NDk Hz Hc; [destruct Hz|]. cbn [map] in NDk. apply NoDup_cons_iff in NDk as [Nu NDk].
      destruct Hz as [->|Hz], Hc as [Ec|Hc]; [congruence| | |auto].
      * destruct Nu. rewrite Ek. change (p, a) with (fst ((p, a), c)). now apply in_map.
      * subst u. destruct Nu. cbn [fst]. rewrite <- Ek. now apply in_map.
  - rewrite sumQ_ext0; [ring|]. intros z Hz. destruct (flowing pm w z) as [[pi fl]|] eqn:F; [|reflexivity]. destruct (Z.eqb_spec (pi + np * snd (fst z)) y) as [E|_]; [|reflexivity].
    exfalso. pose proof (Only z pi fl Hz F E) as Ek. destruct z as [k c]. cbn [fst] in Ek. subst k. exact (None c Hz).
Qed.
Lemma sumQ_swap {X Y} (h : X -> Y -> Q) (L : list X) (K : list Y) : (sumQ (map (fun x => sumQ (map (h x) K)) L) == sumQ (map (fun y => sumQ (map (fun x => h x y) L)) K))%Q.
Proof.
  induction L as [|x L IH]; cbn [map].
  - symmetry. apply sumQ_ext0. reflexivity.
  - unfold sumQ at 1. cbn [fold_right]. fold (sumQ (map (fun x => sumQ (map (h x) K)) L)). rewrite IH.
    clear. induction K as [|y K IH]; [unfold sumQ; cbn; ring|]. unfold sumQ in *. cbn [map fold_right] in *. rewrite <- IH. ring.
Qed.
Lemma sumQ_scale {X} (g : X -> Q) c L : (sumQ (map g L) * c == sumQ (map (fun x => g x * c) L))%Q.
Proof. induction L as [|x L IH]; unfold sumQ in *; cbn [map fold_right]; [ring|]. rewrite <- IH. ring. Qed.
Lemma mat_row_sum i t w tr l : nth_error trees i = Some tr -> nth_error ws t = Some w ->
  (sumQ (map (fun y => mat (Z.of_nat i + nl * Z.of_nat t) y * nth (Z.to_nat y) f 0) (ints 0 (Z.to_nat (n * np)))) == sumQ (map da_flow (flat_map (rec1 pm l w) tr)))%Q.
Proof.
  intros Nt Nw. pose proof (nth_error_In _ _ Nt) as Itr.
  rewrite (sumQ_ext_in _ (fun y => sumQ (map (fun x => match flowing pm w x with Some (pi, fl) => if pi + np * snd (fst x) =? y then fl / nth (Z.to_nat y) f 0 else 0 | None => 0 end * nth (Z.to_nat y) f 0) tr))%Q).
  2:{ intros y _. rewrite (mat_row (Z.of_nat i) (Z.of_nat t) w tr y) by (rewrite ?Nat2Z.id; auto; lia). apply sumQ_scale. }
  rewrite <- (sumQ_swap (fun x y => (match flowing pm w x with Some (pi, fl) => if (pi + np * snd (fst x) =? y)%Z then fl / nth (Z.to_nat y) f 0 else 0 | None => 0 end * nth (Z.to_nat y) f 0)%Q)).
  rewrite sumQ_flat. apply sumQ_ext_in. intros x Hx. unfold rec1. destruct (flowing pm w x) as [[pi fl]|] eqn:F.
  - destruct (flowing_fine tr w x pi fl Itr Hx F) as (_ & fy & Ny & NZ). rewrite (sumQ_one _ _ (pi + np * snd (fst x)) (ints_NoDup _ _)).
    + rewrite Z.eqb_refl, (nth_error_nth _ _ 0%Q Ny). unfold sumQ. cbn [map fold_right da_flow]. field. exact NZ.
    + apply ints_In. apply flowing_inv in F as (P & _ & _). apply pm_range in P. destruct x as [[p a] c]. cbn [fst snd]. destruct (proj2 (GT tr Itr) p a c Hx) as [_ Ha]. nia.
    + intros y _ Ne. destruct (Z.eqb_spec (pi + np * snd (fst x)) y); [congruence|]. ring.
  - rewrite sumQ_ext0; [reflexivity|]. intros; ring.
Qed.
End Matrix.
