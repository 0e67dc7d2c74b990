(** Registration, matrices. *)
From Verif Require Import Base Base_lemmas Model_Num Proof_Num Model_CC Spec_CC Proof_CC Model_Link Spec_Link Proof_Link Proof_Link3 Proof_Link4 Model_World Model_Node Proof_Node Model_Sim Proof_Sim1
  Model_Grad Spec_Grad Proof_Grad1 Model_Dso Proof_Dso Model_Api Spec_Api Proof_McNode4.
Local Open Scope Z_scope.

(** ** arrays *)
Lemma nd_read_list {A} (a : ndarray A) : nd_stride a = 1 \/ (nd_len a <= 1)%nat -> nd_read a = nd_list a.
Proof.
  intros H. unfold nd_read, nd_list. apply map_ext_in. intros i Hi. apply in_seq in Hi. f_equal. destruct H as [->|H]; [lia|]. assert (i = 0%nat) as -> by lia. lia.
Qed.

(** ** registration *)
Lemma reg_links_ok known : forall ids acc, (forall l, In l ids -> known l = true) -> NoDup ids -> (forall l, In l ids -> ~ In l acc) -> reg_links known acc ids = (acc ++ ids, None).
Proof.
  induction ids as [|l ids IH]; intros acc K ND H; cbn [reg_links]; [now rewrite app_nil_r|]. rewrite (K l) by now left.
  apply NoDup_cons_iff in ND as [Nl ND]. destruct (memb l acc) eqn:M; [apply memb_In in M; destruct (H l (or_introl eq_refl) M)|].
  rewrite IH; [now rewrite <- app_assoc|intros x Hx; apply K; now right|exact ND|]. intros x Hx Hi. apply in_app_iff in Hi as [Hi|[->|[]]]; [|contradiction].
  exact (H x (or_intror Hx) Hi).
Qed.
Lemma reg_links_inv known : forall ids acc, exists k e, (k <= length ids)%nat /\ reg_links known acc ids = (acc ++ firstn k ids, e) /\
  ((e = None /\ k = length ids /\ (forall l, In l ids -> known l = true /\ ~ In l acc) /\ NoDup ids) \/
   (e = Some EThrow /\ exists l, nth_error ids k = Some l /\ (known l = false \/ In l acc \/ In l (firstn k ids)))).
Proof.
  induction ids as [|l ids IH]; intros acc; cbn [reg_links].
  - exists 0%nat, None. split; [lia|]. split; [now rewrite app_nil_r|]. left. split; [reflexivity|]. split; [reflexivity|]. split; [intros ? []|constructor].
  - destruct (known l) eqn:Kl.
    2:{ exists 0%nat, (Some EThrow). split; [cbn; lia|]. cbn [firstn]. rewrite app_nil_r. split; [reflexivity|]. right. split; [reflexivity|]. exists l. auto. }
    destruct (memb l acc) eqn:M.
    { exists 0%nat, (Some EThrow). split; [cbn; lia|]. cbn [firstn]. rewrite app_nil_r. split; [reflexivity|]. right. split; [reflexivity|]. exists l. apply memb_In in M. auto. }
    destruct (IH (acc ++ [l])) as (k & e & Lk & E & C). exists (S k), e. split; [cbn [length]; lia|]. split; [rewrite E; cbn [firstn]; now rewrite <- app_assoc|].
    destruct C as [(-> & -> & A & ND)|(-> & x & N & C)].
    + left. split; [reflexivity|]. split; [reflexivity|]. split.
      * intros x [<-|Hx]; [split; [exact Kl|now apply memb_false]|]. destruct (A x Hx) as [B D]. split; [exact B|]. intros I. apply D, in_app_iff. now left.
      * constructor; [|exact ND]. intros I. destruct (A l I) as [_ D]. apply D, in_app_iff. right. now left.
    + right. split; [reflexivity|]. exists x. split; [exact N|]. destruct C as [C|[C|C]]; [auto| |right; right; now right].
      apply in_app_iff in C as [C|[->|[]]]; [auto|right; right; now left].
Qed.

Lemma path_index_insert m k v p : path_index (map_insert m k v) p = match path_index m p with Some x => Some x | None => if k =? p then Some v else None end.
Proof.
  unfold map_insert. destruct (find (fun e => fst e =? k) m) eqn:F.
  - unfold path_index. destruct (Z.eqb_spec k p) as [->|Ne]; [rewrite F; reflexivity|]. destruct (find (fun e => fst e =? p) m); reflexivity.
  - unfold path_index. assert (X : find (fun e => fst e =? p) (m ++ [(k, v)]) = match find (fun e => fst e =? p) m with Some x => Some x | None => if k =? p then Some (k, v) else None end).
    { clear F. induction m as [|e m IH]; cbn [app find fst]; [destruct (k =? p); reflexivity|]. destruct (fst e =? p); [reflexivity|exact IH]. }
    rewrite X. destruct (find (fun e => fst e =? p) m); [reflexivity|]. destruct (k =? p); reflexivity.
Qed.
Lemma reg_paths_inv known : forall ids g i, exists k e, reg_paths known g i ids = (fst (reg_paths known g i ids), e) /\
  g_vec (fst (reg_paths known g i ids)) = g_vec g ++ firstn k ids /\
  ((e = None /\ k = length ids /\ forall p, In p ids -> known p = true) \/ (e = Some EThrow /\ exists p, nth_error ids k = Some p /\ known p = false)).
Proof.
  induction ids as [|p ids IH]; intros g i; cbn [reg_paths].
  - exists 0%nat, None. split; [reflexivity|]. cbn [fst firstn]. rewrite app_nil_r. split; [reflexivity|]. left. split; [reflexivity|]. split; [reflexivity|]. intros ? [].
  - destruct (known p) eqn:Kp.
    2:{ exists 0%nat, (Some EThrow). split; [reflexivity|]. cbn [fst firstn]. rewrite app_nil_r. split; [reflexivity|]. right. split; [reflexivity|]. exists p. auto. }
    destruct (IH {| g_vec := g_vec g ++ [p]; g_map := map_insert (g_map g) p i |} (i + 1)) as (k & e & E & V & C). exists (S k), e. split; [exact E|].
    split; [rewrite V; cbn [g_vec firstn]; now rewrite <- app_assoc|].
    destruct C as [(-> & -> & A)|(-> & x & N & C)]; [left; split; [reflexivity|]; split; [reflexivity|]; intros x [<-|Hx]; auto|].
    right. split; [reflexivity|]. exists x. auto.
Qed.
(** the index of a path is its first position *)
Lemma reg_paths_index known : forall ids g i g' p, reg_paths known g i ids = (g', None) -> path_index (g_map g) p = None ->
  (path_index (g_map g') p = None /\ ~ In p ids) \/ exists j, first_at ids p j /\ path_index (g_map g') p = Some (i + Z.of_nat j).
Proof.
  assert (Keep : forall known ids g i g' p x, reg_paths known g i ids = (g', None) -> path_index (g_map g) p = Some x -> path_index (g_map g') p = Some x).
  { intros kn. induction ids as [|q ids IH]; intros g i g' p x H P; cbn [reg_paths] in H; [injection H as <-; exact P|].
    destruct (kn q); [|discriminate]. eapply IH; [exact H|]. cbn [g_map]. rewrite path_index_insert, P. reflexivity. }
  induction ids as [|q ids IH]; intros g i g' p H P; cbn [reg_paths] in H; [injection H as <-; left; auto|].
  destruct (known q); [|discriminate]. destruct (Z.eq_dec q p) as [->|Ne].
  - right. exists 0%nat. split; [split; [reflexivity|intros; lia]|]. rewrite Z.add_0_r. eapply Keep; [exact H|]. cbn [g_map]. rewrite path_index_insert, P, Z.eqb_refl. reflexivity.
  - destruct (IH _ _ _ p H) as [(A & B)|(j & (F1 & F2) & B)].
    + cbn [g_map]. rewrite path_index_insert, P. destruct (Z.eqb_spec q p); [contradiction|reflexivity].
    + left. split; [exact A|]. intros [E|I]; contradiction.
    + right. exists (S j). split; [split; [exact F1|]|rewrite B; f_equal; lia]. intros k Hk. destruct k as [|k]; [cbn; congruence|]. apply F2. lia.
Qed.
(** the map has one entry per path *)
Lemma reg_paths_size known : forall ids g i g', reg_paths known g i ids = (g', None) -> NoDup ids -> (forall p, In p ids -> path_index (g_map g) p = None) ->
  Zlen (g_map g') = Zlen (g_map g) + Zlen ids.
Proof.
  induction ids as [|q ids IH]; intros g i g' H ND P; cbn [reg_paths] in H; [injection H as <-; unfold Zlen; cbn; lia|].
  destruct (known q); [|discriminate]. apply NoDup_cons_iff in ND as [Nq ND]. rewrite (IH _ _ _ H ND).
  - cbn [g_map]. unfold map_insert. pose proof (P q (or_introl eq_refl)) as Pq. unfold path_index in Pq. destruct (find _ (g_map g)); [discriminate|]. rewrite Zlen_app.
    unfold Zlen. cbn [length]. lia.
  - intros p Hp. cbn [g_map]. rewrite path_index_insert, (P p) by now right. destruct (Z.eqb_spec q p) as [->|]; [contradiction|reflexivity].
Qed.

(** ** matrices *)
Section Fill.
Context {A St : Type} (check : Z -> res unit) (entry : St -> Z -> Z -> res (St * A)) (nl l : nat).
Notation cell i t := (Z.to_nat (i * Z.of_nat l + t)).
Definition inner (x : St * list A) (t : Z) (k : Z) (n : nat) : res (St * list A) :=
  foldM (fun y i => do z <- entry (fst y) i t; do r <- row_set (snd y) (i * Z.of_nat l + t) (snd z); Ok (fst z, r)) x (ints k n).
Lemma cell_inj i t i' t' : 0 <= i -> 0 <= i' -> 0 <= t < Z.of_nat l -> 0 <= t' < Z.of_nat l -> cell i t = cell i' t' -> i = i' /\ t = t'.
Proof.
  intros Hi Hi' Ht Ht' E. apply Z2Nat.inj in E; [|nia|nia]. assert (i = i'); [|lia].
  destruct (Z.lt_trichotomy i i') as [L|[L|L]]; [|exact L|]; nia.
Qed.
Lemma cell_in i t m : Zlen m = Z.of_nat nl * Z.of_nat l -> 0 <= i < Z.of_nat nl -> 0 <= t < Z.of_nat l -> 0 <= i * Z.of_nat l + t < Zlen (A := A) m.
Proof. intros -> Hi Ht. nia. Qed.

Context (I : St -> Prop) (R : Z -> Z -> A -> Prop).
Definition got (m : list A) (i t : Z) : Prop := exists a, nth_error m (cell i t) = Some a /\ R i t a.
Lemma got_put m i t a i' t' : Zlen m = Z.of_nat nl * Z.of_nat l -> 0 <= i < Z.of_nat nl -> 0 <= t < Z.of_nat l -> 0 <= i' < Z.of_nat nl -> 0 <= t' < Z.of_nat l -> R i t a ->
  (i = i' /\ t = t') \/ got m i' t' -> got (put m (cell i t) a) i' t'.
Proof.
  intros Lm Hi Ht Hi' Ht' Ra C. destruct (Nat.eq_dec (cell i t) (cell i' t')) as [E|Ne].
  - destruct (cell_inj i t i' t') as [-> ->]; auto; try lia. exists a. split; [|exact Ra]. apply put_same. pose proof (cell_in i' t' m Lm Hi Ht). unfold Zlen in *. lia.
  - destruct C as [[-> ->]|(b & N & Rb)]; [congruence|]. exists b. split; [rewrite put_other by exact Ne; exact N|exact Rb].
Qed.

(** inversion: what a computed matrix contains *)
Section Inv.
Context (HE : forall s i t s' a, I s -> 0 <= i < Z.of_nat nl -> 0 <= t < Z.of_nat l -> entry s i t = Ok (s', a) -> I s' /\ R i t a).
Lemma inner_inv t : 0 <= t < Z.of_nat l -> forall n k x x', 0 <= k -> k + Z.of_nat n = Z.of_nat nl -> inner x t k n = Ok x' -> I (fst x) -> Zlen (snd x) = Z.of_nat nl * Z.of_nat l ->
  I (fst x') /\ Zlen (snd x') = Z.of_nat nl * Z.of_nat l /\ (forall i t', 0 <= i < Z.of_nat nl -> 0 <= t' < Z.of_nat l -> (t' = t /\ k <= i) \/ got (snd x) i t' -> got (snd x') i t').
Proof.
  intros Ht. induction n as [|n IH]; intros k x x' Hk En H Ix Lx.
  - unfold inner in H. cbn in H. apply Ok_inj in H as <-. split; [exact Ix|]. split; [exact Lx|]. intros i t' Hi Ht' [C|C]; [lia|exact C].
  - unfold inner in H. rewrite ints_S in H. cbn [foldM] in H. apply bind_ok in H as (y & Hy & H). apply bind_ok in Hy as ((s & a) & Ha & Hy). cbn [fst snd] in Hy. apply bind_ok in Hy as (r & Hr & Hy). apply Ok_inj in Hy as <-.
    assert (Hki : 0 <= k < Z.of_nat nl) by lia. destruct (HE _ _ _ _ _ Ix Hki Ht Ha) as [Is Ra].
    rewrite row_set_ok in Hr by (apply cell_in; auto). apply Ok_inj in Hr as <-.
    destruct (IH (k + 1) _ x' ltac:(lia) ltac:(lia) H) as (I' & L' & G); cbn [fst snd]; [exact Is|rewrite put_Zlen; exact Lx|].
    split; [exact I'|]. split; [exact L'|]. intros i t' Hi Ht' C. apply G; auto. cbn [snd].
    destruct C as [[-> C]|C].
    + destruct (Z.eq_dec k i) as [->|Ne]; [right|left; lia]. apply got_put; auto.
    + right. apply got_put; auto.
Qed.
Lemma outer_inv : forall n k x x', 0 <= k -> k + Z.of_nat n = Z.of_nat l ->
  foldM (fun x t => do _ <- check t; inner x t 0 nl) x (ints k n) = Ok x' -> I (fst x) -> Zlen (snd x) = Z.of_nat nl * Z.of_nat l ->
  I (fst x') /\ Zlen (snd x') = Z.of_nat nl * Z.of_nat l /\ (forall t, k <= t < Z.of_nat l -> check t = Ok tt) /\
  (forall i t', 0 <= i < Z.of_nat nl -> 0 <= t' < Z.of_nat l -> k <= t' \/ got (snd x) i t' -> got (snd x') i t').
Proof.
  induction n as [|n IH]; intros k x x' Hk En H Ix Lx.
  - cbn in H. apply Ok_inj in H as <-. split; [exact Ix|]. split; [exact Lx|]. split; [intros; lia|]. intros i t' Hi Ht' [C|C]; [lia|exact C].
  - rewrite ints_S in H. cbn [foldM] in H. apply bind_ok in H as (y & Hy & H). apply bind_ok in Hy as ([] & Hc & Hy).
    destruct (inner_inv k ltac:(lia) nl 0 x y ltac:(lia) ltac:(lia) Hy Ix Lx) as (Iy & Ly & Gy).
    destruct (IH (k + 1) y x' ltac:(lia) ltac:(lia) H Iy Ly) as (I' & L' & C' & G). split; [exact I'|]. split; [exact L'|].
    split; [intros t Ht; destruct (Z.eq_dec t k) as [->|]; [exact Hc|apply C'; lia]|].
    intros i t' Hi Ht' C. apply G; auto. destruct (Z.eq_dec t' k) as [->|Ne]; [right; apply Gy; auto; left; lia|]. destruct C as [C|C]; [left; lia|right; apply Gy; auto].
Qed.
End Inv.
Lemma fill_inv blank s s' m : (forall s i t s' a, I s -> 0 <= i < Z.of_nat nl -> 0 <= t < Z.of_nat l -> entry s i t = Ok (s', a) -> I s' /\ R i t a) ->
  I s -> fill_matrix check entry nl l blank s = Ok (s', m) ->
  I s' /\ Zlen m = Z.of_nat nl * Z.of_nat l /\ (forall t, 0 <= t < Z.of_nat l -> check t = Ok tt) /\ forall i t, 0 <= i < Z.of_nat nl -> 0 <= t < Z.of_nat l -> got m i t.
Proof.
  intros HE Is H. unfold fill_matrix in H. destruct (outer_inv HE l 0 _ _ ltac:(lia) ltac:(lia) H Is) as (A1 & A2 & A3 & A4).
  - cbn [snd]. unfold Zlen. rewrite repeat_length. lia.
  - repeat (split; auto). intros i t Hi Ht. apply A4; auto. left. lia.
Qed.
(** totality *)
Lemma inner_tot t : (forall s i t, I s -> 0 <= i < Z.of_nat nl -> 0 <= t < Z.of_nat l -> exists s' a, entry s i t = Ok (s', a) /\ I s') -> 0 <= t < Z.of_nat l ->
  forall n k x, 0 <= k -> k + Z.of_nat n = Z.of_nat nl -> I (fst x) -> Zlen (snd x) = Z.of_nat nl * Z.of_nat l ->
  exists x', inner x t k n = Ok x' /\ I (fst x') /\ Zlen (snd x') = Z.of_nat nl * Z.of_nat l.
Proof.
  intros HE Ht. induction n as [|n IH]; intros k x Hk En Ix Lx.
  - exists x. unfold inner. auto.
  - unfold inner. rewrite ints_S. cbn [foldM]. assert (Hki : 0 <= k < Z.of_nat nl) by lia. destruct (HE _ _ _ Ix Hki Ht) as (s' & a & E & Is). rewrite E. cbn [bind fst snd].
    rewrite row_set_ok by (apply cell_in; auto). cbn [bind]. apply IH; cbn [fst snd]; [lia|lia|exact Is|rewrite put_Zlen; exact Lx].
Qed.
Lemma fill_tot blank s : (forall s i t, I s -> 0 <= i < Z.of_nat nl -> 0 <= t < Z.of_nat l -> exists s' a, entry s i t = Ok (s', a) /\ I s') -> I s ->
  (forall t, check t = Ok tt \/ check t = Err EThrow) ->
  (exists x, fill_matrix check entry nl l blank s = Ok x) \/ (fill_matrix check entry nl l blank s = Err EThrow /\ exists t, 0 <= t < Z.of_nat l /\ check t = Err EThrow).
Proof.
  intros HE Is HC. unfold fill_matrix. change (ints 0 nl) with (ints 0 nl).
  assert (X : forall n k x, 0 <= k -> k + Z.of_nat n = Z.of_nat l -> I (fst x) -> Zlen (snd x) = Z.of_nat nl * Z.of_nat l ->
     (exists x', foldM (fun x t => do _ <- check t; inner x t 0 nl) x (ints k n) = Ok x') \/
     (foldM (fun x t => do _ <- check t; inner x t 0 nl) x (ints k n) = Err EThrow /\ exists t, k <= t < Z.of_nat l /\ check t = Err EThrow)).
  { induction n as [|n IH]; intros k x Hk En Ix Lx; [left; exists x; reflexivity|].
    rewrite ints_S. cbn [foldM]. destruct (HC k) as [E|E]; rewrite E; cbn [bind]; [|right; split; [reflexivity|exists k; split; [lia|exact E]]].
    destruct (inner_tot k HE ltac:(lia) nl 0 x ltac:(lia) ltac:(lia) Ix Lx) as (y & Ey & Iy & Ly). rewrite Ey. cbn [bind].
    destruct (IH (k + 1) y ltac:(lia) ltac:(lia) Iy Ly) as [Y|(Y & t & Ht & Et)]; [left; exact Y|right; split; [exact Y|exists t; split; [lia|exact Et]]]. }
  apply (X l 0 (s, repeat blank (nl * l)) ltac:(lia) ltac:(lia) Is). cbn [snd]. unfold Zlen. rewrite repeat_length. lia.
Qed.
End Fill.

Lemma check_window_cases cur w : (check_window cur w = Ok tt /\ good_window cur w) \/ (check_window cur w = Err EThrow /\ ~ good_window cur w).
Proof.
  unfold check_window, good_window. destruct (Z.leb_spec (snd w) (fst w)), (Z.leb_spec cur (fst w)), (Z.ltb_spec cur (snd w)); auto; try (right; split; [reflexivity|lia]).
Qed.
Lemma row_at_nth {A} (r : list A) i x : nth_error r i = Some x -> row_at r (Z.of_nat i) = Ok x.
Proof. intros H. unfold row_at. destruct (Z.ltb_spec (Z.of_nat i) 0); [lia|]. now rewrite Nat2Z.id, H. Qed.
