From Coq Require Import Ascii String Lqa Qround Permutation.
From Verif Require Import Base Base_lemmas Model_Num Proof_Num Model_Graph Model_McLink Proof_Link Proof_Link4 Model_Text Model_Io Model_Mio Spec_Io Spec_Mio Proof_Text Proof_Io Proof_Io2 Proof_Mio.
Local Open Scope list_scope.
Local Open Scope Z_scope.

(** ** tables of pairs *)
Definition entry_first {V} (T : Z -> Z -> option V) (ys : list (Z * Z * V)) (o d : Z) : option V :=
  match T o d with Some v => Some v | None => first_pair ys o d end.
Lemma pair_fill {V} (row : (Z -> Z -> option V) -> text -> res (Z -> Z -> option V)) rs ys :
  Forall2 (fun l y => forall T, row T l = Ok (mfile T (fst (fst y)) (snd (fst y)) (snd y))) rs ys ->
  forall T, exists T', foldM row T rs = Ok T' /\ forall o d, T' o d = entry_first T ys o d.
Proof.
  induction 1 as [|l [[o d] v] rs ys H F IH]; intros T.
  - exists T. split; [reflexivity|]. intros o d. unfold entry_first. now destruct (T o d).
  - cbn [foldM]. rewrite H. cbn [bind fst snd]. destruct (IH (mfile T o d v)) as (T' & E & K). exists T'. split; [exact E|]. intros o' d'. rewrite K.
    unfold entry_first, mfile, first_pair. cbn [find fst snd]. destruct (T o d) eqn:Eo.
    + destruct (T o' d') eqn:Eo'; [reflexivity|]. destruct (Z.eqb_spec o o') as [->|N]; cbn [andb]; [|reflexivity]. destruct (Z.eqb_spec d d') as [->|N]; [congruence|reflexivity].
    + destruct (Z.eqb_spec o' o) as [->|N]; cbn [andb].
      * destruct (Z.eqb_spec d' d) as [->|N]; [rewrite Eo, !Z.eqb_refl; reflexivity|]. destruct (T o d'); [reflexivity|]. rewrite Z.eqb_refl. cbn [andb]. destruct (Z.eqb_spec d d') as [->|]; [congruence|reflexivity].
      * destruct (T o' d'); [reflexivity|]. destruct (Z.eqb_spec o o') as [->|]; [congruence|reflexivity].
Qed.
Lemma first_pair_map {V W} (g : V -> W) xs o d : first_pair (map (fun x => (fst x, g (snd x))) xs) o d = option_map g (first_pair xs o d).
Proof.
  unfold first_pair. induction xs as [|[[o' d'] v] xs IH]; [reflexivity|]. cbn [map find fst snd]. destruct ((o' =? o) && (d' =? d))%Z; [reflexivity|exact IH].
Qed.
Lemma first_pair_In {V} (xs : list (Z * Z * V)) o d v : first_pair xs o d = Some v -> In (o, d, v) xs.
Proof.
  unfold first_pair. destruct (find _ xs) as [[[o' d'] w]|] eqn:E; [|discriminate]. intros [= <-]. apply find_some in E as [I B]. cbn [fst snd] in B.
  apply Bool.andb_true_iff in B as [B1 B2]. apply Z.eqb_eq in B1, B2. now subst.
Qed.

(** ** minutes *)
Lemma floor_one x : (1 <=? Qfloor x)%Z = true <-> (1 <= x)%Q.
Proof.
  rewrite Z.leb_le. split; intros H.
  - pose proof (Qfloor_le x). assert ((inject_Z 1 <= inject_Z (Qfloor x))%Q) by (rewrite <- Zle_Qle; exact H). change (inject_Z 1) with 1%Q in *. lra.
  - change 1 with (Qfloor 1). apply Qfloor_resp_le. exact H.
Qed.
Lemma spread_spec fs d nm : forall k, (k <= nm)%nat ->
  (exists j, (1 <= j <= k)%nat /\ spread fs d nm k = repeat (d / inject_Z (Z.of_nat j))%Q j ++ repeat 0%Q (nm - j) /\ (1 <= d / inject_Z (Z.of_nat j) * fs)%Q /\
     forall j', (j < j' <= k)%nat -> (d / inject_Z (Z.of_nat j') * fs < 1)%Q) \/
  (spread fs d nm k = repeat 0%Q nm /\ forall j', (1 <= j' <= k)%nat -> (d / inject_Z (Z.of_nat j') * fs < 1)%Q).
Proof.
  induction k as [|k IH]; intros H.
  - right. split; [reflexivity|]. intros j' Hj. lia.
  - cbn [spread]. destruct (1 <=? Qfloor _)%Z eqn:B.
    + apply floor_one in B. left. exists (S k). split; [lia|]. split; [reflexivity|]. split; [exact B|]. intros j' Hj. lia.
    + assert (L : (d / inject_Z (Z.of_nat (S k)) * fs < 1)%Q).
      { destruct (Qlt_le_dec (d / inject_Z (Z.of_nat (S k)) * fs) 1) as [L|L]; [exact L|]. apply floor_one in L. congruence. }
      destruct (IH ltac:(lia)) as [(j & Hj & E & G & M)|(E & M)].
      * left. exists j. split; [lia|]. split; [exact E|]. split; [exact G|]. intros j' Hj'. destruct (Nat.eq_dec j' (S k)) as [->|N]; [exact L|]. apply M. lia.
      * right. split; [exact E|]. intros j' Hj'. destruct (Nat.eq_dec j' (S k)) as [->|N]; [exact L|]. apply M. lia.
Qed.
Lemma spread_len fs d nm k : (k <= nm)%nat -> length (spread fs d nm k) = nm.
Proof.
  intros H. destruct (spread_spec fs d nm k H) as [(j & Hj & -> & _)|(-> & _)]; rewrite ?app_length, ?repeat_length; lia.
Qed.
Definition msplit (sk : Z) (fs : Q) (nm : nat) (d : Q) : list Q := if (sk =? 0)%Z then d :: repeat 0%Q (pred nm) else spread fs d nm nm.
Lemma minutes_ok sk fs nm d : sk = 0 \/ sk = 1 -> (0 < nm)%nat \/ sk = 1 -> minutes sk fs nm d = Ok (msplit sk fs nm d).
Proof. unfold minutes, msplit. intros [-> | ->] H; cbn; [|reflexivity]. destruct nm; [destruct H; [lia|discriminate]|reflexivity]. Qed.
Lemma msplit_len sk fs nm d : (0 < nm)%nat \/ sk <> 0 -> length (msplit sk fs nm d) = nm.
Proof.
  unfold msplit. intros H. destruct (Z.eqb_spec sk 0) as [->|N]; [|apply spread_len; lia]. cbn [length]. rewrite repeat_length. destruct H; [lia|congruence].
Qed.
Lemma msplit_at_once fs d : at_once d (msplit 0 fs 15 d). Proof. reflexivity. Qed.
Lemma msplit_evenly fs d : (1 <= d * fs)%Q -> evenly fs d (msplit 1 fs 15 d).
Proof.
  intros H. unfold msplit. change (1 =? 0)%Z with false. cbv iota. destruct (spread_spec fs d 15 15 (Nat.le_refl 15)) as [(j & Hj & E & G & M)|(E & M)].
  - exists j. split; [exact Hj|]. split; [exact E|]. split; [exact G|exact M].
  - exfalso. specialize (M 1%nat ltac:(lia)). change (inject_Z (Z.of_nat 1)) with 1%Q in M. assert (K : (d / 1 == d)%Q) by field. rewrite K in M. lra.
Qed.
Lemma msplit_lost fs d nm : (d * fs < 1)%Q -> msplit 1 fs nm d = repeat 0%Q nm.
Proof.
  intros H. unfold msplit. change (1 =? 0)%Z with false. cbv iota. destruct (spread_spec fs d nm nm (Nat.le_refl nm)) as [(j & Hj & E & G & M)|(E & M)]; [|exact E].
  exfalso. assert (P : (1 <= inject_Z (Z.of_nat j))%Q) by (change 1%Q with (inject_Z 1); rewrite <- Zle_Qle; lia).
  assert (K : (d / inject_Z (Z.of_nat j) * fs == (d * fs) / inject_Z (Z.of_nat j))%Q) by (field; intros Z0; rewrite Z0 in P; lra).
  rewrite K in G. assert (G2 : (1 * inject_Z (Z.of_nat j) <= (d * fs) / inject_Z (Z.of_nat j) * inject_Z (Z.of_nat j))%Q) by (apply Qmult_le_compat_r; lra).
  assert (K2 : ((d * fs) / inject_Z (Z.of_nat j) * inject_Z (Z.of_nat j) == d * fs)%Q) by (field; intros Z0; rewrite Z0 in P; lra). rewrite K2 in G2. lra.
Qed.

Lemma concat_len {A} (ls : list (list A)) n : Forall (fun l => length l = n) ls -> length (concat ls) = (length ls * n)%nat.
Proof. induction 1 as [|l ls H F IH]; [reflexivity|]. cbn [concat length Nat.mul]. rewrite app_length, IH, H. reflexivity. Qed.
Lemma skip_concat {A} n : forall j (ls : list (list A)), Forall (fun l => length l = n) ls -> skipn (j * n) (concat ls) = concat (skipn j ls).
Proof.
  induction j as [|j IH]; intros ls F; [reflexivity|]. destruct F as [|l ls H F]; [cbn; apply skipn_nil|]. cbn [concat skipn Nat.mul].
  rewrite skipn_app, H. rewrite skipn_all2 by lia. replace (n + j * n - n)%nat with (j * n)%nat by lia. cbn [app]. now apply IH.
Qed.
Lemma interval_concat (ls : list (list Q)) j l : Forall (fun l => length l = 15%nat) ls -> nth_error ls j = Some l -> interval15 (concat ls) j = l.
Proof.
  intros F N. unfold interval15. rewrite (skip_concat 15 j ls F). apply nth_error_split in N as (a & b & -> & <-). rewrite skipn_app, skipn_all, Nat.sub_diag. cbn [app skipn concat].
  rewrite firstn_app. apply Forall_app in F as [_ F]. inversion F as [|? ? H _]; subst. rewrite H, Nat.sub_diag. change (firstn 0 (concat b)) with (@nil Q). rewrite app_nil_r. rewrite <- H. apply firstn_all.
Qed.

(** ** demand *)
Lemma mapR_map {A B C} (g : A -> res B) (h : B -> C) (k : B -> res C) l v : Forall2 (fun w q => g w = Ok q) l v -> (forall q, k q = Ok (h q)) ->
  mapR (fun w => do q <- g w; k q) l = Ok (map h v).
Proof. intros F K. apply mapR_Forall2. induction F as [|w q l v E F IH]; cbn [map]; constructor; [rewrite E; cbn [bind]; apply K|exact IH]. Qed.
Lemma two_words (w0 w1 : text) wc wt (max : nat) : length wc = max -> length wt = max ->
  (length (w0 :: w1 :: wc ++ wt) =? max * 2 + 2)%nat = true /\ firstn max (skipn 2 (w0 :: w1 :: wc ++ wt)) = wc /\ firstn max (skipn (2 + max) (w0 :: w1 :: wc ++ wt)) = wt.
Proof.
  intros H1 H2. split; [apply Nat.eqb_eq; cbn [length]; rewrite app_length; lia|]. cbn [skipn]. split.
  - rewrite firstn_app, H1, Nat.sub_diag. cbn [firstn]. rewrite app_nil_r, <- H1. apply firstn_all.
  - change (skipn (2 + max) (w0 :: w1 :: wc ++ wt)) with (skipn max (wc ++ wt)). rewrite skipn_app, skipn_all2 by lia. replace (max - length wc)%nat with O by lia. cbn [app skipn]. rewrite <- H2. apply firstn_all.
Qed.
Lemma lookup_some {V} (m : list (Z * V)) k : lookup m k <> None -> exists v, lookup m k = Some v.
Proof. destruct (lookup m k); [eauto|contradiction]. Qed.
(** what is stored for a row *)
Definition stored (sk : Z) (fs : Q) (nm : nat) (v : list Q) : list Q := firstn (length v * 15) (concat (map (msplit sk fs nm) v)).
Lemma mdemand_row_gen stod sk fs max nm x T l o d vc vt : says_mpair stod (Z.of_nat max) l (o, d, (vc, vt)) -> present x o d ->
  sk = 0 \/ sk = 1 -> (0 < nm)%nat \/ sk = 1 ->
  mdemand_row stod sk fs max nm x T l = do c <- copy15 max (concat (map (msplit sk fs nm) vc)); do t <- copy15 max (concat (map (msplit sk fs nm) vt)); Ok (mfile T o d (c, t)).
Proof.
  intros (w0 & w1 & wc & wt & W & A & B & L1 & L2 & F1 & F2) [Ho Hd] Hsk Hnm. cbn [fst snd] in *. apply split_words in W. apply stoi_reads in A, B.
  destruct (two_words w0 w1 wc wt max ltac:(lia) ltac:(lia)) as (K1 & K2 & K3). unfold mdemand_row. rewrite W, K1. cbn [word nth]. rewrite A, B. cbn [bind]. rewrite K2, K3.
  rewrite (mapR_map stod (msplit sk fs nm) _ wc vc F1) by (intros q; now apply minutes_ok). cbn [bind].
  rewrite (mapR_map stod (msplit sk fs nm) _ wt vt F2) by (intros q; now apply minutes_ok). cbn [bind].
  destruct (lookup_some _ _ Ho) as [? ->], (lookup_some _ _ Hd) as [? ->]. reflexivity.
Qed.
Lemma f2_len {A B} (P : A -> B -> Prop) l l' : Forall2 P l l' -> length l = length l'.
Proof. induction 1; cbn [length]; congruence. Qed.
Lemma says_len stod max l o d vc vt : says_mpair stod max l (o, d, (vc, vt)) -> Z.of_nat (length vc) = max /\ Z.of_nat (length vt) = max.
Proof. intros (w0 & w1 & wc & wt & _ & _ & _ & L1 & L2 & F1 & F2). cbn [fst snd] in *. apply f2_len in F1, F2. lia. Qed.
Lemma copy15_ok sk fs nm v : (15 <= nm)%nat -> copy15 (length v) (concat (map (msplit sk fs nm) v)) = Ok (stored sk fs nm v).
Proof.
  intros H. unfold copy15, stored. rewrite (concat_len _ nm); [|apply Forall_forall; intros l I; apply in_map_iff in I as (q & <- & _); apply msplit_len; lia].
  rewrite map_length. assert (B : (length v * 15 <=? length v * nm)%nat = true) by (apply Nat.leb_le; nia). rewrite B. reflexivity.
Qed.
Lemma copy15_short sk fs nm v : (nm < 15)%nat -> (0 < nm)%nat \/ sk <> 0 -> v <> [] -> copy15 (length v) (concat (map (msplit sk fs nm) v)) = Err EUB.
Proof.
  intros H P N. unfold copy15. rewrite (concat_len _ nm); [|apply Forall_forall; intros l I; apply in_map_iff in I as (q & <- & _); now apply msplit_len].
  rewrite map_length. destruct v as [|q v]; [contradiction|]. assert (B : (length (q :: v) * 15 <=? length (q :: v) * nm)%nat = false) by (apply Nat.leb_gt; cbn [length]; nia). rewrite B. reflexivity.
Qed.
Lemma mdemand_rows_ok stod sk fs max nm x rs xs : Forall2 (says_mpair stod (Z.of_nat max)) rs xs -> (forall y, In y xs -> present x (fst (fst y)) (snd (fst y))) ->
  sk = 0 \/ sk = 1 -> (15 <= nm)%nat ->
  forall T, exists T', foldM (mdemand_row stod sk fs max nm x) T rs = Ok T' /\
    forall o d, T' o d = entry_first T (map (fun y => (fst y, (stored sk fs nm (fst (snd y)), stored sk fs nm (snd (snd y))))) xs) o d.
Proof.
  intros F P Hsk Hnm. apply pair_fill. induction F as [|l [[o d] [vc vt]] rs xs S0 F IH]; cbn [map]; constructor.
  - intros T. cbn [fst snd]. destruct (says_len _ _ _ _ _ _ _ S0) as [L1 L2].
    rewrite (mdemand_row_gen stod sk fs max nm x T l o d vc vt S0 (P (o, d, (vc, vt)) (or_introl eq_refl)) Hsk ltac:(lia)).
    replace max with (length vc) by lia. rewrite copy15_ok by exact Hnm. cbn [bind]. replace (length vc) with (length vt) by lia. rewrite copy15_ok by exact Hnm. reflexivity.
  - apply IH. intros y I. apply P. now right.
Qed.
Lemma stored_15 sk fs v : stored sk fs 15 v = concat (map (msplit sk fs 15) v) /\ forall j d, nth_error v j = Some d -> interval15 (stored sk fs 15 v) j = msplit sk fs 15 d.
Proof.
  assert (F : Forall (fun l => length l = 15%nat) (map (msplit sk fs 15) v)) by (apply Forall_forall; intros l I; apply in_map_iff in I as (q & <- & _); apply msplit_len; lia).
  assert (E : stored sk fs 15 v = concat (map (msplit sk fs 15) v)).
  { unfold stored. rewrite <- (map_length (msplit sk fs 15) v), <- (concat_len _ 15 F). apply firstn_all. }
  split; [exact E|]. intros j d N. rewrite E. apply interval_concat; [exact F|]. now apply map_nth_error.
Qed.
