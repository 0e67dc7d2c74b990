From Coq Require Import Ascii String Lqa Permutation.
From Verif Require Import Base Base_lemmas Model_Num Proof_Num Model_Graph Model_McLink Proof_Link Proof_Link4 Model_Text Model_Io Model_Mio Spec_Io Spec_Mio Proof_Text Proof_Io Proof_Io2 Proof_Mio Proof_Mio2.
Local Open Scope list_scope.
Local Open Scope Z_scope.

(** ** adaptive shares *)
Lemma ratio_row_ok stod max x T l y : says_ratio stod (Z.of_nat max) l y -> present x (fst (fst y)) (snd (fst y)) ->
  ratio_row stod max x T l = Ok (mfile T (fst (fst y)) (snd (fst y)) (snd y)).
Proof.
  destruct y as [[o d] v]. intros (r & St & w0 & w1 & ws & ws' & W & A & B & Len & F) [Ho Hd]. cbn [fst snd] in *. apply split_words in W. apply stoi_reads in A, B.
  unfold ratio_row. rewrite (stripped_trim _ _ St), W. cbn [length word nth skipn]. rewrite app_length.
  assert (C : (max + 2 <=? S (S (length ws + length ws')))%nat = true) by (apply Nat.leb_le; lia). rewrite C, A, B. cbn [bind].
  assert (Fn : firstn max (ws ++ ws') = ws).
  { replace max with (length ws) by lia. rewrite firstn_app, Nat.sub_diag, firstn_all. cbn. apply app_nil_r. }
  rewrite Fn, (proj2 (mapR_Forall2 stod ws v) F). cbn [bind]. destruct (lookup_some _ _ Ho) as [? ->], (lookup_some _ _ Hd) as [? ->]. reflexivity.
Qed.
Definition spread15 (v : list Q) : list Q := concat (map (fun q => repeat q 15) v).
Lemma spread15_copy v : copy15 (length v) (spread15 v) = Ok (spread15 v).
Proof.
  unfold copy15. assert (L : length (spread15 v) = (length v * 15)%nat).
  { unfold spread15. rewrite (concat_len _ 15); [now rewrite map_length|]. apply Forall_forall. intros l I. apply in_map_iff in I as (q & <- & _). apply repeat_length. }
  rewrite L, Nat.leb_refl. cbn [guard bind]. f_equal. rewrite <- L. apply firstn_all.
Qed.
Lemma spread15_interval v j q : nth_error v j = Some q -> interval15 (spread15 v) j = repeat q 15.
Proof.
  intros N. apply interval_concat; [|now apply (map_nth_error (fun q => repeat q 15))]. apply Forall_forall. intros l I. apply in_map_iff in I as (q' & <- & _). apply repeat_length.
Qed.
Lemma mratio_row_ok stod max x T l o d vc vt : says_mratio stod (Z.of_nat max) l (o, d, (vc, vt)) -> present x o d ->
  mratio_row stod max 15 x T l = Ok (mfile T o d (spread15 vc, spread15 vt)).
Proof.
  intros (r & St & S0) [Ho Hd]. destruct (says_len _ _ _ _ _ _ _ S0) as [E1 E2]. destruct S0 as (w0 & w1 & wc & wt & W & A & B & L1 & L2 & F1 & F2). cbn [fst snd] in *. apply split_words in W. apply stoi_reads in A, B.
  destruct (two_words w0 w1 wc wt max ltac:(lia) ltac:(lia)) as (K1 & K2 & K3). unfold mratio_row. rewrite (stripped_trim _ _ St), W, K1. cbn [word nth]. rewrite A, B. cbn [bind]. rewrite K2, K3.
  rewrite (proj2 (mapR_Forall2 stod wc vc) F1). cbn [bind]. rewrite (proj2 (mapR_Forall2 stod wt vt) F2). cbn [bind].
  destruct (lookup_some _ _ Ho) as [? ->], (lookup_some _ _ Hd) as [? ->]. fold (spread15 vc). fold (spread15 vt).
  replace max with (length vc) by lia. rewrite spread15_copy. cbn [bind]. replace (length vc) with (length vt) by lia. rewrite spread15_copy. reflexivity.
Qed.

(** ** remarks *)
Lemma blank_words l : Forall (eq ch_space) l -> split l ch_space = [].
Proof. intros F. apply split_words. induction F as [|c l <- F IH]; [constructor|]. now constructor. Qed.
Lemma blank_trim l : Forall (eq ch_space) l -> trim l = [].
Proof.
  intros F. apply stripped_trim. exists l, []. rewrite app_nil_r. repeat split; try (now constructor); try (intros; discriminate).
  - eapply Forall_impl; [|exact F]. intros c <-. repeat (first [left; reflexivity | right]). reflexivity.
  - intros c r' E. destruct r'; discriminate.
Qed.
Lemma hash_words r : exists w ws, split (ch_hash :: r) ch_space = (ch_hash :: w) :: ws.
Proof.
  pose proof (split_tokens (ch_hash :: r) ch_space) as H. remember (ch_hash :: r) as s eqn:E. destruct H as [|s ws H|w s ws H1 H2 H3 H4].
  - discriminate.
  - injection E as E _. discriminate E.
  - destruct w as [|c w]; [contradiction|]. injection E as -> _. eauto.
Qed.
Lemma hash_trim r : exists r', trim (ch_hash :: r) = ch_hash :: r'.
Proof.
  destruct (trim_stripped (ch_hash :: r)) as (a & b & E & Fa & Fb & _). destruct a as [|c a].
  - cbn [app] in E. destruct (trim (ch_hash :: r)) as [|c t]; [|injection E as <- _; eauto].
    exfalso. cbn [app] in E. rewrite <- E in Fb. inversion Fb as [|? ? S0 _]. apply isspace_iff in S0. discriminate S0.
  - exfalso. injection E as <- _. inversion Fa as [|? ? S0 _]. apply isspace_iff in S0. discriminate S0.
Qed.
Lemma hash_stoi w : stoi (ch_hash :: w) = Err EThrow. Proof. reflexivity. Qed.
Lemma ratio_remark stod max x T l : remark l -> ratio_row stod max x T l = Err EThrow.
Proof.
  unfold ratio_row. intros [F|(r & ->)].
  - rewrite (blank_trim l F). change (split [] ch_space) with (@nil text). cbn [length]. destruct (max + 2)%nat eqn:E; [lia|reflexivity].
  - destruct (hash_trim r) as (r' & ->). destruct (hash_words r') as (w & ws & ->). destruct (_ <=? _)%nat; [|reflexivity]. cbn [word nth]. now rewrite hash_stoi.
Qed.
Lemma mratio_remark stod max nm x T l : remark l -> mratio_row stod max nm x T l = Err EThrow.
Proof.
  unfold mratio_row. intros [F|(r & ->)].
  - rewrite (blank_trim l F). change (split [] ch_space) with (@nil text). cbn [length]. destruct (max * 2 + 2)%nat eqn:E; [lia|reflexivity].
  - destruct (hash_trim r) as (r' & ->). destruct (hash_words r') as (w & ws & ->). destruct (_ =? _)%nat; [|reflexivity]. cbn [word nth]. now rewrite hash_stoi.
Qed.
Lemma td_remark stod T l : remark l -> td_line stod T l = Err EThrow.
Proof.
  unfold td_line. intros [F|(r & ->)].
  - rewrite (blank_words l F). reflexivity.
  - destruct (hash_words r) as (w & ws & ->). destruct (_ =? _)%nat; [|reflexivity]. cbn [word nth]. now rewrite hash_stoi.
Qed.
Lemma td1_remark stod T l : remark l -> td_line1 stod T l = Err EThrow.
Proof.
  unfold td_line1. intros [F|(r & ->)].
  - rewrite (blank_words l F). reflexivity.
  - destruct (hash_words r) as (w & ws & ->). destruct (_ =? _)%nat; [|reflexivity]. cbn [word nth]. now rewrite hash_stoi.
Qed.
Lemma hash_trim_stoi w : stoi (trim (ch_hash :: w)) = Err EThrow.
Proof. destruct (hash_trim w) as (r' & ->). reflexivity. Qed.
Lemma toll_remark stof known T l : remark l -> toll_row stof known T l = Err EThrow.
Proof.
  unfold toll_row. intros [F|(r & ->)].
  - rewrite (blank_words l F). reflexivity.
  - destruct (hash_words r) as (w & ws & ->). destruct (_ =? _)%nat; [|reflexivity]. cbn [word nth]. now rewrite hash_trim_stoi.
Qed.
Lemma mtoll_remark stof known T l : remark l -> mtoll_row stof known T l = Err EThrow.
Proof.
  unfold mtoll_row. intros [F|(r & ->)].
  - rewrite (blank_words l F). reflexivity.
  - destruct (hash_words r) as (w & ws & ->). destruct (_ =? _)%nat; [|reflexivity]. cbn [word nth]. now rewrite hash_trim_stoi.
Qed.

(** ** tolls *)
Lemma last_of_app {V} (xs : list (Z * V)) k v k' : last_of (xs ++ [(k, v)]) k' = if (k =? k')%Z then Some v else last_of xs k'.
Proof. unfold last_of. rewrite rev_app_distr. unfold first_of. cbn [rev app find fst]. destruct (k =? k')%Z; reflexivity. Qed.
Lemma last_of_cons {V} (xs : list (Z * V)) k v k' : last_of ((k, v) :: xs) k' = match last_of xs k' with Some w => Some w | None => if (k =? k')%Z then Some v else None end.
Proof. unfold last_of. cbn [rev]. rewrite first_of_app, first_of_one. reflexivity. Qed.
Lemma toll_row_ok stof known T l x : says_toll stof l x -> known (fst x) = true ->
  toll_row stof known T l = Ok (fun k => if (k =? fst x)%Z then snd x else T k).
Proof.
  intros (w0 & w1 & r0 & r1 & W & S0 & S1 & R & F) K. apply split_words in W. unfold toll_row. rewrite W. cbn [length Nat.eqb word nth].
  rewrite (stripped_trim _ _ S0), (stripped_trim _ _ S1). apply stoi_reads in R. rewrite R. cbn [bind]. rewrite K. cbn [guard bind]. rewrite F. reflexivity.
Qed.
Lemma mtoll_row_ok stof known T l x : says_mtoll stof l x -> known (fst x) = true ->
  mtoll_row stof known T l = Ok (fun k => if (k =? fst x)%Z then {| tl_all := fst (snd x); tl_car := fst (snd x); tl_truck := snd (snd x) |} else T k).
Proof.
  intros (w0 & w1 & w2 & r0 & r1 & r2 & W & S0 & S1 & S2 & R & F & G) K. apply split_words in W. unfold mtoll_row. rewrite W. cbn [length Nat.eqb word nth].
  rewrite (stripped_trim _ _ S0), (stripped_trim _ _ S1), (stripped_trim _ _ S2). apply stoi_reads in R. rewrite R. cbn [bind]. rewrite K. cbn [guard bind]. rewrite F. cbn [bind]. rewrite G. reflexivity.
Qed.
Lemma toll_fill {V W} (row : (Z -> W) -> text -> res (Z -> W)) (says : text -> Z * V -> Prop) (g : V -> W) ls xs :
  Forall2 says ls xs -> (forall l x T, In x xs -> says l x -> row T l = Ok (fun k => if (k =? fst x)%Z then g (snd x) else T k)) ->
  forall T, exists T', foldM row T ls = Ok T' /\ forall k, T' k = match last_of xs k with Some v => g v | None => T k end.
Proof.
  induction 1 as [|l [k v] ls xs S0 F IH]; intros H T.
  - exists T. split; reflexivity.
  - cbn [foldM]. rewrite (H l (k, v) T (or_introl eq_refl) S0). cbn [bind]. edestruct IH as (T' & E & K); [intros; apply H; auto; now right|].
    exists T'. split; [exact E|]. intros k'. rewrite K, last_of_cons. cbn [fst snd]. destruct (last_of xs k'); [reflexivity|]. rewrite (Z.eqb_sym k k'). destruct (k' =? k)%Z; reflexivity.
Qed.

(** ** labels *)
Lemma label_row_ok stof known labels L l x : says_labels stof labels l x -> known (fst x) = true -> 0 < labels ->
  label_row stof known (Z.to_nat labels) L l = Ok (fun o => if (o =? fst x)%Z then L o ++ snd x else L o).
Proof.
  intros (w & ws & W & Len & R & F) K P. apply split_words in W. unfold label_row. rewrite W. cbn [length].
  assert (B : (S (length ws) =? 1 + Z.to_nat labels)%nat = true) by (apply Nat.eqb_eq; lia). rewrite B. cbn [word nth skipn]. apply stoi_reads in R. rewrite R. cbn [bind]. rewrite K. cbn [guard bind].
  rewrite (proj2 (mapR_Forall2 stof ws (snd x)) F). reflexivity.
Qed.
Lemma label_row_off stof known labels L l ws : words l ws -> Z.of_nat (length ws) <> labels + 1 -> 0 < labels -> label_row stof known (Z.to_nat labels) L l = Ok L.
Proof.
  intros W N P. apply split_words in W. unfold label_row. rewrite W. assert (B : (length ws =? 1 + Z.to_nat labels)%nat = false) by (apply Nat.eqb_neq; lia). now rewrite B.
Qed.
Lemma label_fill stof known labels ls xs : label_lines stof labels ls xs -> (forall x, In x xs -> known (fst x) = true) -> 0 < labels ->
  forall L, exists L', foldM (label_row stof known (Z.to_nat labels)) L ls = Ok L' /\ forall o, L' o = L o ++ numbers_for xs o.
Proof.
  induction 1 as [|l x ls xs S0 F IH|l ws ls xs W N F IH]; intros K P L.
  - exists L. split; [reflexivity|]. intros o. cbn. now rewrite app_nil_r.
  - cbn [foldM]. rewrite (label_row_ok stof known labels L l x S0 (K x (or_introl eq_refl)) P). cbn [bind]. edestruct IH as (L' & E & H); [intros; apply K; now right|exact P|].
    exists L'. split; [exact E|]. intros o. rewrite H. unfold numbers_for. cbn [filter]. rewrite (Z.eqb_sym (fst x) o). destruct (o =? fst x)%Z; [|reflexivity]. cbn [map concat]. now rewrite app_assoc.
  - cbn [foldM]. rewrite (label_row_off stof known labels L l ws W N P). cbn [bind]. apply IH; assumption.
Qed.

(** ** time-dependent attributes *)
Definition td_of (x : two_link * Z) : tdrow := {| td_prop := of_two (fst x); td_toll := inject_Z (snd x) |}.
Lemma td_line_ok stod T l x : says_td stod l x -> td_line stod T l = Ok (td_add T (fst (fst x)) (snd (fst x)) (td_of (snd x))).
Proof.
  destruct x as [[t k] [d toll]]. intros (w0 & w1 & w2 & w3 & w4 & w5 & w6 & w7 & w8 & w9 & w10 & w11 & w12 & pcu & W & R0 & R1 & H3 & H4 & H5 & H6 & R7 & H8 & H9 & H10 & H11 & R12).
  cbn [fst snd] in *. apply split_words in W. unfold td_line. rewrite W. cbn [length Nat.eqb word nth]. apply stoi_reads in R0, R1, R7, R12.
  rewrite R0. cbn [bind]. rewrite R1. cbn [bind]. rewrite H3. cbn [bind]. rewrite H4. cbn [bind]. rewrite H5. cbn [bind]. rewrite H6. cbn [bind]. rewrite R7. cbn [bind].
  rewrite H8. cbn [bind]. rewrite H9. cbn [bind]. rewrite H10. cbn [bind]. rewrite H11. cbn [bind]. rewrite R12. reflexivity.
Qed.
Lemma td_set_lookup rows k r k' : lookup (td_set rows k r) k' = if (k =? k')%Z then Some r else lookup rows k'.
Proof.
  induction rows as [|[k1 r1] rows IH]; cbn [td_set lookup]; [reflexivity|]. destruct (Z.eqb_spec k1 k) as [->|N]; cbn [lookup].
  - destruct (k =? k')%Z; reflexivity.
  - rewrite IH. destruct (Z.eqb_spec k1 k') as [->|N2]; [|reflexivity]. destruct (Z.eqb_spec k k') as [->|]; [congruence|reflexivity].
Qed.
Lemma td_set_keys rows k r : NoDup (map fst rows) -> NoDup (map fst (td_set rows k r)) /\ forall j, In j (map fst (td_set rows k r)) -> j = k \/ In j (map fst rows).
Proof.
  induction rows as [|[k1 r1] rows IH]; cbn [td_set map fst]; intros ND.
  - split; [repeat constructor; intros []|]. intros j [<-|[]]; now left.
  - inversion ND as [|? ? N1 N2]; subst. destruct (Z.eqb_spec k1 k) as [->|N]; cbn [map fst].
    + split; [exact ND|]. intros j I. now right.
    + destruct (IH N2) as [I1 I2]. split; [constructor; [|exact I1]|].
      * intros I. apply I2 in I as [I|I]; [congruence|contradiction].
      * intros j [<-|I]; [right; now left|]. apply I2 in I as [I|I]; [now left|right; now right].
Qed.
Lemma last_pair_cons {V} (xs : list (Z * Z * V)) t k v t' k' : last_pair ((t, k, v) :: xs) t' k' =
  match last_pair xs t' k' with Some w => Some w | None => if (t =? t')%Z && (k =? k')%Z then Some v else None end.
Proof.
  unfold last_pair, first_pair. cbn [rev]. induction (rev xs) as [|[[a b] c] l IH]; cbn [app find fst snd].
  - destruct ((t =? t') && (k =? k'))%Z; reflexivity.
  - destruct ((a =? t') && (b =? k'))%Z; [reflexivity|exact IH].
Qed.
Lemma td_fill stod ls xs : Forall2 (says_td stod) ls xs -> forall T, (forall t, NoDup (map fst (T t))) ->
  exists T', foldM (td_line stod) T ls = Ok T' /\ (forall t, NoDup (map fst (T' t))) /\
    forall t k, lookup (T' t) k = match last_pair xs t k with Some x => Some (td_of x) | None => lookup (T t) k end.
Proof.
  induction 1 as [|l [[t k] v] ls xs S0 F IH]; intros T ND.
  - exists T. repeat split; auto.
  - cbn [foldM]. rewrite (td_line_ok stod T l _ S0). cbn [bind fst snd]. destruct (IH (td_add T t k (td_of v))) as (T' & E & N' & K).
    { intros t'. unfold td_add. destruct (t' =? t)%Z; [apply td_set_keys|]; apply ND. }
    exists T'. split; [exact E|]. split; [exact N'|]. intros t' k'. rewrite K, last_pair_cons. destruct (last_pair xs t' k'); [reflexivity|].
    unfold td_add. rewrite (Z.eqb_sym t t'). destruct (t' =? t)%Z; cbn [andb]; [|reflexivity]. rewrite td_set_lookup. destruct (k =? k')%Z; reflexivity.
Qed.
Lemma lookup_In {V} (m : list (Z * V)) k v : NoDup (map fst m) -> (lookup m k = Some v <-> In (k, v) m).
Proof.
  induction m as [|[k1 v1] m IH]; cbn [lookup map fst]; intros ND; [split; [discriminate|intros []]|]. inversion ND as [|? ? N1 N2]; subst.
  destruct (Z.eqb_spec k1 k) as [->|N].
  - split; [intros [= ->]; now left|]. intros [E|I]; [congruence|]. exfalso. apply N1. apply in_map_iff. exists (k, v). auto.
  - rewrite IH by exact N2. split; [now right|]. intros [E|I]; [congruence|exact I].
Qed.
(** the updates of different links, in any order *)
Lemma td_apply_all rows : NoDup (map fst rows) -> forall N, (forall k r, In (k, r) rows -> exists l tl l', N k = Some (l, tl) /\ mlink_modify l (td_prop r) = Ok l') ->
  exists N', foldM td_apply N rows = Ok N' /\ (forall k, ~ In k (map fst rows) -> N' k = N k) /\
    forall k r l tl l', In (k, r) rows -> N k = Some (l, tl) -> mlink_modify l (td_prop r) = Ok l' -> N' k = Some (l', {| tl_all := td_toll r; tl_car := td_toll r; tl_truck := td_toll r |}).
Proof.
  induction rows as [|[k r] rows IH]; intros ND N H.
  - exists N. split; [reflexivity|]. split; [reflexivity|]. intros ? ? ? ? ? [].
  - cbn [map fst] in ND. inversion ND as [|? ? N1 N2]; subst. cbn [foldM]. destruct (H k r (or_introl eq_refl)) as (l & tl & l' & El & Em).
    change (td_apply N (k, r)) with (match N k with None => Err EUB | Some (l, _) => do l' <- mlink_modify l (td_prop r); Ok (fun k' => if (k' =? k)%Z then Some (l', {| tl_all := td_toll r; tl_car := td_toll r; tl_truck := td_toll r |}) else N k') end). rewrite El, Em. cbn [bind].
    match goal with |- context [foldM td_apply ?M rows] => destruct (IH N2 M) as (N' & E & K1 & K2) end.
    { intros k2 r2 I. assert (k2 <> k) by (intros ->; apply N1, in_map_iff; exists (k, r2); auto). cbv beta. destruct (Z.eqb_spec k2 k); [contradiction|]. apply H. now right. }
    exists N'. split; [exact E|]. split.
    + intros k2 Ni. cbn [map fst] in Ni. rewrite K1 by (intros I; apply Ni; now right). destruct (Z.eqb_spec k2 k) as [->|]; [elim Ni; now left|reflexivity].
    + intros k2 r2 l2 tl2 l2' [E2|I] En Em2.
      * injection E2 as <- <-. rewrite K1 by exact N1. rewrite Z.eqb_refl. rewrite El in En. injection En as -> ->. rewrite Em in Em2. injection Em2 as ->. reflexivity.
      * eapply K2; [exact I| |exact Em2]. assert (k2 <> k) by (intros ->; apply N1, in_map_iff; exists (k, r2); auto). destruct (Z.eqb_spec k2 k); [contradiction|]. exact En.
Qed.
Lemma td_apply_missing rows : NoDup (map fst rows) -> forall N k0, In k0 (map fst rows) -> N k0 = None ->
  (forall k r l tl, In (k, r) rows -> N k = Some (l, tl) -> exists l', mlink_modify l (td_prop r) = Ok l') -> foldM td_apply N rows = Err EUB.
Proof.
  induction rows as [|[k r] rows IH]; intros ND N k0 I0 E0 H; [destruct I0|]. cbn [map fst] in ND, I0. inversion ND as [|? ? N1 N2]; subst. cbn [foldM]. change (td_apply N (k, r)) with (match N k with None => Err EUB | Some (l, _) => do l' <- mlink_modify l (td_prop r); Ok (fun k' => if (k' =? k)%Z then Some (l', {| tl_all := td_toll r; tl_car := td_toll r; tl_truck := td_toll r |}) else N k') end).
  destruct (N k) as [[l tl]|] eqn:El; [|reflexivity]. destruct (H k r l tl (or_introl eq_refl) El) as (l' & Em). rewrite Em. cbn [bind].
  assert (Nk : k0 <> k) by congruence. destruct I0 as [I0|I0]; [congruence|]. eapply IH; [exact N2|exact I0| |].
  - destruct (Z.eqb_spec k0 k); [contradiction|exact E0].
  - intros k2 r2 l2 tl2 I En. cbv beta in En. destruct (Z.eqb_spec k2 k) as [->|]; [exfalso; apply N1, in_map_iff; exists (k, r2); auto|]. eapply H; [right; exact I|exact En].
Qed.
