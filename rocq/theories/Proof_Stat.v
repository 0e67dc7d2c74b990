From Verif Require Import Base Base_lemmas Model_Node Model_Stat Spec_Stat.
Local Open Scope Z_scope.

Lemma put_same m l x : put m l x l = Some x. Proof. apply upd_same. Qed.
Lemma put_other m l x k : k <> l -> put m l x k = m k. Proof. apply upd_other. Qed.
Lemma assign_ok m l v : m l <> None -> assign m l v = Ok (put m l v).
Proof. unfold assign. destruct (m l); [reflexivity|congruence]. Qed.
Lemma read_ok m l x : m l = Some x -> read m l = Ok x.
Proof. unfold read. now intros ->. Qed.

(** the three entries of one link *)
Definition entry (m : smap) (l : Z) : option (Q * Q * Q) :=
  match m_load m l, m_rec m l, m_tobe m l with Some a, Some b, Some c => Some (a, b, c) | _, _, _ => None end.
Definition step (n t : Z) (now : bool) (x : Q) (e : Q * Q * Q) : Q * Q * Q :=
  let '(_, b, c) := e in
  if now then (x, if t =? 0 then x else (c + x / inject_Z n)%Q, 0%Q) else (x, b, (c + x / inject_Z n)%Q).
Lemma update_one_step n t now obs m l e : entry m l = Some e ->
  exists m', update_one n t now obs m l = Ok m' /\ entry m' l = Some (step n t now (obs l) e) /\ forall k, k <> l -> entry m' k = entry m k.
Proof.
  unfold entry. destruct (m_load m l) as [a|] eqn:A; [|discriminate]. destruct (m_rec m l) as [b|] eqn:B; [|discriminate]. destruct (m_tobe m l) as [c|] eqn:C; [|discriminate].
  intros H. injection H as <-. unfold update_one. cbv zeta. rewrite assign_ok by congruence. cbn [bind]. destruct now.
  - destruct (t =? 0) eqn:T0.
    + rewrite assign_ok by congruence. cbn [bind]. rewrite assign_ok by congruence. cbn [bind]. eexists. split; [reflexivity|]. cbn [m_load m_rec m_tobe step]. rewrite !put_same, T0.
      split; [reflexivity|]. intros k Hk. now rewrite !put_other.
    + rewrite (read_ok _ _ _ C). cbn [bind]. rewrite assign_ok by congruence. cbn [bind]. rewrite assign_ok by congruence. cbn [bind]. eexists. split; [reflexivity|].
      cbn [m_load m_rec m_tobe step]. rewrite !put_same, T0. split; [reflexivity|]. intros k Hk. now rewrite !put_other.
  - rewrite (read_ok _ _ _ C). cbn [bind]. rewrite assign_ok by congruence. cbn [bind]. eexists. split; [reflexivity|]. cbn [m_load m_rec m_tobe step]. rewrite !put_same, B.
    split; [reflexivity|]. intros k Hk. now rewrite !put_other.
Qed.
Lemma update_map_step n t now obs : forall links m, NoDup links -> (forall l, In l links -> entry m l <> None) ->
  exists m', update_map n t now links obs m = Ok m' /\
    (forall l e, In l links -> entry m l = Some e -> entry m' l = Some (step n t now (obs l) e)) /\ (forall k, ~ In k links -> entry m' k = entry m k).
Proof.
  unfold update_map. induction links as [|l links IH]; intros m ND H; cbn [foldM].
  - exists m. split; [reflexivity|]. split; [intros l e []|reflexivity].
  - apply NoDup_cons_iff in ND as [Nl ND]. destruct (entry m l) as [e|] eqn:E; [|exfalso; exact (H l (or_introl eq_refl) E)].
    destruct (update_one_step n t now obs m l e E) as (m1 & E1 & S1 & O1). rewrite E1. cbn [bind].
    destruct (IH m1 ND) as (m' & E' & S' & O').
    { intros k Hk. rewrite O1 by (intros ->; contradiction). apply H. now right. }
    exists m'. split; [exact E'|]. split.
    + intros k e' [<-|Hk] Ek.
      * rewrite O' by exact Nl. rewrite E in Ek. injection Ek as <-. exact S1.
      * apply S'; [exact Hk|]. rewrite O1; [exact Ek|intros ->; contradiction].
    + intros k Hk. rewrite O'; [apply O1; intros ->; apply Hk; now left|intros C; apply Hk; now right].
Qed.
Lemma entry_load m l a b c : entry m l = Some (a, b, c) -> m_load m l = Some a /\ m_rec m l = Some b /\ m_tobe m l = Some c.
Proof. unfold entry. destruct (m_load m l), (m_rec m l), (m_tobe m l); try discriminate. intros H. injection H as <- <- <-. auto. Qed.
Lemma init_smap_entry : forall links m, (forall k, entry m k = None /\ m_load m k = None /\ m_rec m k = None /\ m_tobe m k = None \/ entry m k = Some (0, 0, 0)%Q) ->
  forall l, In l links \/ entry m l = Some (0, 0, 0)%Q -> entry (init_smap links m) l = Some (0, 0, 0)%Q.
Proof.
  unfold init_smap. induction links as [|x links IH]; intros m H l Hl; cbn [fold_left]; [destruct Hl as [[]|Hl]; exact Hl|].
  assert (X : entry {| m_load := ins0 (m_load m) x; m_rec := ins0 (m_rec m) x; m_tobe := ins0 (m_tobe m) x |} x = Some (0, 0, 0)%Q).
  { unfold entry. cbn [m_load m_rec m_tobe]. unfold ins0. destruct (H x) as [(A & B & C & D)|E].
    - rewrite B, C, D, !put_same. reflexivity.
    - apply entry_load in E as (B & C & D). rewrite B, C, D, B, C, D. reflexivity. }
  assert (Y : forall k, k <> x -> ins0 (m_load m) x k = m_load m k /\ ins0 (m_rec m) x k = m_rec m k /\ ins0 (m_tobe m) x k = m_tobe m k).
  { intros k Hk. unfold ins0. destruct (m_load m x), (m_rec m x), (m_tobe m x); rewrite ?put_other by exact Hk; auto. }
  assert (YE : forall k, k <> x -> entry {| m_load := ins0 (m_load m) x; m_rec := ins0 (m_rec m) x; m_tobe := ins0 (m_tobe m) x |} k = entry m k).
  { intros k Hk. unfold entry. cbn [m_load m_rec m_tobe]. destruct (Y k Hk) as (-> & -> & ->). reflexivity. }
  apply IH.
  - intros k. destruct (Z.eq_dec k x) as [->|Ne]; [right; exact X|]. rewrite (YE k Ne). cbn [m_load m_rec m_tobe]. destruct (Y k Ne) as (-> & -> & ->). apply H.
  - destruct (Z.eq_dec l x) as [->|Ne]; [right; exact X|]. destruct Hl as [[C|Hl]|Hl]; [congruence|now left|right]. now rewrite YE.
Qed.

(** ** sums *)
Lemma total_S f a k : total f a (S k) = (total f a k + f (a + Z.of_nat (S k))%Z)%Q. Proof. reflexivity. Qed.
Lemma div_mul_sum a b n : (0 < n)%Q -> (a / n + b / n == (a + b) / n)%Q.
Proof. intros H. field. lra. Qed.

Section Run.
Context (n : Z) (Hn : 1 <= n) (links : list Z) (ND : NoDup links) (f : Z -> Z -> Q).
Let fl l t := f t l.

(** expected entries after the call for interval [t] *)
Definition expect (t : Z) (l : Z) (e : Q * Q * Q) : Prop :=
  let '(a, b, c) := e in
  a = f t l /\ (0 <= t -> (b == recorded n (fl l) (last_record n t))%Q) /\
  (0 <= t -> (c == total (fl l) (last_record n t) (Z.to_nat (t - last_record n t)%Z) / inject_Z n)%Q).
Definition now_at (t : Z) : bool := (Z.rem t n =? 0) || (t =? 0).
Lemma now_at_spec t : 0 <= t -> now_at t = true <-> last_record n t = t.
Proof.
  intros Ht. unfold now_at, last_record. rewrite Z.rem_mod_nonneg by lia. pose proof (Z.div_mod t n ltac:(lia)) as E.
  rewrite orb_true_iff, !Z.eqb_eq. split; [intros [H|H]; [lia|subst t; rewrite Z.div_0_l by lia; lia]|]. intros H. left. lia.
Qed.
Lemma last_prev t : 0 < t -> now_at t = false -> last_record n t = last_record n (t - 1).
Proof.
  intros Ht H. assert (X : last_record n t <> t) by (intros C; apply (proj2 (now_at_spec t ltac:(lia))) in C; congruence). unfold last_record in *.
  pose proof (Z.div_mod t n ltac:(lia)) as E. pose proof (Z.mod_pos_bound t n ltac:(lia)) as B. f_equal.
  apply Z.div_unique with (r := t mod n - 1); [left; lia|lia].
Qed.
Lemma last_now t : 0 < t -> now_at t = true -> last_record n (t - 1) = t - n.
Proof.
  intros Ht H. apply (now_at_spec t) in H; [|lia]. unfold last_record in *. pose proof (Z.div_mod t n ltac:(lia)) as E.
  assert (X : (t - 1) / n = t / n - 1). { symmetry. apply Z.div_unique with (r := n - 1); [left; lia|lia]. } rewrite X. lia.
Qed.
Lemma step_expect t l e : 0 <= t -> (0 < t -> expect (t - 1) l e) -> expect t l (step n t (now_at t) (f t l) e).
Proof.
  intros Ht H. assert (Pn : (0 < inject_Z n)%Q) by (change 0%Q with (inject_Z 0); rewrite <- Zlt_Qlt; lia). destruct e as [[a b] c]. unfold step.
  destruct (now_at t) eqn:E.
  - pose proof (proj1 (now_at_spec t Ht) E) as LR. unfold expect. split; [reflexivity|]. rewrite LR. split; intros _.
    + destruct (Z.eqb_spec t 0) as [->|Nz]; [reflexivity|]. destruct (H ltac:(lia)) as (_ & _ & C). specialize (C ltac:(lia)). rewrite C.
      rewrite (last_now t ltac:(lia) E). unfold recorded. rewrite (proj2 (Z.leb_gt t 0)) by lia. unfold mean.
      replace (Z.to_nat n) with (S (Z.to_nat (t - 1 - (t - n)))) by lia. rewrite total_S. rewrite div_mul_sum by exact Pn.
      replace (t - n + Z.of_nat (S (Z.to_nat (t - 1 - (t - n))))) with t by lia. reflexivity.
    + rewrite Z.sub_diag. simpl. field. lra.
  - assert (P : 0 < t). { destruct (Z.eq_dec t 0) as [->|]; [|lia]. unfold now_at in E. rewrite Z.eqb_refl, orb_true_r in E. discriminate. }
    destruct (H P) as (_ & B & C). specialize (B ltac:(lia)). specialize (C ltac:(lia)). unfold expect. rewrite (last_prev t P E). split; [reflexivity|]. split; intros _; [exact B|].
    rewrite C. assert (L : last_record n (t - 1) <= t - 1) by (unfold last_record; apply Z.mul_div_le; lia).
    replace (Z.to_nat (t - last_record n (t - 1))) with (S (Z.to_nat (t - 1 - last_record n (t - 1)))) by lia. rewrite total_S, div_mul_sum by exact Pn.
    replace (last_record n (t - 1) + Z.of_nat (S (Z.to_nat (t - 1 - last_record n (t - 1))))) with t by lia. reflexivity.
Qed.

(** the files *)
Definition load_rows (ts : list Z) : list (Z * list Q) := map (fun t => (t, map (f t) links)) ts.
Definition rec_rows (ts : list Z) : list (Z * list Q) := map (fun t => (t, map (fun l => recorded n (fl l) t) links)) (filter now_at ts).
Definition times (k : nat) : list Z := map (fun i => Z.of_nat i - 1) (seq 0 k).
Lemma times_S k : times (S k) = times k ++ [Z.of_nat k - 1].
Proof. unfold times. rewrite seq_S, map_app. reflexivity. Qed.
Lemma mapM_read m vs : (forall l, In l links -> m l = Some (vs l)) -> mapM (read m) links = Ok (map vs links).
Proof.
  clear ND. induction links as [|l ls IH]; intros H; [reflexivity|]. cbn [mapM map]. rewrite (read_ok _ _ _ (H l (or_introl eq_refl))). cbn [bind]. rewrite IH by (intros k Hk; apply H; now right). reflexivity.
Qed.
(** one recorder after [k] calls; [fl0], [fr0]: files kept *)
Definition okfile (kept : bool) (want : list (Z * list Q)) (g : rows) : Prop :=
  match g with None => kept = false | Some rs => kept = true /\ same_rows rs want end.
Definition sok (bl br : bool) (k : nat) (s : srec) : Prop :=
  sr_on s = true /\ (forall l, In l links -> exists e, entry (sr_map s) l = Some e /\ match k with O => e = (0, 0, 0)%Q | S _ => expect (Z.of_nat k - 2) l e end /\
     (k = 1%nat -> (snd (fst e) == if Z.eqb n 1 then f (-1)%Z l else 0)%Q)) /\
  okfile bl (load_rows (times k)) (sr_load s) /\ okfile br (rec_rows (times k)) (sr_rec s).
Lemma same_app a b c d : same_rows a b -> same_rows c d -> same_rows (a ++ c) (b ++ d).
Proof. apply Forall2_app. Qed.
Lemma Forall2_map2 {A B} (P : A -> B -> Prop) {C} (g : C -> A) (h : C -> B) l : (forall x, In x l -> P (g x) (h x)) -> Forall2 P (map g l) (map h l).
Proof. induction l as [|x l IH]; intros H; cbn; constructor; [apply H; now left|apply IH; intros; apply H; now right]. Qed.
Lemma now_minus1 : now_at (-1) = (n =? 1).
Proof.
  unfold now_at. rewrite orb_false_r. replace (-1) with (- (1)) by reflexivity. rewrite Z.rem_opp_l by lia.
  destruct (Z.eqb_spec n 1) as [->|Ne]; [reflexivity|]. rewrite Z.rem_small by lia. reflexivity.
Qed.
Lemma update_sok bl br k s : sok bl br k s -> exists s', update_srec n (Z.of_nat k - 1) (now_at (Z.of_nat k - 1)) links (f (Z.of_nat k - 1)) s = Ok s' /\ sok bl br (S k) s'.
Proof.
  intros (On & H & HL & HR). set (t := Z.of_nat k - 1) in *. unfold update_srec. rewrite On.
  destruct (update_map_step n t (now_at t) (f t) links (sr_map s) ND) as (m & Em & Sm & _).
  { intros l Hl. destruct (H l Hl) as (e & E & _). congruence. }
  rewrite Em. cbn [bind].
  assert (M : forall l, In l links -> exists e, entry m l = Some e /\ expect t l e /\ (k = 0%nat -> (snd (fst e) == if Z.eqb n 1 then f (-1)%Z l else 0)%Q)).
  { intros l Hl. destruct (H l Hl) as (e & E & X & _). exists (step n t (now_at t) (f t l) e). split; [now apply Sm|]. destruct k as [|k].
    - assert (T : t = -1) by reflexivity. rewrite T. split.
      + destruct e as [[a b] c]. unfold step, expect. destruct (now_at (-1)); (split; [reflexivity|split; intros; lia]).
      + intros _. subst e. rewrite now_minus1. unfold step. destruct (Z.eqb_spec n 1) as [E1|E1]; cbn [fst snd]; [|reflexivity].
        change (-1 =? 0) with false. cbv iota. rewrite E1. cbn. field.
    - split; [|discriminate]. apply step_expect; [lia|]. intros Ht. replace (t - 1) with (Z.of_nat (S k) - 2) by lia. exact X. }
  assert (RL : forall l, In l links -> m_load m l = Some (f t l)).
  { intros l Hl. destruct (M l Hl) as ([[a b] c] & E & (X & _) & _). apply entry_load in E as (E & _). congruence. }
  assert (FL : exists g, add_row t links (m_load m) (sr_load s) = Ok g /\ okfile bl (load_rows (times (S k))) g).
  { unfold add_row, okfile in *. destruct (sr_load s) as [rs|]; [|eauto]. rewrite (mapM_read _ _ RL). cbn [bind]. eexists. split; [reflexivity|]. split; [apply HL|].
    rewrite times_S. unfold load_rows. rewrite map_app. apply same_app; [apply HL|]. constructor; [|constructor]. split; [reflexivity|]. cbn [snd].
    apply Forall2_map2. intros; reflexivity. }
  destruct FL as (g & Eg & Og). rewrite Eg. cbn [bind].
  assert (FR : exists g', (if now_at t then add_row t links (m_rec m) (sr_rec s) else Ok (sr_rec s)) = Ok g' /\ okfile br (rec_rows (times (S k))) g').
  { rewrite times_S. unfold rec_rows. rewrite filter_app, map_app. cbn [filter]. fold t. destruct (now_at t) eqn:Nt.
    - unfold add_row, okfile in *. destruct (sr_rec s) as [rs|]; [|eauto].
      assert (R : forall l, In l links -> m_rec m l = Some (match m_rec m l with Some x => x | None => 0%Q end)).
      { intros l Hl. destruct (M l Hl) as ([[a b] c] & E & _). apply entry_load in E as (_ & E & _). now rewrite E. }
      rewrite (mapM_read _ _ R). cbn [bind]. eexists. split; [reflexivity|]. split; [apply HR|]. apply same_app; [apply HR|]. constructor; [|constructor]. split; [reflexivity|]. cbn [snd].
      apply Forall2_map2. intros l Hl. destruct (M l Hl) as ([[a b] c] & E & X & X0). apply entry_load in E as (_ & E & _). rewrite E. destruct k as [|k].
      + specialize (X0 eq_refl). cbn [fst snd] in X0. change t with (-1) in Nt |- *. rewrite now_minus1 in Nt. rewrite Nt in X0. rewrite X0. reflexivity.
      + destruct X as (_ & X & _). specialize (X ltac:(lia)). rewrite X. rewrite (proj1 (now_at_spec t ltac:(lia)) Nt). reflexivity.
    - cbn [map]. rewrite app_nil_r. eauto. }
  destruct FR as (g' & Eg' & Og'). rewrite Eg'. cbn [bind]. eexists. split; [reflexivity|]. split; [reflexivity|]. cbn [sr_map sr_load sr_rec]. split; [|split; assumption].
  intros l Hl. destruct (M l Hl) as (e & E & X & X0). exists e. split; [exact E|]. split; [|intros Ek; apply X0; lia]. now replace (Z.of_nat (S k) - 2) with t by lia.
Qed.
Lemma init_sok bl br : sok bl br 0 (init_srec links true bl br).
Proof.
  split; [reflexivity|]. cbn [init_srec sr_on sr_map sr_load sr_rec]. split; [|split].
  - intros l Hl. exists (0, 0, 0)%Q. split; [|split; [reflexivity|discriminate]]. apply init_smap_entry; [|now left]. intros k. left. repeat split.
  - destruct bl; cbn; [split; [reflexivity|constructor]|reflexivity].
  - destruct br; cbn; [split; [reflexivity|constructor]|reflexivity].
Qed.
End Run.

(** the whole recorder *)
Definition qok n links (f : Z -> Z -> Q) (on bl br : bool) (k : nat) (s : srec) : Prop :=
  if on then sok n links f bl br k s else s = init_srec links false bl br.
Lemma stat_run_ok n links flow tt ov bvl bvr ot btl btr : 1 <= n -> NoDup links -> forall k,
  exists s, foldM (fun s t => update_record (flow t) (tt t) s t)
      {| st_n := n; st_links := links; st_vol := init_srec links ov bvl bvr; st_tt := init_srec links ot btl btr |} (times k) = Ok s /\
    st_n s = n /\ st_links s = links /\ qok n links flow ov bvl bvr k (st_vol s) /\ qok n links tt ot btl btr k (st_tt s).
Proof.
  intros Hn ND. induction k as [|k (s & E & Sn & Sl & Sv & St)].
  - eexists. split; [reflexivity|]. cbn [st_n st_links st_vol st_tt]. split; [reflexivity|]. split; [reflexivity|]. unfold qok.
    split; [destruct ov|destruct ot]; try reflexivity; now apply init_sok.
  - rewrite times_S, foldM_app, E. cbn [bind foldM]. unfold update_record. rewrite Sn, Sl. unfold at_record.
    replace (negb (n =? 0)) with true by (symmetry; apply negb_true_iff, Z.eqb_neq; lia). cbn [guard bind].
    change ((Z.rem (Z.of_nat k - 1) n =? 0) || (Z.of_nat k - 1 =? 0)) with (now_at n (Z.of_nat k - 1)).
    assert (X : forall (g : Z -> Z -> Q) on bl br s0, qok n links g on bl br k s0 -> exists s', update_srec n (Z.of_nat k - 1) (now_at n (Z.of_nat k - 1)) links (g (Z.of_nat k - 1)) s0 = Ok s' /\ qok n links g on bl br (S k) s').
    { intros g on bl br s0. unfold qok. destruct on; [now apply update_sok|]. intros ->. eexists. split; reflexivity. }
    destruct (X flow _ _ _ _ Sv) as (v & Ev & Ov). destruct (X tt _ _ _ _ St) as (c & Ec & Oc). rewrite Ev. cbn [bind]. rewrite Ec. cbn [bind].
    eexists. split; [reflexivity|]. cbn [st_n st_links st_vol st_tt]. auto.
Qed.
