(** Two-class CTM: constructor, cell invariant, traversal, free flow. *)
From Verif Require Import Base Base_lemmas Model_Num Proof_Num Spec_Path Proof_Path Model_Link Spec_Link
  Proof_Link Proof_Link2 Proof_Link3 Proof_Link4 Proof_Link5 Model_McLink Spec_McLink Proof_McLink Proof_McLink2.
Local Open Scope Q_scope.

Lemma guard_neg b e (u : unit) : guard (negb b) e = Ok u -> b = false.
Proof. intros H. apply guard_ok in H. apply negb_true_iff in H. exact H. Qed.
Lemma mbase_ok p : mbase_checks p = Ok tt -> 0 <= mp_ffs_c p /\ (0 <= mp_lanes p)%Z /\ 0 <= mp_len p.
Proof.
  unfold mbase_checks. intros E. apply bind_ok in E as (? & E1 & E). apply bind_ok in E as (? & E2 & E3).
  apply guard_neg in E1. apply guard_ok in E2. apply guard_neg in E3. apply Qltb_ge in E1. apply Qltb_ge in E3. repeat split; auto. lia.
Qed.

Lemma mraise_ok cap ut fs n : 0 < ut -> 0 < fs -> (1 <= n)%Z -> 0 <= cap -> 0 < mraise cap ut fs n /\ 1 <= mraise cap ut fs n * ut * fs * inject_Z n.
Proof.
  intros Hu Hf Hn Hc. apply injZ_pos in Hn. unfold mraise. destruct (Qltb_spec (cap * ut * fs * inject_Z n) 1) as [L|L].
  - assert (P : 0 < ut * fs * inject_Z n) by pp. split; [apply div_pp; lra|].
    assert (E : 1 / (ut * fs * inject_Z n) * ut * fs * inject_Z n == 1) by (field; repeat split; lra). lra.
  - apply Qnot_lt_le in L. split; [|exact L]. destruct (Qlt_le_dec 0 cap); auto. exfalso.
    assert (cap == 0) by lra. rewrite H in L. lra.
Qed.

Record adjusted (p p' : mparam) : Prop := {
  ad_lanes : mp_lanes p' = mp_lanes p; ad_ut : mp_ut p' = mp_ut p; ad_fs : mp_fs p' = mp_fs p; ad_pcu : mp_pcu p' = mp_pcu p;
  ad_fc : mp_ffs_c p' = mp_ffs_c p; ad_ft : mp_ffs_t p' = mp_ffs_t p;
  ad_n : (1 <= mp_lanes p)%Z; ad_vc : 0 < mp_ffs_c p; ad_vt : 0 < mp_ffs_t p;
  ad_cc : 0 < mp_flow_c p'; ad_ct : 0 < mp_flow_t p';
  ad_1c : 1 <= mp_flow_c p' * mp_ut p * mp_fs p * inject_Z (mp_lanes p);
  ad_1t : 1 <= mp_flow_t p' * mp_ut p * mp_fs p * inject_Z (mp_lanes p);
  ad_hc : mp_flow_c p' / mp_ffs_c p < mp_hold_c p'; ad_ht : mp_flow_t p' / mp_ffs_t p < mp_hold_t p';
  ad_Hc : mp_hold_c p' <= mp_hold_c p; ad_Ht : mp_hold_t p' <= mp_hold_t p;
  ad_len : mp_len p' = if Qfloor (mp_len p / (mp_ffs_c p * mp_ut p)) =? 0 then (mp_ffs_c p * mp_ut p)%Q else mp_len p }.

Lemma adjust_inv p p' : mctm_adjust p = Ok p' -> 0 < mp_ut p -> 0 < mp_fs p -> (0 <= mp_lanes p)%Z -> adjusted p p'.
Proof.
  unfold mctm_adjust. intros E Hu Hf Hn.
  apply bind_ok in E as (? & G1 & E). apply bind_ok in E as (? & G2 & E). apply bind_ok in E as (? & G3 & E).
  cbv zeta in E. apply bind_ok in E as (? & G4 & E). apply bind_ok in E as (? & G5 & E). apply bind_ok in E as (? & G6 & E).
  apply bind_ok in E as (? & G7 & E). apply Ok_inj in E as <-.
  apply guard_neg in G2. apply guard_neg in G3. apply guard_neg in G4. apply guard_ok in G5. apply guard_ok in G6. apply guard_ok in G7.
  apply orb_false_iff in G2 as [F1 F2]. apply orb_false_iff in G3 as [V1 V2]. apply Qltb_ge in F1. apply Qltb_ge in F2. apply Qltb_ge in V1. apply Qltb_ge in V2.
  apply andb_true_iff in G5 as [L1 L2]. apply negb_true_iff in L1. apply negb_true_iff in L2. apply Z.eqb_neq in L1.
  apply Qltb_lt in G6. apply Qltb_lt in G7.
  destruct (Qeqb_spec (mp_ffs_c p * mp_ut p) 0) as [|Nz]; [discriminate|]. destruct (Qeqb_spec (mp_ffs_t p) 0) as [|Nt]; [discriminate|].
  assert (P1 : 0 < mp_ffs_c p). { destruct (Qlt_le_dec 0 (mp_ffs_c p)); auto. exfalso. apply Nz. assert (mp_ffs_c p == 0) by lra. rewrite H. ring. }
  assert (N1 : (1 <= mp_lanes p)%Z) by lia.
  assert (M1 : 0 <= Qmin (mp_flow_c p) (3500 / 3600)) by (apply Q.min_glb; [auto|vm_compute; discriminate]).
  assert (M2 : 0 <= Qmin (mp_flow_t p) (3500 / 3600)) by (apply Q.min_glb; [auto|vm_compute; discriminate]).
  destruct (mraise_ok _ _ _ _ Hu Hf N1 M1) as [A1 A2]. destruct (mraise_ok _ _ _ _ Hu Hf N1 M2) as [B1 B2].
  constructor; cbn [mp_lanes mp_ut mp_fs mp_pcu mp_ffs_c mp_ffs_t mp_flow_c mp_flow_t mp_hold_c mp_hold_t mp_len]; auto; try lra; apply Q.le_min_l.
Qed.

Lemma raise_cell_id cap ut fs : 1 <= cap * ut * fs -> raise_cell cap ut fs = cap.
Proof. intros H. unfold raise_cell. destruct (Qltb_spec (cap * ut * fs) 1); [lra|reflexivity]. Qed.

Lemma mctm_fd_ok p p' : adjusted p p' -> fd_ok (mctm_fd p') /\ vf_c (mctm_fd p') = mp_ffs_c p /\ vf_t (mctm_fd p') = mp_ffs_t p /\
  K_c (mctm_fd p') == inject_Z (mp_lanes p) * mp_hold_c p' /\ cap_c (mctm_fd p') == inject_Z (mp_lanes p) * mp_flow_c p'.
Proof.
  intros [L1 L2 L3 L4 L5 L6 N1 V1 V2 C1 C2 R1 R2 H1 H2 _ _ _]. apply injZ_pos in N1.
  assert (S1 : cap_c (mctm_fd p') = (inject_Z (mp_lanes p) * mp_flow_c p')%Q).
  { unfold mctm_fd. cbn [cap_c]. rewrite L1, L2, L3. apply raise_cell_id. lra. }
  assert (S2 : cap_t (mctm_fd p') = (inject_Z (mp_lanes p) * mp_flow_t p')%Q).
  { unfold mctm_fd. cbn [cap_t]. rewrite L1, L2, L3. apply raise_cell_id. lra. }
  split; [|split; [exact L5|split; [exact L6|split; [|rewrite S1; reflexivity]]]].
  2:{ unfold mctm_fd. cbn [K_c]. rewrite L1. reflexivity. }
  unfold fd_ok. rewrite S1, S2. unfold mctm_fd. cbn [K_c K_t cr_c cr_t rho1 vf_c vf_t w_c w_t]. unfold lane_w. rewrite L1, L5, L6.
  set (n := inject_Z (mp_lanes p)) in *. set (a := mp_flow_c p' / mp_ffs_c p) in *. set (b := mp_flow_t p' / mp_ffs_t p) in *.
  assert (A : a * mp_ffs_c p == mp_flow_c p') by (unfold a; field; lra). assert (B : b * mp_ffs_t p == mp_flow_t p') by (unfold b; field; lra).
  assert (Pa : 0 < a) by (apply div_pp; auto). assert (Pb : 0 < b) by (apply div_pp; auto). clearbody a b n.
  assert (X1 : 0 < mp_flow_c p' / (mp_hold_c p' - a)) by (apply div_pp; lra).
  split; [pp|]. split; [apply Qmult_lt_l; lra|]. split; [pp|]. split; [apply Qmult_lt_l; lra|]. split; [auto|]. split; [auto|].
  split; [rewrite <- A; ring|]. split; [rewrite <- B; ring|]. split; [field; lra|]. split; [field; lra|].
  assert (X2 : mp_ffs_t p + mp_flow_c p' / (mp_hold_c p' - a) > 0) by lra.
  set (w := mp_flow_c p' / (mp_hold_c p' - a)) in *. clearbody w. field. lra.
Qed.

(** ** explicit interval *)
Definition enter (p : mparam) (f : fd) (cls : Z -> bool) (c : mcell) (inc : list Z) : mcell :=
  set_mvol f (mp_fs p) (set_mq c (mc_qc c ++ cars cls inc) (mc_qt c ++ trucks cls inc))
    (Zlen (mc_qc c ++ cars cls inc)) (Zlen (mc_qt c ++ trucks cls inc)).
Lemma mctm_interval cls l arr l' f cs : minterval cls l arr l' -> ml_body l = MCtm f cs ->
  exists rest c tl D os fin', subseq rest (ml_fin l) /\ cs = c :: tl /\ mdraws_ok D /\ ml_in l' = [] /\ ml_fin l' = fin' /\ ml_par l' = ml_par l /\
    let cs1 := enter (ml_par l) f cls c (ml_in l ++ arr) :: tl in
    mouts f (mp_ut (ml_par l)) (mp_fs (ml_par l)) D 0 cs1 = Ok os /\
    fin' = (rest ++ merge_out (md_mix D) (mlast false cs1 os) (mlast true cs1 os))%list /\
    ml_body l' = MCtm f (mrecount f (mp_fs (ml_par l)) cls (mshift [] [] cs1 os) fin').
Proof.
  intros (rest & hn & D & l1 & Hs & HD & E1 & E2) Hb. unfold mlink_clear, moffered in E1. cbn [with_body ml_body ml_par ml_in ml_fin] in E1.
  rewrite Hb in E1. apply bind_ok in E1 as (cs1 & EC & E1). apply Ok_inj in E1 as <-.
  unfold mctm_clear in EC. destruct cs as [|c tl]; [discriminate|]. apply Ok_inj in EC as <-.
  unfold mlink_evolve in E2. cbn [with_body ml_body ml_par ml_in ml_fin] in E2. apply bind_ok in E2 as ([cs' fin'] & EE & E2). apply Ok_inj in E2 as <-.
  cbn [settle ml_in ml_fin ml_par ml_body fst snd with_body].
  fold (enter (ml_par l) f cls c (ml_in l ++ arr)) in EE.
  pose proof EE as EO. unfold mctm_evolve in EO. apply bind_ok in EO as (os & EO & _). rewrite (mctm_evolve_eq _ _ _ _ _ _ _ _ _ EO) in EE. cbv zeta in EE.
  destruct (forallb hn _); [|discriminate]. apply Ok_pair in EE as [-> ->].
  exists rest, c, tl, D, os. eexists. split; [exact Hs|]. split; [reflexivity|]. split; [exact HD|]. split; [reflexivity|]. split; [reflexivity|]. split; [reflexivity|].
  cbv zeta. split; [exact EO|]. split; reflexivity.
Qed.

(** ** nobody moves more than one cell per update *)
Definition at_cell (v : Z) (l : mlink) (P : nat -> Prop) : Prop :=
  forall f cs j c k, ml_body l = MCtm f cs -> nth_error cs j = Some c -> In v (queue_of k c) -> P j.
Definition mncell (l : mlink) : nat := match ml_body l with MCtm _ cs => length cs | _ => 0%nat end.
Definition mbefore (n : nat) (v : Z) (l : mlink) : Prop :=
  ~ In v (ml_fin l) /\ ~ In v (ml_in l) /\ at_cell v l (fun j => (j < n)%nat).

Lemma mshift_length cs : forall os ec et, length os = length cs -> length (mshift ec et cs os) = length cs.
Proof. induction cs as [|c cs IH]; intros [|o os] ec et L; cbn in *; try lia. rewrite IH; lia. Qed.
Lemma mrecount_length f fs cls cs fin : length (mrecount f fs cls cs fin) = length cs.
Proof. pose proof (f_equal (@length (list Z)) (mrecount_map f fs cls fin false cs)) as H. rewrite !map_length in H. exact H. Qed.
Lemma nth_pc k cs j c : nth_error cs j = Some c -> nth_error (map (pc k) cs) j = Some (pc k c).
Proof. intros E. rewrite nth_error_map, E. reflexivity. Qed.
Lemma nth_pc_inv k cs j d : nth_error (map (pc k) cs) j = Some d -> exists c, nth_error cs j = Some c /\ d = pc k c.
Proof. rewrite nth_error_map. destruct (nth_error cs j); [|discriminate]. intros [= <-]. eauto. Qed.
Lemma pc_q k c : c_q (pc k c) = queue_of k c.
Proof. reflexivity. Qed.

Lemma merge_In r a b v : In v (merge_out r a b) -> In v a \/ In v b.
Proof.
  unfold merge_out. generalize (inject_Z (Zlen a) / inject_Z (Zlen a + Zlen b)) (length a + length b)%nat 0%nat. intros p n k.
  revert k a b. induction n as [|n IH]; intros k a b H; [destruct H|].
  destruct a as [|x a]; destruct b as [|y b]; cbn [mix] in H; [destruct H| | |].
  - destruct H as [<-|H]; [right; left; auto|]. apply IH in H as [[]|H]. right; right; auto.
  - destruct H as [<-|H]; [left; left; auto|]. apply IH in H as [H|[]]. left; right; auto.
  - destruct (Qltb (r k) p); destruct H as [<-|H]; try (cbn; tauto); apply IH in H; cbn in *; tauto.
Qed.

Lemma mctm_step_In cls l arr l' f cs : minterval cls l arr l' -> ml_body l = MCtm f cs ->
  exists c tl, cs = c :: tl /\ ml_in l' = [] /\ mncell l' = length cs /\
  let cs1 := enter (ml_par l) f cls c (ml_in l ++ arr) :: tl in
  (forall v, In v (ml_fin l') -> In v (ml_fin l) \/ exists k d, nth_error cs1 (length cs1 - 1) = Some d /\ In v (queue_of k d)) /\
  (exists cs', ml_body l' = MCtm f cs' /\ forall j d k v, nth_error cs' j = Some d -> In v (queue_of k d) ->
     (exists d0, nth_error cs1 j = Some d0 /\ In v (queue_of k d0)) \/
     (exists i d0, j = S i /\ nth_error cs1 i = Some d0 /\ In v (queue_of k d0))).
Proof.
  intros H Hb. destruct (mctm_interval _ _ _ _ _ _ H Hb) as (rest & c & tl & D & os & fin' & Hs & -> & _ & Hin & Hfin & _ & X).
  cbv zeta in X. destruct X as (Eo & -> & Hb'). exists c, tl. split; [reflexivity|]. split; [exact Hin|].
  pose proof (mouts_fits _ _ _ _ _ _ _ Eo) as HF. pose proof (F2_length _ _ _ HF) as HL.
  split. { unfold mncell. rewrite Hb', mrecount_length, mshift_length; [reflexivity|lia]. }
  cbv zeta. split.
  - intros v Hv. rewrite Hfin in Hv. apply in_app_or in Hv as [Hv|Hv]; [left; eapply subseq_In; eauto|]. right.
    apply merge_In in Hv as [Hv|Hv]; apply last_out_In in Hv as (d & Ed & Hd); rewrite map_length in Ed;
      apply nth_pc_inv in Ed as (d0 & E0 & ->); rewrite pc_q in Hd; eauto.
  - eexists. split; [exact Hb'|]. intros j d k v Ed Hv.
    assert (E1 : nth_error (map (pc k) (mshift [] [] (enter (ml_par l) f cls c (ml_in l ++ arr) :: tl) os)) j = Some (pc k d)).
    { erewrite <- mrecount_pc. apply nth_pc. exact Ed. }
    rewrite mshift_proj in E1. rewrite <- pc_q in Hv.
    destruct (shift_In _ _ _ _ _ _ E1 Hv) as [(d0 & E0 & V0)|[(_ & V0)|(i & d0 & -> & E0 & V0)]].
    + apply nth_pc_inv in E0 as (c0 & E0 & ->). left. eauto.
    + destruct k; destruct V0.
    + apply nth_pc_inv in E0 as (c0 & E0 & ->). right. eauto.
Qed.

Lemma enter_q p f cls c inc k v : In v (queue_of k (enter p f cls c inc)) <-> In v (queue_of k c) \/ (In v inc /\ cls v = k).
Proof.
  unfold enter, queue_of. destruct k; cbn [set_mvol set_mq mc_qc mc_qt]; rewrite ?of_class_cars, ?of_class_trucks, in_app_iff, of_class_In; tauto.
Qed.

Lemma mbefore_step n v cls l arr l' f cs : minterval cls l arr l' -> ml_body l = MCtm f cs -> mbefore n v l -> ~ In v arr -> (n < length cs)%nat ->
  mbefore (S n) v l'.
Proof.
  intros H Hb (Hf & Hi & Hc) Ha Hn.
  destruct (mctm_step_In _ _ _ _ _ _ H Hb) as (c & tl & -> & Hin & _ & X). cbv zeta in X. destruct X as (F & cs' & Hb' & C).
  assert (Hc' : forall j d k, nth_error (enter (ml_par l) f cls c (ml_in l ++ arr) :: tl) j = Some d -> In v (queue_of k d) -> (j < n)%nat).
  { intros [|j] d k E Hv; cbn [nth_error] in E.
    - injection E as <-. apply enter_q in Hv as [Hv|[Hv _]]; [apply (Hc f (c :: tl) 0%nat c k); auto|].
      exfalso. apply in_app_or in Hv as [|]; auto.
    - apply (Hc f (c :: tl) (S j) d k); auto. }
  split; [|split].
  - intros Cv. apply F in Cv as [Cv|(k & d & Ed & Cv)]; [auto|]. apply (Hc' _ _ _ Ed) in Cv. cbn [length] in *. lia.
  - rewrite Hin. auto.
  - intros g cs0 j d k Eb Ed Hv. rewrite Hb' in Eb. injection Eb as <- <-.
    destruct (C j d k v Ed Hv) as [(d0 & E0 & V0)|(i & d0 & -> & E0 & V0)]; apply (Hc' _ _ _ E0) in V0; lia.
Qed.
Lemma mbefore_enter v cls l arr l' f cs : minterval cls l arr l' -> ml_body l = MCtm f cs ->
  (forall k, ~ In v (on_mlink cls k l)) -> mbody_inv cls (ml_body l) -> (1 < length cs)%nat -> mbefore 2 v l'.
Proof.
  intros H Hb Hn Hinv Hk.
  destruct (mctm_step_In _ _ _ _ _ _ H Hb) as (c & tl & -> & Hin & _ & X). cbv zeta in X. destruct X as (F & cs' & Hb' & C).
  assert (Nf : ~ In v (ml_fin l)).
  { intros Hv. apply (Hn (cls v)). unfold on_mlink. apply in_or_app. left. apply of_class_In. auto. }
  assert (Nq : forall j d k, nth_error (c :: tl) j = Some d -> ~ In v (queue_of k d)).
  { intros j d k E Hv. apply (Hn k). unfold on_mlink. apply in_or_app. right. apply in_or_app. left. rewrite Hb.
    change (minside cls k (MCtm f (c :: tl))) with (concat (rev (map (queue_of k) (c :: tl)))).
    apply in_concat. exists (queue_of k d). split; [|exact Hv]. apply -> in_rev. apply in_map. eapply nth_error_In; eauto. }
  assert (Hc' : forall j d k, nth_error (enter (ml_par l) f cls c (ml_in l ++ arr) :: tl) j = Some d -> In v (queue_of k d) -> (j < 1)%nat).
  { intros [|j] d k E Hv; [lia|]. exfalso. apply (Nq (S j) d k); auto. }
  split; [|split].
  - intros Cv. apply F in Cv as [Cv|(k & d & Ed & Cv)]; [auto|]. apply (Hc' _ _ _ Ed) in Cv. cbn [length] in *. lia.
  - rewrite Hin. auto.
  - intros g cs0 j d k Eb Ed Hv. rewrite Hb' in Eb. injection Eb as <- <-.
    destruct (C j d k v Ed Hv) as [(d0 & E0 & V0)|(i & d0 & -> & E0 & V0)]; apply (Hc' _ _ _ E0) in V0; lia.
Qed.

(** ** cell invariant: volumes, splits, lengths *)
Definition sp_of (f : fd) (fs : Q) (c : mcell) : Prop :=
  mc_sp c = perceive f fs (mc_len c) (mc_vc c) (mc_vt c) \/
  (mc_vc c = 0%Z /\ mc_vt c = 0%Z /\ mc_sp c = {| s_fc := 1; s_ft := 0; s_pc := Den 0; s_pt := Den 0 |}).
Fixpoint mvols (cls : Z -> bool) (fin : list Z) (cs : list mcell) : Prop :=
  match cs with
  | [] => True
  | c :: rest =>
      match rest with
      | [] => mc_vc c = (Zlen (mc_qc c) + Zlen (cars cls fin))%Z /\ mc_vt c = (Zlen (mc_qt c) + Zlen (trucks cls fin))%Z
      | _ => mc_vc c = Zlen (mc_qc c) /\ mc_vt c = Zlen (mc_qt c)
      end /\ mvols cls fin rest
  end.
Definition minv (cls : Z -> bool) (f : fd) (lens : list Q) (l : mlink) : Prop :=
  exists cs, ml_body l = MCtm f cs /\ map mc_len cs = lens /\ (forall c, In c cs -> sp_of f (mp_fs (ml_par l)) c) /\
    mvols cls (ml_fin l) cs /\ ml_in l = [].

Lemma mrecount_vols f fs cls fin : forall cs, mvols cls fin (mrecount f fs cls cs fin).
Proof.
  induction cs as [|c cs IH]; [exact I|]. destruct cs as [|c' cs]; [cbn; auto|].
  change (mrecount f fs cls (c :: c' :: cs) fin) with (set_mvol f fs c (Zlen (mc_qc c)) (Zlen (mc_qt c)) :: mrecount f fs cls (c' :: cs) fin).
  destruct (mrecount f fs cls (c' :: cs) fin) as [|d ds] eqn:E.
  { apply (f_equal (@length mcell)) in E. rewrite mrecount_length in E. discriminate. }
  split; [cbn; auto|exact IH].
Qed.
Lemma mrecount_sp f fs cls fin : forall cs c, In c (mrecount f fs cls cs fin) -> sp_of f fs c.
Proof.
  induction cs as [|c cs IH]; intros d Hd; [destruct Hd|]. destruct cs as [|c' cs].
  - destruct Hd as [<-|[]]. left. reflexivity.
  - change (mrecount f fs cls (c :: c' :: cs) fin) with (set_mvol f fs c (Zlen (mc_qc c)) (Zlen (mc_qt c)) :: mrecount f fs cls (c' :: cs) fin) in Hd.
    destruct Hd as [<-|Hd]; [left; reflexivity|]. apply IH. exact Hd.
Qed.
Lemma mrecount_len f fs cls fin : forall cs, map mc_len (mrecount f fs cls cs fin) = map mc_len cs.
Proof.
  induction cs as [|c cs IH]; [reflexivity|]. destruct cs as [|c' cs]; [reflexivity|].
  change (mrecount f fs cls (c :: c' :: cs) fin) with (set_mvol f fs c (Zlen (mc_qc c)) (Zlen (mc_qt c)) :: mrecount f fs cls (c' :: cs) fin).
  cbn [map] in *. rewrite IH. reflexivity.
Qed.
Lemma mshift_len : forall cs os ec et, length os = length cs -> map mc_len (mshift ec et cs os) = map mc_len cs.
Proof. induction cs as [|c cs IH]; intros [|o os] ec et L; cbn in *; try lia; try reflexivity. rewrite IH; [reflexivity|lia]. Qed.

Lemma minv_step cls f lens l arr l' : minterval cls l arr l' -> minv cls f lens l -> minv cls f lens l'.
Proof.
  intros H (cs & Hb & Hl & Hs & Hv & Hi).
  destruct (mctm_interval _ _ _ _ _ _ H Hb) as (rest & c & tl & D & os & fin' & _ & -> & _ & Hin & Hfin & Hp & X). cbv zeta in X. destruct X as (Eo & Ef & Hb').
  pose proof (F2_length _ _ _ (mouts_fits _ _ _ _ _ _ _ Eo)) as HL.
  eexists. split; [exact Hb'|]. rewrite Hfin, Hp. split; [rewrite mrecount_len, mshift_len; [exact Hl|lia]|].
  split; [intros d Hd; eapply mrecount_sp; eauto|]. split; [apply mrecount_vols|exact Hin].
Qed.
Lemma minv_history cls f lens N s arr : mhistory cls N s arr -> minv cls f lens (s 0%nat) -> forall t, (t <= N)%nat -> minv cls f lens (s t).
Proof. intros H H0. induction t as [|t IH]; intros L; [exact H0|]. eapply minv_step; [apply H; lia|apply IH; lia]. Qed.
Lemma minv_new cls p f lens : minv cls f lens (mnew p (MCtm f (map new_mcell lens))).
Proof.
  exists (map new_mcell lens). split; [reflexivity|]. split; [rewrite map_map; cbn; apply map_id|].
  split; [intros c Hc; apply in_map_iff in Hc as (x & <- & _); right; cbn; auto|]. split; [|reflexivity].
  cbn [ml_fin mnew]. induction lens as [|x lens IH]; [exact I|]. cbn [map mvols]. destruct (map new_mcell lens); cbn; split; auto; exact IH.
Qed.

(** ** free flow *)
Lemma sp_free f fs c : fd_ok f -> 0 < fs -> 0 < mc_len c -> (0 <= mc_vc c)%Z -> (0 <= mc_vt c)%Z -> sp_of f fs c ->
  at_free_flow f (kden fs (mc_len c) (mc_vc c)) (kden fs (mc_len c) (mc_vt c)) ->
  exists pc_ pt_, s_pc (mc_sp c) = Den pc_ /\ s_pt (mc_sp c) = Den pt_ /\ pc_ <= cr_c f /\ pt_ <= cr_t f /\
    s_fc (mc_sp c) * pc_ == kden fs (mc_len c) (mc_vc c) /\ s_ft (mc_sp c) * pt_ == kden fs (mc_len c) (mc_vt c).
Proof.
  intros HF Hf HL Zc Zt [->|(E1 & E2 & ->)] HA.
  - apply perceive_free; auto; apply div_nn; auto; apply div_nn; auto; apply injZ_nonneg; auto.
  - rewrite E1, E2. cbn [s_fc s_ft s_pc s_pt]. exists 0, 0. destruct HF as (A1 & _ & A3 & _).
    assert (Z : kden fs (mc_len c) 0 == 0) by (unfold kden; change (inject_Z 0) with 0; field; lra).
    repeat split; auto; try lra; rewrite Z; ring.
Qed.
Lemma free_flux f ut fs c c' x : fd_ok f -> 0 < fs -> 0 < ut -> mc_len c == vf_c f * ut -> 0 < mc_len c' ->
  (0 <= mc_vc c)%Z -> (0 <= mc_vt c)%Z -> (0 <= mc_vc c')%Z -> (0 <= mc_vt c')%Z -> sp_of f fs c -> sp_of f fs c' ->
  at_free_flow f (kden fs (mc_len c) (mc_vc c)) (kden fs (mc_len c) (mc_vt c)) ->
  at_free_flow f (kden fs (mc_len c') (mc_vc c')) (kden fs (mc_len c') (mc_vt c')) ->
  mflux f ut fs c c' = Ok x -> fst x == inject_Z (mc_vc c) /\ snd x == inject_Z (mc_vt c) * (vf_t f / vf_c f).
Proof.
  intros HF Hf Hu HL HL' Z1 Z2 Z3 Z4 S1 S2 A1 A2 E.
  assert (PL : 0 < mc_len c). { rewrite HL. destruct HF as (_ & _ & _ & _ & _ & V & _). pp. }
  destruct (sp_free _ _ _ HF Hf PL Z1 Z2 S1 A1) as (p1 & p2 & E1 & E2 & L1 & L2 & G1 & G2).
  destruct (sp_free _ _ _ HF Hf HL' Z3 Z4 S2 A2) as (q1 & q2 & E3 & E4 & L3 & L4 & _).
  pose proof (fd_w f HF) as (W1 & W2 & C1 & C2 & _). destruct HF as (B1 & B2 & B3 & B4 & B5 & B6 & B7 & B8 & B9 & B10 & _).
  unfold mflux in E. rewrite E1, E2, E3, E4 in E. cbn [pdemand psupply bind] in E. apply Ok_inj in E as <-. cbn [fst snd].
  assert (D1 : Qmin (cap_c f) (vf_c f * p1) == vf_c f * p1) by (apply Q.min_r; rewrite B7; nra).
  assert (D2 : Qmin (cap_t f) (vf_t f * p2) == vf_t f * p2) by (apply Q.min_r; rewrite B8; nra).
  assert (U1 : Qmax 0 (Qmin (cap_c f) (w_c f * (K_c f - q1))) == cap_c f).
  { assert (M : Qmin (cap_c f) (w_c f * (K_c f - q1)) == cap_c f) by (apply Q.min_l; nra). rewrite M. apply Q.max_r. lra. }
  assert (U2 : Qmax 0 (Qmin (cap_t f) (w_t f * (K_t f - q2))) == cap_t f).
  { assert (M : Qmin (cap_t f) (w_t f * (K_t f - q2)) == cap_t f) by (apply Q.min_l; nra). rewrite M. apply Q.max_r. lra. }
  rewrite D1, D2, U1, U2.
  assert (M1 : Qmin (vf_c f * p1 * ut) (cap_c f * ut) == vf_c f * p1 * ut) by (apply Q.min_l; rewrite B7; apply Qmult_le_compat_r; [nra|lra]).
  assert (M2 : Qmin (vf_t f * p2 * ut) (cap_t f * ut) == vf_t f * p2 * ut) by (apply Q.min_l; rewrite B8; apply Qmult_le_compat_r; [nra|lra]).
  rewrite M1, M2. unfold kden in *. set (vc := inject_Z (mc_vc c)) in *. set (vt := inject_Z (mc_vt c)) in *. clearbody vc vt.
  split.
  - setoid_replace (s_fc (mc_sp c) * (vf_c f * p1 * ut) * fs) with (s_fc (mc_sp c) * p1 * (vf_c f * ut) * fs) by ring.
    rewrite G1, <- HL. field. split; lra.
  - setoid_replace (s_ft (mc_sp c) * (vf_t f * p2 * ut) * fs) with (s_ft (mc_sp c) * p2 * (vf_c f * ut) * (vf_t f / vf_c f) * fs) by (field; lra).
    rewrite G2, <- HL. field. repeat split; lra.
Qed.

(** conditions on the cells at the time of the update *)
Fixpoint mfree (f : fd) (ut fs : Q) (cs : list mcell) : Prop :=
  match cs with
  | [] => True
  | c :: rest =>
      (sp_of f fs c /\ 0 < mc_len c /\ (0 <= mc_vc c)%Z /\ (0 <= mc_vt c)%Z /\
       at_free_flow f (kden fs (mc_len c) (mc_vc c)) (kden fs (mc_len c) (mc_vt c)) /\
       (rest <> [] -> mc_len c == vf_c f * ut /\ mc_vc c = Zlen (mc_qc c) /\ mc_vt c = Zlen (mc_qt c))) /\ mfree f ut fs rest
  end.
Lemma free_mouts f ut fs D : fd_ok f -> 0 < fs -> 0 < ut -> mdraws_ok D -> forall cs i os, mfree f ut fs cs -> mouts f ut fs D i cs = Ok os ->
  map (po false) os = map (fun c => Zlen (c_q c)) (map (pc false) cs) /\
  forall j c o, nth_error cs j = Some c -> nth_error os j = Some o ->
    ((S j < length cs)%nat -> vf_t f <= vf_c f -> inject_Z (Zlen (mc_qt c)) * (vf_t f / vf_c f) - 1 < inject_Z (snd o) < inject_Z (Zlen (mc_qt c)) * (vf_t f / vf_c f) + 1) /\
    (S j = length cs -> snd o = Zlen (mc_qt c)) /\ (0 <= snd o <= Zlen (mc_qt c))%Z.
Proof.
  intros HF Hf Hu HD. induction cs as [|c cs IH]; intros i os F E.
  - cbn in E. apply Ok_inj in E as <-. split; [reflexivity|]. intros [|j] ? ? ?; discriminate.
  - destruct cs as [|c' cs].
    + cbn in E. apply Ok_inj in E as <-. split; [reflexivity|]. intros [|[|j]] d o E1 E2; try discriminate. injection E1 as <-. injection E2 as <-.
      cbn [length snd]. pose proof (Zlen_nonneg (mc_qt c)). split; [lia|]. split; [reflexivity|lia].
    + rewrite mouts_cons2 in E. apply bind_ok in E as (x & Ex & E). apply bind_ok in E as (os' & Eo & E). apply Ok_inj in E as <-.
      destruct F as [(S1 & P1 & Z1 & Z2 & A1 & R1) F']. pose proof F' as [(S2 & P2 & Z3 & Z4 & A2 & _) _].
      destruct (R1 ltac:(discriminate)) as (L1 & Q1 & Q2).
      destruct (free_flux _ _ _ _ _ _ HF Hf Hu L1 P2 Z1 Z2 Z3 Z4 S1 S2 A1 A2 Ex) as [X1 X2].
      destruct (IH (S i) os' F' Eo) as [I1 I2].
      pose proof (HD i) as (D1 & D2 & _). pose proof (fd_w f HF) as (W1 & W2 & C1 & C2 & _). destruct HF as (_ & _ & _ & _ & V1 & V2 & _).
      split.
      * cbn [map]. cbn [map] in I1. rewrite I1. f_equal. unfold po, pc. cbn [fst c_q]. rewrite (rround_comp _ _ _ X1), rround_int by lra. lia.
      * assert (Rn : 0 <= vf_t f / vf_c f) by (apply div_nn; lra).
        intros [|j] d o E1 E2; cbn [nth_error] in E1, E2.
        -- injection E1 as <-. injection E2 as <-. cbn [snd length]. rewrite <- Q2 in *.
           pose proof (injZ_nonneg _ Z2) as Zq.
           assert (Xn : 0 <= inject_Z (mc_vt c) * (vf_t f / vf_c f)) by pp.
           rewrite (rround_comp _ _ _ X2). pose proof (rround_nonneg (md_truck D i) _ Xn).
           split; [|split; [lia|lia]]. intros _ Hv.
           assert (Rl : vf_t f / vf_c f <= 1) by (apply div_le; lra).
           assert (Xl : inject_Z (mc_vt c) * (vf_t f / vf_c f) <= inject_Z (mc_vt c)) by (rewrite <- (Qmult_1_r (inject_Z (mc_vt c))) at 2; rewrite Qmult_comm, (Qmult_comm (inject_Z (mc_vt c))); apply Qmult_le_compat_r; auto).
           pose proof (rround_lt (md_truck D i) _ Xn ltac:(lra)). pose proof (rround_gt (md_truck D i) _ Xn).
           destruct (Z.min_spec (mc_vt c) (rround (md_truck D i) (inject_Z (mc_vt c) * (vf_t f / vf_c f)))) as [[M ->]|[M ->]]; [|lra].
           split; [lra|]. apply injZ_lt in M. lra.
        -- destruct (I2 j d o E1 E2) as (J1 & J2 & J3). split; [|split; [|exact J3]].
           ++ intros Hl. apply J1. cbn [length] in *. lia.
           ++ intros Hl. apply J2. cbn [length] in *. lia.
Qed.
