(** Lemmas for the real-time engine: gradients over the table, message signs. *)
From Verif Require Import Base Base_lemmas Model_Num Proof_Num Model_Graph Spec_Graph Proof_Graph Model_CC Proof_CC Model_Path Spec_Path Proof_Path
  Model_Link Spec_Link Model_World Model_Node Model_Sim Proof_GRJ Proof_Safe2 Proof_PreRouting Model_Rt Spec_Rt Proof_Rt.
Open Scope Q_scope.

(** * The optimisation gradient has one sign *)
Lemma opt_fold (par : Z -> lparam) (flow : Z -> Q) n (avg : Z -> Q) dem links : (0 < n)%Z -> 0 < dem -> (forall l, In l links -> par_pos (par l) /\ 0 < avg l /\ 0 <= flow l) ->
  forall a, a <= fold_left (fun g l => g + divide (avg l) dem + divide (link_mc (par l) (avg l) * flow l) (dem * inject_Z n)) links a /\
   (links <> [] -> a < fold_left (fun g l => g + divide (avg l) dem + divide (link_mc (par l) (avg l) * flow l) (dem * inject_Z n)) links a).
Proof.
  intros Hn Hd. assert (HN : 0 < inject_Z n) by (change 0 with (inject_Z 0); now rewrite <- Zlt_Qlt).
  induction links as [|l links IH]; intros H a; cbn [fold_left]; [split; [lra|intros C; now contradiction C]|].
  destruct (H l (or_introl eq_refl)) as (P & A & F).
  assert (D1 : 0 < divide (avg l) dem).
  { unfold divide. destruct (Qeqb_spec (avg l) 0); [lra|]. destruct (Qeqb_spec dem 0); [lra|]. apply Qlt_shift_div_l; lra. }
  assert (D2 : 0 <= divide (link_mc (par l) (avg l) * flow l) (dem * inject_Z n)).
  { unfold divide. destruct (Qeq_bool _ 0); [lra|]. destruct (Qeqb_spec (dem * inject_Z n) 0); [lra|].
    pose proof (link_mc_pos (par l) (avg l) P ltac:(lra)). assert (0 < dem * inject_Z n) by nra. apply Qle_shift_div_l; [assumption|]. nra. }
  destruct (IH (fun x h => H x (or_intror h)) (a + divide (avg l) dem + divide (link_mc (par l) (avg l) * flow l) (dem * inject_Z n))) as [B _].
  split; [lra|intros _; lra].
Qed.
Lemma opt_fold0 (par : Z -> lparam) (flow : Z -> Q) n (avg : Z -> Q) dem links : dem == 0 -> forall a,
  fold_left (fun g l => g + divide (avg l) dem + divide (link_mc (par l) (avg l) * flow l) (dem * inject_Z n)) links a == a.
Proof.
  intros Hd. assert (Z : forall x y, y == 0 -> divide x y == 0).
  { intros x y E. unfold divide. destruct (Qeq_bool x 0); [reflexivity|]. destruct (Qeqb_spec y 0); [reflexivity|contradiction]. }
  induction links as [|l links IH]; intros a; cbn [fold_left]; [reflexivity|]. rewrite IH, !Z; [ring| |exact Hd]. rewrite Hd. ring.
Qed.
Lemma opt_sign par flow n avg dem links : (0 < n)%Z -> 0 <= dem -> links <> [] -> (forall l, In l links -> par_pos (par l) /\ 0 < avg l /\ 0 <= flow l) ->
  Qltb 0 (opt_gradient par flow n avg dem links) = Qltb 0 dem.
Proof.
  intros Hn Hd NE H. unfold opt_gradient. destruct (Qltb_spec 0 dem) as [P|P].
  - destruct (opt_fold par flow n avg dem links Hn P H 0) as [_ B]. specialize (B NE). match goal with |- Qltb 0 ?x = _ => destruct (Qltb_spec 0 x); [reflexivity|lra] end.
  - assert (E : dem == 0) by lra. pose proof (opt_fold0 par flow n avg dem links E 0) as B. match goal with |- Qltb 0 ?x = _ => destruct (Qltb_spec 0 x); [lra|reflexivity] end.
Qed.

(** * Columns *)
Lemma nth_set_nth i x l j : nth j (set_nth i x l) 0 = if (j =? i)%nat then (if (i <? length l)%nat then x else 0) else nth j l 0.
Proof.
  revert i j. induction l as [|y l IH]; intros i j; cbn [set_nth].
  - destruct i; cbn; destruct j; cbn; try reflexivity; destruct (j =? _)%nat; reflexivity.
  - destruct i as [|i], j as [|j]; cbn [nth set_nth Nat.eqb length]; try reflexivity. rewrite IH.
    change (S i <? S (length l))%nat with (i <? length l)%nat. reflexivity.
Qed.
Lemma set_nth_len i x l : length (set_nth i x l) = length l.
Proof. revert i. induction l as [|y l IH]; intros [|i]; cbn; auto. Qed.
Lemma get_set_col col col' x e : (col' < length (e_buf e))%nat -> get_col col (set_col col' x e) = if (col =? col')%nat then x else get_col col e.
Proof. intros L. unfold get_col, set_col. cbn [e_buf]. rewrite nth_set_nth. apply Nat.ltb_lt in L. rewrite L. reflexivity. Qed.

(** same routes, same shares, same columns except one *)
Definition kept_but (c : nat) (es es' : list pentry) : Prop :=
  Forall2 (fun e e' => e_path e' = e_path e /\ e_p e' == e_p e /\ length (e_buf e') = length (e_buf e) /\
                       forall j, j <> c -> get_col j e' = get_col j e) es es'.
Definition kept_but_t (c : nat) (pt pt' : ptable) : Prop :=
  Forall2 (fun x x' : (Z * Z) * list pentry => fst x' = fst x /\ kept_but c (snd x) (snd x')) pt pt'.

Lemma kept_same c es es' : kept_but c es es' -> same_shares es es'.
Proof. unfold kept_but, same_shares. induction 1 as [|e e' l l' (A & B & _) F IH]; constructor; auto. Qed.
Lemma kept_same_t c pt pt' : kept_but_t c pt pt' -> same_table pt pt'.
Proof. unfold kept_but_t, same_table. induction 1 as [|e e' l l' (A & B) F IH]; constructor; auto. split; [exact A|eapply kept_same; eauto]. Qed.
Lemma kept_trans c a b d : kept_but c a b -> kept_but c b d -> kept_but c a d.
Proof.
  unfold kept_but. intros F. revert d. induction F as [|x y l l' (A & B & C & G) F IH]; intros d E; inversion E; subst; [constructor|].
  constructor; [|auto]. destruct H1 as (A' & B' & C' & G'). split; [congruence|]. split; [now rewrite B', B|]. split; [congruence|].
  intros j Hj. rewrite G' by exact Hj. auto.
Qed.
Lemma kept_trans_t c a b d : kept_but_t c a b -> kept_but_t c b d -> kept_but_t c a d.
Proof.
  unfold kept_but_t. intros F. revert d. induction F as [|x y l l' (A & B) F IH]; intros d E; inversion E; subst; [constructor|].
  constructor; [|auto]. destruct H1 as (A' & B'). split; [congruence|]. eapply kept_trans; eauto.
Qed.
Lemma kept_refl_t c pt : kept_but_t c pt pt.
Proof. unfold kept_but_t. induction pt; constructor; auto. split; [reflexivity|]. unfold kept_but. induction (snd a); constructor; auto. repeat split; reflexivity. Qed.

Lemma same_routes P pt pt' : same_table pt pt' -> routes_ok P pt -> routes_ok P pt'.
Proof.
  intros F R k es e I J. destruct (Forall2_In_r _ _ _ _ F I) as ([k0 es0] & I0 & _ & S). cbn in S.
  destruct (Forall2_In_r _ _ _ _ S J) as (e0 & J0 & E & _). rewrite E. eapply R; eauto.
Qed.
Lemma same_demands N assign pt pt' dem : same_table pt pt' -> demands_are N assign pt dem -> demands_are N assign pt' dem.
Proof. intros F R k es I. destruct (Forall2_In_r _ _ _ _ F I) as ([k0 es0] & I0 & E & _). cbn in E. subst k. eapply R; eauto. Qed.

Lemma kept_bufs c n pt pt' : kept_but_t c pt pt' -> bufs n pt -> bufs n pt'.
Proof.
  intros F R k es e I J. destruct (Forall2_In_r _ _ _ _ F I) as ([k0 es0] & I0 & _ & S). cbn in S.
  destruct (Forall2_In_r _ _ _ _ S J) as (e0 & J0 & _ & _ & E & _). rewrite E. eapply R; eauto.
Qed.

(** one optimisation iteration *)
Lemma optimize_step N assign par n step avg flow dem pt :
  (0 < n)%Z -> (forall l, par_pos (par l) /\ 0 < avg l /\ 0 <= flow l) -> 0 <= step -> step <= 9999 ->
  table_ok pt -> bufs 4 pt -> routes_ok (fun ls => ls <> []) pt -> demands_are N assign pt dem -> (forall k, 0 <= dem k) ->
  exists pt1 pt2, write_gradient N assign 3 (opt_gradient par flow n avg) pt = Ok pt1 /\ update_path_p 3 step pt1 = Ok pt2 /\ kept_but_t 3 pt pt2.
Proof.
  intros Hn HL S0 S1 T B R DM DP.
  set (g := fun (x : (Z * Z) * list pentry) => map (fun e => set_col 3 (opt_gradient par flow n avg (dem (fst x)) (r_links (e_path e))) e) (snd x)).
  assert (W : write_gradient N assign 3 (opt_gradient par flow n avg) pt = Ok (map (fun x => (fst x, g x)) pt)).
  { unfold write_gradient. clear T B R. induction pt as [|[k es] pt IH]; [reflexivity|]. cbn [mapM map fst snd].
    rewrite (DM k es (or_introl eq_refl)). cbn [bind]. rewrite IH by (intros k' es' I; apply (DM k' es'); now right). reflexivity. }
  exists (map (fun x => (fst x, g x)) pt).
  assert (U : exists pt2, update_path_p 3 step (map (fun x => (fst x, g x)) pt) = Ok pt2 /\ kept_but_t 3 pt pt2).
  { clear W DM. unfold update_path_p. induction pt as [|[k es] pt IH]; [exists []; split; [reflexivity|constructor]|].
    assert (SO : shares_ok es) by (apply (T k); now left).
    assert (Bk : forall e, In e es -> length (e_buf e) = 4%nat) by (intros e I; apply (B k es); [now left|exact I]).
    assert (Rk : forall e, In e es -> r_links (e_path e) <> []) by (intros e I; apply (R k es e); [now left|exact I]).
    destruct IH as (pt2 & E2 & K2); [intros ? ? I; eapply T; right; eauto|intros ? ? ? I; eapply B; right; eauto|intros ? ? ? I; eapply R; right; eauto|].
    cbn [map mapM fst snd].
    assert (SG : shares_ok (g (k, es))).
    { destruct SO as (NE & HP & HS). unfold g; cbn [snd fst]. split; [destruct es; [now contradiction NE|discriminate]|]. split.
      - intros e I. apply in_map_iff in I as (e0 & <- & I). cbn. auto.
      - rewrite map_map. cbn. exact HS. }
    destruct (update_reweight 3 step (g (k, es)) SG S0 S1) as (es' & E & RW). rewrite E. cbn [bind]. rewrite E2. cbn [bind].
    eexists. split; [reflexivity|]. constructor; [|exact K2]. cbn [fst snd]. split; [reflexivity|].
    assert (SS : same_shares (g (k, es)) es').
    { apply (reweighted_same (fun e => factor step (get_col 3 e)) (if Qltb 0 (dem k) then / (1 + step) else 1 + step) _ _ SG).
      - destruct (Qltb 0 (dem k)); [apply Qinv_lt_0_compat|]; lra.
      - intros e I. unfold g in I. cbn [snd fst] in I. apply in_map_iff in I as (e0 & <- & I). unfold factor.
        rewrite get_set_col by (rewrite (Bk e0 I); lia). cbn [Nat.eqb].
        rewrite (opt_sign par flow n avg (dem k) (r_links (e_path e0)) Hn (DP k) (Rk e0 I) (fun l _ => HL l)). reflexivity.
      - exact RW. }
    unfold reweighted in RW. unfold same_shares in SS. clear - RW SS Bk. unfold g in *. cbn [fst snd] in *. unfold kept_but.
    revert es' RW SS. generalize (sumQ (map (fun e : pentry => e_p e * factor step (get_col 3 e)) (map (fun e : pentry => set_col 3 (opt_gradient par flow n avg (dem k) (r_links (e_path e))) e) es))).
    intros q. induction es as [|e es IH]; intros es' RW SS; inversion RW; subst; inversion SS; subst; [constructor|].
    constructor; [|apply IH; auto; intros; apply Bk; now right].
    destruct H1 as (A1 & A2 & _). destruct H4 as (_ & A4). cbn in A1. split; [exact A1|]. split; [rewrite A4; reflexivity|].
    assert (L : length (e_buf e) = 4%nat) by (apply Bk; now left).
    split; [rewrite A2; unfold set_col; cbn [e_buf]; apply set_nth_len|]. intros j Hj. unfold get_col at 1. rewrite A2.
    change (nth j (e_buf (set_col 3 (opt_gradient par flow n avg (dem k) (r_links (e_path e))) e)) 0) with (get_col j (set_col 3 (opt_gradient par flow n avg (dem k) (r_links (e_path e))) e)).
    rewrite get_set_col by (rewrite L; lia). destruct (Nat.eqb_spec j 3); [contradiction|reflexivity]. }
  destruct U as (pt2 & U & K). exists pt2. auto.
Qed.

Lemma step_frac step i : 0 <= step -> step <= 9999 -> (0 <= i)%Z -> 0 <= step / inject_Z (i + 1) <= 9999.
Proof.
  intros A B C. assert (1 <= inject_Z (i + 1)) by (change 1 with (inject_Z 1); rewrite <- Zle_Qle; lia).
  split; [apply Qle_shift_div_l|apply Qle_shift_div_r]; nra.
Qed.
Lemma optimize_kept N assign par n step dem : (0 < n)%Z -> 0 <= step -> step <= 9999 -> (forall k, 0 <= dem k) ->
  forall obs i pt, (0 <= i)%Z -> (forall avg flow, In (avg, flow) obs -> forall l, par_pos (par l) /\ 0 < avg l /\ 0 <= flow l) ->
  table_ok pt -> bufs 4 pt -> routes_ok (fun ls => ls <> []) pt -> demands_are N assign pt dem ->
  exists pt', optimize_shares N assign par n step i obs pt = Ok pt' /\ kept_but_t 3 pt pt'.
Proof.
  intros Hn S0 S1 DP. induction obs as [|[avg flow] obs IH]; intros i pt Hi HO T B R DM; cbn [optimize_shares]; [exists pt; split; [reflexivity|apply kept_refl_t]|].
  destruct (step_frac step i S0 S1 Hi) as [F0 F1].
  destruct (optimize_step N assign par n (step / inject_Z (i + 1)) avg flow dem pt) as (p1 & p2 & E1 & E2 & K); auto.
  { intros l. apply (HO avg flow). now left. }
  rewrite E1. cbn [bind]. rewrite E2. cbn [bind]. pose proof (kept_same_t _ _ _ K) as SM.
  destruct (IH (i + 1)%Z p2) as (p3 & E3 & K3); [lia|intros a f I; apply (HO a f); now right|eapply same_table_ok; eauto|eapply kept_bufs; eauto|eapply same_routes; eauto|eapply same_demands; eauto|].
  exists p3. split; [exact E3|]. eapply kept_trans_t; eauto.
Qed.

(** * Signs *)
Lemma paths_via_In pt b k e : In (k, e) (paths_via pt b) <-> exists es, In (k, es) pt /\ In e es /\ In b (r_links (e_path e)).
Proof.
  unfold paths_via. rewrite in_concat. split.
  - intros (l & I & J). apply in_map_iff in I as ([k0 es] & <- & I). cbn [fst snd] in J. apply in_map_iff in J as (e0 & E & J). injection E as -> ->.
    apply filter_In in J as [J M]. apply memb_In in M. eauto.
  - intros (es & I & J & M). eexists. split; [apply in_map_iff; exists (k, es); split; [reflexivity|exact I]|]. cbn [fst snd].
    apply in_map. apply filter_In. split; [exact J|now apply memb_In].
Qed.
Lemma via_list (x : Z * Z -> pentry -> Q) pt b : sumQ (map (fun y : (Z * Z) * pentry => x (fst y) (snd y)) (paths_via pt b)) == via_sum b x pt.
Proof.
  unfold paths_via, via_sum. induction pt as [|[k es] pt IH]; cbn [map concat fst snd]; [reflexivity|]. rewrite map_app, sumQ_app, IH, sumQ_c.
  apply Qplus_comp; [|reflexivity]. clear IH. induction es as [|e es IH]; [reflexivity|]. cbn [filter map]. rewrite sumQ_c, <- IH.
  destruct (in_dec Z.eq_dec b (r_links (e_path e))) as [I|I].
  - rewrite (proj2 (memb_In _ _) I). cbn [map fst snd]. rewrite sumQ_c. reflexivity.
  - rewrite (proj2 (memb_false _ _) I). ring.
Qed.
Lemma gain_fold N assign (dem : Z * Z -> Q) l : (forall k e, In (k, e) l -> demand_bynode N (fst k) (snd k) assign = Ok (dem k)) ->
  forall a b, exists a' b', foldM (fun (a : Q * Q) (x : (Z * Z) * pentry) =>
            do d <- demand_bynode N (fst (fst x)) (snd (fst x)) assign;
            Ok (fst a + get_col 2 (snd x) * d, snd a + get_col 0 (snd x) * d)) (a, b) l = Ok (a', b') /\
    a' - b' == a - b + sumQ (map (fun y => (get_col 2 (snd y) - get_col 0 (snd y)) * dem (fst y)) l).
Proof.
  induction l as [|[k e] l IH]; intros H a b; cbn [foldM]; [exists a, b; split; [reflexivity|cbn [map]; rewrite sumQ_n; ring]|].
  cbn [fst snd]. rewrite (H k e (or_introl eq_refl)). cbn [bind].
  destruct (IH (fun k e h => H k e (or_intror h)) (a + get_col 2 e * dem k) (b + get_col 0 e * dem k)) as (a' & b' & E & G).
  exists a', b'. split; [exact E|]. rewrite G. sq. cbn [fst snd]. ring.
Qed.
Lemma link_gain_ok N assign pt dem b : demands_are N assign pt dem -> exists g, link_gain N assign pt b = Ok g /\ g == gain dem pt b.
Proof.
  intros D. unfold link_gain. destruct (gain_fold N assign dem (paths_via pt b)) with (a := 0) (b := 0) as (x & y & E & G).
  { intros k e I. apply paths_via_In in I as (es & I & _). eapply D; eauto. }
  rewrite E. cbn [bind fst snd]. eexists. split; [reflexivity|]. rewrite G. unfold gain.
  rewrite <- (via_list (fun k e => (nth 2 (e_buf e) 0 - nth 0 (e_buf e) 0) * dem k)). unfold get_col. ring.
Qed.

Lemma best_fold N assign pt dem : demands_are N assign pt dem -> forall outs acc, (forall b g, acc = Some (b, g) -> g == gain dem pt b) ->
  exists r, foldM (best_step N assign pt) acc outs = Ok r /\
   match r with
   | None => acc = None /\ outs = []
   | Some (b, g) => g == gain dem pt b /\ (In b outs \/ acc = Some (b, g)) /\ (forall b', In b' outs -> gain dem pt b' <= gain dem pt b) /\
                    (forall b0 g0, acc = Some (b0, g0) -> g0 <= g)
   end.
Proof.
  intros D. induction outs as [|x outs IH]; intros acc HA; cbn [foldM].
  - exists acc. split; [reflexivity|]. destruct acc as [[b g]|]; [|auto]. split; [auto|]. split; [now right|]. split; [intros ? []|]. intros ? ? [= <- <-]. apply Qle_refl.
  - unfold best_step at 1. destruct (link_gain_ok N assign pt dem x D) as (g & EG & VG). rewrite EG. cbn [bind].
    destruct acc as [[b0 g0]|].
    + destruct (Qltb_spec g0 g) as [L|L]; cbn [bind].
      * destruct (IH (Some (x, g))) as (r & E & H); [intros ? ? [= <- <-]; exact VG|]. exists r. split; [exact E|]. destruct r as [[b1 g1]|]; [|destruct H; discriminate].
        destruct H as (H1 & H2 & H3 & H4). specialize (H4 _ _ eq_refl). split; [exact H1|]. split; [destruct H2 as [H2|H2]; [left; now right|injection H2 as <- <-; left; now left]|].
        split; [intros b' [<- | I]; [lra|auto]|]. intros ? ? [= <- <-]. lra.
      * destruct (IH (Some (b0, g0))) as (r & E & H); [exact HA|]. exists r. split; [exact E|]. destruct r as [[b1 g1]|]; [|destruct H; discriminate].
        destruct H as (H1 & H2 & H3 & H4). specialize (H4 _ _ eq_refl). split; [exact H1|]. split; [destruct H2 as [H2|H2]; [left; now right|now right]|].
        split; [intros b' [<- | I]; [lra|auto]|]. intros ? ? [= <- <-]. exact H4.
    + cbn [bind]. destruct (IH (Some (x, g))) as (r & E & H); [intros ? ? [= <- <-]; exact VG|]. exists r. split; [exact E|]. destruct r as [[b1 g1]|]; [|destruct H; discriminate].
      destruct H as (H1 & H2 & H3 & H4). specialize (H4 _ _ eq_refl). split; [exact H1|]. split; [destruct H2 as [H2|H2]; [left; now right|injection H2 as <- <-; left; now left]|].
      split; [intros b' [<- | I]; [lra|auto]|]. discriminate.
Qed.

(** without any gain the first link wins *)
Lemma best_flat N assign pt dem : demands_are N assign pt dem -> (forall b, gain dem pt b == 0) ->
  forall outs b g, g == 0 -> exists g', foldM (best_step N assign pt) (Some (b, g)) outs = Ok (Some (b, g')) /\ g' == 0.
Proof.
  intros D Z. induction outs as [|x outs IH]; intros b g G; cbn [foldM]; [eauto|].
  unfold best_step at 1. destruct (link_gain_ok N assign pt dem x D) as (y & EG & VG). rewrite EG. cbn [bind]. rewrite Z in VG.
  destruct (Qltb_spec g y); [lra|]. cbn [bind]. apply IH. exact G.
Qed.

(** * Compliance *)
Lemma max_min_one x : Qmax (Qmin x 0) 1 == 1.
Proof. apply Q.max_r. destruct (Qlt_le_dec x 0); [rewrite Q.min_l by lra; lra|rewrite Q.min_r by lra; lra]. Qed.
Lemma update_ratio_val N assign pt v v' : update_ratio N assign pt v = Ok v' ->
  vm_link v' = vm_link v /\ vm_outs v' = vm_outs v /\ vm_detour v' = vm_detour v /\ vm_ratio v' == vm_ratio v * (7 # 10) + (3 # 10).
Proof.
  unfold update_ratio. intros H. apply bind_ok in H as (f & _ & H). apply Ok_inj in H as <-. cbn. repeat split. rewrite max_min_one. ring.
Qed.

(** shares scaled by 1 *)
Lemma scale_one c b pt : c == 1 -> same_table pt (scale_via c pt b).
Proof.
  intros C. unfold scale_via, same_table. induction pt as [|[k es] pt IH]; cbn [map]; constructor; [|exact IH]. cbn [fst snd]. split; [reflexivity|].
  clear IH. unfold same_shares. induction es as [|e es IH]; cbn [map]; constructor; [|exact IH]. destruct (memb _ _); cbn; [split; [reflexivity|rewrite C; ring]|split; reflexivity].
Qed.
Lemma comply_one pt v : vm_ratio v == 1 -> same_table pt (comply pt v).
Proof.
  intros C. unfold comply. revert pt. induction (filter _ _) as [|b l IH]; intros pt; cbn [fold_left]; [apply same_table_refl|].
  eapply same_table_trans; [apply (scale_one (vm_ratio v) b pt C)|apply IH].
Qed.
Lemma normalize_table_same pt : table_ok pt -> exists pt', normalize_table pt = Ok pt' /\ same_table pt pt'.
Proof.
  intros T. unfold normalize_table. induction pt as [|[k es] pt IH]; [exists []; split; [reflexivity|constructor]|]. cbn [mapM fst snd].
  destruct IH as (pt2 & E2 & S2); [intros ? ? I; eapply T; right; eauto|].
  assert (SO : shares_ok es) by (apply (T k); now left). pose proof SO as (NE & HP & HS).
  destruct (normalize_reweight es es (fun _ => 1)) as (es' & E & RW); auto; [intros; lra| |].
  { clear. induction es; constructor; auto. repeat split; try reflexivity. ring. }
  rewrite E. cbn [bind]. rewrite E2. cbn [bind]. eexists. split; [reflexivity|]. constructor; [|exact S2]. cbn. split; [reflexivity|].
  apply (reweighted_same (fun _ => 1) 1); auto; [lra|intros; reflexivity].
Qed.
