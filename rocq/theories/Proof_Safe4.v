(** A whole run never fails on valid input. *)
From Verif Require Import Base Base_lemmas Model_Num Proof_Num Spec_Path Proof_Path Model_CC Spec_CC Proof_CC Model_Path Model_Link Spec_Link Spec_Node
  Proof_Link Proof_Link3 Proof_Link4 Proof_Link5 Model_World Model_Node Proof_Node Proof_Node2 Proof_Node3 Proof_Node4 Proof_Node5 Model_Sim Spec_Sim Spec_Route
  Proof_Sim1 Proof_Sim2 Proof_Sim3 Proof_Sim4 Proof_Sim5 Proof_Sim6 Proof_Sim7 Spec_Valid Proof_Safe1 Proof_Safe2 Proof_Safe3.
Local Open Scope Z_scope.

Section Safe.
Context (N : net) (w0 : world) (VA : valid_input N w0).
Let K : net_ok N := va_net _ _ VA.
Let pt0 := w_pt w0.
Notation rinv := (rinv N w0).
Notation bound := (bound N w0).
Notation ready := (ready N w0).

Section Links.
Context (D : draws) (DV : draws_valid D) (t : Z) (Ht : 0 <= t) (w2 w3 : world) (RD : ready t w2) (M : minv N t w2 (n_nodes N) w3).
Record linv (done : list Z) (w : world) : Prop := {
  li_s : sinv N w;
  li_veh : w_veh w = w_veh w3; li_oq : w_oq w = w_oq w3; li_dq : w_dq w = w_dq w3; li_cc : w_cc w = w_cc w3; li_fac : w_fac w = w_fac w3; li_trk : w_trk w = w_trk w3; li_pt : w_pt w = w_pt w3;
  li_todo : forall l, ~ In l done -> w_link w l = w_link w3 l;
  li_done : forall l, In l (n_links N) -> In l done -> lsafe (n_fs N) (w_link w l) /\ is_pq (w_link w l) = is_pq (w_link w2 l) /\
    (forall cs v, l_body (w_link w l) = BCtm cs -> In v (inside (l_body (w_link w l)) ++ l_in (w_link w l)) -> v_next (w_veh w3 v) = Some l) }.
Lemma lsafe_in l : lsafe (n_fs N) l -> is_pq l = false -> l_in l = [].
Proof.
  intros (_ & _ & H). unfold is_pq. destruct (l_body l) as [cs| |q vol] eqn:B; [intros _; apply H|discriminate|intros _]. destruct H as (_ & _ & (q' & v' & _ & _ & Hin & _)). exact Hin.
Qed.
Lemma link_step_total done rest w l : n_links N = done ++ l :: rest -> linv done w -> exists w', link_step D w l = Ok w' /\ linv (done ++ [l]) w'.
Proof.
  intros E L. pose proof L as [I Ev Eo Ed Ec Ef Et Ep TD DN].
  assert (Hl : In l (n_links N)) by (rewrite E; apply in_or_app; right; now left).
  assert (Nl : ~ In l done). { pose proof (no_links N K) as ND. rewrite E in ND. apply NoDup_remove_2 in ND. intros C. apply ND. apply in_or_app. now left. }
  assert (Wl : w_link w l = w_link w3 l) by auto.
  pose proof (rd_link _ _ _ _ RD l Hl) as LS. destruct (m_like _ _ _ _ _ M l) as [Lp Lb].
  assert (MI := m_in _ _ _ _ _ M l Hl).
  assert (NX : forall v, In v (inside (l_body (w_link w3 l)) ++ l_in (w_link w3 l)) -> forall cs, l_body (w_link w2 l) = BCtm cs -> v_next (w_veh w3 v) = Some l).
  { intros v Hv cs B. rewrite (m_veh _ _ _ _ _ v M). apply in_app_or in Hv as [Hv|Hv].
    - apply (rd_ctm _ _ _ _ RD l cs v Hl B). apply in_or_app. left. now rewrite Lb in Hv.
    - destruct (m_next _ _ _ _ _ M l v Hv) as [X|X]; [|exact X]. apply (rd_ctm _ _ _ _ RD l cs v Hl B). apply in_or_app. now right. }
  destruct (lsafe_step (n_fs N) (w_link w2 l) (w_link w3 l) (skipn (length (l_in (w_link w2 l))) (l_in (w_link w3 l))) (d_cell D l) (has_next w)) as (x & y & Ex & Ey & Sy & Py & Cy); auto.
  - destruct DV as (_ & _ & _ & _ & _ & _ & _ & X). intros i. apply X.
  - apply M.
  - destruct MI as [X|(n & k & _ & _ & arr & X & _)]; rewrite X; [rewrite skipn_all; now rewrite app_nil_r|]. f_equal. rewrite skipn_app, skipn_all, Nat.sub_diag. reflexivity.
  - intros P s Es. pose proof (lsafe_in _ LS P) as Z0. destruct MI as [X|(n & k & _ & _ & arr & X & Y)]; rewrite X, Z0.
    + destruct (lsafe_supply _ _ LS) as (s' & Es' & Hs'). rewrite Es in Es'. apply Ok_inj in Es' as <-. change (inject_Z (Zlen [])) with 0%Q. apply Qmult_le_0_compat; [exact Hs'|]. pose proof (no_fs N K). lra.
    + simpl. apply Y; auto.
  - intros cs B v Hv. unfold has_next. rewrite Ev, (NX v Hv cs B). reflexivity.
  - unfold link_step. rewrite Wl, Ex. cbn [bind]. rewrite Ey. cbn [bind]. eexists. split; [reflexivity|].
    assert (H : link_step D w l = Ok (set_link w l y)) by (unfold link_step; rewrite Wl, Ex; cbn [bind]; rewrite Ey; reflexivity).
    pose proof (link_step_sinv _ _ _ _ _ K Hl H I) as I'. destruct (link_step_on N D w l _ Hl I H) as (On & _).
    constructor; auto.
    + intros l' Hl'. cbn [set_link w_link]. rewrite upd_other; [|intros ->; apply Hl'; apply in_or_app; right; now left]. apply TD. intros C. apply Hl'. apply in_or_app. now left.
    + intros l' Hl' C. cbn [set_link w_link]. destruct (Z.eq_dec l' l) as [->|Ne].
      * rewrite upd_same. split; [exact Sy|]. split; [exact Py|]. intros cs v B Hv. destruct (Cy cs B) as ((cs' & B') & z & Fz). apply (NX v) with (cs := cs'); [|exact B'].
        specialize (On l). cbn [set_link w_link] in On. rewrite upd_same, Wl in On. unfold on_link in On. rewrite Fz, <- app_assoc in On. apply app_inv_head in On. rewrite <- On. apply in_or_app. now right.
      * rewrite upd_other by exact Ne. apply DN; auto. apply in_app_or in C as [C|[C|[]]]; [exact C|congruence].
Qed.
Lemma links_total : exists w4, foldM (link_step D) w3 (n_links N) = Ok w4 /\ linv (n_links N) w4.
Proof.
  assert (X : forall rest done w, n_links N = done ++ rest -> linv done w -> exists w4, foldM (link_step D) w rest = Ok w4 /\ linv (n_links N) w4).
  { induction rest as [|l rest IH]; intros done w E L; cbn [foldM].
    - exists w. split; [reflexivity|]. rewrite E, app_nil_r. exact L.
    - destruct (link_step_total done rest w l E L) as (w' & E' & L'). rewrite E'. cbn [bind]. apply (IH (done ++ [l])); [rewrite E, <- app_assoc; reflexivity|exact L']. }
  apply (X (n_links N) [] w3 eq_refl). constructor; auto; [apply M|]. intros l _ [].
Qed.
End Links.

(** ** arrivals *)
Lemma receive_loop_total t n : n_routing N = RFixed -> forall vs w, NoDup vs ->
  (forall v, In v vs -> v_dst (w_veh w v) = n /\ 0 <= v_start (w_veh w v) < t /\ v_adapt (w_veh w v) = false /\ In v (f_live (w_fac w))) ->
  f_num (w_fac w) = f_enroute (w_fac w) + f_finished (w_fac w) -> exists w', foldM (receive_veh N t n) w vs = Ok w'.
Proof.
  intros RF. induction vs as [|v vs IH]; intros w ND H B; cbn [foldM]; [eauto|]. apply NoDup_cons_iff in ND as [Nv ND].
  destruct (H v (or_introl eq_refl)) as (H1 & H2 & H3 & H4).
  assert (X : exists w', receive_veh N t n w v = Ok w').
  { unfold receive_veh. rewrite H1, Z.eqb_refl. cbn [guard bind]. cbv zeta. rewrite RF. cbn [v_fin v_start v_adapt set_vfin]. rewrite H3.
    replace ((0 <? t) && (v_start (w_veh w v) <? t)) with true by (symmetry; apply andb_true_iff; split; apply Z.ltb_lt; lia).
    replace (v_start (w_veh w v) <? t) with true by (symmetry; apply Z.ltb_lt; lia). cbn [guard bind negb set_vehs w_trk].
    assert (G : f_num (w_fac w) =? f_finished (w_fac w) + 1 + (f_enroute (w_fac w) - 1) = true) by (apply Z.eqb_eq; lia).
    destruct (w_trk w v); cbn [guard bind negb set_vehs set_trk w_fac f_num f_finished f_enroute]; rewrite (proj2 (memb_In _ _) H4); cbn [guard bind]; rewrite G; cbn [guard bind]; eauto. }
  destruct X as (w1 & E1). rewrite E1. cbn [bind]. apply receive_veh_eff in E1. destruct E1 as [A1 A2 A3 A4 A5 A6 A7 A8 A9 A10 A11 A12 A13 A14 A15].
  apply IH; [exact ND| |].
  - intros u Hu. assert (Ne : u <> v) by (intros ->; contradiction). destruct (H u (or_intror Hu)) as (G1 & G2 & G3 & G4).
    assert (Mb : memb u [v] = false) by (apply memb_false; intros [C|[]]; congruence). rewrite A13, Mb. repeat (split; [assumption|]).
    apply zc_In. rewrite A12, Mb. apply zc_In in G4. exact G4.
  - rewrite A6, A8, A9. lia.
Qed.
Lemma zc_nodup l : (forall v, zc v l <= 1) -> NoDup l.
Proof.
  induction l as [|x l IH]; intros H; [constructor|]. constructor.
  - intros C. apply zc_In in C. specialize (H x). change (x :: l) with ([x] ++ l) in H. rewrite zc_app, zc_one, Z.eqb_refl in H. unfold one_if in H. lia.
  - apply IH. intros v. specialize (H v). change (x :: l) with ([x] ++ l) in H. rewrite zc_app, zc_one in H. unfold one_if in H. destruct (v =? x); lia.
Qed.
Definition dinv (t : Z) (w4 : world) (done : list Z) (w : world) : Prop :=
  sinv N w /\ w_link w = w_link w4 /\ w_oq w = w_oq w4 /\ w_cc w = w_cc w4 /\ w_pt w = w_pt w4 /\ f_num (w_fac w) = f_num (w_fac w4) /\
  (forall v, stat (w_veh w v) = stat (w_veh w4 v) /\ v_next (w_veh w v) = v_next (w_veh w4 v)) /\
  (forall n, In n done -> w_dq w n = []) /\ (forall n, ~ In n done -> w_dq w n = w_dq w4 n).
Lemma dests_total t w4 : sinv N w4 -> (forall v, 1 <= v <= f_num (w_fac w4) -> trip_ok N (w_veh w4 v)) ->
  (forall n v, In n (n_dests N) -> In v (w_dq w4 n) -> v_dst (w_veh w4 v) = n /\ 0 <= v_start (w_veh w4 v) < t) ->
  exists w5, foldM (receive N t) w4 (n_dests N) = Ok w5 /\ dinv t w4 (n_dests N) w5.
Proof.
  intros I4 TR DQ.
  assert (X : forall rest done w, n_dests N = done ++ rest -> dinv t w4 done w -> exists w5, foldM (receive N t) w rest = Ok w5 /\ dinv t w4 (n_dests N) w5).
  { induction rest as [|n rest IH]; intros done w E L; cbn [foldM].
    - exists w. split; [reflexivity|]. rewrite E, app_nil_r. exact L.
    - pose proof L as (I & El & Eo & Ec & Ep & En & Ev & Dn & Du).
      assert (Hn : In n (n_dests N)) by (rewrite E; apply in_or_app; right; now left).
      assert (Nn : ~ In n done). { pose proof (no_dests N K) as ND. rewrite E in ND. apply NoDup_remove_2 in ND. intros C. apply ND. apply in_or_app. now left. }
      assert (Y : exists w', receive N t w n = Ok w').
      { unfold receive. rewrite (Du n Nn).
        destruct (receive_loop_total t n (va_routing _ _ VA) (w_dq w4 n) w) as (w1 & E1).
        - apply zc_nodup. intros v. pose proof (zd_ge N w4 v n Hn). pose proof (zo_nn N w4 v). pose proof (zl_nn N w4 v). pose proof (one_le N w4 I4 v). pose proof (zc_nonneg v (arrived w4)). unfold zcount in *. lia.
        - intros v Hv. destruct (DQ n v Hn Hv) as [A B]. destruct (Ev v) as [Sv _]. unfold stat in Sv. injection Sv as S1 S2 S3 S4 S5. rewrite S2, S4, S3.
          split; [exact A|]. split; [exact B|].
          pose proof (known N w4 v I4 (or_intror (or_intror (ex_intro _ n (conj Hn Hv))))) as Kn. destruct (TR v Kn) as (Ad & _). split; [exact Ad|].
          apply zc_In. rewrite (i_live _ _ I). assert (Hv' : In v (w_dq w n)) by now rewrite (Du n Nn). apply zc_In in Hv'.
          pose proof (zd_ge N w v n Hn). pose proof (zo_nn N w v). pose proof (zl_nn N w v). unfold zcount. lia.
        - apply (i_enr _ _ I).
        - rewrite E1. cbn [bind]. eauto. }
      destruct Y as (w' & E'). rewrite E'. cbn [bind]. apply (IH (done ++ [n])); [rewrite E, <- app_assoc; reflexivity|].
      pose proof (receive_sinv _ _ _ _ _ K Hn E' I) as I'. unfold receive in E'. apply bind_ok in E' as (w1 & H1 & E'). apply Ok_inj in E' as <-.
      apply receive_loop_eff in H1. destruct H1 as [A1 A2 A3 A4 A5 A6 A7 A8 A9 A10 A11 A12 A13 A14 A15].
      split; [exact I'|]. cbn [set_dq w_link w_oq w_cc w_pt w_fac w_veh w_dq]. split; [congruence|]. split; [congruence|]. split; [congruence|]. split; [congruence|]. split; [congruence|]. split.
      + intros v. rewrite A13. destruct (memb v _); apply Ev.
      + split.
        * intros n' C. destruct (Z.eq_dec n' n) as [->|Ne]; [apply upd_same|]. rewrite upd_other, A3 by exact Ne. apply Dn. apply in_app_or in C as [C|[C|[]]]; [exact C|congruence].
        * intros n' C. rewrite upd_other, A3; [apply Du; intros C'; apply C; apply in_or_app; now left|]. intros ->. apply C. apply in_or_app. right. now left. }
  apply (X (n_dests N) [] w4 eq_refl). repeat (split; [assumption || reflexivity|]). split; [intros v; split; reflexivity|]. split; [intros n []|reflexivity].
Qed.

(** ** one interval *)
Lemma after_nodes D t w w1 w2 w3 a : draws_valid D -> 0 <= t -> bound t w -> release_all N D t a w = Ok w1 -> update_routing N D t w1 = Ok w2 -> ready t w2 ->
  foldM (node_evolve N D t) w2 (n_nodes N) = Ok w3 -> minv N t w2 (n_nodes N) w3 ->
  exists w', load_once N D t a w = Ok w' /\ bound (t + 1) w'.
Proof.
  intros DV Ht B E1 E2 RD E3 M. destruct (links_total D DV t w2 w3 RD M) as (w4 & E4 & L).
  pose proof L as [I4 Lv Lo Ld Lc Lf Lt Lp _ LD]. pose proof (m_keep _ _ _ _ _ M) as (Kf & Kt & Kp & Kv). pose proof (rd_r _ _ _ _ RD) as R2.
  assert (ST4 : forall v, stat (w_veh w4 v) = stat (w_veh w2 v)) by (intros v; rewrite Lv; apply vkeep_stat, Kv).
  assert (TR4 : forall v, 1 <= v <= f_num (w_fac w4) -> trip_ok N (w_veh w4 v)).
  { intros v Hv. rewrite Lf, Kf in Hv. destruct (ri_trip _ _ _ R2 v Hv) as (X & Y). pose proof (ST4 v) as S4. unfold stat in S4. injection S4 as S1 S2 S3 S4 S5. split; [congruence|]. now rewrite S1, S2. }
  destruct (dests_total t w4 I4 TR4) as (w5 & E5 & DI).
  { intros n v Hn Hv. rewrite Ld in Hv. destruct (m_dq _ _ _ _ _ M n v Hn Hv) as [A C]. pose proof (ST4 v) as S4. unfold stat in S4. injection S4 as S1 S2 S3 S4 S5. now rewrite S2, S4. }
  assert (EL : load_once N D t a w = Ok w5) by (unfold load_once; rewrite E1; cbn [bind]; rewrite E2; cbn [bind]; rewrite E3; cbn [bind]; rewrite E4; cbn [bind]; exact E5).
  exists w5. split; [exact EL|]. destruct DI as (I5 & Fl & Fo & Fc & Fp & Fn & Fv & Fd & _).
  assert (ST5 : forall v, stat (w_veh w5 v) = stat (w_veh w2 v)) by (intros v; rewrite (proj1 (Fv v)); apply ST4).
  constructor.
  - constructor.
    + exact I5.
    + intros v. destruct (ri_v _ _ _ (b_r _ _ _ _ B) v) as (h & V). eexists.
      exact (load_once_v N K pt0 (valid_routes_ok N w0 VA) v None D t a w w5 h DV (ri_s _ _ _ (b_r _ _ _ _ B)) EL V).
    + intros v Hv. rewrite Fn in Hv. destruct (TR4 v Hv) as (X & Y). destruct (Fv v) as [S4 _]. unfold stat in S4. injection S4 as S1 S2 S3 S4 S5. split; [congruence|]. now rewrite S1, S2.
    + intros n v Hn Hv. rewrite Fo, Lo in Hv. assert (Hv2 : In v (w_oq w2 n)) by (eapply subseq_In; [apply (m_oq _ _ _ _ _ M)|exact Hv]).
      rewrite <- (ri_oq _ _ _ R2 n v Hn Hv2). pose proof (ST5 v) as S5. unfold stat in S5. congruence.
  - intros v Hv. rewrite Fn, Lf, Kf in Hv. rewrite (stat_start _ _ (ST5 v)). apply (rd_new _ _ _ _ RD v Hv).
  - intros l Hl. rewrite Fl. apply (LD l Hl Hl).
  - intros l cs v Hl. rewrite Fl. intros Bl Hv. rewrite (proj2 (Fv v)), Lv. eapply (LD l Hl Hl); eauto.
  - intros n b Hn Hb. rewrite Fl. destruct (LD b (no_out N K n b Hb) (no_out N K n b Hb)) as (_ & P & _). rewrite P. eapply (rd_conn _ _ _ _ RD); eauto.
  - exact Fd.
  - rewrite Fc, Lc. apply (m_time _ _ _ _ _ M).
  - rewrite Fp, Lp, Kp. apply (rd_tbl _ _ _ _ RD).
Qed.
Lemma load_once_safe D t a w : draws_valid D -> 0 <= t -> bound t w ->
  (exists w', load_once N D t a w = Ok w' /\ bound (t + 1) w') \/ load_once N D t a w = Err EFuel.
Proof.
  intros DV Ht B. destruct (to_ready N w0 VA D t a w DV Ht B) as (w1 & w2 & E1 & E2 & RD).
  destruct (nodes_safe N w0 VA D DV t Ht w2 RD (n_nodes N) [] w2 eq_refl (minv_start N w0 t w2 RD)) as [(w3 & E3 & M)|E3].
  - left. eapply after_nodes; eauto.
  - right. unfold load_once. rewrite E1. cbn [bind]. rewrite E2. cbn [bind]. rewrite E3. reflexivity.
Qed.

(** ** the start *)
Lemma bound_fresh : bound 0 w0.
Proof.
  pose proof (va_fresh _ _ VA) as F. pose proof F as [F1 F2 F3 F4 F5 F6 F7]. constructor.
  - constructor.
    + now apply fresh_sinv.
    + intros v. exists []. apply fresh_v; auto.
    + rewrite F7. cbn [f_num]. intros; lia.
    + intros n v _ C. rewrite F1 in C. destruct C.
  - rewrite F7. cbn [f_num]. intros; lia.
  - intros l Hl. destruct (va_link _ _ VA l Hl) as (p & P & Ef & Fr & St). rewrite <- Ef. apply (fresh_lsafe p _ P Fr St).
  - intros l cs v Hl _ C. destruct (F3 l Hl) as (p & Hp). assert (X : In v (on_link (w_link w0 l))) by (unfold on_link; apply in_or_app; now right).
    rewrite (proj1 (proj2 (fresh_empty _ _ Hp))) in X. destruct X.
  - intros n b Hn Hb. apply in_map_iff in Hn as (o & <- & Ho). pose proof (no_out N K _ _ Hb) as Hl. destruct (va_link _ _ VA b Hl) as (p & P & Ef & Fr & St).
    rewrite (proj2 (fresh_lsafe p _ P Fr St)), (va_connector _ _ VA o b Ho Hb). reflexivity.
  - intros n _. apply F2.
  - assert (CT : ctime 0 fresh_curve) by (apply fresh_time; lia).
    split; [|split; [|split]]; intros l x E.
    + destruct (F4 l) as [[A _]|[A _]]; rewrite A in E; [discriminate|]. injection E as <-. exact CT.
    + destruct (F4 l) as [[_ A]|[_ A]]; rewrite A in E; [discriminate|]. injection E as <-. exact CT.
    + destruct (F5 l) as [[A|A] _]; rewrite A in E; [discriminate|]. injection E as <-. constructor.
    + destruct (F5 l) as [_ [A|A]]; rewrite A in E; [discriminate|]. injection E as <-. constructor.
  - constructor.
    + intros k es H. eauto.
    + apply (va_filled _ _ VA).
    + destruct (va_shares _ _ VA) as [[A B]|(A & B & C)]; [left|right]; split; auto. split; [exact B|]. split; [exact C|]. lia.
Qed.
Lemma run_safe D : (forall t, draws_valid (D t)) -> forall k,
  (exists s, run N D k (init_state N w0) = Ok s /\ s_cur s = Z.of_nat k /\ bound (Z.of_nat k) (s_w s)) \/ run N D k (init_state N w0) = Err EFuel.
Proof.
  intros DV. induction k as [|k IH]; [left; eexists; split; [reflexivity|]; split; [reflexivity|apply bound_fresh]|].
  cbn [run]. destruct IH as [(s & E & C & B)|E]; rewrite E; cbn [bind]; [|now right]. unfold loop_body. rewrite C.
  destruct (load_once_safe (D (Z.of_nat k)) (Z.of_nat k) (s_assign s) (s_w s) (DV _) ltac:(lia) B) as [(w' & E' & B')|E']; rewrite E'; cbn [bind]; [left|now right].
  eexists. split; [reflexivity|]. cbn [s_cur s_w]. split; [lia|]. now replace (Z.of_nat (S k)) with (Z.of_nat k + 1) by lia.
Qed.

(** ** enough random numbers *)
Lemma with_fuel_valid f D : draws_valid D -> draws_valid (with_fuel f D).
Proof. intros H. exact H. Qed.
Lemma round_column_mono fs r picks flow sup ins f f' c : (f <= f')%nat -> round_column fs r f picks flow sup ins = Ok c -> round_column fs r f' picks flow sup ins = Ok c.
Proof. intros L. unfold round_column. cbv zeta. intros H. eapply trim_mono; eauto. Qed.
Lemma mapM_ext_ok {A B} (f g : A -> res B) : (forall a b, f a = Ok b -> g a = Ok b) -> forall l l', mapM f l = Ok l' -> mapM g l = Ok l'.
Proof.
  intros H. induction l as [|a l IH]; intros l' E; simpl in *; [exact E|]. apply bind_ok in E as (b & Eb & E). apply bind_ok in E as (bs & Es & E).
  rewrite (H _ _ Eb). cbn [bind]. rewrite (IH _ Es). exact E.
Qed.
Lemma foldM_ext_ok {A S} (f g : S -> A -> res S) : (forall s a s', f s a = Ok s' -> g s a = Ok s') -> forall l s s', foldM f s l = Ok s' -> foldM g s l = Ok s'.
Proof.
  intros H. induction l as [|a l IH]; intros s s' E; simpl in *; [exact E|]. apply bind_ok in E as (b & Eb & E). rewrite (H _ _ _ Eb). cbn [bind]. auto.
Qed.
Lemma junction_mono fs ins outs flow D t n w w' f f' : (f <= f')%nat -> junction_evolve fs ins outs flow (with_fuel f D) t n w = Ok w' -> junction_evolve fs ins outs flow (with_fuel f' D) t n w = Ok w'.
Proof.
  intros L. unfold junction_evolve. intros H. apply bind_ok in H as (m & Em & H).
  assert (X : junction_columns fs ins outs flow (with_fuel f' D) n w = Ok m); [|rewrite X; exact H].
  unfold junction_columns in *. apply bind_ok in Em as (u & G & Em). rewrite G. cbn [bind]. apply bind_ok in Em as (sup & Es & Em). rewrite Es. cbn [bind]. cbv zeta in *.
  revert Em. apply mapM_ext_ok. intros b x E. apply bind_ok in E as (c & Ec & E). cbn [with_fuel d_node d_fuel d_pick] in *. rewrite (round_column_mono _ _ _ _ _ _ _ _ _ L Ec). exact E.
Qed.
Lemma node_mono D t f f' w nk w' : (f <= f')%nat -> node_evolve N (with_fuel f D) t w nk = Ok w' -> node_evolve N (with_fuel f' D) t w nk = Ok w'.
Proof. destruct nk as [n k]. intros L. destruct k; cbn [node_evolve]; [now apply junction_mono|now apply junction_mono|auto|auto]. Qed.
Lemma release_n_fuel f D cur asg o d ratio : forall k w, release_n k (with_fuel f D) cur asg o d ratio w = release_n k D cur asg o d ratio w.
Proof. induction k as [|k IH]; intros w; [reflexivity|]. cbn [release_n]. cbv zeta. cbn [with_fuel d_adapt]. apply IH. Qed.
Lemma release_dests_fuel f D cur asg o : forall ds ratio w, release_dests N (with_fuel f D) cur asg o ratio ds w = release_dests N D cur asg o ratio ds w.
Proof. induction ds as [|[d dem] ds IH]; intros ratio w; [reflexivity|]. cbn [release_dests]. cbv zeta. rewrite release_n_fuel, IH. reflexivity. Qed.
Lemma release_all_fuel f D t a w : release_all N (with_fuel f D) t a w = release_all N D t a w.
Proof.
  unfold release_all. destruct (guard _ _); cbn [bind]; [|reflexivity]. destruct (_ =? 0); [|reflexivity]. f_equal.
  generalize (n_origins N) as os. intros os. revert w. induction os as [|o os IH]; intros w; cbn [fold_left]; [reflexivity|]. rewrite IH. f_equal.
  unfold release_one. destruct (_ <? 0); [reflexivity|]. cbv zeta. now rewrite release_dests_fuel.
Qed.
Lemma load_mono D t a f f' w w' : (f <= f')%nat -> load_once N (with_fuel f D) t a w = Ok w' -> load_once N (with_fuel f' D) t a w = Ok w'.
Proof.
  intros L H. unfold load_once in *. apply bind_ok in H as (w1 & H1 & H). apply bind_ok in H as (w2 & H2 & H). apply bind_ok in H as (w3 & H3 & H).
  rewrite release_all_fuel in *. rewrite H1. cbn [bind].
  change (update_routing N (with_fuel f' D) t w1) with (update_routing N (with_fuel f D) t w1). rewrite H2. cbn [bind].
  rewrite (foldM_ext_ok _ _ (fun s a s' => node_mono D t f f' s a s' L) _ _ _ H3). exact H.
Qed.
Lemma run_mono D f f' s : (f <= f')%nat -> forall k s', run N (fun t => with_fuel f (D t)) k s = Ok s' -> run N (fun t => with_fuel f' (D t)) k s = Ok s'.
Proof.
  intros L. induction k as [|k IH]; intros s' H; [exact H|]. cbn [run] in *. apply bind_ok in H as (s1 & H1 & H). rewrite (IH _ H1). cbn [bind].
  unfold loop_body in *. apply bind_ok in H as (w & Hw & H). rewrite (load_mono _ _ _ _ _ _ _ L Hw). exact H.
Qed.
Definition fair_draws (D : Z -> draws) : Prop := forall t n b, In (n, NFwj) (n_nodes N) -> In b (n_out N n) -> fair (d_pick (D t) n b) (length (n_in N n)).
Lemma ready_fuel D t n w f : junction_ready N D t n w -> junction_ready N (with_fuel f D) t n w.
Proof. intros [A1 A2 A3 A4 A5 A6 A7 A8]. constructor; auto. Qed.
Lemma nodes_terminate D t w2 : draws_valid D -> (forall n b, In (n, NFwj) (n_nodes N) -> In b (n_out N n) -> fair (d_pick D n b) (length (n_in N n))) -> 0 <= t -> ready t w2 ->
  exists f0 w3, foldM (node_evolve N (with_fuel f0 D) t) w2 (n_nodes N) = Ok w3 /\ minv N t w2 (n_nodes N) w3.
Proof.
  intros DV FD Ht RD.
  assert (X : forall rest done w, n_nodes N = done ++ rest -> minv N t w2 done w -> exists f0 w3, foldM (node_evolve N (with_fuel f0 D) t) w rest = Ok w3 /\ minv N t w2 (n_nodes N) w3).
  { induction rest as [|[n k] rest IH]; intros done w E M.
    - exists 0%nat, w. split; [reflexivity|]. rewrite E, app_nil_r. exact M.
    - pose proof (m_ready N w0 VA D DV t Ht w2 RD done rest w n k M E) as R.
      assert (Y : exists f1 w1, node_evolve N (with_fuel f1 D) t w (n, k) = Ok w1).
      { destruct k; [|contradiction| |].
        - destruct (node_fwj_terminates N D t n w R) as (f1 & H1); [intros b Hb; apply FD; [rewrite E; apply in_or_app; right; now left|exact Hb]|].
          destruct (H1 f1 (le_n _)) as (w1 & E1). eauto.
        - destruct (Prop_Node.C09_origin_never_fails N D t n w R) as (w1 & E1). exists 0%nat, w1. exact E1.
        - destruct R as (w1 & E1). exists 0%nat, w1. exact E1. }
      destruct Y as (f1 & w1 & E1).
      pose proof (m_step N w0 VA (with_fuel f1 D) (with_fuel_valid _ _ DV) t Ht w2 RD done rest w w1 n k M E E1) as M1.
      destruct (IH (done ++ [(n, k)]) w1) as (f2 & w3 & E3 & M3); [rewrite E, <- app_assoc; reflexivity|exact M1|].
      exists (Nat.max f1 f2), w3. split; [|exact M3]. cbn [foldM]. rewrite (node_mono D t f1 (Nat.max f1 f2) w (n, k) w1 ltac:(lia) E1). cbn [bind].
      eapply foldM_ext_ok; [|exact E3]. intros s x s'. apply node_mono. lia. }
  apply (X (n_nodes N) [] w2 eq_refl). apply (minv_start N w0 t w2 RD).
Qed.
Lemma load_terminates D t a w : draws_valid D -> (forall n b, In (n, NFwj) (n_nodes N) -> In b (n_out N n) -> fair (d_pick D n b) (length (n_in N n))) -> 0 <= t -> bound t w ->
  exists f0 w', load_once N (with_fuel f0 D) t a w = Ok w'.
Proof.
  intros DV FD Ht B. destruct (to_ready N w0 VA D t a w DV Ht B) as (w1 & w2 & E1 & E2 & RD).
  destruct (nodes_terminate D t w2 DV FD Ht RD) as (f0 & w3 & E3 & M). exists f0.
  rewrite <- (release_all_fuel f0) in E1.
  destruct (after_nodes (with_fuel f0 D) t w w1 w2 w3 a (with_fuel_valid _ _ DV) Ht B E1 E2 RD E3 M) as (w' & E & _). eauto.
Qed.
Lemma run_terminates D : (forall t, draws_valid (D t)) -> fair_draws D -> forall k, exists f0, forall f, (f0 <= f)%nat ->
  exists s, run N (fun t => with_fuel f (D t)) k (init_state N w0) = Ok s.
Proof.
  intros DV FD k. enough (X : exists f0 s, run N (fun t => with_fuel f0 (D t)) k (init_state N w0) = Ok s).
  { destruct X as (f0 & s & E). exists f0. intros f L. exists s. eapply run_mono; eauto. }
  induction k as [|k (f1 & s & E)]; [exists 0%nat; eexists; reflexivity|].
  destruct (run_safe (fun t => with_fuel f1 (D t)) (fun t => with_fuel_valid _ _ (DV t)) k) as [(s' & E' & C & B)|E']; [|congruence].
  rewrite E in E'. apply Ok_inj in E' as <-.
  destruct (load_terminates (D (s_cur s)) (s_cur s) (s_assign s) (s_w s)) as (f2 & w' & E2); [apply DV|intros; apply FD; auto|lia|now rewrite C|].
  exists (Nat.max f1 f2). cbn [run]. rewrite (run_mono D f1 (Nat.max f1 f2) _ ltac:(lia) k s E). cbn [bind]. unfold loop_body.
  rewrite (load_mono _ _ _ f2 (Nat.max f1 f2) _ _ ltac:(lia) E2). cbn [bind]. eauto.
Qed.
End Safe.
