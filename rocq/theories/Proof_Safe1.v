(** Links that cannot fail. *)
From Verif Require Import Base Base_lemmas Model_Num Proof_Num Spec_Path Proof_Path Model_CC Spec_CC Proof_CC Model_Path Model_Link Spec_Link Spec_Node
  Proof_Link Proof_Link2 Proof_Link3 Proof_Link4 Proof_Link5 Model_World Model_Node.
Local Open Scope Z_scope.

Definition is_pq (l : link) : bool := match l_body l with BPq _ _ _ => true | _ => false end.

(** a link between two intervals *)
Definition lsafe (fs : Q) (l : link) : Prop :=
  (0 < fs)%Q /\ p_fs (l_par l) = fs /\
  match l_body l with
  | BCtm cs => cs <> [] /\ link_occ l /\ l_in l = []
  | BPq _ _ _ => (0 <= pq_supply (l_par l))%Q
  | BLq _ _ => lq_stable (l_par l) /\ (0 <= p_lanes (l_par l)) /\ lq_inv (l_par l) l
  end.

Lemma lsafe_supply fs l : lsafe fs l -> exists s, link_supply l = Ok s /\ (0 <= s)%Q.
Proof.
  intros (Hf & Ef & H). unfold link_supply. destruct (l_body l) as [cs|m q vol|q vol] eqn:B.
  - destruct H as (Hn & (cs' & B' & O) & _). rewrite B in B'. injection B' as <-. destruct cs as [|c cs]; [contradiction|]. simpl.
    eexists. split; [reflexivity|]. apply occ_cons in O as (G & _). apply cell_supply_nonneg, G.
  - eauto.
  - destruct H as (HS & HL & (q' & vol' & B' & _ & _ & _ & V0 & V1)). rewrite B in B'. injection B' as <- <-. eexists. split; [reflexivity|].
    apply lq_supply_room; auto.
Qed.

Lemma lsafe_like l l' : l_par l' = l_par l -> l_body l' = l_body l -> link_supply l' = link_supply l.
Proof. unfold link_supply. intros -> ->. reflexivity. Qed.

Lemma cell_last_In : forall cs os v, In v (last_out cs os) -> exists c, In c cs /\ In v (c_q c).
Proof.
  assert (F : forall k (l : list Z) v, In v (firstn k l) -> In v l).
  { intros k l v H. rewrite <- (firstn_skipn k l). apply in_or_app. now left. }
  induction cs as [|c cs IH]; intros os v H; [destruct H|]. destruct os as [|o os]; [destruct cs; destruct H|]. destruct cs as [|c' cs].
  - simpl in H. destruct os; [|destruct H]. exists c. split; [now left|]. eauto.
  - change (last_out (c :: c' :: cs) (o :: os)) with (last_out (c' :: cs) os) in H. destruct (IH _ _ H) as (x & A & B). exists x. split; [now right|exact B].
Qed.
Lemma cline_In cs v c : In c cs -> In v (c_q c) -> In v (cline cs).
Proof. intros A B. unfold cline. apply in_concat. exists (c_q c). split; [|exact B]. apply -> in_rev. now apply in_map. Qed.

Lemma lsafe_step fs l l1 arr r hn : lsafe fs l -> draws_ok r -> l_par l1 = l_par l -> l_body l1 = l_body l ->
  subseq (l_fin l1) (l_fin l) -> l_in l1 = l_in l ++ arr ->
  (is_pq l = false -> forall s, link_supply l = Ok s -> (inject_Z (Zlen (l_in l1)) <= s * fs)%Q) ->
  (forall cs, l_body l = BCtm cs -> forall v, In v (inside (l_body l1) ++ l_in l1) -> hn v = true) ->
  exists x y, link_clear l1 = Ok x /\ link_evolve r hn x = Ok y /\ lsafe fs y /\ is_pq y = is_pq l /\
    (forall cs, l_body y = BCtm cs -> (exists cs', l_body l = BCtm cs') /\ exists z, l_fin y = l_fin l1 ++ z).
Proof.
  intros LS Hr Ep Eb Hs Ei Hc Hn.
  assert (X : exists x y, link_clear l1 = Ok x /\ link_evolve r hn x = Ok y /\ l_par y = l_par l /\
     match l_body l with BCtm _ => exists cs, l_body y = BCtm cs /\ cs <> [] /\ l_in y = [] /\ exists z, l_fin y = l_fin l1 ++ z | BPq _ _ _ => exists m q v, l_body y = BPq m q v | BLq _ _ => exists q v, l_body y = BLq q v end).
  { pose proof LS as (Hf & Ef & H). unfold link_clear. rewrite Eb, Ep. unfold is_pq, link_supply in Hc. rewrite Eb in Hn. destruct (l_body l) as [cs|m q vol|q vol] eqn:B.
    - destruct H as (Hne & _ & _). specialize (Hn _ eq_refl). destruct cs as [|c cs]; [contradiction|]. unfold ctm_clear. specialize (Hc eq_refl _ eq_refl). rewrite Ef in Hc |- *.
      assert (G : Qltb (cell_supply fs c * fs) (inject_Z (Zlen (l_in l1))) = false) by (apply Qltb_ge; exact Hc). rewrite G. cbn [negb guard bind].
      unfold move_queue. rewrite Z.ltb_irrefl. cbn [bind fst snd]. rewrite to_nat_Zlen, firstn_all, skipn_all.
      eexists. eexists. split; [reflexivity|]. unfold link_evolve. cbn [l_body l_par l_fin l_in fst snd].
      rewrite ctm_evolve_eq. cbv zeta.
      match goal with |- context [forallb hn ?L] => assert (A : forallb hn L = true) end.
      { apply forallb_forall. intros v Hv. apply Hn. apply cell_last_In in Hv as (c1 & [<-|I1] & I2).
        - cbn [c_q set_vol set_q] in I2. apply in_app_or in I2 as [I2|I2]; apply in_or_app; [left|right; exact I2]. apply (cline_In (c :: cs) v c); [now left|exact I2].
        - apply in_or_app. left. apply (cline_In (c :: cs) v c1); [now right|exact I2]. }
      rewrite A. cbn [bind]. split; [reflexivity|]. cbn [l_par l_body fst snd l_in]. split; [congruence|].
      eexists. split; [reflexivity|]. split; [|split; [reflexivity|cbn [l_fin]; eauto]].
      intros C. apply (f_equal (@length cell)) in C. rewrite recount_length, shift_length in C by apply out_vehs_length. discriminate.
    - cbv zeta. eexists. eexists. split; [reflexivity|]. unfold link_evolve. cbn [l_body l_par]. cbv zeta. split; [reflexivity|]. cbn [l_par l_body]. eauto 8.
    - destruct H as (HS & HL & (q' & vol' & B' & _ & Hin & _ & V0 & V1)). rewrite B in B'. injection B' as <- <-.
      destruct (lq_supply_room _ _ HS HL V0 V1) as [S0 _]. specialize (Hc eq_refl _ eq_refl).
      assert (SF : (0 <= lq_supply (l_par l) vol * p_fs (l_par l))%Q) by (apply Qmult_le_0_compat; [exact S0|rewrite Ef; lra]).
      unfold lq_clear. replace (trunc _ <? _) with false.
      2:{ symmetry. apply Z.ltb_ge. rewrite Ef in *. rewrite trunc_floor by exact SF. rewrite <- (Qfloor_Z (Zlen (l_in l1))). apply Qfloor_resp_le. exact Hc. }
      cbn [negb guard bind]. unfold move_queue. rewrite Z.ltb_irrefl. cbn [bind fst snd].
      unfold link_evolve, lq_evolve. eexists.
      match goal with |- context [Ok ?y = Ok _] => set (x := y) end. cut (exists y, (let l := x in link_evolve r hn l) = Ok y /\ l_par y = l_par l /\ exists q v, l_body y = BLq q v).
      { intros (y & A & B1 & C). exists y. split; [reflexivity|]. split; [exact A|]. split; [exact B1|exact C]. }
      subst x. cbv zeta. unfold link_evolve. cbn [l_body l_par l_fin l_in]. unfold lq_evolve. cbv zeta. destruct (Qltb _ _).
      + cbn [bind fst snd]. eexists. split; [reflexivity|]. cbn [l_par l_body]. eauto.
      + unfold move_queue. match goal with |- context [Zlen ?q <? Z.min ?a (Zlen ?q)] => replace (Zlen q <? Z.min a (Zlen q)) with false by (symmetry; apply Z.ltb_ge; lia) end.
        cbn [bind fst snd]. eexists. split; [reflexivity|]. cbn [l_par l_body]. eauto. }
  destruct X as (x & y & Ex & Ey & Epy & Eby). exists x, y. split; [exact Ex|]. split; [exact Ey|].
  assert (IV : interval l arr y).
  { exists (l_fin l1), r, hn, x. split; [exact Hs|]. split; [exact Hr|]. split; [|exact Ey]. rewrite <- Ex. f_equal. unfold offered, set_in, set_fin. cbn [l_par l_in l_fin l_body].
    destruct l1 as [pa ia fa ba]. simpl in Ep, Eb, Ei |- *. congruence. }
  destruct LS as (Hf & Ef & H). unfold lsafe, is_pq. destruct (l_body l) as [cs|m q vol|q vol] eqn:B.
  - destruct Eby as (cs' & E1 & E2 & E3 & E4). rewrite E1. split; [|split; [reflexivity|split; eauto]]. split; [exact Hf|]. split; [congruence|]. split; [exact E2|]. split; [|exact E3].
    apply (interval_occ _ _ _ IV). apply H.
  - destruct Eby as (m' & q' & v' & E). rewrite E. split; [|split; [reflexivity|discriminate]]. split; [exact Hf|]. split; [congruence|]. now rewrite Epy.
  - destruct Eby as (q' & v' & E). rewrite E. split; [|split; [reflexivity|discriminate]]. split; [exact Hf|]. split; [congruence|]. rewrite Epy. destruct H as (HS & HL & H). split; [exact HS|]. split; [exact HL|].
    eapply lq_inv_step; eauto.
Qed.

(** a constructed link *)
Lemma fresh_lsafe p l : params_ok p -> fresh_link p l -> (p_kind p = KLq -> lq_stable (l_par l)) -> lsafe (p_fs p) l /\ is_pq l = match p_kind (l_par l) with KPq => true | _ => false end.
Proof.
  intros (P1 & P2 & P3 & P4 & P5 & P6 & P7) F S. unfold fresh_link in F. pose proof (fresh_empty p l F) as (_ & _ & EK). rewrite EK. unfold lsafe, is_pq. destruct (p_kind p) eqn:K.
  - destruct (make_ctm_cells p l F P6 P4) as (cs & B & _ & Hne & Ef & Ff & Fi & _ & _ & O). rewrite B. split; [|reflexivity].
    split; [exact P7|]. split; [exact Ef|]. split; [exact Hne|]. split; [|exact Fi]. exists cs. split; [exact B|]. rewrite Ef, Ff. apply O, P7.
  - unfold make_pq in F. apply bind_ok in F as (? & _ & F). cbv zeta in F. apply bind_ok in F as (? & _ & F). apply bind_ok in F as (m & _ & F). apply Ok_inj in F as <-.
    cbn [l_body l_par p_fs]. split; [|reflexivity]. split; [exact P7|]. split; [reflexivity|]. unfold pq_supply. cbn [p_flow p_lanes p_ut].
    assert (0 <= inject_Z (p_lanes p))%Q by (apply injZ_nonneg; lia). apply Qmult_le_0_compat; [apply Qmult_le_0_compat|]; lra.
  - specialize (S eq_refl). unfold make_lq in F. apply bind_ok in F as (? & _ & E). cbv zeta in E. apply bind_ok in E as (? & _ & E). apply Ok_inj in E.
    rewrite <- E in S |- *. cbn [l_par l_body p_lanes p_hold p_fs p_len]. split; [|reflexivity]. split; [exact P7|]. split; [reflexivity|]. split; [exact S|]. split; [lia|].
    exists [], 0. cbn [l_body l_par l_in l_fin p_lanes p_hold p_fs p_len]. repeat (split; [reflexivity || (simpl; lia)|]).
    assert (0 <= inject_Z (p_lanes p))%Q by (apply injZ_nonneg; lia).
    match goal with |- (?a <= _)%Q => assert (Z0 : (a == 0)%Q) by (unfold Qdiv; rewrite Qmult_0_l; reflexivity); rewrite Z0 end.
    apply Qmult_le_0_compat; [apply Qmult_le_0_compat|]; lra.
Qed.
