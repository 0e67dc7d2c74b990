(** Lemmas for the real-time engine: copies of the network state. *)
From Verif Require Import Base Base_lemmas Model_Num Model_Graph Spec_Graph Spec_Path Proof_Path Model_CC Model_Path Model_Link Spec_Link Proof_Link Model_World Model_Node
  Model_Sim Spec_Sim Model_Rt Spec_Rt.
Local Open Scope Z_scope.

Definition range (a : Z) (k : nat) : list Z := map (fun i => a + 1 + Z.of_nat i) (seq 0 k).
Lemma range_S a k : range a (S k) = (a + 1) :: range (a + 1) k.
Proof.
  unfold range. cbn [seq map]. f_equal; [lia|]. rewrite <- seq_shift, map_map. apply map_ext. intros i. lia.
Qed.
Lemma range_app a j k : range a (j + k) = range a j ++ range (a + Z.of_nat j) k.
Proof.
  revert a. induction j as [|j IH]; intros a; [replace (a + Z.of_nat 0) with a by lia; reflexivity|].
  cbn [Nat.add]. rewrite !range_S, IH. cbn [app]. do 2 f_equal. f_equal. lia.
Qed.
Lemma ids_range n : 0 <= n -> ids n = range 0 (Z.to_nat n).
Proof. intros H. unfold ids, range. rewrite <- seq_shift, map_map. apply map_ext. intros. lia. Qed.
Lemma range_len a k : length (range a k) = k.
Proof. unfold range. now rewrite map_length, seq_length. Qed.

(** the copy only grows *)
Record grows (w w' : world) : Prop := {
  gr_num : f_num (w_fac w) <= f_num (w_fac w');
  gr_veh : forall v, v <= f_num (w_fac w) -> w_veh w' v = w_veh w v;
  gr_trk : forall v, v <= f_num (w_fac w) -> w_trk w' v = w_trk w v;
  gr_oq : w_oq w' = w_oq w; gr_dq : w_dq w' = w_dq w; gr_cc : w_cc w' = w_cc w; gr_done : f_done (w_fac w') = f_done (w_fac w) }.
Lemma grows_refl w : grows w w. Proof. constructor; auto; lia. Qed.
Lemma grows_trans a b c : grows a b -> grows b c -> grows a c.
Proof.
  intros [A1 A2 A3 A4 A5 A6 A7] [B1 B2 B3 B4 B5 B6 B7]. constructor; try congruence; [lia| |];
    intros v Hv; [rewrite B2, A2|rewrite B3, A3]; auto; lia.
Qed.

Lemma same_trip_grows src w w' v v' : grows w w' -> v' <= f_num (w_fac w) -> same_trip src w v v' -> same_trip src w' v v'.
Proof. intros G L (A1 & A2 & A3 & A4 & A5 & A6 & A7). unfold same_trip. rewrite (gr_veh _ _ G), (gr_trk _ _ G) by exact L. repeat split; assumption. Qed.

Definition copies_of (src w : world) (vs ids : list Z) : Prop := Forall2 (fun v v' => same_trip src w v v' /\ v' <= f_num (w_fac w)) vs ids.
Lemma copies_grow src w w' vs is : grows w w' -> copies_of src w vs is -> copies_of src w' vs is.
Proof.
  intros G F. induction F as [|v v' l l' (A & B) F IH]; constructor; auto. split; [eapply same_trip_grows; eauto|]. pose proof (gr_num _ _ G). lia.
Qed.

Lemma copy_veh_eff src w v w' v' : copy_veh src w v = Ok (w', v') ->
  grows w w' /\ w_link w' = w_link w /\ v' = f_num (w_fac w) + 1 /\ f_num (w_fac w') = f_num (w_fac w) + 1 /\ same_trip src w' v v'.
Proof.
  unfold copy_veh. intros H. destruct (v_cur (w_veh src v)) as [c|] eqn:C; [|discriminate]. destruct (v_next (w_veh src v)) as [n|] eqn:E; [|discriminate].
  destruct (w_trk src v) as [r|] eqn:T; [|discriminate]. injection H as <- <-.
  split; [|split; [reflexivity|split; [reflexivity|split; [reflexivity|]]]].
  - constructor; cbn; try reflexivity; [lia| |]; intros x Hx; rewrite !upd_other by lia; reflexivity.
  - unfold same_trip. cbn. rewrite !upd_same. cbn. repeat split; congruence.
Qed.

Lemma copy_vehs_eff src : forall vs w w' is, copy_vehs src w vs = Ok (w', is) ->
  grows w w' /\ w_link w' = w_link w /\ is = range (f_num (w_fac w)) (length vs) /\ f_num (w_fac w') = f_num (w_fac w) + Zlen vs /\ copies_of src w' vs is.
Proof.
  induction vs as [|v vs IH]; intros w w' is H; cbn [copy_vehs] in H.
  - injection H as <- <-. split; [apply grows_refl|]. split; [reflexivity|]. split; [reflexivity|]. split; [cbn; lia|constructor].
  - apply bind_ok in H as ([w1 v1] & H1 & H). apply bind_ok in H as ([w2 is2] & H2 & H). cbn [fst snd] in *. injection H as <- <-.
    destruct (copy_veh_eff _ _ _ _ _ H1) as (G1 & L1 & I1 & N1 & S1). destruct (IH _ _ _ H2) as (G2 & L2 & I2 & N2 & S2).
    split; [eapply grows_trans; eauto|]. split; [congruence|]. split; [cbn [length]; rewrite range_S, I1, I2, N1; reflexivity|].
    split; [rewrite N2, N1; unfold Zlen; cbn [length]; lia|]. constructor; [|exact S2].
    split; [eapply same_trip_grows; [exact G2| |exact S1]; lia|]. rewrite I1, N2, N1. unfold Zlen. lia.
Qed.

Lemma copy_vehs_len src vs w w' is : copy_vehs src w vs = Ok (w', is) -> length is = length vs.
Proof. intros H. apply copy_vehs_eff in H as (_ & _ & -> & _). apply range_len. Qed.

Lemma copies_app src w a a' b b' : copies_of src w a a' -> copies_of src w b b' -> copies_of src w (a ++ b) (a' ++ b').
Proof. intros. apply Forall2_app; assumption. Qed.

Lemma copy_cells_eff src : forall cs w w' cs', copy_cells src w cs = Ok (w', cs') ->
  grows w w' /\ w_link w' = w_link w /\ concat (map c_q cs') = range (f_num (w_fac w)) (length (concat (map c_q cs))) /\
  f_num (w_fac w') = f_num (w_fac w) + Zlen (concat (map c_q cs)) /\
  copies_of src w' (concat (rev (map c_q cs))) (concat (rev (map c_q cs'))) /\
  Forall2 (fun c c' => c_hold c' = c_hold c /\ c_flow c' = c_flow c /\ c_wr c' = c_wr c /\ c_vol c' = 0 /\ length (c_q c') = length (c_q c)) cs cs'.
Proof.
  induction cs as [|c cs IH]; intros w w' cs' H; cbn [copy_cells] in H.
  - injection H as <- <-. split; [apply grows_refl|]. split; [reflexivity|]. split; [reflexivity|]. split; [cbn; lia|split; constructor].
  - apply bind_ok in H as ([w1 q1] & H1 & H). apply bind_ok in H as ([w2 cs2] & H2 & H). cbn [fst snd] in *. injection H as <- <-.
    pose proof (copy_vehs_len _ _ _ _ _ H1) as LQ.
    destruct (copy_vehs_eff _ _ _ _ _ H1) as (G1 & L1 & I1 & N1 & S1). destruct (IH _ _ _ H2) as (G2 & L2 & I2 & N2 & S2 & F2).
    split; [eapply grows_trans; eauto|]. split; [congruence|]. cbn [map concat rev set_q c_q].
    split; [rewrite app_length, range_app, I1, I2, N1; reflexivity|].
    split; [rewrite N2, N1, Zlen_app; lia|]. split; [rewrite !concat_app; cbn [concat]; rewrite !app_nil_r; apply copies_app; [exact S2|eapply copies_grow; eauto]|].
    constructor; [|exact F2]. cbn. repeat split. exact LQ.
Qed.

(** one link *)
Definition cell_like (c c' : cell) : Prop := c_hold c' = c_hold c /\ c_flow c' = c_flow c /\ c_wr c' = c_wr c /\ c_vol c' = 0 /\ length (c_q c') = length (c_q c).
Definition body_like (b b' : body) : Prop :=
  match b, b' with
  | BCtm cs, BCtm cs' => Forall2 cell_like cs cs'
  | BPq s q _, BPq s' q' v' => s' = s /\ v' = 0 /\ map snd q' = map snd q
  | BLq _ _, BLq q' v' => q' = [] /\ v' = 0
  | _, _ => False
  end.
Lemma combine_fst {A B} (l : list A) : forall (l' : list B), length l = length l' -> map fst (combine l l') = l.
Proof. induction l as [|a l IH]; intros [|b l'] L; try discriminate L; [reflexivity|]. cbn. f_equal. apply IH. now injection L. Qed.
Lemma combine_snd' {A B} (l : list A) : forall (l' : list B), length l = length l' -> map snd (combine l l') = l'.
Proof. induction l as [|a l IH]; intros [|b l'] L; try discriminate L; [reflexivity|]. cbn. f_equal. apply IH. now injection L. Qed.

Lemma set_link_grows w w' l x : grows w w' -> grows w (set_link w' l x).
Proof. intros [A1 A2 A3 A4 A5 A6 A7]. constructor; auto. Qed.
Lemma concat_rev_perm {A} (ls : list (list A)) : Permutation (concat (rev ls)) (concat ls).
Proof.
  induction ls as [|l ls IH]; [reflexivity|]. cbn [rev concat]. rewrite concat_app. cbn [concat]. rewrite app_nil_r, IH. apply Permutation_app_comm.
Qed.

Lemma copy_link_eff src w l w' : copy_link src w l = Ok w' ->
  grows w w' /\ (forall l', l' <> l -> w_link w' l' = w_link w l') /\
  l_par (w_link w' l) = l_par (w_link src l) /\ body_like (l_body (w_link src l)) (l_body (w_link w' l)) /\
  length (l_fin (w_link w' l)) = length (l_fin (w_link src l)) /\
  copies_of src w' (copied (w_link src l)) (on_link (w_link w' l)) /\
  f_num (w_fac w') = f_num (w_fac w) + Zlen (copied (w_link src l)) /\
  Permutation (on_link (w_link w' l)) (range (f_num (w_fac w)) (length (copied (w_link src l)))).
Proof.
  unfold copy_link. intros H. apply bind_ok in H as ([w1 fi] & H1 & H). apply bind_ok in H as ([w2 inn] & H2 & H). apply bind_ok in H as ([w3 bo] & H3 & H).
  cbn [fst snd] in *. apply Ok_inj in H as <-.
  pose proof (copy_vehs_len _ _ _ _ _ H1) as LF.
  destruct (copy_vehs_eff _ _ _ _ _ H1) as (G1 & L1 & I1 & N1 & S1). destruct (copy_vehs_eff _ _ _ _ _ H2) as (G2 & L2 & I2 & N2 & S2).
  assert (X : exists ins ins', grows w2 w3 /\ w_link w3 = w_link w2 /\ body_like (l_body (w_link src l)) bo /\ inside bo = ins' /\ copies_of src w3 ins ins' /\
     copied (w_link src l) = l_fin (w_link src l) ++ ins ++ l_in (w_link src l) /\ f_num (w_fac w3) = f_num (w_fac w2) + Zlen ins /\
     Permutation ins' (range (f_num (w_fac w2)) (length ins))).
  { unfold copied, on_link. destruct (l_body (w_link src l)) as [cs|s q vv|q vv]; cbn [inside] in *.
    - apply bind_ok in H3 as ([w4 cs'] & H3 & E). cbn [fst snd] in E. injection E as <- <-.
      destruct (copy_cells_eff _ _ _ _ _ H3) as (G & L & I & NN & C & F). exists (concat (rev (map c_q cs))), (concat (rev (map c_q cs'))).
      split; [exact G|]. split; [exact L|]. split; [exact F|]. split; [reflexivity|]. split; [exact C|]. split; [reflexivity|].
      assert (PL : length (concat (rev (map c_q cs))) = length (concat (map c_q cs))) by apply (Permutation_length (concat_rev_perm _)).
      split; [rewrite NN; unfold Zlen; rewrite PL; reflexivity|]. rewrite concat_rev_perm, PL, I. reflexivity.
    - apply bind_ok in H3 as ([w4 q'] & H3 & E). cbn [fst snd] in E. injection E as <- <-. pose proof (copy_vehs_len _ _ _ _ _ H3) as LQ.
      destruct (copy_vehs_eff _ _ _ _ _ H3) as (G & L & I & NN & C). rewrite map_length in LQ. exists (map fst q), q'.
      split; [exact G|]. split; [exact L|]. split; [cbn [body_like]; repeat split; apply combine_snd'; rewrite LQ, map_length; reflexivity|].
      split; [cbn [inside]; apply combine_fst; rewrite LQ, map_length; reflexivity|]. split; [exact C|]. split; [reflexivity|]. split; [exact NN|]. rewrite I. reflexivity.
    - injection H3 as <- <-. exists [], []. split; [apply grows_refl|]. split; [reflexivity|]. split; [cbn; auto|]. split; [reflexivity|]. split; [constructor|].
      split; [reflexivity|]. split; [cbn; lia|]. constructor. }
  destruct X as (ins & ins' & G3 & L3 & BL & EI & C3 & EC & N3 & P3).
  split; [apply set_link_grows; eapply grows_trans; [exact G1|eapply grows_trans; eauto]|].
  split; [intros l' Hl; cbn; rewrite upd_other by exact Hl; now rewrite L3, L2, L1|].
  cbn [set_link w_link w_fac]. rewrite upd_same. cbn [l_par l_body l_fin]. split; [reflexivity|]. split; [exact BL|]. split; [exact LF|].
  split.
  { rewrite EC. unfold on_link. cbn [l_fin l_body l_in]. rewrite EI.
    assert (GW : grows w3 (set_link w3 l {| l_par := l_par (w_link src l); l_in := inn; l_fin := fi; l_body := bo |})) by apply set_link_grows, grows_refl.
    apply copies_app; [eapply copies_grow; [exact GW|]; eapply copies_grow; [exact (grows_trans _ _ _ G2 G3)|exact S1]|].
    apply copies_app; [eapply copies_grow; eauto|]. eapply copies_grow; [exact GW|]; eapply copies_grow; [exact G3|exact S2]. }
  split; [rewrite EC, N3, N2, N1, !Zlen_app; lia|].
  unfold on_link. cbn [l_fin l_body l_in]. rewrite EI, EC, !app_length.
  replace (length (l_fin (w_link src l)) + (length ins + length (l_in (w_link src l))))%nat
    with (length (l_fin (w_link src l)) + (length (l_in (w_link src l)) + length ins))%nat by lia.
  rewrite !range_app, I1. apply Permutation_app_head. rewrite (Permutation_app_comm ins' inn), I2, N1. unfold Zlen in *. apply Permutation_app_head.
  rewrite P3, N2, N1. reflexivity.
Qed.

(** when copying succeeds *)
Lemma copy_veh_res src w v : (ready src v -> exists r, copy_veh src w v = Ok r) /\ (~ ready src v -> copy_veh src w v = Err EUB).
Proof.
  unfold copy_veh, ready. split.
  - intros (A & B & C). destruct (v_cur (w_veh src v)); [|congruence]. destruct (v_next (w_veh src v)); [|congruence]. destruct (w_trk src v); [eauto|congruence].
  - intros H. destruct (v_cur (w_veh src v)); [|reflexivity]. destruct (v_next (w_veh src v)); [|reflexivity]. destruct (w_trk src v); [|reflexivity].
    exfalso. apply H. repeat split; discriminate.
Qed.
Lemma ready_dec src v : {ready src v} + {~ ready src v}.
Proof.
  unfold ready. destruct (v_cur (w_veh src v)); [|right; intros (A & _); congruence]. destruct (v_next (w_veh src v)); [|right; intros (_ & A & _); congruence].
  destruct (w_trk src v); [left; repeat split; discriminate|right; intros (_ & _ & A); congruence].
Qed.
Definition verdict {A} (P : Prop) (r : res A) : Prop := (P -> exists a, r = Ok a) /\ (~ P -> r = Err EUB).
Lemma verdict_bind {A B} (P Q : Prop) (r : res A) (f : A -> res B) : {P} + {~ P} -> verdict P r -> (forall a, r = Ok a -> verdict Q (f a)) -> verdict (P /\ Q) (do x <- r; f x).
Proof.
  intros D (V1 & V2) F. destruct D as [p|np].
  - destruct (V1 p) as (a & E). destruct (F a E) as (F1 & F2). rewrite E. cbn [bind]. split; [intros (_ & q); auto|]. intros n. apply F2. intros q. apply n. auto.
  - rewrite (V2 np). cbn [bind]. split; [intros (p & _); contradiction|reflexivity].
Qed.
Lemma verdict_ok {A} (a : A) : verdict True (Ok a). Proof. split; [eauto|intros H; destruct (H I)]. Qed.
Lemma verdict_iff {A} (P Q : Prop) (r : res A) : (P <-> Q) -> verdict P r -> verdict Q r.
Proof. unfold verdict. intros E (V1 & V2). split; [intros q; apply V1; tauto|intros q; apply V2; tauto]. Qed.
Definition readys (src : world) (vs : list Z) : Prop := forall v, In v vs -> ready src v.
Lemma readys_dec src vs : {readys src vs} + {~ readys src vs}.
Proof.
  induction vs as [|v vs IH]; [left; intros ? []|]. destruct (ready_dec src v) as [r|n]; [|right; intros H; apply n, H; now left].
  destruct IH as [IH|IH]; [left; intros u [<- | I]; auto|right; intros H; apply IH; intros u I; apply H; now right].
Qed.
Lemma readys_cons src v vs : ready src v /\ readys src vs <-> readys src (v :: vs).
Proof. unfold readys. split; [intros (A & B) u [<- | I]; auto|intros H; split; [apply H; now left|intros u I; apply H; now right]]. Qed.
Lemma readys_app src a b : readys src (a ++ b) <-> readys src a /\ readys src b.
Proof. unfold readys. split; [intros H; split; intros v I; apply H, in_or_app; auto|intros (A & B) v I; apply in_app_or in I as [I|I]; auto]. Qed.
Lemma copy_vehs_verdict src : forall vs w, verdict (readys src vs) (copy_vehs src w vs).
Proof.
  induction vs as [|v vs IH]; intros w; cbn [copy_vehs]; [apply (verdict_iff True); [split; [intros _ ? []|auto]|apply verdict_ok]|].
  apply (verdict_iff (ready src v /\ readys src vs /\ True)); [rewrite <- readys_cons; tauto|].
  apply verdict_bind; [apply ready_dec|apply copy_veh_res|]. intros a _. apply verdict_bind; [apply readys_dec|apply IH|]. intros b _. apply verdict_ok.
Qed.
Lemma copy_cells_verdict src : forall cs w, verdict (readys src (concat (map c_q cs))) (copy_cells src w cs).
Proof.
  induction cs as [|c cs IH]; intros w; cbn [copy_cells map concat]; [apply (verdict_iff True); [split; [intros _ ? []|auto]|apply verdict_ok]|].
  apply (verdict_iff (readys src (c_q c) /\ readys src (concat (map c_q cs)) /\ True)); [rewrite readys_app; tauto|].
  apply verdict_bind; [apply readys_dec|apply copy_vehs_verdict|]. intros a _. apply verdict_bind; [apply readys_dec|apply IH|]. intros b _. apply verdict_ok.
Qed.
Lemma copy_link_verdict src w l : verdict (readys src (copied (w_link src l))) (copy_link src w l).
Proof.
  unfold copy_link. set (ins := match l_body (w_link src l) with BCtm cs => concat (map c_q cs) | BPq _ q _ => map fst q | BLq _ _ => [] end).
  apply (verdict_iff (readys src (l_fin (w_link src l)) /\ readys src (l_in (w_link src l)) /\ readys src ins /\ True)).
  { unfold copied, on_link, ins. destruct (l_body (w_link src l)) as [cs|s q v|q v]; rewrite ?readys_app; cbn [inside].
    - assert (E : readys src (concat (rev (map c_q cs))) <-> readys src (concat (map c_q cs))); [|tauto].
      unfold readys. split; intros H v I; apply H; [apply (Permutation_in v (Permutation_sym (concat_rev_perm _))), I|apply (Permutation_in v (concat_rev_perm _)), I].
    - tauto.
    - assert (readys src []) by (intros ? []). tauto. }
  apply verdict_bind; [apply readys_dec|apply copy_vehs_verdict|]. intros a _. apply verdict_bind; [apply readys_dec|apply copy_vehs_verdict|]. intros b _.
  apply verdict_bind; [apply readys_dec| |intros c _; apply verdict_ok]. unfold ins. destruct (l_body (w_link src l)) as [cs|s q v|q v].
  - apply (verdict_iff (readys src (concat (map c_q cs)) /\ True)); [tauto|]. apply verdict_bind; [apply readys_dec|apply copy_cells_verdict|]. intros; apply verdict_ok.
  - apply (verdict_iff (readys src (map fst q) /\ True)); [tauto|]. apply verdict_bind; [apply readys_dec|apply copy_vehs_verdict|]. intros; apply verdict_ok.
  - apply (verdict_iff True); [split; [intros _ ? []|auto]|apply verdict_ok].
Qed.
Lemma copy_fold_verdict src : forall ls w, verdict (forall l, In l ls -> readys src (copied (w_link src l))) (foldM (copy_link src) w ls).
Proof.
  induction ls as [|l ls IH]; intros w; cbn [foldM]; [apply (verdict_iff True); [split; [intros _ ? []|auto]|apply verdict_ok]|].
  apply (verdict_iff (readys src (copied (w_link src l)) /\ forall l, In l ls -> readys src (copied (w_link src l)))).
  { split; [intros (A & B) x [<- | I]; auto|intros H; split; [apply H; now left|intros x I; apply H; now right]]. }
  apply verdict_bind; [apply readys_dec|apply copy_link_verdict|]. intros a _. apply IH.
Qed.

Definition copy_fact (src w' : world) (l : Z) : Prop :=
  l_par (w_link w' l) = l_par (w_link src l) /\ body_like (l_body (w_link src l)) (l_body (w_link w' l)) /\
  length (l_fin (w_link w' l)) = length (l_fin (w_link src l)) /\ copies_of src w' (copied (w_link src l)) (on_link (w_link w' l)).

Lemma copy_fold src : forall ls w w', NoDup ls -> foldM (copy_link src) w ls = Ok w' ->
  grows w w' /\ (forall l, ~ In l ls -> w_link w' l = w_link w l) /\ (forall l, In l ls -> copy_fact src w' l) /\
  f_num (w_fac w') = f_num (w_fac w) + Zlen (concat (map (fun l => copied (w_link src l)) ls)) /\
  Permutation (concat (map (fun l => on_link (w_link w' l)) ls)) (range (f_num (w_fac w)) (length (concat (map (fun l => copied (w_link src l)) ls)))).
Proof.
  induction ls as [|l ls IH]; intros w w' ND H; cbn [foldM] in H.
  - apply Ok_inj in H as <-. split; [apply grows_refl|]. split; [reflexivity|]. split; [intros ? []|]. split; [cbn; lia|constructor].
  - apply bind_ok in H as (w1 & H1 & H). inversion ND as [|? ? NI ND']; subst.
    destruct (copy_link_eff _ _ _ _ H1) as (G1 & K1 & P1 & B1 & F1 & C1 & N1 & M1). destruct (IH _ _ ND' H) as (G2 & K2 & F2 & N2 & M2).
    assert (EL : w_link w' l = w_link w1 l) by (apply K2; exact NI).
    split; [eapply grows_trans; eauto|]. split; [intros l' Hl; rewrite K2, K1; [reflexivity|intros ->; apply Hl; now left|intros I; apply Hl; now right]|].
    split. { intros l' [<- | I]; [|now apply F2]. unfold copy_fact. rewrite EL. split; [exact P1|]. split; [exact B1|]. split; [exact F1|]. eapply copies_grow; eauto. }
    cbn [map concat]. split; [rewrite N2, N1, Zlen_app; lia|]. rewrite app_length, range_app, EL. apply Permutation_app; [exact M1|]. rewrite M2, N1. reflexivity.
Qed.
