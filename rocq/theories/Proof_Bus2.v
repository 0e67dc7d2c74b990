(** Capacity, order of boarding, when buses leave, how long they stay. *)
From Verif Require Import Base Base_lemmas Model_Num Proof_Num Model_Bus Spec_Bus Proof_Bus.

(** ** capacity *)
Definition len (w : tw) (b : Z) : Z := Z.of_nat (length (w_at w (PBus b))).
Definition full (n : tnet) (w : tw) (b : Z) : Z := trunc (inject_Z (b_cap (w_bus w b)) * k_fs n).
Definition capped (n : tnet) (w w' : tw) : Prop :=
  forall b, b_cap (w_bus w' b) = b_cap (w_bus w b) /\ (len w' b <= len w b \/ len w' b <= full n w b).
Lemma capped_refl n w : capped n w w. Proof. intros b. split; auto. lia. Qed.
Lemma capped_trans n w w1 w2 : capped n w w1 -> capped n w1 w2 -> capped n w w2.
Proof.
  intros A B b. destruct (A b) as [A1 A2], (B b) as [B1 B2]. unfold full in *. rewrite A1 in *.
  split; [congruence|]. lia.
Qed.
Lemma capped_foldM {A} n (f : tw -> A -> res tw) :
  (forall w a w', f w a = Ok w' -> capped n w w') -> forall l w w', foldM f w l = Ok w' -> capped n w w'.
Proof.
  intros F l. induction l; cbn; intros w w' H; [injection H as <-; apply capped_refl|].
  destruct (f w a) eqn:E; cbn in H; [|discriminate]. eapply capped_trans; eauto.
Qed.
(** same pools, same capacities *)
Lemma capped_same n w w' :
  (forall b, w_at w' (PBus b) = w_at w (PBus b)) -> (forall b, b_cap (w_bus w' b) = b_cap (w_bus w b)) -> capped n w w'.
Proof. intros A B b. unfold len. rewrite A, B. split; auto. lia. Qed.
Ltac ifg := match goal with |- context[if ?b then _ else _] => let E := fresh "B" in destruct b eqn:E end.
Ltac same := apply capped_same; intros; reflexivity.

Lemma through_capped n al outs l w p w' : through n al outs l w p = Ok w' -> capped n w w'.
Proof.
  unfold through. intros H. destruct (p_next (w_pas w p)); [|discriminate].
  gs H. gs H. gs H. cbv zeta in H. gs H. injection H as <-. destruct (is_boarding (k_kind n z)); same.
Qed.
Lemma physical_capped n ins als outs w w' : physical_evolve n ins als outs w = Ok w' -> capped n w w'.
Proof.
  unfold physical_evolve. destruct (foldM _ w ins) as [w1|] eqn:E; cbn [bind]; [|discriminate]. intros H.
  eapply capped_trans; (eapply capped_foldM; [|eassumption]); clear; intros w l w' H;
    (eapply capped_foldM; [|exact H]); clear; intros; eapply through_capped; eauto.
Qed.
Lemma origin_capped n outs o w w' : origin_evolve n outs o w = Ok w' -> capped n w w'.
Proof.
  apply capped_foldM. clear. intros w p w' E. unfold leave_origin in E. destruct (p_next (w_pas w p)); [|discriminate].
  gs E. injection E as <-. same.
Qed.
Lemma lot_capped n outs k t w w' : lot_evolve n outs k t w = Ok w' -> capped n w w'.
Proof.
  apply capped_foldM. clear. intros w p w' E. unfold leave_lot in E. gs E. destruct (p_next (w_pas w p)); [|discriminate].
  gs E. cbv zeta in E. injection E as <-. same.
Qed.
Lemma dest_capped n ins outs d w w' : dest_evolve n ins outs d w = Ok w' -> capped n w w'.
Proof.
  apply capped_foldM. clear. intros w l w'. apply capped_foldM. clear. intros w p w' E. unfold into_dest in E.
  cbv zeta in E. destruct (p_next (w_pas w p)); gs E; injection E as <-; same.
Qed.
Lemma receive_capped n d t w w' : dest_receive d t w = Ok w' -> capped n w w'.
Proof. apply capped_foldM. clear. intros w p w' E. unfold receive_pas in E. gs E. injection E as <-. same. Qed.
Lemma clear_walk_capped n l w w' : clear_walk l w = Ok w' -> capped n w w'.
Proof.
  apply capped_foldM. clear. intros w p w' E. unfold enter_walk in E. gs E.
  destruct (p_wait (w_pas w p)); [|discriminate]. ifs E; cbv zeta in E; injection E as <-; [|same].
  ifg; same.
Qed.
Lemma clear_ride_capped n l w w' : clear_ride l w = Ok w' -> capped n w w'.
Proof.
  apply capped_foldM. clear. intros w p w' E. unfold enter_ride in E. gs E. cbv zeta in E. injection E as <-.
  ifg; same.
Qed.
Lemma evolve_capped n l stamp ord w : capped n w (evolve_link l stamp ord w).
Proof.
  unfold evolve_link. generalize (ord (w_at w (PWay l))) at 1 as q. intros q.
  eapply capped_trans; [instantiate (1 := set_at (PWay l) (ord (w_at w (PWay l))) w); same|].
  generalize (set_at (PWay l) (ord (w_at w (PWay l))) w). clear. induction q; intros w; cbn [fold_left]; [apply capped_refl|].
  eapply capped_trans; [|apply IHq]. unfold walk_on. ifg; same.
Qed.
Lemma alight_scan_len n w al lim : forall pool c stay off,
  alight_scan n w al lim c pool = Ok (stay, off) -> (length stay <= length pool)%nat.
Proof.
  induction pool as [|q pool IH]; intros c stay off H; cbn [alight_scan] in H.
  - injection H as <- <-. auto.
  - destruct (p_next (w_pas w q)) as [x|]; [|discriminate].
    ifs H; [ifs H|].
    + injection H as <- <-. auto.
    + destruct (alight_scan n w al lim (c + 1) pool) as [[s o]|] eqn:E; cbn in H; [|discriminate].
      injection H as <- <-. specialize (IH _ _ _ E). cbn. lia.
    + destruct (alight_scan n w al lim c pool) as [[s o]|] eqn:E; cbn in H; [|discriminate].
      injection H as <- <-. specialize (IH _ _ _ E). cbn. lia.
Qed.
Lemma alight_bus x il q w : w_bus (fold_left (alight_one x il) q w) = w_bus w.
Proof. revert w. induction q; intros w; cbn; auto. rewrite IHq. reflexivity. Qed.
Lemma board_bus b bl ol q w : w_bus (fold_left (board_one b bl ol) q w) = w_bus w.
Proof. revert w. induction q; intros w; cbn [fold_left]; auto. rewrite IHq. reflexivity. Qed.
Lemma alight_capped n b s w w' : do_alight n b s w = Ok w' -> capped n w w'.
Proof.
  unfold do_alight. cbv zeta. destruct (alight_scan _ _ _ _ _ _) as [[stay off]|] eqn:E; cbn [bind]; [|discriminate].
  intros H. assert (C := alight_scan_len _ _ _ _ _ _ _ _ E).
  destruct off as [|o off]; [injection H as <-; apply capped_refl|].
  destruct (s_in (w_stop w s)) as [il|]; [|discriminate]. destruct (s_alight (w_stop w s)) as [x|]; [|discriminate].
  injection H as <-. intros c. unfold len. rewrite alight_bus, alight_pushes.
  change (place_eqb (PBus c) (PDone x)) with false. cbv iota.
  change (w_at (alight_one x il (set_at (PBus b) stay w) o) (PBus c)) with (w_at (set_at (PBus b) stay w) (PBus c)).
  rewrite at_set. cbn [place_eqb]. split; [reflexivity|].
  destruct (Z.eqb_spec c b) as [->|]; [left; lia|left; lia].
Qed.
Lemma board_scan_len n w out route lim : forall line c on rest,
  0 <= c -> board_scan n w out route lim c line = Ok (on, rest) ->
  Z.of_nat (length on) <= Z.max 0 (lim - c) /\ (rest <> [] -> Z.of_nat (length on) = Z.max 0 (lim - c)).
Proof.
  induction line as [|q line IH]; intros c on rest C H; cbn [board_scan] in H.
  - injection H as <- <-. cbn [length]. split; [lia|easy].
  - gs H. ifs H; [injection H as <- <-; cbn [length]; split; lia|].
    destruct (board_scan n w out route lim (c + 1) line) as [[o r]|] eqn:E; cbn in H; [|discriminate].
    injection H as <- <-. apply IH in E; [|lia]. destruct E as [E1 E2]. cbn [length]. split; [lia|]. intros R. specialize (E2 R). lia.
Qed.
Lemma board_capped n b s w w' : do_board n b s w = Ok w' -> capped n w w'.
Proof.
  unfold do_board. cbv zeta. destruct (s_board (w_stop w s)) as [bl|]; [|intros [= <-]; apply capped_refl].
  destruct (_ <=? 0) eqn:L; [intros [= <-]; apply capped_refl|].
  destruct (board_scan _ _ _ _ _ _ _) as [[on rest]|] eqn:E; cbn [bind]; [|discriminate].
  apply board_scan_len in E; [|lia]. destruct E as [E _].
  destruct (s_out (w_stop w s)) as [ol|]; intros [= <-]; [|apply capped_refl].
  intros c. unfold len. rewrite board_bus, board_pushes. cbn [place_eqb]. split; [reflexivity|].
  destruct (Z.eqb_spec c b) as [->|]; [right|left; rewrite at_other by discriminate; lia].
  rewrite at_other by discriminate. rewrite app_length. unfold room, full in *. lia.
Qed.
Lemma shuffled_capped n sh b w : shuffle sh -> capped n w (set_at (PBus b) (sh (w_at w (PBus b))) w).
Proof.
  intros P c. unfold len. rewrite at_set. cbn [place_eqb]. split; [reflexivity|].
  destruct (Z.eqb_spec c b) as [->|]; [|left; lia]. rewrite <- (Permutation_length (P _)). lia.
Qed.
Lemma board_and_alight_capped n sh b s w w' : shuffle sh -> board_and_alight n sh b s w = Ok w' -> capped n w w'.
Proof.
  unfold board_and_alight. intros P H. gs H.
  destruct (do_alight n b s w) as [w1|] eqn:E1; cbn [bind] in H; [|discriminate].
  destruct (do_board n b s w1) as [w2|] eqn:E2; cbn [bind] in H; [|discriminate]. injection H as <-.
  eapply capped_trans; [eapply alight_capped; eauto|]. eapply capped_trans; [eapply board_capped; eauto|].
  apply shuffled_capped; auto.
Qed.
Lemma hold_cap n f b s w h w' : hold_bus n f b s w = Ok (h, w') -> forall c, b_cap (w_bus w' c) = b_cap (w_bus w c).
Proof.
  unfold hold_bus. cbv zeta. intros H c. gs H. gs H. gs H.
  ifs H; [injection H as <- <-; reflexivity|].
  ifs H; [injection H as <- <-; reflexivity|].
  destruct (want_off n w (w_stop w s) (w_at w (PBus b))) as [off|]; cbn [bind] in H; [|discriminate].
  match type of H with (do on <- ?X; _) = _ => destruct X as [on|] end; cbn [bind] in H; [|discriminate].
  match type of H with (do st1 <- ?X; _) = _ => destruct X as [st1|] end; cbn [bind] in H; [|discriminate].
  ifs H; injection H as <- <-; [|reflexivity]. cbn. unfold upd. destruct (Z.eqb_spec c b); subst; reflexivity.
Qed.
Lemma hold_capped n f b s w h w' : hold_bus n f b s w = Ok (h, w') -> capped n w w'.
Proof. intros H. apply capped_same; [intros c; now rewrite (hold_at _ _ _ _ _ _ _ H)|eapply hold_cap; eauto]. Qed.
Lemma at_stop_capped n f sh b s w h w' : shuffle sh -> at_stop n f sh b s w = Ok (h, w') -> capped n w w'.
Proof.
  unfold at_stop. intros P H. destruct (hold_bus n f b s w) as [[held w1]|] eqn:E; cbn [bind] in H; [|discriminate].
  apply hold_capped in E. destruct held; [|injection H as <- <-; auto].
  ifs H; [|injection H as <- <-; auto].
  destruct (board_and_alight n sh b s w1) as [w2|] eqn:E2; cbn [bind] in H; [|discriminate]. injection H as <- <-.
  eapply capped_trans; eauto. eapply board_and_alight_capped; eauto.
Qed.
Lemma foldM_bus {A} (f : tw -> A -> res tw) :
  (forall w a w', f w a = Ok w' -> w_bus w' = w_bus w) -> forall l w w', foldM f w l = Ok w' -> w_bus w' = w_bus w.
Proof.
  intros F l. induction l; cbn; intros w w' H; [injection H as <-; auto|].
  destruct (f w a) eqn:E; cbn in H; [|discriminate]. rewrite (IHl _ _ H). eauto.
Qed.
Lemma ride_on_bus ol il w p w' : ride_on ol il w p = Ok w' -> w_bus w' = w_bus w.
Proof.
  unfold ride_on. destruct (p_next _); [|discriminate]. intros H. gs H. destruct (p_cur _); [|discriminate].
  ifs H; [injection H as <-; auto|]. destruct il; [|discriminate]. gs H. injection H as <-. reflexivity.
Qed.
Lemma release_bus_bus b s w w' : release_bus b s w = Ok w' -> w_bus w' = w_bus w.
Proof.
  unfold release_bus. cbv zeta. intros H. gs H.
  match type of H with (do w1 <- ?X; _) = _ => destruct X as [w1|] eqn:E end; cbn [bind] in H; [|discriminate].
  gs H. injection H as <-. cbn. destruct (s_out _).
  - eapply foldM_bus; [|exact E]. intros; eapply ride_on_bus; eauto.
  - gs E. injection E as <-. reflexivity.
Qed.
Lemma receive_bus_bus rt b s w w' : receive_bus rt b s w = Ok w' -> w_bus w' = w_bus w.
Proof.
  unfold receive_bus. cbv zeta. intros H. gs H.
  change (w_bus w) with (w_bus (set_stop s (set_queue (s_queue (w_stop w s) ++ [b]) (w_stop w s)) w)).
  eapply foldM_bus; [|exact H]. intros u b' u' E. eapply foldM_bus; [|exact E]. intros v p v' R.
  unfold reroute in R. destruct (p_cur _); [|discriminate]. destruct (p_next _); [|discriminate].
  injection R as <-. ifg; reflexivity.
Qed.
Lemma go_on_cap rt stops x b w w' : go_on rt stops x b w = Ok w' -> forall c, b_cap (w_bus w' c) = b_cap (w_bus w c).
Proof.
  unfold go_on. cbv zeta. set (w1 := set_bus b _ w).
  assert (X : forall c, b_cap (w_bus w1 c) = b_cap (w_bus w c)).
  { intros c. cbn. unfold upd. destruct (Z.eqb_spec c b); subst; reflexivity. }
  ifg; [intros [= <-]; auto|].
  match goal with |- (do w2 <- ?Y; _) = _ -> _ => destruct Y as [w2|] eqn:E end; cbn [bind]; [|discriminate]. intros H.
  assert (w_bus w2 = w_bus w1) as A.
  { destruct (stop_here w1 stops _ x); [eapply release_bus_bus; eauto|now injection E as <-]. }
  destruct (stop_here w2 stops _ (x + 1)).
  - apply receive_bus_bus in H. intros c. rewrite H, A. auto.
  - injection H as <-. intros c. rewrite A. auto.
Qed.
Lemma drive_capped n f sh rt stops x b w h w' :
  shuffle sh -> drive n f sh rt stops x b w = Ok (h, w') -> capped n w w'.
Proof.
  unfold drive. intros P H.
  match type of H with (do (_, _) <- ?X; _) = _ => destruct X as [[held w1]|] eqn:E end; cbn [bind] in H; [|discriminate].
  assert (K : capped n w w1).
  { ifs E; [injection E as <- <-; apply capped_refl|].
    destruct (stop_here _ _ _ _); [eapply at_stop_capped; eauto|injection E as <- <-; apply capped_refl]. }
  destruct held; [injection H as <- <-; auto|].
  destruct (go_on rt stops x b w1) as [w2|] eqn:E2; cbn [bind] in H; [|discriminate]. injection H as <- <-.
  eapply capped_trans; [exact K|]. apply capped_same.
  - intros c. now rewrite (go_on_at _ _ _ _ _ _ E2).
  - eapply go_on_cap; eauto.
Qed.
Lemma implicit_off_capped n st il : forall line c w w', implicit_off n st il c line w = Ok w' -> capped n w w'.
Proof.
  induction line as [|p line IH]; intros c w w' H; cbn [implicit_off] in H; [injection H as <-; apply capped_refl|].
  destruct (p_next (w_pas w p)) as [x|]; [|discriminate]. ifs H; gs H; [|ifs H; [injection H as <-; apply capped_refl|gs H]];
    (eapply capped_trans; [|eapply IH; exact H]; same).
Qed.
Lemma implicit_on_capped n st il : forall line c w w', implicit_on n st il c line w = Ok w' -> capped n w w'.
Proof.
  induction line as [|p line IH]; intros c w w' H; cbn [implicit_on] in H; [injection H as <-; apply capped_refl|].
  destruct (p_next (w_pas w p)) as [x|]; [|discriminate]. ifs H; gs H; [ifs H; [injection H as <-; apply capped_refl|]|gs H];
    (eapply capped_trans; [|eapply IH; exact H]; same).
Qed.
Lemma step_capped n y e y' : fair e -> step n y e = Ok y' -> capped n (y_w y) (y_w y').
Proof.
  intros F H. destruct e; cbn [step] in H;
    try (apply lift_ok in H; destruct H as (w & E & ->); cbn [y_w]).
  - gs H. injection H as <-. destruct x; try discriminate; same.
  - injection E as <-. same.
  - eapply origin_capped; eauto.
  - eapply lot_capped; eauto.
  - eapply physical_capped; eauto.
  - eapply dest_capped; eauto.
  - destruct (dest_receive d t (y_w y)) as [w1|] eqn:E; cbn [bind] in H; [|discriminate]. injection H as <-.
    eapply receive_capped; eauto.
  - eapply clear_walk_capped; eauto.
  - eapply clear_ride_capped; eauto.
  - injection E as <-. apply evolve_capped.
  - unfold virtual_evolve in E. cbv zeta in E.
    match type of E with (do w1 <- ?X; _) = _ => destruct X as [w1|] eqn:E1 end; cbn [bind] in E; [|discriminate].
    assert (K : capped n (y_w y) w1).
    { destruct (s_in _); [eapply implicit_off_capped; eauto|injection E1 as <-; apply capped_refl]. }
    eapply capped_trans; [exact K|].
    destruct (s_board _); [eapply implicit_on_capped; eauto|injection E as <-; apply capped_refl].
  - destruct (drive n f sh rt stops x b (y_w y)) as [[h w1]|] eqn:E1; cbn in E; [|discriminate]. injection E as <-.
    eapply drive_capped; eauto.
Qed.
Lemma run_capped n : forall es y y', Forall fair es -> run_events n y es = Ok y' -> capped n (y_w y) (y_w y').
Proof.
  unfold run_events. induction es as [|e es IH]; intros y y' F H; cbn [foldM] in H; [injection H as <-; apply capped_refl|].
  inversion F; subst. destruct (step n y e) as [y1|] eqn:E; cbn [bind] in H; [|discriminate].
  eapply capped_trans; [eapply step_capped; eauto|]. eapply IH; eauto.
Qed.
Lemma capped_within n w w' : capped n w w' -> within_capacity n w -> within_capacity n w'.
Proof.
  intros C W b. destruct (C b) as [A B]. specialize (W b). rewrite A.
  assert (P : (0 <= inject_Z (b_cap (w_bus w b)) * k_fs n)%Q).
  { eapply Qle_trans; [|exact W]. apply (injZ_nonneg (Z.of_nat _)). lia. }
  unfold len, full in B. destruct B as [B|B].
  - eapply Qle_trans; [|exact W]. rewrite <- Zle_Qle. exact B.
  - eapply Qle_trans; [|apply (trunc_lo _ P)]. rewrite <- Zle_Qle. exact B.
Qed.

(** ** who gets off, who boards *)
Lemma alight_one_next x il q w p : p_next (w_pas (fold_left (alight_one x il) q w) p) = p_next (w_pas w p).
Proof.
  revert w. induction q; intros w; cbn [fold_left]; auto. rewrite IHq. cbn. unfold upd.
  destruct (Z.eqb_spec p a); subst; reflexivity.
Qed.
Lemma board_one_next b bl ol q w p : p_next (w_pas (fold_left (board_one b bl ol) q w) p) = p_next (w_pas w p).
Proof.
  revert w. induction q; intros w; cbn [fold_left]; auto. rewrite IHq. cbn. unfold upd.
  destruct (Z.eqb_spec p a); subst; reflexivity.
Qed.
Lemma alight_one_stop x il q w : w_stop (fold_left (alight_one x il) q w) = w_stop w.
Proof. revert w. induction q; intros w; cbn [fold_left]; auto. rewrite IHq. reflexivity. Qed.
Lemma board_one_stop b bl ol q w : w_stop (fold_left (board_one b bl ol) q w) = w_stop w.
Proof. revert w. induction q; intros w; cbn [fold_left]; auto. rewrite IHq. reflexivity. Qed.

Definition off_here (n : tnet) (w : tw) (al : option Z) (p : Z) : bool :=
  match p_next (w_pas w p) with Some x => is_walk (k_kind n x) && is_link al x | None => false end.
Lemma alight_scan_spec n w al lim : forall pool c stay off,
  0 <= c -> alight_scan n w al lim c pool = Ok (stay, off) ->
  interleaved pool stay off /\ (forall p, In p off -> off_here n w al p = true) /\
  Z.of_nat (length off) <= Z.max 0 (lim - c) /\
  (forall p, In p stay -> off_here n w al p = true -> Z.of_nat (length off) = Z.max 0 (lim - c)).
Proof.
  induction pool as [|q pool IH]; intros c stay off C H; cbn [alight_scan] in H.
  - injection H as <- <-. split; [constructor|]. split; [easy|]. cbn [length]. split; [lia|easy].
  - unfold off_here. destruct (p_next (w_pas w q)) as [x|] eqn:N; [|discriminate].
    ifs H; [ifs H|].
    + injection H as <- <-. split.
      { clear. constructor. induction pool; constructor; auto. }
      split; [easy|]. cbn [length]. split; lia.
    + destruct (alight_scan n w al lim (c + 1) pool) as [[s o]|] eqn:E; cbn in H; [|discriminate].
      injection H as <- <-. apply IH in E; [|lia]. destruct E as (E1 & E2 & E3 & E4).
      split; [now constructor|]. split.
      { intros p [<-|I]; [now rewrite N|]. apply E2. auto. }
      cbn [length]. split; [lia|]. intros p I O. specialize (E4 p I O). lia.
    + destruct (alight_scan n w al lim c pool) as [[s o]|] eqn:E; cbn in H; [|discriminate].
      injection H as <- <-. apply IH in E; [|lia]. destruct E as (E1 & E2 & E3 & E4).
      split; [now constructor|]. split; [exact E2|]. split; [lia|].
      intros p [<-|I] O; [rewrite N in O; congruence|]. eauto.
Qed.

(** the whole exchange at a stop *)
Lemma exchange n sh b s w w' bl ol :
  shuffle sh -> s_board (w_stop w s) = Some bl -> s_out (w_stop w s) = Some ol -> s_alight (w_stop w s) <> Some bl ->
  board_and_alight n sh b s w = Ok w' ->
  exists stay off on rest,
    interleaved (w_at w (PBus b)) stay off /\ w_at w (PDone bl) = on ++ rest /\
    w_at w' (PDone bl) = rest /\ Permutation (w_at w' (PBus b)) (stay ++ on) /\
    (forall p, In p off -> off_here n w (s_alight (w_stop w s)) p = true) /\
    Z.of_nat (length off) <= Z.max 0 (alight_limit n (w_bus w b)) /\
    (forall p, In p stay -> off_here n w (s_alight (w_stop w s)) p = true -> Z.of_nat (length off) = Z.max 0 (alight_limit n (w_bus w b))) /\
    Z.of_nat (length on) <= Z.max 0 (room n (w_bus w b) (Z.of_nat (length stay))) /\
    (rest <> [] -> Z.of_nat (length on) = Z.max 0 (room n (w_bus w b) (Z.of_nat (length stay)))) /\
    (forall x, x <> bl -> s_alight (w_stop w s) <> Some x -> w_at w' (PDone x) = w_at w (PDone x)) /\
    (forall x, s_alight (w_stop w s) = Some x -> w_at w' (PDone x) = w_at w (PDone x) ++ off) /\
    w_stop w' = w_stop w /\ w_bus w' = w_bus w /\ (forall p, p_next (w_pas w' p) = p_next (w_pas w p)).
Proof.
  intros P Hb Ho Ha H. unfold board_and_alight in H. gs H.
  destruct (do_alight n b s w) as [w1|] eqn:E1; cbn [bind] in H; [|discriminate].
  destruct (do_board n b s w1) as [w2|] eqn:E2; cbn [bind] in H; [|discriminate]. injection H as <-.
  unfold do_alight in E1. cbv zeta in E1.
  destruct (alight_scan _ _ _ _ _ _) as [[stay off]|] eqn:E; cbn [bind] in E1; [|discriminate].
  apply alight_scan_spec in E; [|lia]. destruct E as (I1 & I2 & I3 & I4). rewrite Z.sub_0_r in I3, I4.
  assert (X : w_at w1 (PBus b) = stay /\ w_at w1 (PDone bl) = w_at w (PDone bl) /\
              (forall x, s_alight (w_stop w s) <> Some x -> w_at w1 (PDone x) = w_at w (PDone x)) /\
              (forall x, s_alight (w_stop w s) = Some x -> w_at w1 (PDone x) = w_at w (PDone x) ++ off) /\
              w_stop w1 = w_stop w /\ w_bus w1 = w_bus w /\ (forall p, p_next (w_pas w1 p) = p_next (w_pas w p))).
  { destruct off as [|o off].
    - injection E1 as <-. split; [|repeat split; auto; intros; now rewrite app_nil_r].
      clear -I1. remember (w_at w (PBus b)) as l. clear Heql. remember [] as e. induction I1; auto; [f_equal; auto|discriminate].
    - destruct (s_in (w_stop w s)) as [il|]; [|discriminate]. destruct (s_alight (w_stop w s)) as [x|] eqn:A; [|discriminate].
      injection E1 as <-. repeat split.
      + rewrite (alight_pushes x il off). cbn. now rewrite Z.eqb_refl.
      + rewrite (alight_pushes x il off). cbn. destruct (Z.eqb_spec bl x); [congruence|]. reflexivity.
      + intros y Hy. rewrite (alight_pushes x il off). cbn. destruct (Z.eqb_spec y x); [congruence|]. reflexivity.
      + intros y [= <-]. rewrite (alight_pushes x il off). cbn. rewrite Z.eqb_refl. rewrite <- app_assoc. reflexivity.
      + rewrite alight_one_stop. reflexivity.
      + rewrite alight_bus. reflexivity.
      + intros p. rewrite alight_one_next. cbn. unfold upd. destruct (Z.eqb_spec p o); subst; reflexivity. }
  destruct X as (X1 & X2 & X3 & X3' & X4 & X5 & X6). unfold do_board in E2. cbv zeta in E2. rewrite X4, X5, Hb, Ho, X1, X2 in E2.
  destruct (_ <=? 0) eqn:L.
  - injection E2 as <-. exists stay, off, [], (w_at w (PDone bl)).
    split; [exact I1|]. split; [reflexivity|]. split; [exact X2|]. split.
    { rewrite at_same, X1, app_nil_r. symmetry. apply P. }
    split; [exact I2|]. split; [exact I3|]. split; [exact I4|]. cbn [length]. split; [lia|]. split; [lia|].
    split; [intros; cbn; auto|]. split; [intros; cbn; auto|]. auto.
  - destruct (board_scan _ _ _ _ _ _ _) as [[on rest]|] eqn:E; cbn [bind] in E2; [|discriminate].
    assert (Sp := board_scan_split _ _ _ _ _ _ _ _ _ E). apply board_scan_len in E; [|lia]. rewrite Z.sub_0_r in E.
    injection E2 as <-. exists stay, off, on, rest.
    split; [exact I1|]. split; [exact Sp|]. split.
    { rewrite at_other by discriminate. rewrite (board_pushes b bl ol on). cbn. now rewrite Z.eqb_refl. }
    split.
    { rewrite at_same. rewrite <- (P _). rewrite (board_pushes b bl ol on). cbn. rewrite Z.eqb_refl, X1. reflexivity. }
    split; [exact I2|]. split; [exact I3|]. split; [exact I4|]. split; [apply E|]. split; [apply E|]. split.
    { intros x Hx Hal. rewrite at_other by discriminate. rewrite (board_pushes b bl ol on). cbn.
      destruct (Z.eqb_spec x bl); [congruence|]. auto. }
    split.
    { intros x Hal. rewrite at_other by discriminate. rewrite (board_pushes b bl ol on). cbn.
      destruct (Z.eqb_spec x bl); [congruence|]. auto. }
    cbn. rewrite board_one_stop, board_bus. split; [exact X4|]. split; [exact X5|].
    intros p. rewrite board_one_next. apply X6.
Qed.

(** ** when a bus leaves *)
Definition gets_offb (n : tnet) (w : tw) (st : vstop) (p : Z) : bool :=
  match p_next (w_pas w p) with Some x => is_alighting (k_kind n x) && is_link (s_alight st) x | None => false end.
Definition waitsb (n : tnet) (w : tw) (r p : Z) : bool :=
  match p_next (w_pas w p) with Some x => on_route r (k_kind n x) | None => false end.
Lemma is_link_true o x : is_link o x = true <-> o = Some x.
Proof. destruct o; cbn; [rewrite Z.eqb_eq; split; congruence|easy]. Qed.
Lemma gets_offb_spec n w s p : gets_offb n w (w_stop w s) p = true <-> gets_off n w s p.
Proof.
  unfold gets_offb, gets_off. destruct (p_next (w_pas w p)) as [x|].
  - rewrite andb_true_iff, is_link_true. split.
    + intros [A B]. exists x. repeat split; auto. destruct (k_kind n x); try discriminate; auto.
    + intros (y & [= <-] & B & ->). auto.
  - split; [easy|]. intros (y & [=] & _).
Qed.
Lemma waitsb_spec n w r p : waitsb n w r p = true <-> waits_for n w r p.
Proof.
  unfold waitsb, waits_for. destruct (p_next (w_pas w p)) as [x|].
  - split.
    + intros A. exists x. split; auto. destruct (k_kind n x); try discriminate. cbn in A. apply Z.eqb_eq in A. congruence.
    + intros (y & [= <-] & ->). cbn. apply Z.eqb_refl.
  - split; [easy|]. intros (y & [=] & _).
Qed.
Lemma want_off_len n w st : forall pool c, want_off n w st pool = Ok c -> c = Z.of_nat (length (filter (gets_offb n w st) pool)).
Proof.
  induction pool as [|p pool IH]; intros c H; cbn [want_off] in H; [now injection H as <-|].
  cbn [filter]. unfold gets_offb at 1. destruct (p_next (w_pas w p)) as [x|]; [|discriminate].
  ifs H.
  - destruct (want_off n w st pool) as [c'|]; cbn in H; [|discriminate]. injection H as <-. rewrite (IH _ eq_refl).
    ifg; cbn [length]; lia.
  - destruct (s_out st); [|discriminate]. gs H. rewrite (IH _ H).
    destruct (k_kind n x); try discriminate. reflexivity.
Qed.
Lemma want_on_len n w st r : forall line c, want_on n w st r line = Ok c -> c = Z.of_nat (length (filter (waitsb n w r) line)).
Proof.
  induction line as [|p line IH]; intros c H; cbn [want_on] in H; [now injection H as <-|].
  cbn [filter]. unfold waitsb at 1. destruct (p_next (w_pas w p)) as [x|]; [|auto].
  ifs H; [|auto]. destruct (s_out st); [|discriminate]. gs H.
  destruct (want_on n w st r line) as [c'|]; cbn in H; [|discriminate]. injection H as <-. rewrite (IH _ eq_refl). cbn [length]. lia.
Qed.
Lemma filter_none {A} (f : A -> bool) l : Z.of_nat (length (filter f l)) <= 0 -> forall x, In x l -> f x = false.
Proof.
  intros H x I. destruct (f x) eqn:E; auto. assert (J : In x (filter f l)) by now apply filter_In.
  destruct (filter f l); [easy|]. cbn [length] in H. lia.
Qed.
Lemma filter_some {A} (f : A -> bool) l x : In x l -> f x = true -> 0 < Z.of_nat (length (filter f l)).
Proof.
  intros I E. assert (J : In x (filter f l)) by now apply filter_In. destruct (filter f l); [easy|]. cbn [length]. lia.
Qed.

Lemma hold_leaves n f b s w w' :
  hold_bus n f b s w = Ok (false, w') ->
  (b_stopped (w_bus w b) = 0 /\ s_count (w_stop w s) < f - 1) \/
  ((forall p, In p (w_at w (PBus b)) -> ~ gets_off n w s p) /\
   (b_cap (w_bus w b) * f <= Z.of_nat (length (w_at w (PBus b))) \/
    forall bl p, s_board (w_stop w s) = Some bl -> In p (w_at w (PDone bl)) -> ~ waits_for n w (b_route (w_bus w b)) p) /\
   (b_dwell (w_bus w b) <= b_stopped (w_bus w b) \/
    (b_stopped (w_bus w b) = 0 /\ b_cap (w_bus w b) * f = Z.of_nat (length (w_at w (PBus b)))))).
Proof.
  unfold hold_bus. cbv zeta. intros H. gs H. gs H. gs H.
  ifs H; [left; lia|]. ifs H; [discriminate|]. right.
  destruct (want_off n w (w_stop w s) (w_at w (PBus b))) as [off|] eqn:Eo; cbn [bind] in H; [|discriminate].
  apply want_off_len in Eo.
  match type of H with (do on <- ?X; _) = _ => destruct X as [on|] eqn:En end; cbn [bind] in H; [|discriminate].
  match type of H with (do st1 <- ?X; _) = _ => destruct X as [st1|] end; cbn [bind] in H; [|discriminate].
  ifs H; [discriminate|]. apply orb_false_iff in B1. destruct B1 as [B1 B2]. apply orb_false_iff in B2. destruct B2 as [B2 B3].
  assert (Off : forall p, In p (w_at w (PBus b)) -> ~ gets_off n w s p).
  { intros p I G'. apply gets_offb_spec in G'. assert (L0 : Z.of_nat (length (filter (gets_offb n w (w_stop w s)) (w_at w (PBus b)))) <= 0) by lia.
    rewrite (filter_none _ _ L0 p I) in G'. discriminate. }
  split; [exact Off|]. split.
  - destruct (Z_le_dec (b_cap (w_bus w b) * f) (Z.of_nat (length (w_at w (PBus b))))); [now left|]. right.
    intros bl p Hb I W. rewrite Hb in En.
    destruct (0 <? _) eqn:L in En; [|lia]. apply want_on_len in En.
    apply andb_false_iff in B3. apply waitsb_spec in W.
    assert (L0 : Z.of_nat (length (filter (waitsb n w (b_route (w_bus w b))) (w_at w (PDone bl)))) <= 0) by lia.
    rewrite (filter_none _ _ L0 p I) in W. discriminate.
  - match type of B1 with (_ <? (if ?c then _ else _)) = false => destruct c eqn:D2 end; [right; lia|]. left.
    match type of B1 with (_ <? (if ?c then _ else _)) = false => destruct c eqn:D3 end; lia.
Qed.
