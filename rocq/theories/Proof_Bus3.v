(** How long buses stay at stops. *)
From Verif Require Import Base Base_lemmas Model_Num Proof_Num Model_Bus Spec_Bus Proof_Bus Proof_Bus2.

Definition offs (n : tnet) (w : tw) (b s : Z) : Z :=
  Z.of_nat (length (filter (gets_offb n w (w_stop w s)) (w_at w (PBus b)))).

Lemma want_off_total n w st al ol :
  s_out st = Some ol -> k_kind n al = Alighting -> forall pool,
  (forall p, In p pool -> p_next (w_pas w p) = Some al \/ p_next (w_pas w p) = Some ol) -> is_walk (k_kind n ol) = false ->
  exists c, want_off n w st pool = Ok c.
Proof.
  intros So Ka pool H K. induction pool as [|p pool IH]; [now exists 0|].
  destruct IH as [c IH]; [intros; apply H; now right|]. cbn [want_off].
  destruct (H p (or_introl eq_refl)) as [-> | ->].
  - rewrite Ka. cbn [is_walk]. rewrite IH. cbn [bind]. eauto.
  - rewrite K, So, Z.eqb_refl. cbn [bind guard]. eauto.
Qed.
Lemma want_on_total n w st r ol :
  s_out st = Some ol -> k_kind n ol = Riding r -> forall line,
  (forall p, In p line -> p_next (w_pas w p) = Some ol) -> want_on n w st r line = Ok (Z.of_nat (length line)).
Proof.
  intros So Ka line H. induction line as [|p line IH]; [reflexivity|]. cbn [want_on].
  rewrite (H p (or_introl eq_refl)), Ka. cbn [on_route]. rewrite Z.eqb_refl, So, Z.eqb_refl. cbn [bind guard].
  rewrite IH by (intros; apply H; now right). cbn [bind length]. f_equal. lia.
Qed.

(** what hold_bus does for an orderly stop *)
Lemma hold_orderly n f b s w bl :
  orderly n f b s w -> s_board (w_stop w s) = Some bl ->
  let r := w_bus w b in let o := offs n w b s in let rem := b_cap r * f - len w b + o in
  let busy := (0 <? o) || ((0 <? Z.of_nat (length (w_at w (PDone bl)))) && (0 <? rem)) in
  exists (h : bool) (st1 : vstop), s_count st1 = f /\ s_in st1 = s_in (w_stop w s) /\ s_out st1 = s_out (w_stop w s) /\
    s_board st1 = s_board (w_stop w s) /\ s_alight st1 = s_alight (w_stop w s) /\ s_route st1 = s_route (w_stop w s) /\
    s_queue st1 = s_queue (w_stop w s) /\
    hold_bus n f b s w = (if h then Ok (true, set_bus b (set_stopped (b_stopped r + 1) r) (set_stop s st1 w))
                          else Ok (false, set_stop s (set_count 0 st1) w)) /\
    (h = true -> busy = true \/ b_stopped r < Z.max (b_dwell r) (b_lost r)) /\ (busy = true -> h = true).
Proof.
  intros O Hb r o rem busy. unfold orderly in O. destruct O as (R1 & R2 & Q & S0 & C0 & C1 & il & ol & bl' & al & Si & So & Sb & Sa & N & Ko & Ka & P & L).
  fold r in R1, R2, S0, C0, C1, Ko. rewrite Hb in Sb. injection Sb as <-.
  assert (Kw : is_walk (k_kind n ol) = false) by now rewrite Ko.
  destruct (want_off_total n w (w_stop w s) al ol So Ka _ P Kw) as [c Wo]. assert (Wl := want_off_len _ _ _ _ _ Wo).
  fold (offs n w b s) in Wl. fold o in Wl.
  assert (Wn := want_on_total n w (w_stop w s) (b_route r) ol So Ko _ L).
  unfold hold_bus. cbv zeta. fold r.
  replace (negb (b_route r =? -1) && (b_route r =? s_route (w_stop w s))) with true by lia. cbn [bind guard].
  replace (memb b (s_queue (w_stop w s))) with true by (symmetry; now apply memb_In). cbn [bind guard].
  replace (negb (0 <? b_stopped r) || (s_count (w_stop w s) =? f)) with true by (symmetry; lia). cbn [bind guard].
  replace ((s_count (w_stop w s) <? f - 1) && (b_stopped r =? 0)) with false by lia.
  replace ((s_count (w_stop w s) =? f) && (b_stopped r =? 0)) with false by lia.
  rewrite Wo. cbn [bind]. rewrite Hb. subst c. fold (len w b). fold rem.
  set (on := if 0 <? rem then Z.of_nat (length (w_at w (PDone bl))) else 0).
  assert (En : (if 0 <? rem then want_on n w (w_stop w s) (b_route r) (w_at w (PDone bl)) else Ok 0) = Ok on)
    by (unfold on; destruct (0 <? rem); auto).
  rewrite En. cbn [bind].
  assert (Eb : (0 <? o) || ((0 <? on) && (0 <? rem)) = busy) by (unfold busy, on; destruct (0 <? rem); rewrite ?andb_false_r; reflexivity).
  rewrite Eb. clear En Eb.
  set (d2 := if (o =? 0) && (rem =? 0) && (b_stopped r =? 0) then 0
             else if (0 <? b_dwell r) && (b_dwell r <? b_lost r) && busy then b_lost r else b_dwell r).
  assert (D : b_stopped r < d2 -> b_stopped r < Z.max (b_dwell r) (b_lost r))
    by (unfold d2; repeat match goal with |- context[if ?c then _ else _] => destruct c end; lia).
  clearbody d2.
  set (st1 := if b_stopped r =? 0 then set_count (s_count (w_stop w s) + 1) (w_stop w s) else w_stop w s).
  exists ((b_stopped r <? d2) || busy), st1.
  assert (E1 : (if b_stopped r =? 0
       then do _ <- guard (s_count (w_stop w s) =? f - 1) EThrow; Ok (set_count (s_count (w_stop w s) + 1) (w_stop w s))
       else do _ <- guard (s_count (w_stop w s) =? f) EThrow; Ok (w_stop w s)) = Ok st1).
  { unfold st1. destruct (b_stopped r =? 0) eqn:Z0.
    - replace (s_count (w_stop w s) =? f - 1) with true by lia. reflexivity.
    - replace (s_count (w_stop w s) =? f) with true by lia. reflexivity. }
  rewrite E1. cbn [bind]. split; [unfold st1; destruct (b_stopped r =? 0) eqn:Z0; cbn; lia|].
  do 6 (split; [unfold st1; destruct (b_stopped r =? 0); cbn; solve [reflexivity | exact Hb]|]).
  split; [destruct (_ || _); reflexivity|]. split.
  - rewrite orb_true_iff. intros [X|X]; [right; apply D; lia|auto].
  - intros ->. apply orb_true_r.
Qed.

Lemma alight_scan_total n w al lim : forall pool c, (forall p, In p pool -> p_next (w_pas w p) <> None) ->
  exists x, alight_scan n w al lim c pool = Ok x.
Proof.
  induction pool as [|p pool IH]; intros c H; cbn [alight_scan]; [eauto|].
  destruct (p_next (w_pas w p)) eqn:N; [|exfalso; exact (H p (or_introl eq_refl) N)].
  assert (H' : forall q, In q pool -> p_next (w_pas w q) <> None) by (intros; apply H; now right).
  destruct (_ && _); [destruct (lim <=? c); [eauto|]|].
  - destruct (IH (c + 1) H') as [[a o] ->]. cbn. eauto.
  - destruct (IH c H') as [[a o] ->]. cbn. eauto.
Qed.
Lemma board_scan_total n w ol r lim : k_kind n ol = Riding r -> forall line c, (forall p, In p line -> p_next (w_pas w p) = Some ol) ->
  exists x, board_scan n w (Some ol) r lim c line = Ok x.
Proof.
  intros K. induction line as [|p line IH]; intros c H; cbn [board_scan]; [eauto|].
  rewrite (H p (or_introl eq_refl)), K. cbn [on_route is_link]. rewrite !Z.eqb_refl. cbn [andb bind guard].
  destruct (lim <=? c); [eauto|]. destruct (IH (c + 1)) as [[a o] ->]; [intros; apply H; now right|]. cbn. eauto.
Qed.
Lemma exchange_total n sh f b s w : orderly n f b s w -> exists w', board_and_alight n sh b s w = Ok w'.
Proof.
  intros (R1 & R2 & Q & S0 & C0 & C1 & il & ol & bl & al & Si & So & Sb & Sa & N & Ko & Ka & P & L).
  unfold board_and_alight. replace (negb (b_route (w_bus w b) =? -1)) with true by lia. cbn [bind guard].
  unfold do_alight. cbv zeta.
  destruct (alight_scan_total n w (s_alight (w_stop w s)) (alight_limit n (w_bus w b)) (w_at w (PBus b)) 0) as [[stay off] E].
  { intros p I. destruct (P p I) as [-> | ->]; discriminate. }
  rewrite E. cbn [bind]. rewrite Si, Sa.
  set (X := match off with [] => Ok w | _ => Ok (fold_left (alight_one al il) off (set_at (PBus b) stay w)) end).
  assert (X1 : exists w1, X = Ok w1 /\ w_stop w1 = w_stop w /\ w_bus w1 = w_bus w /\ w_at w1 (PDone bl) = w_at w (PDone bl) /\
                 (forall p, p_next (w_pas w1 p) = p_next (w_pas w p))).
  { unfold X. destruct off as [|o off]; [exists w; auto|]. eexists. split; [reflexivity|].
    rewrite alight_one_stop, alight_bus, alight_pushes. split; [reflexivity|]. split; [reflexivity|]. split.
    - cbn [place_eqb]. destruct (Z.eqb_spec bl al); [congruence|]. apply at_other. discriminate.
    - intros p. rewrite alight_one_next. reflexivity. }
  destruct X1 as (w1 & -> & T1 & T2 & T3 & T4). cbn [bind].
  unfold do_board. cbv zeta. rewrite T1, T2, Sb, So, T3. destruct (_ <=? 0); [cbn; eauto|].
  destruct (board_scan_total n w1 ol (b_route (w_bus w b)) (room n (w_bus w b) (Z.of_nat (length (w_at w1 (PBus b))))) Ko (w_at w (PDone bl)) 0) as [[on rest] E'].
  { intros p I. rewrite T4. auto. }
  rewrite E'. cbn [bind]. eauto.
Qed.

Lemma inter_in {A} (l a c : list A) : interleaved l a c -> forall x, In x l <-> In x a \/ In x c.
Proof. induction 1; intros y; cbn; [tauto| |]; rewrite IHinterleaved; tauto. Qed.
Lemma inter_len {A} (l a c : list A) : interleaved l a c -> length l = (length a + length c)%nat.
Proof. induction 1; cbn; lia. Qed.
Lemma inter_filter {A} (g : A -> bool) (l a c : list A) : interleaved l a c ->
  length (filter g l) = (length (filter g a) + length (filter g c))%nat.
Proof. induction 1; cbn; auto; destruct (g x); cbn; lia. Qed.
Lemma filter_all {A} (g : A -> bool) l : (forall x, In x l -> g x = true) -> length (filter g l) = length l.
Proof. induction l; cbn; intros H; auto. rewrite H by auto. cbn. f_equal. auto. Qed.
Lemma filter_nil {A} (g : A -> bool) l : (forall x, In x l -> g x = false) -> length (filter g l) = 0%nat.
Proof. induction l; cbn; intros H; auto. rewrite H by auto. auto. Qed.
Lemma filter_ext_len {A} (g h : A -> bool) l : (forall x, g x = h x) -> length (filter g l) = length (filter h l).
Proof. intros E. induction l; cbn; auto. rewrite E. destruct (h a); cbn; auto. Qed.
Lemma filter_perm {A} (g : A -> bool) l l' : Permutation l l' -> length (filter g l) = length (filter g l').
Proof. induction 1; cbn; auto; repeat match goal with |- context[if ?c then _ else _] => destruct c end; cbn; auto; congruence. Qed.

Definition measure (n : tnet) (w : tw) (b s bl : Z) : Z :=
  Z.max 0 (Z.max (b_dwell (w_bus w b)) (b_lost (w_bus w b)) - b_stopped (w_bus w b)) +
  offs n w b s + Z.of_nat (length (w_at w (PDone bl))).

(** the exchange keeps a stop orderly *)
Lemma exchange_orderly n sh f b s w w' bl :
  shuffle sh -> orderly n f b s w -> s_board (w_stop w s) = Some bl -> board_and_alight n sh b s w = Ok w' ->
  orderly n f b s w' /\ w_bus w' = w_bus w /\ w_stop w' = w_stop w /\
  (exists off on rest : list Z,
     offs n w b s = offs n w' b s + Z.of_nat (length off) /\ w_at w (PDone bl) = on ++ rest /\ w_at w' (PDone bl) = rest /\
     Z.of_nat (length off) <= Z.max 0 (alight_limit n (w_bus w b)) /\
     (0 < offs n w' b s -> Z.of_nat (length off) = Z.max 0 (alight_limit n (w_bus w b))) /\
     Z.of_nat (length on) <= Z.max 0 (room n (w_bus w b) (len w b - Z.of_nat (length off))) /\
     (rest <> [] -> Z.of_nat (length on) = Z.max 0 (room n (w_bus w b) (len w b - Z.of_nat (length off)))) /\
     len w' b = len w b - Z.of_nat (length off) + Z.of_nat (length on)).
Proof.
  intros Sh O Hb H.
  destruct O as (R1 & R2 & Q & S0 & C0 & C1 & il & ol & bl' & al & Si & So & Sb & Sa & N & Ko & Ka & P & L).
  rewrite Hb in Sb. injection Sb as <-.
  destruct (exchange n sh b s w w' bl ol Sh Hb So ltac:(congruence) H)
    as (stay & off & on & rest & I & Ln & Ln' & Pm & F & F1 & F2 & G1 & G2 & _ & _ & T1 & T2 & T3).
  assert (Pool : forall p, In p (w_at w' (PBus b)) -> In p stay \/ In p on).
  { intros p J. apply (Permutation_in _ Pm) in J. now apply in_app_iff. }
  split.
  { unfold orderly. rewrite T1, T2. do 6 (split; [assumption|]). exists il, ol, bl, al. do 7 (split; [assumption|]). split.
    - intros p J. rewrite T3. destruct (Pool p J) as [J'|J'].
      + apply P. apply (inter_in _ _ _ I). auto.
      + right. apply L. rewrite Ln. apply in_app_iff. auto.
    - intros p J. rewrite T3. apply L. rewrite Ln. rewrite Ln' in J. apply in_app_iff. auto. }
  split; [exact T2|]. split; [exact T1|]. exists off, on, rest.
  assert (OffG : forall p, off_here n w (s_alight (w_stop w s)) p = true -> gets_offb n w (w_stop w s) p = true).
  { intros p. unfold off_here, gets_offb. destruct (p_next (w_pas w p)) as [x|]; [|easy]. rewrite !andb_true_iff.
    intros [A B]. split; auto. apply is_link_true in B. rewrite Sa in B. injection B as <-. now rewrite Ka. }
  assert (GOff : forall p, gets_offb n w (w_stop w s) p = true -> off_here n w (s_alight (w_stop w s)) p = true).
  { intros p. unfold off_here, gets_offb. destruct (p_next (w_pas w p)) as [x|]; [|easy]. rewrite !andb_true_iff.
    intros [A B]. split; auto. destruct (k_kind n x); try discriminate; auto. }
  assert (OnN : forall p, In p on -> gets_offb n w (w_stop w s) p = false).
  { intros p J. unfold gets_offb. rewrite (L p) by (rewrite Ln; apply in_app_iff; auto). now rewrite Ko. }
  assert (Same : forall p, gets_offb n w' (w_stop w' s) p = gets_offb n w (w_stop w s) p).
  { intros p. unfold gets_offb. now rewrite T3, T1. }
  assert (O' : offs n w' b s = Z.of_nat (length (filter (gets_offb n w (w_stop w s)) stay))).
  { unfold offs. rewrite (filter_ext_len _ _ _ Same), (filter_perm _ _ _ Pm), filter_app, app_length, (filter_nil _ _ OnN). lia. }
  assert (O1 : offs n w b s = offs n w' b s + Z.of_nat (length off)).
  { rewrite O'. unfold offs. rewrite (inter_filter _ _ _ _ I). rewrite (filter_all _ off) by auto. lia. }
  assert (Ls : Z.of_nat (length stay) = len w b - Z.of_nat (length off)).
  { unfold len. rewrite (inter_len _ _ _ I). lia. }
  rewrite Ls in G1, G2. split; [exact O1|]. split; [exact Ln|]. split; [exact Ln'|]. split; [exact F1|]. split.
  { rewrite O'. intros J. destruct (filter (gets_offb n w (w_stop w s)) stay) as [|p l] eqn:E; [cbn in J; lia|].
    assert (J' : In p (filter (gets_offb n w (w_stop w s)) stay)) by (rewrite E; now left).
    apply filter_In in J'. destruct J'. eapply F2; eauto. }
  split; [exact G1|]. split; [exact G2|].
  unfold len at 1. rewrite (Permutation_length Pm), app_length. lia.
Qed.

(** after hold_bus the stop is orderly *)
Lemma held_orderly n f b s w st1 :
  orderly n f b s w -> s_count st1 = f -> s_in st1 = s_in (w_stop w s) -> s_out st1 = s_out (w_stop w s) ->
  s_board st1 = s_board (w_stop w s) -> s_alight st1 = s_alight (w_stop w s) -> s_route st1 = s_route (w_stop w s) ->
  s_queue st1 = s_queue (w_stop w s) ->
  orderly n f b s (set_bus b (set_stopped (b_stopped (w_bus w b) + 1) (w_bus w b)) (set_stop s st1 w)).
Proof.
  intros O E1 E2 E3 E4 E5 E6 E7. unfold orderly in *. cbn [w_bus w_stop set_bus set_stop w_at w_pas]. rewrite !upd_same.
  cbn [b_route b_stopped set_stopped]. rewrite E1, E2, E3, E4, E5, E6, E7.
  destruct O as (R1 & R2 & Q & S0 & C0 & C1 & X). do 3 (split; [assumption|]). split; [lia|]. split; [lia|]. split; [lia|]. exact X.
Qed.

Definition scalar (n : tnet) (f : Z) : Prop := (k_fs n == inject_Z f)%Q.
Lemma scaled n f c : scalar n f -> trunc (inject_Z c * k_fs n) = c * f.
Proof.
  intros E. rewrite <- (trunc_Z (c * f)). apply trunc_comp. unfold scalar in E. rewrite E. now rewrite <- inject_Z_mult.
Qed.
Lemma scalar_trunc n f : scalar n f -> trunc (k_fs n) = f.
Proof. intros E. rewrite <- (trunc_Z f). apply trunc_comp. exact E. Qed.

(** one interval at an orderly stop *)
Lemma at_stop_progress n f sh b s w bl :
  shuffle sh -> scalar n f -> 1 <= f -> orderly n f b s w -> s_board (w_stop w s) = Some bl ->
  1 <= b_mal (w_bus w b) -> 1 <= b_mbd (w_bus w b) ->
  exists h w', at_stop n f sh b s w = Ok (h, w') /\
    (h = true -> orderly n f b s w' /\ measure n w' b s bl < measure n w b s bl /\ s_board (w_stop w' s) = Some bl /\
       b_mal (w_bus w' b) = b_mal (w_bus w b) /\ b_mbd (w_bus w' b) = b_mbd (w_bus w b)).
Proof.
  intros Sh Sc Hf O Hb M1 M2.
  destruct (hold_orderly n f b s w bl O Hb) as (h & st1 & E1 & E2 & E3 & E4 & E5 & E6 & E7 & Hh & Why & _).
  unfold at_stop. rewrite Hh. destruct h; cbn [bind]; [|exists false; eexists; split; [reflexivity|discriminate]].
  specialize (Why eq_refl).
  set (r := w_bus w b) in *. set (w1 := set_bus b (set_stopped (b_stopped r + 1) r) (set_stop s st1 w)) in *.
  assert (O1 : orderly n f b s w1) by (apply held_orderly; auto).
  assert (B1 : w_bus w1 b = set_stopped (b_stopped r + 1) r) by apply upd_same.
  assert (S1 : w_stop w1 s = st1) by apply upd_same.
  assert (Of : offs n w1 b s = offs n w b s).
  { unfold offs. rewrite S1. f_equal. apply filter_ext_len. intros p. unfold gets_offb. rewrite E5. reflexivity. }
  assert (Ln : w_at w1 (PDone bl) = w_at w (PDone bl)) by reflexivity.
  assert (Nn : 0 <= offs n w b s) by (unfold offs; lia).
  rewrite B1. cbn [b_lost b_stopped set_stopped].
  destruct (b_lost r <? b_stopped r + 1) eqn:Lost.
  - destruct (exchange_total n sh f b s w1 O1) as [w2 X]. rewrite X. cbn [bind].
    assert (Hb1 : s_board (w_stop w1 s) = Some bl) by (rewrite S1, E4; exact Hb).
    destruct (exchange_orderly n sh f b s w1 w2 bl Sh O1 Hb1 X)
      as (O2 & T1 & T2 & off & on & rest & A1 & A2 & A3 & A4 & A5 & A6 & A7 & A8).
    exists true, w2. split; [reflexivity|]. intros _. split; [exact O2|].
    rewrite T1, T2. split; [|rewrite B1; auto].
    unfold measure. rewrite T1, B1, A3, <- Ln, A2, app_length. cbn [b_dwell b_lost b_stopped set_stopped].
    rewrite <- Of, A1. rewrite B1 in A4, A5, A6, A7. unfold alight_limit, room in *. cbn [b_mal b_mbd b_cap set_stopped] in *.
    rewrite (scalar_trunc n f Sc), !(scaled n f _ Sc) in *.
    change (w_bus w b) with r.
    assert (1 <= b_mal r * f) by nia. assert (1 <= b_mbd r * f) by nia.
    assert (N2 : 0 <= offs n w2 b s) by (unfold offs; lia).
    destruct Why as [Why|Why]; [|lia].
    assert (Y : 0 < Z.of_nat (length off) + Z.of_nat (length on)).
    { rewrite <- Of in Why. destruct (Z_lt_dec 0 (offs n w1 b s)) as [P|P]; [lia|].
      assert (off = []) as -> by (destruct off; cbn [length] in A1; [auto|lia]). cbn [length] in *.
      assert (len w1 b = len w b) by reflexivity.
      assert (0 < Z.of_nat (length (w_at w (PDone bl))) /\ 0 < b_cap r * f - len w b) by lia.
      rewrite <- Ln, A2, app_length in H2. destruct rest as [|x rest]; [cbn [length] in H2; lia|].
      specialize (A7 ltac:(discriminate)). lia. }
    lia.
  - exists true, w1. split; [reflexivity|]. intros _. split; [exact O1|]. rewrite S1, E4, B1.
    split; [|auto]. unfold measure. rewrite B1, Of, Ln. cbn [b_dwell b_lost b_stopped set_stopped]. change (w_bus w b) with r. lia.
Qed.

Lemma leaves_in n f sh b s bl : shuffle sh -> scalar n f -> 1 <= f -> forall m w,
  orderly n f b s w -> s_board (w_stop w s) = Some bl -> 1 <= b_mal (w_bus w b) -> 1 <= b_mbd (w_bus w b) ->
  measure n w b s bl <= Z.of_nat m ->
  exists k w1 w2, (k <= m)%nat /\ stays n f sh b s k w w1 /\ at_stop n f sh b s w1 = Ok (false, w2).
Proof.
  intros Sh Sc Hf. induction m as [|m IH]; intros w O Hb M1 M2 Me;
    destruct (at_stop_progress n f sh b s w bl Sh Sc Hf O Hb M1 M2) as (h & w' & E & G);
    (destruct h; [|exists 0%nat, w, w'; split; [lia|split; [constructor|exact E]]]);
    destruct (G eq_refl) as (O' & Me' & Hb' & Q1 & Q2).
  - exfalso. unfold measure, offs in *. lia.
  - destruct (IH w' O' Hb' ltac:(lia) ltac:(lia) ltac:(lia)) as (k & w1 & w2 & K & St & A).
    exists (S k), w1, w2. split; [lia|]. split; [econstructor; eauto|exact A].
Qed.

(** ** nobody boards: held for ever *)
Lemma held_for_ever n f sh b s bl : shuffle sh -> scalar n f -> 1 <= f -> forall k w,
  orderly n f b s w -> s_board (w_stop w s) = Some bl -> b_mbd (w_bus w b) <= 0 -> offs n w b s = 0 ->
  w_at w (PDone bl) <> [] -> len w b < b_cap (w_bus w b) * f ->
  exists w', stays n f sh b s k w w' /\ w_at w' (PDone bl) = w_at w (PDone bl).
Proof.
  intros Sh Sc Hf. induction k as [|k IH]; intros w O Hb M Of Ne Cap; [exists w; split; [constructor|reflexivity]|].
  destruct (hold_orderly n f b s w bl O Hb) as (h & st1 & E1 & E2 & E3 & E4 & E5 & E6 & E7 & Hh & _ & Why).
  assert (h = true) as ->.
  { apply Why. rewrite Of. destruct (w_at w (PDone bl)); [congruence|]. cbn [length]. lia. }
  set (r := w_bus w b) in *. set (w1 := set_bus b (set_stopped (b_stopped r + 1) r) (set_stop s st1 w)) in *.
  assert (O1 : orderly n f b s w1) by (apply held_orderly; auto).
  assert (B1 : w_bus w1 b = set_stopped (b_stopped r + 1) r) by apply upd_same.
  assert (S1 : w_stop w1 s = st1) by apply upd_same.
  assert (Of1 : offs n w1 b s = 0).
  { rewrite <- Of. unfold offs. rewrite S1. f_equal. apply filter_ext_len. intros p. unfold gets_offb. rewrite E5. reflexivity. }
  assert (Hb1 : s_board (w_stop w1 s) = Some bl) by (rewrite S1, E4; exact Hb).
  assert (A : exists w2, at_stop n f sh b s w = Ok (true, w2) /\ orderly n f b s w2 /\ s_board (w_stop w2 s) = Some bl /\
     b_mbd (w_bus w2 b) <= 0 /\ offs n w2 b s = 0 /\ w_at w2 (PDone bl) = w_at w (PDone bl) /\ len w2 b < b_cap (w_bus w2 b) * f).
  { unfold at_stop. rewrite Hh. cbn [bind]. destruct (b_lost _ <? _).
    - destruct (exchange_total n sh f b s w1 O1) as [w2 X]. rewrite X. cbn [bind]. exists w2.
      destruct (exchange_orderly n sh f b s w1 w2 bl Sh O1 Hb1 X)
        as (O2 & T1 & T2 & off & on & rest & A1 & A2 & A3 & A4 & A5 & A6 & A7 & A8).
      split; [reflexivity|]. split; [exact O2|]. rewrite T1, T2, B1. split; [exact Hb1|]. split; [exact M|].
      assert (0 <= offs n w2 b s) by (unfold offs; lia). split; [lia|].
      assert (off = []) as -> by (destruct off; cbn [length] in A1; [auto|lia]).
      rewrite B1 in A6. unfold room in A6. cbn [b_mbd b_cap set_stopped length] in *. rewrite !(scaled n f _ Sc) in A6.
      assert (b_mbd r * f <= 0) by nia.
      assert (on = []) as -> by (destruct on; cbn [length] in A6; [auto|lia]). cbn [length app] in *.
      split; [rewrite A3; symmetry; exact A2|]. assert (len w1 b = len w b) by reflexivity. lia.
    - exists w1. split; [reflexivity|]. rewrite B1. repeat split; auto; apply O1. }
  destruct A as (w2 & A & O2 & Hb2 & M2 & Of2 & L2 & C2).
  destruct (IH w2 O2 Hb2 M2 Of2 ltac:(now rewrite L2) C2) as (w' & St & L'). exists w'. split; [econstructor; eauto|congruence].
Qed.

Lemma per_interval_zero unit seconds : 0 <= unit -> 2 * unit < seconds -> per_interval unit seconds = 0.
Proof.
  intros H1 H2. unfold per_interval. apply trunc_unique; [lia| |].
  - change (inject_Z 0) with 0%Q. assert (0 <= inject_Z unit / inject_Z seconds)%Q; [|lra].
    apply Qle_shift_div_l; [change 0%Q with (inject_Z 0); rewrite <- Zlt_Qlt; lia|]. rewrite Qmult_0_l. now apply injZ_nonneg.
  - change (inject_Z 0) with 0%Q. assert (inject_Z unit / inject_Z seconds < 1 # 2)%Q; [|lra].
    apply Qlt_shift_div_r; [change 0%Q with (inject_Z 0); rewrite <- Zlt_Qlt; lia|].
    assert (inject_Z (2 * unit) < inject_Z seconds)%Q by (rewrite <- Zlt_Qlt; lia). rewrite inject_Z_mult in H.
    change (inject_Z 2) with 2%Q in H. lra.
Qed.
