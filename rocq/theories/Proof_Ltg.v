(** Lemmas on link-travel-time gradients. *)
From Verif Require Import Base Base_lemmas Model_Num Proof_Num Model_CC Spec_CC Model_Link Proof_Link4 Model_Node Proof_Node2 Proof_Node4 Proof_Safe2 Spec_Grad Model_Grad Proof_Grad1 Proof_Grad2
  Model_Dso Proof_Dso Model_Api Model_Ltg Spec_Ltg.
Local Open Scope Z_scope.

Lemma row_at_entry {A} (r : list A) i x : row_at r i = Ok x <-> entry r i x.
Proof.
  unfold row_at, entry. destruct (Z.ltb_spec i 0); [split; [discriminate|intros [? _]; lia]|].
  destruct (nth_error r (Z.to_nat i)) eqn:E; split; intros H0; try discriminate; [injection H0 as <-; auto| |]; destruct H0 as [_ H0]; congruence.
Qed.
Lemma entry_fun {A} (r : list A) i x y : entry r i x -> entry r i y -> x = y.
Proof. intros [_ A1] [_ A2]. congruence. Qed.
Lemma clamp_min t cur : (if t <? cur then t else cur - 1) = Z.min t (cur - 1).
Proof. destruct (Z.ltb_spec t cur); lia. Qed.
Lemma leave_iff tb cur t t' : leave tb cur t = Ok t' <-> leaves tb cur t t'.
Proof.
  unfold leave, leaves. rewrite clamp_min. split.
  - intros H. apply bind_ok in H as (x & Ex & H). apply row_at_entry in Ex as [E0 Ex]. apply bind_ok in H as (n & En & H). injection H as <-. split; [exact E0|]. eauto.
  - intros (E0 & x & n & Ex & En & ->). rewrite (proj2 (row_at_entry (t_tt tb) (Z.min t (cur - 1)) x) (conj E0 Ex)). cbn [bind]. rewrite En. reflexivity.
Qed.
Lemma leaves_fun tb cur t a b : leaves tb cur t a -> leaves tb cur t b -> a = b.
Proof. intros A B. apply leave_iff in A. apply leave_iff in B. congruence. Qed.
Lemma free_fun tb f g : free_time tb f -> free_time tb g -> f = g.
Proof. unfold free_time. congruence. Qed.
Lemma leaves_later tb cur t t' : leaves tb cur t t' -> t + 1 <= t'.
Proof. intros (_ & x & n & _ & En & ->). destruct (round_up_time_total x tol) as (m & Em & Hm). rewrite En in Em. injection Em as <-. lia. Qed.
Lemma free_pos tb f : free_time tb f -> 1 <= f.
Proof. intros E. unfold free_time in E. destruct (round_up_time_total (inject_Z (t_ff tb)) tol) as (m & Em & Hm). rewrite E in Em. injection Em as <-. lia. Qed.

(** * Slopes *)
Lemma get_result_eq c t t' v v' : recorded_curve c -> (t == t')%Q -> get_result c t = Ok v -> get_result c t' = Ok v' -> (v == v')%Q.
Proof.
  intros Hc E A B. apply Qle_antisym; [eapply (get_result_mono c Hc t t' v v')|eapply (get_result_mono c Hc t' t v' v)]; eauto; rewrite E; apply Qle_refl.
Qed.
Lemma tele c s : recorded_curve c -> forall n k, exists xs a b,
  mapM (fun i => do a <- get_result c (s + inject_Z (Z.of_nat i))%Q; do b <- get_result c (s + inject_Z (Z.of_nat i) + 1)%Q; Ok (b - a)%Q) (seq k n) = Ok xs /\
  get_result c (s + inject_Z (Z.of_nat k))%Q = Ok a /\ get_result c (s + inject_Z (Z.of_nat (k + n)))%Q = Ok b /\ (sumQ xs == b - a)%Q.
Proof.
  intros Hc. induction n as [|n IH]; intros k.
  - destruct (get_result_total c Hc (s + inject_Z (Z.of_nat k))%Q) as (r & _ & G). exists [], (snd r), (snd r). rewrite Nat.add_0_r. cbn. repeat split; auto. ring.
  - destruct (IH (S k)) as (xs & a & b & E & Ga & Gb & Es). cbn [seq mapM].
    destruct (get_result_total c Hc (s + inject_Z (Z.of_nat k))%Q) as (r & _ & G). rewrite G. cbn [bind].
    destruct (get_result_total c Hc (s + inject_Z (Z.of_nat k) + 1)%Q) as (r1 & _ & G1). rewrite G1. cbn [bind]. rewrite E. cbn [bind].
    exists ((snd r1 - snd r)%Q :: xs), (snd r), b. split; [reflexivity|]. split; [reflexivity|]. replace (k + S n)%nat with (S k + n)%nat by lia. split; [exact Gb|].
    change (sumQ ((snd r1 - snd r)%Q :: xs)) with ((snd r1 - snd r) + sumQ xs)%Q. rewrite Es. assert (X : (snd r1 == a)%Q); [|rewrite X; ring]. eapply get_result_eq; [exact Hc| |exact G1|exact Ga]. rewrite Nat2Z.inj_succ. unfold Z.succ. rewrite inject_Z_plus. change (inject_Z 1) with 1%Q. ring.
Qed.
Lemma slope_left c j k : recorded_curve c -> j < k -> exists s x, cc_slope (Some c) (inject_Z j) (inject_Z k) = Ok s /\ left_in c j k x /\ (s == x / inject_Z (k - j))%Q.
Proof.
  intros Hc L. destruct (rc_last c Hc) as (e & Ee & _ & _).
  unfold cc_slope. rewrite Ee. destruct (Qltb_spec (fst e) (inject_Z j)) as [B|B].
  - exists 0%Q, 0%Q. split; [reflexivity|]. split; [exists e; split; [exact Ee|]; left; split; [exact B|reflexivity]|]. unfold Qdiv. ring.
  - cbv zeta. rewrite !trunc_Z. destruct (Z.ltb_spec 0 (k - j)); [|lia]. cbn [guard bind].
    destruct (tele c (inject_Z j) Hc (Z.to_nat (k - j)) 0%nat) as (xs & a & b & E & Ga & Gb & Es). rewrite E. cbn [bind].
    destruct (get_result_total c Hc (inject_Z j)) as (ra & _ & Ga'). destruct (get_result_total c Hc (inject_Z k)) as (rb & _ & Gb').
    exists (sumQ xs / inject_Z (k - j))%Q, (snd rb - snd ra)%Q. split; [reflexivity|]. split; [exists e; split; [exact Ee|]; right; split; [apply Qnot_lt_le; exact B|]; exists (snd ra), (snd rb); split; [exact Ga'|]; split; [exact Gb'|]; reflexivity|].
    assert (Xa : (a == snd ra)%Q) by (eapply (get_result_eq c _ _ a (snd ra) Hc); [|exact Ga|exact Ga']; cbn; ring).
    assert (Xb : (b == snd rb)%Q).
    { eapply (get_result_eq c _ _ b (snd rb) Hc); [|exact Gb|exact Gb']. cbn [Nat.add]. rewrite Z2Nat.id by lia. rewrite <- inject_Z_plus. replace (j + (k - j)) with k by lia. reflexivity. }
    rewrite Es, Xa, Xb. reflexivity.
Qed.
Lemma left_fun c j k x y : left_in c j k x -> left_in c j k y -> (x == y)%Q.
Proof.
  intros (e & E & A) (e' & E' & B). assert (e' = e) by congruence. subst e'. destruct A as [[A1 A2]|(A1 & a & b & G1 & G2 & A2)], B as [[B1 B2]|(B1 & a' & b' & G1' & G2' & B2)].
  - rewrite A2, B2. reflexivity.
  - exfalso. lra.
  - exfalso. lra.
  - assert (a' = a) by congruence. assert (b' = b) by congruence. subst. rewrite A2, B2. reflexivity.
Qed.

(** * One link *)
Definition recorded_out (tb : gtabs) : Prop := forall o, t_out tb = Some o -> recorded_curve o.

Lemma div_cross e s x n ut : (s == x / inject_Z n)%Q -> 0 < n -> ((e < s <-> e * inject_Z n < x) /\ (0 < s -> ut / s == ut * inject_Z n / x))%Q.
Proof.
  intros E Hn. assert (Hq : (0 < inject_Z n)%Q) by (change 0%Q with (inject_Z 0); rewrite <- Zlt_Qlt; exact Hn). split.
  - rewrite E. split; intros H; [apply Qlt_shift_div_l in H || idtac|].
    + apply (Qmult_lt_r _ _ (inject_Z n) Hq) in H. unfold Qdiv in H. rewrite <- Qmult_assoc, (Qmult_comm (/ _)), Qmult_inv_r, Qmult_1_r in H by lra. exact H.
    + apply Qlt_shift_div_l; assumption.
  - intros P. assert (Hx : (0 < x)%Q). { rewrite E in P. apply (Qmult_lt_r _ _ (inject_Z n) Hq) in P. unfold Qdiv in P. rewrite <- Qmult_assoc, (Qmult_comm (/ _)), Qmult_inv_r, Qmult_1_r in P by lra. lra. }
    rewrite E. field. split; lra.
Qed.
Lemma eps_pos : (0 < dbl_eps)%Q. Proof. reflexivity. Qed.

(** the part of [lasts] decided by [affected] *)
Definition goes_on (tb : gtabs) (lv ut : Q) (cur a p d f v : Z) (g : Q) : Prop :=
  exists e o x, ((d <= cround (lv - 1) /\ v = d /\ e = d + f) \/ (cround (lv - 1) < d /\ v = cround lv /\ leaves tb cur (v - 1) e)) /\
    p < Z.min e (cur - 1) /\ t_out tb = Some o /\ left_in o p (Z.min e (cur - 1) + 1) x /\
    (dbl_eps * inject_Z (Z.min e (cur - 1) + 1 - p) < x)%Q /\ (g == ut * inject_Z (Z.min e (cur - 1) + 1 - p) / x)%Q.

Lemma affected_spec tb lv ut cur a p d f r : recorded_out tb -> affected tb lv ut cur a p d (d + f) = Ok r ->
  match r with
  | Some (v, g) => a < v /\ goes_on tb lv ut cur a p d f v g
  | None => forall v g, ~ goes_on tb lv ut cur a p d f v g
  end.
Proof.
  intros Ho H. unfold affected in H. apply bind_ok in H as ([v0 e0] & Ev & H). cbn [fst snd] in H.
  assert (V : (d <= cround (lv - 1) /\ v0 = d /\ e0 = d + f) \/ (cround (lv - 1) < d /\ v0 = cround lv /\ leaves tb cur (v0 - 1) e0)).
  { destruct (Z.leb_spec d (cround (lv - 1))); [left; injection Ev as <- <-; auto|right]. apply bind_ok in Ev as (e & Ee & Ev). injection Ev as <- <-. apply leave_iff in Ee. auto. }
  clear Ev. set (q := if cur - 1 <? e0 then cur - 1 else e0) in H. assert (Q1 : q = Z.min e0 (cur - 1)) by (unfold q; destruct (Z.ltb_spec (cur - 1) e0); lia). clearbody q. subst q.
  apply bind_ok in H as (uu1 & G1 & H). apply guard_ok in G1. apply Z.ltb_lt in G1. apply bind_ok in H as (uu2 & G2 & H). apply guard_ok in G2. apply Z.leb_le in G2.
  assert (F : forall v g, goes_on tb lv ut cur a p d f v g -> v = v0 /\ exists o x, p < Z.min e0 (cur - 1) /\ t_out tb = Some o /\ left_in o p (Z.min e0 (cur - 1) + 1) x /\
    (dbl_eps * inject_Z (Z.min e0 (cur - 1) + 1 - p) < x)%Q).
  { intros v g (e & o & x & Vv & B1 & B2 & B3 & B4 & _).
    assert (W : v = v0 /\ e = e0). { destruct V as [(? & V1 & V2)|(? & V1 & L)], Vv as [(? & W1 & W2)|(? & W1 & L')]; try lia. assert (W2 : v = v0) by congruence. split; [exact W2|]. rewrite W2 in L'. eapply leaves_fun; eauto. }
    destruct W as [W1 W2]. rewrite W2 in *.
    split; [exact W1|]. eauto 8. }
  destruct (Z.ltb_spec p (Z.min e0 (cur - 1))) as [B|B].
  - apply bind_ok in H as (s & Es & H). destruct (t_out tb) as [o|] eqn:Eo; [|discriminate].
    destruct (slope_left o p (Z.min e0 (cur - 1) + 1) (Ho o Eo) ltac:(lia)) as (s' & x & Es' & Lx & Sx). rewrite Es in Es'. injection Es' as <-.
    destruct (div_cross dbl_eps s x _ ut Sx ltac:(lia)) as [D1 D2]. injection H as <-. destruct (Qltb_spec dbl_eps s) as [P|P].
    + split; [exact G1|]. exists e0, o, x. split; [exact V|]. split; [exact B|]. split; [exact Eo|]. split; [exact Lx|]. split; [apply D1; exact P|]. apply D2. pose proof eps_pos. lra.
    + intros v g G. destruct (F v g G) as (_ & o' & x' & _ & Eo' & Lx' & Px'). assert (o' = o) by congruence. subst o'. apply P. apply D1. rewrite (left_fun _ _ _ _ _ Lx Lx'). exact Px'.
  - injection H as <-. intros v g G. destruct (F v g G) as (_ & o & x & L & _). lia.
Qed.

Lemma lasts_iff tb lv ut cur a p d f con v g : leaves tb cur a p -> entry (t_diss tb) a d -> free_time tb f -> entry (t_cong tb) a con ->
  (lasts tb lv ut cur a v g <-> con = true /\ p < d + f /\ goes_on tb lv ut cur a p d f v g).
Proof.
  intros Lp Ed Ef Ec. split.
  - intros (C & p' & d' & f' & e & o & x & A1 & A2 & A3 & A4 & A5 & A6). cbv zeta in A6.
    pose proof (leaves_fun _ _ _ _ _ A1 Lp). pose proof (entry_fun _ _ _ _ A2 Ed). pose proof (free_fun _ _ _ A3 Ef). pose proof (entry_fun _ _ _ _ C Ec). subst.
    split; [reflexivity|]. split; [exact A4|]. exists e, o, x. split; [exact A5|exact A6].
  - intros (-> & L & e & o & x & A). split; [exact Ec|]. exists p, d, f, e, o, x. split; [exact Lp|]. split; [exact Ed|]. split; [exact Ef|]. split; [exact L|]. exact A.
Qed.

Lemma effect_fun l x a b : effect_at l x a -> effect_at l x b -> a = b.
Proof. intros [(K & ->)|(K & _ & ->)] [(K' & ->)|(K' & _ & ->)]; congruence. Qed.
Lemma over_fun c cur thr l x a y a' y' : over c cur thr l x a y -> over c cur thr l x a' y' -> a = a' /\ y = y'.
Proof.
  intros (A1 & _ & A3 & d & f & A4 & A5 & A6) (B1 & _ & B3 & d' & f' & B4 & B5 & B6). pose proof (effect_fun _ _ _ _ A1 B1) as <-. split; [reflexivity|].
  destruct y as [y1 y2], y' as [z1 z2]. cbn [fst snd] in *. rewrite (leaves_fun _ _ _ _ _ A3 B3), A6, B6, (entry_fun _ _ _ _ A4 B4), (free_fun _ _ _ A5 B5). reflexivity.
Qed.
Lemma lasts_fun tb lv ut cur a v g v' g' : lasts tb lv ut cur a v g -> lasts tb lv ut cur a v' g' -> v = v' /\ (g == g')%Q.
Proof.
  intros (C & p & d & f & e & o & x & A1 & A2 & A3 & A4 & A5 & A6) (_ & p' & d' & f' & e' & o' & x' & B1 & B2 & B3 & B4 & B5 & B6). cbv zeta in A6, B6.
  pose proof (leaves_fun _ _ _ _ _ A1 B1). pose proof (entry_fun _ _ _ _ A2 B2). pose proof (free_fun _ _ _ A3 B3). subst p' d' f'.
  assert (v = v' /\ e = e') as [<- <-]. { destruct A5 as [(? & -> & ->)|(? & -> & L)], B5 as [(? & -> & ->)|(? & -> & L')]; try lia. split; [reflexivity|eapply leaves_fun; eauto]. }
  split; [reflexivity|]. destruct A6 as (_ & E1 & L1 & _ & G1), B6 as (_ & E2 & L2 & _ & G2). assert (o' = o) by congruence. subst o'. rewrite G1, G2, (left_fun _ _ _ _ _ L1 L2). reflexivity.
Qed.

Lemma pass_link_spec c ut cur thr w l dep lift r : recorded_out (tabs_of c l) -> pass_link c ut cur thr w l dep lift = Ok r ->
  match r with
  | None => forall a y, ~ over c cur thr l (dep, lift) a y
  | Some (dep', lift', a, m) =>
      over c cur thr l (dep, lift) a (dep', lift') /\ dep <= a /\
      match m with
      | Some (v, g) => w = true /\ a < v /\ lasts (tabs_of c l) (g_lv l) ut cur a v g
      | None => w = true -> forall v g, ~ lasts (tabs_of c l) (g_lv l) ut cur a v g
      end
  end.
Proof.
  intros Ho H. unfold pass_link in H. cbv zeta in H. set (tb := tabs_of c l) in *. apply bind_ok in H as (dep' & E1 & H). apply leave_iff in E1.
  apply bind_ok in H as (a & Ea & H).
  assert (A : effect_at l (dep, lift) a).
  { unfold effect_at. cbn [fst snd]. destruct (g_kind l); [left; injection Ea as <-; auto|right|discriminate]. apply bind_ok in Ea as (uu3 & G & Ea). apply guard_ok in G. apply Z.leb_le in G. injection Ea as <-. auto. }
  clear Ea. apply bind_ok in H as (uu4 & G1 & H). apply guard_ok in G1. apply Z.leb_le in G1. apply bind_ok in H as (uu5 & G2 & H).
  destruct ((cround (g_lv l - 1) <? a) || (thr <=? a)) eqn:B.
  - injection H as <-. intros a' y (A' & (F1 & F2) & _). pose proof (effect_fun _ _ _ _ A A') as <-. apply orb_prop in B as [B|B]; [apply Z.ltb_lt in B|apply Z.leb_le in B]; lia.
  - apply orb_false_elim in B as [B1 B2]. apply Z.ltb_ge in B1. apply Z.leb_gt in B2.
    apply bind_ok in H as (p & Ep & H). apply leave_iff in Ep. apply bind_ok in H as (d & Ed & H). apply row_at_entry in Ed. apply bind_ok in H as (f & Ef & H).
    apply bind_ok in H as (con & Ec & H). apply row_at_entry in Ec. apply bind_ok in H as (uu6 & G3 & H). apply bind_ok in H as (uu7 & G4 & H). apply guard_ok in G4. apply Z.leb_le in G4.
    apply bind_ok in H as (m & Em & H). injection H as <-.
    split. { split; [exact A|]. split; [split; assumption|]. split; [exact E1|]. exists d, f. auto. }
    split; [exact G1|].
    destruct ((p <? cur - 1) && w && con && (p <? d + f)) eqn:C.
    + apply andb_prop in C as [C C4]. apply andb_prop in C as [C C3]. apply andb_prop in C as [C1 C2]. apply Z.ltb_lt in C4.
      pose proof (affected_spec _ _ _ _ _ _ _ _ _ Ho Em) as S1. destruct m as [[v g]|].
      * destruct S1 as [S0 S1]. split; [exact C2|]. split; [exact S0|]. apply (lasts_iff tb (g_lv l) ut cur a p d f con v g Ep Ed Ef Ec). auto.
      * intros _ v g L. apply (lasts_iff tb (g_lv l) ut cur a p d f con v g Ep Ed Ef Ec) in L as (_ & _ & L). exact (S1 v g L).
    + injection Em as <-. intros Hw v g L. apply (lasts_iff tb (g_lv l) ut cur a p d f con v g Ep Ed Ef Ec) in L as (Lc & Lp & e & o & x & _ & Lq & _).
      apply Bool.not_true_iff_false in C. apply C. rewrite Hw, Lc. rewrite !(proj2 (Z.ltb_lt _ _)) by lia. reflexivity.
Qed.

(** * Paths *)
Lemma pass_links_spec c ut cur thr w net : (forall i l, net i = Some l -> recorded_out (tabs_of c l)) -> forall ids dep lift r, pass_links c ut cur thr w net ids dep lift = Ok r ->
  (forall i a v g, In (i, a, v, g) r -> exists pre post lk x y, ids = pre ++ i :: post /\ w i = true /\ net i = Some lk /\
     along c cur thr net pre (dep, lift) x /\ dep <= fst x /\ fst x <= a /\ over c cur thr lk x a y /\ lasts (tabs_of c lk) (g_lv lk) ut cur a v g /\ a < v) /\
  (forall pre i post lk x a y v g, ids = pre ++ i :: post -> w i = true -> net i = Some lk -> along c cur thr net pre (dep, lift) x -> over c cur thr lk x a y ->
     lasts (tabs_of c lk) (g_lv lk) ut cur a v g -> exists g', In (i, a, v, g') r /\ (g' == g)%Q).
Proof.
  intros Ho. induction ids as [|i ids IH]; intros dep lift r H.
  - injection H as <-. split; [intros i a v g []|]. intros pre i post lk x a y v g E. destruct pre; discriminate.
  - cbn [pass_links] in H. destruct (net i) as [l|] eqn:En; [|discriminate]. apply bind_ok in H as (x0 & Ex & H). pose proof (pass_link_spec _ _ _ _ _ _ _ _ _ (Ho i l En) Ex) as S0.
    destruct x0 as [[[[dep' lift'] a0] m]|].
    + destruct S0 as (S1 & S2 & S3). apply bind_ok in H as (rest & Er & H). injection H as <-. destruct (IH _ _ _ Er) as [I1 I2]. split.
      * intros j a v g Hin. assert (Hin' : (j = i /\ a = a0 /\ m = Some (v, g)) \/ In (j, a, v, g) rest).
        { destruct m as [[v0 g0]|]; [|right; exact Hin]. destruct Hin as [Hin|Hin]; [left; injection Hin as <- <- <- <-; auto|right; exact Hin]. }
        destruct Hin' as [(-> & -> & ->)|Hin'].
        -- destruct S3 as (W & L & La). exists [], ids, l, (dep, lift), (dep', lift'). split; [reflexivity|]. split; [exact W|]. split; [exact En|]. split; [constructor|]. cbn [fst]. split; [lia|]. split; [exact S2|]. auto.
        -- destruct (I1 j a v g Hin') as (pre & post & lk & x & y & -> & W & Ej & Al & D & D2 & O & La & Lv). exists (i :: pre), post, lk, x, y. split; [reflexivity|]. split; [exact W|]. split; [exact Ej|].
           split; [econstructor; eauto|]. split; [|auto]. destruct S1 as (_ & _ & Lf & _). cbn [fst] in Lf. apply leaves_later in Lf. lia.
      * intros pre j post lk x a y v g E W Ej Al O La. destruct pre as [|j0 pre].
        -- injection E as -> ->. rewrite En in Ej. injection Ej as <-. inversion Al; subst. destruct (over_fun _ _ _ _ _ _ _ _ _ S1 O) as [-> <-].
           destruct m as [[v0 g0]|]; [|exfalso; eapply S3; eauto]. destruct S3 as (_ & _ & La0). destruct (lasts_fun _ _ _ _ _ _ _ _ _ La0 La) as [-> Eg]. exists g0. split; [now left|exact Eg].
        -- injection E as -> ->. inversion Al as [|i0 l0 ids0 x1 a1 y1 z1 En0 O0 Al0]; subst. rewrite En in En0. injection En0 as <-. destruct (over_fun _ _ _ _ _ _ _ _ _ S1 O0) as [_ <-].
           destruct (I2 pre j post lk x a y v g eq_refl W Ej Al0 O La) as (g' & Hin & Eg). exists g'. split; [|exact Eg]. destruct m as [[v0 g0]|]; [now right|exact Hin].
    + injection H as <-. split; [intros ? ? ? ? []|]. intros pre j post lk x a y v g E W Ej Al O La. exfalso. destruct pre as [|j0 pre].
      * injection E as -> ->. rewrite En in Ej. injection Ej as <-. inversion Al; subst. exact (S0 _ _ O).
      * injection E as -> ->. inversion Al as [|i0 l0 ids0 x1 a1 y1 z1 En0 O0 Al0]; subst. rewrite En in En0. injection En0 as <-. exact (S0 _ _ O0).
Qed.

(** * All paths *)
Lemma foldM_parts {A B} (P : A -> list B -> Prop) (g : list B -> A -> res (list B)) : (forall acc x out, g acc x = Ok out -> exists r, P x r /\ out = acc ++ r) ->
  forall l acc out, foldM g acc l = Ok out -> exists rs, Forall2 P l rs /\ out = acc ++ concat rs.
Proof.
  intros Hg. induction l as [|x l IH]; intros acc out H.
  - injection H as <-. exists []. split; [constructor|]. cbn. now rewrite app_nil_r.
  - cbn [foldM] in H. apply bind_ok in H as (acc' & E & H). destruct (Hg _ _ _ E) as (r & Pr & ->). destruct (IH _ _ H) as (rs & F & ->). exists (r :: rs). split; [constructor; auto|]. cbn. now rewrite app_assoc.
Qed.
Lemma concat_In {A B} (P : A -> list B -> Prop) l rs b : Forall2 P l rs -> (In b (concat rs) <-> exists x r, In x l /\ In r rs /\ P x r /\ In b r).
Proof.
  intros F. induction F as [|x r l rs Hx F IH]; cbn [concat]; [split; [intros []|intros (? & ? & [] & _)]|]. rewrite in_app_iff. split.
  - intros [H|H]; [exists x, r; cbn; auto|]. apply IH in H as (x' & r' & ? & ? & ?). exists x', r'. cbn. tauto.
  - intros (x' & r' & _ & Hr & Px & Hb). destruct Hr as [<-|Hr]; [now left|]. right. apply in_concat. eauto.
Qed.

Definition path_part (c : cls) (ut : Q) (cur thr : Z) (links : list Z) (net : Z -> option glink) (p : gpath) (s : Z) (r : list (Z * Z * stretch)) : Prop :=
  s < cur /\ exists r0, pass_links c ut cur thr (fun i => memb i links) net (snd p) s (-1) = Ok r0 /\ r = map (fun x => (fst p, s, x)) r0.
Lemma stretches_parts c ut cur thr links net paths starts xs : stretches c ut cur thr links net paths starts = Ok xs ->
  exists rs, Forall2 (fun p r => if existsb (fun l => memb l (snd p)) links then exists qs, Forall2 (path_part c ut cur thr links net p) starts qs /\ r = concat qs else r = []) paths rs /\ xs = concat rs.
Proof.
  intros H. unfold stretches in H. apply (foldM_parts (fun p r => if existsb (fun l => memb l (snd p)) links then exists qs, Forall2 (path_part c ut cur thr links net p) starts qs /\ r = concat qs else r = [])) in H.
  - destruct H as (rs & F & ->). exists rs. auto.
  - intros acc p out H0. destruct (existsb (fun l => memb l (snd p)) links).
    + apply (foldM_parts (path_part c ut cur thr links net p)) in H0.
      * destruct H0 as (qs & F & ->). eauto.
      * intros acc0 s out0 H1. apply bind_ok in H1 as (uu8 & G & H1). apply guard_ok in G. apply Z.ltb_lt in G. apply bind_ok in H1 as (r0 & E0 & H1). injection H1 as <-. eexists. split; [|reflexivity]. split; [exact G|]. eauto.
    + injection H0 as <-. exists []. split; [reflexivity|]. now rewrite app_nil_r.
Qed.
Lemma stretches_In c ut cur thr links net paths starts xs p s x : stretches c ut cur thr links net paths starts = Ok xs ->
  (In (p, s, x) xs <-> exists ids, In (p, ids) paths /\ existsb (fun l => memb l ids) links = true /\ In s starts /\ s < cur /\
     exists r, pass_links c ut cur thr (fun i => memb i links) net ids s (-1) = Ok r /\ In x r).
Proof.
  intros H. apply stretches_parts in H as (rs & F & ->). rewrite (concat_In _ _ _ _ F). split.
  - intros ([p0 ids] & r & Hp & _ & Px & Hx). cbn [fst snd] in Px. destruct (existsb (fun l => memb l ids) links) eqn:Eb; [|subst r; destruct Hx]. destruct Px as (qs & Fq & ->).
    apply (concat_In _ _ _ _ Fq) in Hx as (s0 & q & Hs & _ & (Ls & r0 & E0 & ->) & Hx). apply in_map_iff in Hx as (x0 & E & Hx0). cbn [fst] in E. injection E as -> -> ->. exists ids. split; [exact Hp|]. split; [exact Eb|]. split; [exact Hs|]. split; [exact Ls|]. exists r0. auto.
  - intros (ids & Hp & Eb & Hs & Ls & r0 & E0 & Hx). destruct (Forall2_In_l _ _ _ _ F Hp) as (r & Hr & Pr). cbn [snd] in Pr. rewrite Eb in Pr. destruct Pr as (qs & Fq & ->).
    exists (p, ids), (concat qs). split; [exact Hp|]. split; [exact Hr|]. split; [cbn [snd]; rewrite Eb; eauto|]. apply (concat_In _ _ _ _ Fq).
    destruct (Forall2_In_l _ _ _ _ Fq Hs) as (q & Hq & Pq). exists s, q. split; [exact Hs|]. split; [exact Hq|]. split; [exact Pq|]. destruct Pq as (_ & r1 & E1 & ->). cbn [snd fst] in *. rewrite E0 in E1. injection E1 as <-. apply in_map_iff. exists x. auto.
Qed.
Lemma ints_In' a n t : In t (ints a n) <-> a <= t < a + Z.of_nat n.
Proof.
  unfold ints. rewrite in_map_iff. split.
  - intros (k & <- & Hk). apply in_seq in Hk. lia.
  - intros H. exists (Z.to_nat (t - a)). split; [lia|]. apply in_seq. lia.
Qed.
