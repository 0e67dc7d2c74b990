(** Travel times: floor, totality, FIFO, exactness. *)
From Verif Require Import Base Base_lemmas Model_Num Proof_Num Model_CC Spec_CC Proof_CC Proof_CC2 Proof_CC3 Spec_Grad Model_Grad Proof_Grad1 Proof_Grad2.
Local Open Scope Q_scope.

Lemma tt_cc_floor start nin nout lv fftt ru t : travel_time_cc start nin nout lv fftt ru = Ok t -> fftt <= t.
Proof.
  unfold travel_time_cc. destruct (Qle_bool lv 0); [intros E; injection E as <-; apply Qle_refl|].
  intros E. apply bind_ok in E as (a & _ & E). destruct (Qle_bool a dbl_eps); [injection E as <-; apply Qle_refl|]. apply bind_ok in E as (e & _ & E).
  destruct (Qltb_spec e 0); [injection E as <-; apply Qle_refl|]. cbn [orb] in E.
  match type of E with (if Qltb ?x 0 || _ then _ else _) = _ => destruct (Qltb_spec x 0); [injection E as <-; apply Qle_refl|]; cbn [orb] in E; destruct (Qltb_spec x fftt); injection E as <-; lra end.
Qed.
Lemma travel_time_floor nin nout ff cache start T t lv :
  travel_time nin nout ff cache start T = Ok (t, lv) -> inject_Z (trunc ff) <= t.
Proof.
  unfold travel_time. destruct nin as [ni|]; [|discriminate]. intros E. apply bind_ok in E as (a & _ & E). apply bind_ok in E as (u & _ & E).
  apply bind_ok in E as (x & E1 & E). apply Ok_pair in E as [E E2]. subst.
  destruct (Qle_bool _ 0); [injection E1 as <-; apply Qle_refl|]. destruct nout; [|discriminate]. eapply tt_cc_floor; eauto.
Qed.

Section TT.
Variable f : Q.
Variables nin nout : curve.
Hypothesis Hi : counting_curve f nin.
Hypothesis Ho : counting_curve f nout.
Variable bo : Q * Q.
Hypothesis Hbo : last_opt nout = Some bo.
Variable L fftt : Q.
Hypothesis Hff : 0 <= fftt.
Hypothesis HL : 0 < L -> forall v, get_result nin L = Ok v -> v <= snd bo.

Lemma tt_before s : 0 < L -> 0 <= s <= L -> exists r e t, In r nin /\ get_result nin s = Ok (snd r) /\ get_time nout (snd r) false = Ok e /\ snd r <= snd bo /\
  travel_time_cc s nin nout L fftt false = Ok t /\
  ((t == fftt /\ (snd r <= dbl_eps \/ e - s < fftt)) \/ (dbl_eps < snd r /\ fftt <= e - s /\ t == e - s)).
Proof.
  intros P Hs. destruct (get_result_total nin Hi s) as (r & R & G). destruct (gt_total f nout nin r Ho Hi R) as (e & E).
  assert (B : snd r <= snd bo).
  { destruct (get_result_total nin Hi L) as (r' & R' & G'). pose proof (get_result_mono nin Hi s L _ _ (proj2 Hs) G G'). pose proof (HL P _ G'). lra. }
  assert (X : exists t, travel_time_cc s nin nout L fftt false = Ok t /\
    ((t == fftt /\ (snd r <= dbl_eps \/ e - s < fftt)) \/ (dbl_eps < snd r /\ fftt <= e - s /\ t == e - s))).
  { unfold travel_time_cc. destruct (Qleb_spec L 0) as [C|_]; [lra|]. destruct (Qltb_spec L s) as [C|_]; [lra|]. rewrite G. cbn [bind].
    destruct (Qleb_spec (snd r) dbl_eps) as [C|C]; [exists fftt; split; [reflexivity|]; left; split; [reflexivity|auto]|].
    rewrite E. cbn [bind]. destruct (Qlt_le_dec (e - s) fftt) as [X|X].
    - exists fftt. rewrite (proj2 (Qltb_lt _ _) X). rewrite !orb_true_r. split; [reflexivity|]. left. split; [reflexivity|auto].
    - exists (e - s). destruct (Qltb_spec e 0) as [X0|_]; [lra|]. destruct (Qltb_spec (e - s) 0) as [X1|_]; [lra|]. destruct (Qltb_spec (e - s) fftt) as [X2|_]; [lra|]. cbn [orb].
      split; [reflexivity|]. right. split; [lra|]. split; [exact X|reflexivity]. }
  destruct X as (t & T & X). exists r, e, t. auto 6.
Qed.
Lemma tt_after s : L < s -> 0 < L -> travel_time_cc s nin nout L fftt false = travel_time_cc L nin nout L fftt false.
Proof.
  intros H P. unfold travel_time_cc. destruct (Qleb_spec L 0) as [C|_]; [lra|]. rewrite (proj2 (Qltb_lt _ _) H). destruct (Qltb_spec L L) as [C|_]; [lra|]. reflexivity.
Qed.
Lemma tt_total s : 0 <= s -> exists t, travel_time_cc s nin nout L fftt false = Ok t.
Proof.
  intros Hs. destruct (Qlt_le_dec 0 L) as [P|P].
  - destruct (Qlt_le_dec L s) as [G|G]; [rewrite tt_after by assumption; destruct (tt_before L) as (r & e & t & H); [exact P|lra|]|destruct (tt_before s) as (r & e & t & H); [exact P|lra|]]; exists t; apply H.
  - exists fftt. unfold travel_time_cc. now rewrite (proj2 (Qle_bool_iff _ _) P).
Qed.
Lemma tt_fifo_before s1 s2 t1 t2 : 0 < L -> 0 <= s1 -> s1 <= s2 -> s2 <= L ->
  travel_time_cc s1 nin nout L fftt false = Ok t1 -> travel_time_cc s2 nin nout L fftt false = Ok t2 -> s1 + t1 <= s2 + t2.
Proof.
  intros P H0 H12 H2 T1 T2. destruct (tt_before s1) as (r1 & e1 & u1 & R1 & G1 & E1 & B1 & U1 & C1); [exact P|lra|].
  destruct (tt_before s2) as (r2 & e2 & u2 & R2 & G2 & E2 & B2 & U2 & C2); [exact P|lra|].
  rewrite U1 in T1. rewrite U2 in T2. injection T1 as ->. injection T2 as ->. pose proof (tt_cc_floor _ _ _ _ _ _ _ U2) as Fl.
  destruct C1 as [[C1 _]|(C1 & D1 & C1')]; [lra|].
  pose proof (get_result_mono nin Hi s1 s2 _ _ H12 G1 G2) as M.
  pose proof (gt_mono f nout nin r1 r2 e1 e2 bo Ho Hi R1 R2 M Hbo B2 E1 E2) as EM.
  destruct C2 as [[C2 [D2|D2]]|(C2 & D2 & C2')]; lra.
Qed.
Lemma tt_fifo s1 s2 t1 t2 : 0 <= s1 -> s1 <= s2 ->
  travel_time_cc s1 nin nout L fftt false = Ok t1 -> travel_time_cc s2 nin nout L fftt false = Ok t2 -> s1 + t1 <= s2 + t2.
Proof.
  intros H0 H12 T1 T2. destruct (Qlt_le_dec 0 L) as [P|P].
  - destruct (Qlt_le_dec L s2) as [G2|G2]; [|eapply tt_fifo_before; eauto]. rewrite tt_after in T2 by assumption.
    destruct (Qlt_le_dec L s1) as [G1|G1].
    + rewrite tt_after in T1 by assumption. rewrite T1 in T2. injection T2 as ->. lra.
    + assert (s1 + t1 <= L + t2); [|lra]. eapply tt_fifo_before; eauto. apply Qle_refl.
  - unfold travel_time_cc in T1, T2. rewrite (proj2 (Qle_bool_iff _ _) P) in T1, T2. injection T1 as <-. injection T2 as <-. lra.
Qed.
(** whole answers at whole times *)
Lemma tt_whole (y ff s : Z) t : L == inject_Z y -> fftt = inject_Z ff -> (0 <= s)%Z -> travel_time_cc (inject_Z s) nin nout L fftt false = Ok t ->
  exists n : Z, t == inject_Z n.
Proof.
  intros Ly Ef H0 T. pose proof (injZ_nonneg s H0) as Hs. destruct (Qlt_le_dec 0 L) as [P|P].
  2:{ unfold travel_time_cc in T. rewrite (proj2 (Qle_bool_iff _ _) P) in T. injection T as <-. exists ff. rewrite Ef. reflexivity. }
  assert (X : forall q (z : Z), q == inject_Z z -> 0 <= q <= L -> forall t, travel_time_cc q nin nout L fftt false = Ok t -> exists n : Z, t == inject_Z n).
  { intros q z Eq Hq t' T'. destruct (tt_before q P Hq) as (r & e & u & R & G & E & B & U & C). rewrite U in T'. injection T' as ->.
    destruct C as [[C _]|(C1 & C2 & C)]; [exists ff; rewrite C, Ef; reflexivity|].
    destruct (rc_start _ Ho) as (v & l & En). destruct (gt_spec f nout nin (0, v) l r Ho Hi En R) as (A1 & A2 & A3).
    destruct (Qlt_le_dec v (snd r)) as [Gv|Gv].
    - destruct A3 as (i & ri & N & Q & _); [exact Gv|exists bo; split; [eapply nth_error_In; exact Hbo|exact B]|]. rewrite Q in E. injection E as <-.
      destruct (cc_whole _ _ Ho ri (nth_error_In _ _ N)) as (w & _ & W). exists (w - z)%Z. rewrite C, W, Eq, inject_Z_minus. reflexivity.
    - rewrite A1 in E by exact Gv. injection E as <-. exists (-1 - z)%Z. rewrite C, Eq, inject_Z_minus. reflexivity. }
  destruct (Qlt_le_dec L (inject_Z s)) as [G|G].
  - rewrite tt_after in T by assumption. apply (X L y Ly); [lra|exact T].
  - apply (X (inject_Z s) s); [reflexivity|lra|exact T].
Qed.
(** when the outflow count takes exactly the value of the inflow count *)
Lemma tt_exact s cc : 0 < L -> 0 <= s <= L -> get_result nin s = Ok cc -> dbl_eps < cc -> (exists r, In r nout /\ snd r == cc) -> (forall v l, nout = (0, v) :: l -> v < cc) ->
  exists i ri t, nth_error nout i = Some ri /\ snd ri == cc /\ (forall k rk, (k < i)%nat -> nth_error nout k = Some rk -> snd rk < cc) /\
    travel_time_cc s nin nout L fftt false = Ok t /\ t == Qmax fftt (fst ri - s).
Proof.
  intros P Hs G Ce (r0 & R0 & E0) Hv. destruct (tt_before s P Hs) as (r & e & t & R & G' & E & B & U & C). rewrite G in G'. injection G' as ->.
  destruct (rc_start _ Ho) as (v & l & En). specialize (Hv v l En). destruct (gt_spec f nout nin (0, v) l r Ho Hi En R) as (_ & _ & A3).
  destruct A3 as (i & ri & N & Q & Le & M & Fs); [exact Hv|exists r0; split; [exact R0|lra]|]. rewrite Q in E. injection E as <-.
  pose proof (M r0 R0 ltac:(lra)) as M0. exists i, ri, t. split; [exact N|]. split; [lra|]. split; [intros k rk Hk Nk; pose proof (Fs k rk Hk Nk); lra|]. split; [exact U|].
  destruct C as [[C [D|D]]|(_ & D & C)]; [lra| |]; rewrite C.
  - destruct (Q.max_spec fftt (fst ri - s)) as [[X Y]|[X Y]]; rewrite Y; lra.
  - destruct (Q.max_spec fftt (fst ri - s)) as [[X Y]|[X Y]]; rewrite Y; lra.
Qed.
End TT.
