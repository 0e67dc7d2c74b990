(** When gradients are defined; totals per assignment interval. *)
From Verif Require Import Base Base_lemmas Model_Num Proof_Num Model_CC Spec_CC Model_Link Proof_Link4 Model_Node Proof_Node2 Proof_Node4 Proof_Safe2 Spec_Grad Model_Grad Proof_Grad1 Proof_Grad2
  Model_Dso Proof_Dso Model_Api Model_Ltg Spec_Ltg Proof_Ltg.
Local Open Scope Z_scope.

Lemma nth_Zlen {A} (r : list A) i : 0 <= i < Zlen r -> exists x, entry r i x.
Proof. intros H. unfold Zlen in H. destruct (nth_error r (Z.to_nat i)) eqn:E; [exists a; split; [lia|exact E]|]. apply nth_error_None in E. lia. Qed.
Lemma leaves_total tb cur t : Zlen (t_tt tb) = cur -> 0 < cur -> 0 <= t -> exists t', leaves tb cur t t'.
Proof.
  intros L C H. destruct (nth_Zlen (t_tt tb) (Z.min t (cur - 1)) ltac:(lia)) as (x & E0 & Ex). destruct (round_up_time_total x tol) as (n & En & _). exists (t + n). split; [exact E0|]. eauto.
Qed.
Lemma cround_pos q : (0 <= q)%Q -> cround q = Qfloor (q + (1 # 2)).
Proof. intros H. unfold cround. apply Qle_bool_iff in H. now rewrite H. Qed.
Lemma floor_lt q z : (q < inject_Z z)%Q -> Qfloor q < z.
Proof. intros H. pose proof (Qfloor_le q). rewrite Zlt_Qlt. lra. Qed.
Lemma floor_ge q z : (inject_Z z <= q)%Q -> z <= Qfloor q.
Proof. intros H. rewrite <- (Qfloor_Z z). apply Qfloor_resp_le. exact H. Qed.
Lemma cround_down q : (0 < q)%Q -> cround (q - 1) <= cround q - 1 /\ (0 <= cround (q - 1) -> cround (q - 1) = cround q - 1).
Proof.
  intros H. rewrite (cround_pos q) by lra. unfold cround. destruct (Qle_bool 0 (q - 1)) eqn:B.
  - assert (X : Qfloor (q - 1 + (1 # 2)) = Qfloor (q + (1 # 2)) - 1).
    { pose proof (Qfloor_le (q + (1 # 2))). pose proof (Qlt_floor (q + (1 # 2))). assert (A1 : Qfloor (q - 1 + (1 # 2)) < Qfloor (q + (1 # 2))). { apply floor_lt. rewrite inject_Z_plus in H1. change (inject_Z 1) with 1%Q in H1. lra. }
      assert (A2 : Qfloor (q + (1 # 2)) - 1 <= Qfloor (q - 1 + (1 # 2))). { apply floor_ge. unfold Z.sub. rewrite inject_Z_plus, inject_Z_opp. change (inject_Z 1) with 1%Q. lra. } lia. }
    lia.
  - assert (Hq : (q < 1)%Q) by (destruct (Qlt_le_dec q 1); [assumption|]; assert ((0 <= q - 1)%Q) by lra; apply Qle_bool_iff in H0; congruence).
    assert (A : 0 <= Qfloor (- (q - 1) + (1 # 2))) by (apply floor_ge; change (inject_Z 0) with 0%Q; lra).
    destruct (Qlt_le_dec q (1 # 2)) as [C|C].
    + assert (A1 : 1 <= Qfloor (- (q - 1) + (1 # 2))) by (apply floor_ge; change (inject_Z 1) with 1%Q; lra).
      assert (A2 : 0 <= Qfloor (q + (1 # 2))) by (apply floor_ge; change (inject_Z 0) with 0%Q; lra). lia.
    + assert (A2 : 1 <= Qfloor (q + (1 # 2))) by (apply floor_ge; change (inject_Z 1) with 1%Q; lra).
      assert (A3 : Qfloor (q + (1 # 2)) < 2) by (apply floor_lt; change (inject_Z 2) with 2%Q; lra). lia.
Qed.
Lemma cround_below q z : (0 < q <= inject_Z z)%Q -> cround (q - 1) < z.
Proof.
  intros [A B]. destruct (cround_down q A) as [D _]. assert (cround q <= z); [|lia]. rewrite cround_pos by lra. assert (Qfloor (q + (1 # 2)) < z + 1); [|lia]. apply floor_lt. rewrite inject_Z_plus. change (inject_Z 1) with 1%Q. lra.
Qed.

Lemma affected_total tb lv ut cur a p d f : consistent tb lv cur -> 0 < cur -> 0 <= a <= cround (lv - 1) -> leaves tb cur a p -> entry (t_diss tb) a d -> free_time tb f ->
  entry (t_cong tb) a true -> p < cur - 1 -> p < d + f -> exists r, affected tb lv ut cur a p d (d + f) = Ok r.
Proof.
  intros K C A Lp Ed Ef Ec Hp Hl. destruct (co_gone _ _ _ K _ _ Ed) as [_ G]. specialize (G Ec). destruct (co_out _ _ _ K) as (o & Eo & Ro). destruct (cround_down lv (proj1 (co_valid _ _ _ K))) as [_ D]. specialize (D ltac:(lia)).
  unfold affected. assert (X : exists v e, (if d <=? cround (lv - 1) then Ok (d, d + f) else do e <- leave tb cur (cround lv - 1); Ok (cround lv, e)) = Ok (v, e) /\ a < v /\ p <= e).
  { destruct (Z.leb_spec d (cround (lv - 1))); [exists d, (d + f); split; [reflexivity|lia]|]. destruct (leaves_total tb cur (cround lv - 1) (co_tt _ _ _ K) C ltac:(lia)) as (e & Le). exists (cround lv), e.
    rewrite (proj2 (leave_iff _ _ _ _) Le). split; [reflexivity|]. split; [lia|]. eapply (co_order _ _ _ K a (cround lv - 1)); eauto. lia. }
  destruct X as (v & e & -> & Hv & He). cbn [bind fst snd]. rewrite (proj2 (Z.ltb_lt a v) Hv). cbn [guard bind]. set (q := if cur - 1 <? e then cur - 1 else e). assert (p <= q) by (unfold q; destruct (Z.ltb_spec (cur - 1) e); lia).
  rewrite (proj2 (Z.leb_le p q) H). cbn [guard bind]. destruct (Z.ltb_spec p q); [|eauto]. rewrite Eo. destruct (slope_left o p (q + 1) Ro ltac:(lia)) as (s & x & -> & _). cbn [bind]. eauto.
Qed.
Lemma pass_link_total c ut cur thr w l dep lift : consistent (tabs_of c l) (g_lv l) cur -> 0 < cur -> 0 <= dep -> (g_kind l = GPq \/ (g_kind l = GCtm /\ dep <= lift)) ->
  exists r, pass_link c ut cur thr w l dep lift = Ok r /\ match r with Some (dep', lift', _, _) => 0 <= dep' <= lift' | None => True end.
Proof.
  intros K C Hd Hk. unfold pass_link. cbv zeta. set (tb := tabs_of c l) in *. destruct (leaves_total tb cur dep (co_tt _ _ _ K) C Hd) as (dep' & Ld). rewrite (proj2 (leave_iff _ _ _ _) Ld). cbn [bind].
  assert (X : exists a, match g_kind l with GPq => Ok dep | GCtm => do _ <- guard (0 <=? lift) EAssert; Ok lift | GOther => Err EAssert end = Ok a /\ dep <= a).
  { destruct Hk as [-> | (-> & L)]; [exists dep; split; [reflexivity|lia]|]. rewrite (proj2 (Z.leb_le 0 lift)) by lia. exists lift. auto. }
  destruct X as (a & -> & Ha). cbn [bind]. rewrite (proj2 (Z.leb_le dep a) Ha). cbn [guard bind]. destruct (co_valid _ _ _ K) as [V1 V2].
  destruct (Qltb_spec 0 (g_lv l)) as [_|B]; [|contradiction]. cbn [guard bind].
  destruct ((cround (g_lv l - 1) <? a) || (thr <=? a)) eqn:B; [eexists; split; [reflexivity|exact I]|]. apply orb_false_elim in B as [B1 B2]. apply Z.ltb_ge in B1. pose proof (cround_below _ _ (conj V1 V2)) as Bc.
  destruct (leaves_total tb cur a (co_tt _ _ _ K) C ltac:(lia)) as (p & Lp). rewrite (proj2 (leave_iff _ _ _ _) Lp). cbn [bind].
  destruct (nth_Zlen (t_diss tb) a) as (d & Ed); [rewrite (co_diss _ _ _ K); lia|]. rewrite (proj2 (row_at_entry _ _ _) Ed). cbn [bind].
  destruct (round_up_time_total (inject_Z (t_ff tb)) tol) as (f & Ef & Hf). rewrite Ef. cbn [bind].
  destruct (nth_Zlen (t_cong tb) a) as (con & Ec); [rewrite (co_cong _ _ _ K); lia|]. rewrite (proj2 (row_at_entry _ _ _) Ec). cbn [bind].
  destruct (co_gone _ _ _ K _ _ Ed) as [G1 G2]. pose proof (co_clear _ _ _ K _ _ _ _ Ed B1 Ef Lp) as G3.
  assert (X : (if negb con && (d =? a) then a + f =? d + f else (a <? d) && (a + f <? d + f)) = true).
  { destruct con; cbn [negb andb]; [specialize (G2 Ec); rewrite !(proj2 (Z.ltb_lt _ _)) by lia; reflexivity|]. destruct (Z.eqb_spec d a) as [-> |N]; [apply Z.eqb_refl|]. rewrite !(proj2 (Z.ltb_lt _ _)) by lia. reflexivity. }
  rewrite X. cbn [guard bind]. rewrite (proj2 (Z.leb_le p (d + f)) G3). cbn [guard bind].
  pose proof (co_order _ _ _ K dep a dep' p ltac:(lia) Ld Lp) as G4. pose proof (leaves_later _ _ _ _ Ld).
  destruct ((p <? cur - 1) && w && con && (p <? d + f)) eqn:D; [|eexists; split; [reflexivity|]; cbn; lia].
  apply andb_prop in D as [D D4]. apply andb_prop in D as [D D3]. apply andb_prop in D as [D1 _]. apply Z.ltb_lt in D1, D4. subst con.
  destruct (affected_total tb (g_lv l) ut cur a p d f K C ltac:(lia) Lp Ed Ef Ec D1 D4) as (r & ->). cbn [bind]. eexists. split; [reflexivity|]. cbn. lia.
Qed.
Lemma pass_links_total c ut cur thr w net : 0 < cur -> forall ids dep lift, (forall i, In i ids -> exists l, net i = Some l /\ (g_kind l = GPq \/ g_kind l = GCtm) /\ consistent (tabs_of c l) (g_lv l) cur) ->
  0 <= dep -> (dep <= lift \/ exists i l r, ids = i :: r /\ net i = Some l /\ g_kind l = GPq) -> exists r, pass_links c ut cur thr w net ids dep lift = Ok r.
Proof.
  intros C. induction ids as [|i ids IH]; intros dep lift Hn Hd Hk; cbn [pass_links]; [eauto|]. destruct (Hn i (or_introl eq_refl)) as (l & En & Kl & K). rewrite En.
  destruct (pass_link_total c ut cur thr (w i) l dep lift K C Hd) as (r & -> & Hr).
  { destruct Hk as [L|(i0 & l0 & r0 & E & En0 & K0)]; [destruct Kl; auto|]. injection E as <- <-. rewrite En in En0. injection En0 as <-. auto. }
  cbn [bind]. destruct r as [[[[dep' lift'] a] m]|]; [|eauto]. destruct (IH dep' lift') as (rest & ->); [intros j Hj; apply Hn; now right|lia|left; lia|]. cbn [bind]. eauto.
Qed.

(** * Totals *)
Definition sumH (H : Z -> bool) (rs : list (Z * Q)) : Q := sumQ (map (fun r => if H (fst r) then snd r else 0%Q) rs).
Lemma sumH_app H r s : (sumH H (r ++ s) == sumH H r + sumH H s)%Q.
Proof. unfold sumH. now rewrite map_app, sumQ_app. Qed.
Lemma sumH_one H t x : (sumH H [(t, x)] == if H t then x else 0)%Q.
Proof. unfold sumH. cbn. destruct (H t); ring. Qed.
Lemma ints_cons a n : ints a (S n) = a :: ints (a + 1) n.
Proof. unfold ints. cbn [seq map]. rewrite Z.add_0_r. f_equal. rewrite <- seq_shift, map_map. apply map_ext. intros k. lia. Qed.
Lemma ints_snoc a n : ints a (S n) = ints a n ++ [a + Z.of_nat n].
Proof. unfold ints. rewrite seq_S, map_app. reflexivity. Qed.
Lemma grouped_sum ai H K a v g : (forall t, H t = K (Z.quot t ai)) -> a < v -> (sumH H (grouped ai a v g) == sumH H (map (fun t => (t, g)) (ints a (Z.to_nat (v - a)))))%Q.
Proof.
  intros HK Hv.
  assert (I : forall n, (n < Z.to_nat (v - a))%nat -> exists tmp ct rs, fold_left (group_step ai (v - 1) g) (ints a n) (Z.quot a ai, 0, []) = (tmp, ct, rs) /\
    tmp = (if (n =? 0)%nat then Z.quot a ai else Z.quot (a + Z.of_nat n - 1) ai) /\
    (sumH H rs + (if K tmp then g * inject_Z ct else 0) == sumH H (map (fun t => (t, g)) (ints a n)))%Q).
  { induction n as [|n IH]; intros Hn.
    - exists (Z.quot a ai), 0, []. split; [reflexivity|]. split; [reflexivity|]. unfold sumH. cbn. destruct (K (Z.quot a ai)); [change (inject_Z 0) with 0%Q|]; ring.
    - destruct (IH ltac:(lia)) as (tmp & ct & rs & E & Et & Es). rewrite ints_snoc, fold_left_app, E. cbn [fold_left]. unfold group_step. set (t := a + Z.of_nat n).
      assert (Nt : (t =? v - 1) = false) by (apply Z.eqb_neq; unfold t; lia). replace (a + Z.of_nat (S n) - 1) with t by (unfold t; lia). change (S n =? 0)%nat with false. cbv iota.
      destruct (Z.eqb_spec (Z.quot t ai) tmp) as [Eq|Nq].
      + exists tmp, (ct + 1), rs. rewrite Nt. split; [reflexivity|]. split; [now rewrite Eq|]. rewrite map_app, sumH_app, <- Es. cbn [map]. rewrite sumH_one, HK, Eq. destruct (K tmp); [rewrite inject_Z_plus; change (inject_Z 1) with 1%Q|]; ring.
      + exists (Z.quot t ai), 1, (rs ++ [(t - 1, (g * inject_Z ct)%Q)]). rewrite Nt. split; [reflexivity|]. split; [reflexivity|]. rewrite map_app, !sumH_app, <- Es. cbn [map]. rewrite !sumH_one, !HK.
        destruct n as [|n]; [exfalso; apply Nq; rewrite Et; unfold t; cbn; now rewrite Z.add_0_r|]. change (S n =? 0)%nat with false in Et. cbv iota in Et. fold t in Et. rewrite <- Et.
        destruct (K tmp), (K (Z.quot t ai)); change (inject_Z 1) with 1%Q; ring. }
  destruct (Z.to_nat (v - a)) as [|n] eqn:En; [lia|]. destruct (I n ltac:(lia)) as (tmp & ct & rs & E & Et & Es). unfold grouped. rewrite En, ints_snoc, fold_left_app, E. cbn [fold_left]. unfold group_step. set (t := a + Z.of_nat n).
  assert (Nt : (t =? v - 1) = true) by (apply Z.eqb_eq; unfold t; lia).
  destruct (Z.eqb_spec (Z.quot t ai) tmp) as [Eq|Nq]; rewrite Nt; cbn [snd]; rewrite map_app, ?sumH_app, <- Es; cbn [map]; rewrite !sumH_one, !HK.
  - rewrite Eq. destruct (K tmp); [rewrite inject_Z_plus; change (inject_Z 1) with 1%Q|]; ring.
  - destruct n as [|n]; [exfalso; apply Nq; rewrite Et; unfold t; cbn; now rewrite Z.add_0_r|]. change (S n =? 0)%nat with false in Et. cbv iota in Et. fold t in Et. rewrite <- Et.
    destruct (K tmp), (K (Z.quot t ai)); change (inject_Z 1) with 1%Q; ring.
Qed.
