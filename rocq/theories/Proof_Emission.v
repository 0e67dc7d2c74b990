(** Proofs about the emission totals. *)
From Coq Require Import Lia Lqa QArith Qround Setoid.
From Verif Require Import Base Base_lemmas Spec_Path Model_Num Proof_Num Model_Link Spec_Link Model_McLink Spec_McLink Model_World Model_Node Model_Sim
  Model_McNode Model_McSim Proof_Link4 Proof_GRJ Model_Emission Spec_Emission.
Local Open Scope Q_scope.

(** * Bounds of a polynomial over an interval *)

(** coefficients over a common denominator, as integers *)
Fixpoint padd (a b : list Z) : list Z :=
  match a, b with
  | [], _ => b
  | _, [] => a
  | x :: a', y :: b' => (x + y)%Z :: padd a' b'
  end.
Fixpoint shift (cs : list Z) : list Z :=
  match cs with
  | [] => []
  | c :: cs' => let s := shift cs' in padd [c] (padd (0%Z :: s) s)
  end.
Fixpoint lowest (cs : list Z) : Z :=
  match cs with
  | [] => 0
  | c :: cs' => (c + Z.min 0 (lowest cs'))%Z
  end.
Fixpoint above (k : nat) (cs : list Z) (lo : Z) : bool :=
  match k with
  | O => true
  | S k' => (lo <? lowest cs)%Z && above k' (shift cs) lo
  end.
Definition zpoly (cs : list Z) (v : Q) : Q := fold_right (fun c acc => inject_Z c + v * acc) 0 cs.
Definition over (d : Z) (cs : list Q) : list Z := map (fun c => (Qnum c * (d / Zpos (Qden c)))%Z) cs.
Definition over_ok (d : Z) (cs : list Q) : bool := forallb (fun c => (Qnum c * (d / Zpos (Qden c)) * Zpos (Qden c) =? Qnum c * d)%Z) cs.

Lemma zp_cons c cs v : zpoly (c :: cs) v = inject_Z c + v * zpoly cs v.
Proof. reflexivity. Qed.
Lemma padd_poly a : forall b v, zpoly (padd a b) v == zpoly a v + zpoly b v.
Proof.
  induction a as [|x a IH]; intros [|y b] v; cbn [padd]; rewrite ?zp_cons; try (change (zpoly [] v) with 0; lra).
  rewrite IH, inject_Z_plus. ring.
Qed.
Lemma shift_poly cs v : zpoly (shift cs) v == zpoly cs (1 + v).
Proof.
  induction cs as [|c cs IH]; [reflexivity|]. cbn [shift]. cbv zeta. rewrite !padd_poly, !zp_cons, IH. change (inject_Z 0) with 0. change (zpoly [] v) with 0. ring.
Qed.
Lemma lowest_poly cs v : 0 <= v <= 1 -> inject_Z (lowest cs) <= zpoly cs v.
Proof.
  intros Hv. induction cs as [|c cs IH]; [cbn [lowest]; change (inject_Z 0) with 0; change (zpoly [] v) with 0; lra|].
  cbn [lowest]. rewrite zp_cons, inject_Z_plus. assert (inject_Z (Z.min 0 (lowest cs)) <= v * zpoly cs v); [|lra].
  destruct (Z.min_spec 0 (lowest cs)) as [[H ->]|[H ->]].
  - change (inject_Z 0) with 0. apply Qmult_le_0_compat; [lra|]. rewrite Zlt_Qlt in H. change (inject_Z 0) with 0 in H. lra.
  - rewrite Zle_Qle in H. change (inject_Z 0) with 0 in H. nra.
Qed.
Lemma zpoly_comp cs a b : a == b -> zpoly cs a == zpoly cs b.
Proof. intros H. induction cs as [|c cs IH]; [reflexivity|]. rewrite !zp_cons, IH, H. reflexivity. Qed.
Lemma above_poly k : forall cs lo v, above k cs lo = true -> 0 <= v < inject_Z (Z.of_nat k) -> inject_Z lo < zpoly cs v.
Proof.
  induction k as [|k IH]; intros cs lo v A Hv; [change (inject_Z (Z.of_nat 0)) with 0 in Hv; lra|].
  cbn [above] in A. apply andb_prop in A as [A B]. apply Z.ltb_lt in A. destruct (Qlt_le_dec v 1) as [L|L].
  - pose proof (lowest_poly cs v) as P. rewrite Zlt_Qlt in A. lra.
  - specialize (IH _ _ (v - 1) B). rewrite shift_poly in IH. rewrite Nat2Z.inj_succ in Hv. unfold Z.succ in Hv. rewrite inject_Z_plus in Hv. change (inject_Z 1) with 1 in Hv.
    assert (X : inject_Z lo < zpoly cs (1 + (v - 1))) by (apply IH; lra). rewrite (zpoly_comp cs (1 + (v - 1)) v) in X by ring. exact X.
Qed.
Lemma over_poly d cs v : over_ok d cs = true -> zpoly (over d cs) v == inject_Z d * poly cs v.
Proof.
  unfold over_ok, over. induction cs as [|c cs IH]; intros H; [cbn; ring|]. cbn [forallb map] in *. apply andb_prop in H as [A B]. apply Z.eqb_eq in A.
  rewrite zp_cons, (IH B). cbn [poly fold_right]. change (fold_right _ 0 cs) with (poly cs v).
  assert (E : inject_Z (Qnum c * (d / Zpos (Qden c))) == inject_Z d * c) by (unfold Qeq; cbn [Qnum Qden inject_Z Qmult]; rewrite Pos.mul_1_l; lia).
  rewrite E. ring.
Qed.
(** five shifts bring 5 to the origin *)
Definition low_ok (d lo : Z) (cs : list Q) : bool := over_ok d cs && above 61 (shift (shift (shift (shift (shift (over d cs)))))) lo.
Lemma low_poly d lo cs v : (0 < d)%Z -> low_ok d lo cs = true -> 5 <= v <= 65 -> inject_Z lo < inject_Z d * poly cs v.
Proof.
  intros D H Hv. unfold low_ok in H. apply andb_prop in H as [O A].
  assert (P : inject_Z lo < zpoly (shift (shift (shift (shift (shift (over d cs)))))) (v - 5)). { apply (above_poly 61); [exact A|]. change (inject_Z (Z.of_nat 61)) with 61. lra. }
rewrite !shift_poly in P. rewrite (zpoly_comp _ _ v) in P by ring. rewrite over_poly in P by exact O. exact P.
Qed.
Lemma poly_comp cs a b : a == b -> poly cs a == poly cs b.
Proof.
  intros H. induction cs as [|c cs IH]; [reflexivity|]. cbn [poly fold_right].
  change (fold_right (fun c acc => c + a * acc) 0 cs) with (poly cs a). change (fold_right (fun c acc => c + b * acc) 0 cs) with (poly cs b). rewrite IH, H. reflexivity.
Qed.
Lemma poly_opp cs v : poly (map Qopp cs) v == - poly cs v.
Proof.
  induction cs as [|c cs IH]; cbn [map poly fold_right]; [reflexivity|].
  change (fold_right (fun c acc => c + v * acc) 0 cs) with (poly cs v). change (fold_right (fun c acc => c + v * acc) 0 (map Qopp cs)) with (poly (map Qopp cs) v). rewrite IH. ring.
Qed.
Lemma between d lo hi cs v : (0 < d)%Z -> low_ok d lo cs = true -> low_ok d (- hi) (map Qopp cs) = true -> 5 <= v <= 65 ->
  inject_Z lo < inject_Z d * poly cs v < inject_Z hi.
Proof.
  intros D A B H. pose proof (low_poly _ _ _ _ D A H). pose proof (low_poly _ _ _ _ D B H) as C. rewrite poly_opp, inject_Z_opp in C. lra.
Qed.
Lemma unscale d lo hi x : (0 < d)%Z -> inject_Z lo < inject_Z d * x < inject_Z hi -> forall a b, a * inject_Z d <= inject_Z lo -> inject_Z hi <= b * inject_Z d -> a < x < b.
Proof. intros D H a b A B. rewrite Zlt_Qlt in D. change (inject_Z 0) with 0 in D. split; nra. Qed.

Ltac bounds H D L H' := refine (unscale D L H' _ _ _ _ _ _ _); [reflexivity|apply between; [reflexivity|vm_compute; reflexivity|vm_compute; reflexivity|exact H]|vm_compute; discriminate|vm_compute; discriminate].
Lemma mpg_between v : 5 <= v <= 65 -> 10 < poly mpg_curve v < 33.
Proof. intros H. bounds H (10 ^ 15)%Z (10 * 10 ^ 15)%Z (33 * 10 ^ 15)%Z. Qed.
Lemma hc_between v : 5 <= v <= 65 -> 1 # 2 < poly hc_curve v < 4.
Proof. intros H. bounds H (10 ^ 27)%Z (5 * 10 ^ 26)%Z (4 * 10 ^ 27)%Z. Qed.
Lemma co_between v : 5 <= v <= 65 -> 9 # 10 < poly co_curve v < 21 # 10.
Proof. intros H. bounds H (10 ^ 27)%Z (9 * 10 ^ 26)%Z (21 * 10 ^ 26)%Z. Qed.
Lemma nox_between v : 5 <= v <= 65 -> 9 # 10 < poly nox_curve v < 26 # 10.
Proof. intros H. bounds H (10 ^ 27)%Z (9 * 10 ^ 26)%Z (26 * 10 ^ 26)%Z. Qed.

(** the curves of the code *)
Lemma mpg_eq v : fuel_eco v == poly mpg_curve v.
Proof. unfold fuel_eco, poly, mpg_curve. cbn [fold_right]. simpl (v ^ _). unfold Qpower_positive. simpl. ring. Qed.
Lemma hc_eq v : HC_curve v == poly hc_curve v.
Proof. unfold HC_curve, poly, hc_curve. cbn [fold_right]. ring. Qed.
Lemma co_eq v : CO_curve v == poly co_curve v.
Proof. unfold CO_curve, poly, co_curve. cbn [fold_right]. ring. Qed.
Lemma nox_eq v : NOX_curve v == poly nox_curve v.
Proof. unfold NOX_curve, poly, nox_curve. cbn [fold_right]. ring. Qed.

(** * Rates *)
Lemma car_rate_comp p a b : a == b -> car_rate p a == car_rate p b.
Proof. intros H. destruct p; cbn [car_rate]; rewrite ?(poly_comp _ _ _ H); reflexivity. Qed.
Lemma max_pos x : 0 < x -> Qmax x 0 == x.
Proof. intros H. apply Q.max_l. lra. Qed.
Lemma rates_ok v : 5 <= v <= 65 -> exists r, rates v = Ok r /\ forall p, r p == car_rate p v.
Proof.
  intros Hv. pose proof (mpg_between v Hv) as M. pose proof (mpg_eq v) as E. unfold rates.
  assert (G : Qeq_bool (fuel_eco v) 0 = false). { destruct (Qeq_bool (fuel_eco v) 0) eqn:X; [|reflexivity]. apply Qeq_bool_iff in X. lra. }
  rewrite G. cbn [negb guard bind]. cbv zeta. eexists. split; [reflexivity|].
  assert (I : 0 < / fuel_eco v) by (apply Qinv_lt_0_compat; lra).
  assert (F : Qmax (1 / fuel_eco v) 0 == / poly mpg_curve v).
  { rewrite <- E. rewrite max_pos; unfold Qdiv; rewrite Qmult_1_l; [reflexivity|exact I]. }
  assert (I' : 0 < / poly mpg_curve v) by (rewrite <- E; exact I).
  intros []; cbn [car_rate].
  - exact F.
  - rewrite max_pos; rewrite F; [field; lra|]. lra.
  - rewrite max_pos; rewrite hc_eq; [reflexivity|]. pose proof (hc_between v Hv). lra.
  - rewrite max_pos; rewrite co_eq; [reflexivity|]. pose proof (co_between v Hv). lra.
  - rewrite max_pos; rewrite nox_eq; [reflexivity|]. pose proof (nox_between v Hv). lra.
Qed.
Lemma factor_eq p v : truck_factor p v == nth (if Qlt_le_dec v 25 then 0 else if Qlt_le_dec v 55 then 1 else 2)%nat (truck_multiple p) 0.
Proof.
  unfold truck_factor. cbv zeta. assert (B : forall c, Qltb v c = if Qlt_le_dec v c then true else false).
  { intros c. destruct (Qlt_le_dec v c) as [H|H]; [now apply Qltb_lt|]. destruct (Qltb v c) eqn:X; [|reflexivity]. apply Qltb_lt in X. lra. }
  rewrite !B. destruct (Qlt_le_dec v 25), (Qlt_le_dec v 55), p; cbn [nth truck_multiple]; reflexivity.
Qed.
Lemma truck_rates_ok v : 5 <= v <= 65 -> exists r, truck_rates v = Ok r /\ forall p, r p == truck_rate p v.
Proof.
  intros Hv. destruct (rates_ok v Hv) as (r & E & R). unfold truck_rates. rewrite E. cbn [bind]. eexists. split; [reflexivity|].
  intros p. cbv beta. unfold truck_rate. now rewrite R, factor_eq.
Qed.
Lemma truck_rate_comp p a b : a == b -> truck_rate p a == truck_rate p b.
Proof.
  intros H. unfold truck_rate. rewrite (car_rate_comp p a b H).
  destruct (Qlt_le_dec a 25), (Qlt_le_dec b 25), (Qlt_le_dec a 55), (Qlt_le_dec b 55); try reflexivity; exfalso; lra.
Qed.
Lemma em_mph_range v : 5 <= em_mph v <= 65.
Proof.
  unfold em_mph. split; [apply Q.min_glb; [apply Q.le_max_r|lra]|apply Q.le_min_r].
Qed.
Lemma em_mph_eq g : em_mph (g_speed g) == g_mph g.
Proof.
  unfold em_mph, g_mph. cbv zeta. assert (E : g_speed g * 3600 / 1600 == g_speed g * (3600 / 1600)) by field.
  destruct (Qlt_le_dec (g_speed g * (3600 / 1600)) 5) as [A|A].
  - rewrite Q.max_r by lra. apply Q.min_l. lra.
  - rewrite Q.max_l by lra. destruct (Qlt_le_dec 65 (g_speed g * (3600 / 1600))); [apply Q.min_r; lra|]. rewrite Q.min_l by lra. exact E.
Qed.

(** * One link, one interval *)
Lemma Zlen_filter_perm (f : Z -> bool) a b : Permutation a b -> Zlen (filter f a) = Zlen (filter f b).
Proof.
  intros P. unfold Zlen. f_equal. induction P as [|x a b P IH|x y a|a b c P1 IH1 P2 IH2]; cbn [filter]; auto.
  - destruct (f x); cbn [length]; congruence.
  - destruct (f x), (f y); reflexivity.
  - congruence.
Qed.
Lemma perm_concat_rev {A} (l : list (list A)) : Permutation (concat l) (concat (rev l)).
Proof.
  induction l as [|x l IH]; [constructor|]. cbn [rev concat]. rewrite concat_app. cbn [concat]. rewrite app_nil_r.
  transitivity (concat l ++ x)%list; [apply Permutation_app_comm|]. now apply Permutation_app_tail.
Qed.
Lemma queues_perm l : Permutation (link_queues l) (l_fin l ++ inside (l_body l)).
Proof.
  unfold link_queues. etransitivity; [apply Permutation_app_comm|]. apply Permutation_app_head. destruct (l_body l); cbn [inside]; [|reflexivity|reflexivity].
  apply perm_concat_rev.
Qed.
Lemma mqueues_perm k cls l : Permutation (mqueues k cls l) (of_class cls k (ml_fin l) ++ minside cls k (ml_body l)).
Proof.
  unfold mqueues. etransitivity; [apply Permutation_app_comm|]. apply Permutation_app_head. destruct (ml_body l); cbn [minside]; [|reflexivity|reflexivity].
  apply perm_concat_rev.
Qed.

Lemma em_link_sees ut ev x l x' : em_link ut ev x l = Ok x' -> exists g, sees ev l g /\
  (forall p, em_tot x' p == em_tot x p + car_rate p (g_mph g) * (g_miles ut g * g_fuelled g)) /\
  em_vmt x' == em_vmt x + g_miles ut g * (g_fuelled g + g_electric g) /\ em_vmt_ev x' == em_vmt_ev x + g_miles ut g * g_electric g.
Proof.
  intros H. unfold em_link in H. apply bind_ok in H as (t1 & Ht & H). apply bind_ok in H as (u & G & H). apply guard_ok in G. cbv zeta in H.
  apply bind_ok in H as (r & Hr & H). destruct (link_emission ev l) as [n e] eqn:L. apply Ok_inj in H as <-.
  unfold link_emission in L. cbv zeta in L. injection L as <- <-.
  set (g := {| g_speed := p_len (l_par l) / t1; g_fuelled := count (p_fs (l_par l)) (fun v => negb (ev v)) (l_fin l ++ inside (l_body l));
               g_electric := count (p_fs (l_par l)) ev (l_fin l ++ inside (l_body l)) |}).
  exists g. split.
  { exists t1. split; [exact Ht|]. split; [|repeat split; reflexivity]. intros C. apply Qeq_bool_iff in C. rewrite C in G. discriminate. }
  destruct (rates_ok _ (em_mph_range (p_len (l_par l) / t1))) as (r' & Er & Rr). rewrite Hr in Er. apply Ok_inj in Er as <-.
  unfold em_add. cbv zeta. cbn [em_tot em_vmt em_vmt_ev]. rewrite !(Zlen_filter_perm _ _ _ (queues_perm l)).
  change (inject_Z (Zlen (filter (fun v => negb (ev v)) (l_fin l ++ inside (l_body l)))) / p_fs (l_par l)) with (g_fuelled g).
  change (inject_Z (Zlen (filter ev (l_fin l ++ inside (l_body l)))) / p_fs (l_par l)) with (g_electric g).
  change (p_len (l_par l) / t1 * ut / 1600) with (g_miles ut g).
  split; [|split; reflexivity]. intros p. rewrite Rr. change (p_len (l_par l) / t1) with (g_speed g). rewrite (car_rate_comp p _ _ (em_mph_eq g)). ring.
Qed.

(** * Sums *)
Lemma emitted_app r ut p a b : emitted r ut p (a ++ b) == emitted r ut p a + emitted r ut p b.
Proof. unfold emitted. now rewrite map_app, sumQ_app. Qed.
Lemma driven_app ut a b : driven ut (a ++ b) == driven ut a + driven ut b.
Proof. unfold driven. now rewrite map_app, sumQ_app. Qed.
Lemma driven_electric_app ut a b : driven_electric ut (a ++ b) == driven_electric ut a + driven_electric ut b.
Proof. unfold driven_electric. now rewrite map_app, sumQ_app. Qed.
Lemma hours_app ut a b : hours ut (a ++ b) == hours ut a + hours ut b.
Proof. unfold hours. now rewrite map_app, sumQ_app. Qed.
Lemma emitted_cons r ut p g G : emitted r ut p (g :: G) == r p (g_mph g) * (g_miles ut g * g_fuelled g) + emitted r ut p G.
Proof. reflexivity. Qed.
Lemma driven_cons ut g G : driven ut (g :: G) == g_miles ut g * (g_fuelled g + g_electric g) + driven ut G.
Proof. reflexivity. Qed.
Lemma driven_electric_cons ut g G : driven_electric ut (g :: G) == g_miles ut g * g_electric g + driven_electric ut G.
Proof. reflexivity. Qed.
Lemma hours_cons ut g G : hours ut (g :: G) == (g_fuelled g + g_electric g) * (ut / 3600) + hours ut G.
Proof. reflexivity. Qed.

Lemma links_sees ut ev : forall ls x x', foldM (em_link ut ev) x ls = Ok x' -> exists G, Forall2 (sees ev) ls G /\
  (forall p, em_tot x' p == em_tot x p + emitted car_rate ut p G) /\ em_vmt x' == em_vmt x + driven ut G /\ em_vmt_ev x' == em_vmt_ev x + driven_electric ut G.
Proof.
  induction ls as [|l ls IH]; intros x x' H; cbn [foldM] in H.
  - apply Ok_inj in H as <-. exists []. split; [constructor|]. unfold emitted, driven, driven_electric. cbn [map]. sq. repeat split; intros; ring.
  - apply bind_ok in H as (x1 & H1 & H2). destruct (em_link_sees _ _ _ _ _ H1) as (g & S1 & A1 & B1 & C1). destruct (IH _ _ H2) as (G & S2 & A2 & B2 & C2).
    exists (g :: G). split; [constructor; assumption|]. split; [|split].
    + intros p. rewrite A2, A1, emitted_cons. ring.
    + rewrite B2, B1, driven_cons. ring.
    + rewrite C2, C1, driven_electric_cons. ring.
Qed.
