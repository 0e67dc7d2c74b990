(** Proofs about queue dissipation and marginal costs. *)
From Verif Require Import Base Base_lemmas Model_Num Proof_Num Model_CC Spec_CC Proof_CC Proof_CC2 Proof_CC3 Model_Link Model_World Model_Node Proof_Node4 Proof_Link4 Spec_Grad Model_Grad Proof_Grad1
  Proof_Grad2 Proof_Grad3 Model_Dso Spec_Dso.
Local Open Scope Z_scope.

(** * Tables *)
Lemma row_at_ok {A} (r : list A) i : 0 <= i < Zlen r -> exists x, nth_error r (Z.to_nat i) = Some x /\ row_at r i = Ok x.
Proof.
  intros H. destruct (nth_error r (Z.to_nat i)) as [x|] eqn:E.
  - exists x. split; [reflexivity|]. unfold row_at. rewrite E. destruct (Z.ltb_spec i 0); [lia|reflexivity].
  - apply nth_error_None in E. unfold Zlen in H. lia.
Qed.
Lemma row_at_inv {A} (r : list A) i x : row_at r i = Ok x -> 0 <= i < Zlen r /\ nth_error r (Z.to_nat i) = Some x.
Proof.
  unfold row_at. destruct (Z.ltb_spec i 0); [discriminate|]. destruct (nth_error r (Z.to_nat i)) eqn:E; [|discriminate]. intros X. injection X as <-.
  split; [|reflexivity]. assert (Z.to_nat i < length r)%nat by (apply nth_error_Some; congruence). unfold Zlen. lia.
Qed.
Lemma row_at_out {A} (r : list A) i : Zlen r <= i -> row_at r i = Err EUB.
Proof. intros H. unfold row_at. destruct (i <? 0); [reflexivity|]. rewrite (proj2 (nth_error_None _ _)); [reflexivity|]. unfold Zlen in H. lia. Qed.
Lemma put_length {A} (x : A) r : forall i, length (put r i x) = length r.
Proof. induction r as [|y r IH]; intros [|i]; cbn [put length]; auto. Qed.
Lemma put_same {A} (x : A) r : forall i, (i < length r)%nat -> nth_error (put r i x) i = Some x.
Proof. induction r as [|y r IH]; intros [|i] H; cbn [length put nth_error] in *; try lia; [reflexivity|]. apply IH. lia. Qed.
Lemma put_other {A} (x : A) r : forall i j, i <> j -> nth_error (put r i x) j = nth_error r j.
Proof. induction r as [|y r IH]; intros [|i] [|j] H; cbn [put nth_error]; try reflexivity; try lia. apply IH. lia. Qed.
Lemma row_set_ok {A} (r : list A) i x : 0 <= i < Zlen r -> row_set r i x = Ok (put r (Z.to_nat i) x).
Proof. intros H. unfold row_set. destruct (row_at_ok r i H) as (y & _ & ->). reflexivity. Qed.
Lemma put_Zlen {A} (r : list A) i x : Zlen (put r i x) = Zlen r.
Proof. unfold Zlen. now rewrite put_length. Qed.
Lemma cong_row c i : 0 <= i < Zlen c -> row_at c i = Ok (cong_at c i).
Proof. intros H. destruct (row_at_ok c i H) as (x & E & ->). unfold cong_at. f_equal. symmetry. now apply nth_error_nth. Qed.
Lemma ints_In a n i : In i (ints a n) <-> a <= i < a + Z.of_nat n.
Proof.
  unfold ints. rewrite in_map_iff. split.
  - intros (k & <- & H). apply in_seq in H. lia.
  - intros H. exists (Z.to_nat (i - a)). split; [lia|]. apply in_seq. lia.
Qed.
Lemma ints_S a n : ints a (S n) = a :: ints (a + 1) n.
Proof.
  unfold ints. cbn [seq map]. f_equal; [lia|]. rewrite <- seq_shift, map_map. apply map_ext. intros k. lia.
Qed.

(** * Flows read from curves *)
Lemma get_result_same c t t' v v' : recorded_curve c -> (t == t')%Q -> get_result c t = Ok v -> get_result c t' = Ok v' -> (v == v')%Q.
Proof.
  intros Hc E G G'. pose proof (get_result_mono c Hc t t' v v' ltac:(lra) G G'). pose proof (get_result_mono c Hc t' t v' v ltac:(lra) G' G). lra.
Qed.
Lemma slope_ok c j : recorded_curve c -> exists x, cc_slope (Some c) (inject_Z j) (inject_Z (j + 1)) = Ok x /\ counted_in c j x.
Proof.
  intros Hc. destruct (rc_last c Hc) as (e & Ee & _ & _). unfold cc_slope. rewrite Ee. destruct (Qltb_spec (fst e) (inject_Z j)) as [L|L].
  - exists 0%Q. split; [reflexivity|]. exists e. split; [exact Ee|]. left. split; [exact L|reflexivity].
  - cbv zeta. rewrite !trunc_Z. replace (j + 1 - j) with 1 by lia. cbn [Z.ltb Z.compare guard bind]. change (seq 0 (Z.to_nat 1)) with [0%nat]. cbn [mapM].
    set (t0 := (inject_Z j + inject_Z (Z.of_nat 0))%Q). destruct (get_result_total c Hc t0) as (ra & _ & Ga). rewrite Ga. cbn [bind].
    set (t1 := (t0 + 1)%Q). destruct (get_result_total c Hc t1) as (rb & _ & Gb). rewrite Gb. cbn [bind].
    eexists. split; [reflexivity|]. exists e. split; [exact Ee|]. right. split; [apply Qnot_lt_le; exact L|].
    destruct (get_result_total c Hc (inject_Z j)) as (ra' & _ & Ga'). destruct (get_result_total c Hc (inject_Z (j + 1))) as (rb' & _ & Gb').
    exists (snd ra'), (snd rb'). split; [exact Ga'|]. split; [exact Gb'|].
    assert (A : (snd ra == snd ra')%Q). { apply (get_result_same c t0 (inject_Z j) _ _ Hc); auto. unfold t0. change (inject_Z (Z.of_nat 0)) with 0%Q. ring. }
    assert (B : (snd rb == snd rb')%Q). { apply (get_result_same c t1 (inject_Z (j + 1)) _ _ Hc); auto. unfold t1, t0. rewrite inject_Z_plus. change (inject_Z (Z.of_nat 0)) with 0%Q. change (inject_Z 1) with 1%Q. ring. }
    rewrite <- A, <- B. unfold sumQ. cbn [fold_right]. field.
Qed.
Lemma counted_same c j x y : recorded_curve c -> counted_in c j x -> counted_in c j y -> (x == y)%Q.
Proof.
  intros Hc (e & Ee & A) (e' & Ee' & B). rewrite Ee in Ee'. injection Ee' as <-. destruct A as [[A1 A2]|[A1 (a & b & A2 & A3 & A4)]]; destruct B as [[B1 B2]|[B1 (a' & b' & B2 & B3 & B4)]]; try lra.
  rewrite A2 in B2. rewrite A3 in B3. injection B2 as <-. injection B3 as <-. lra.
Qed.
Lemma about_comp x x' y : (x == x')%Q -> about_equal x y -> about_equal x' y.
Proof. unfold about_equal. intros E. now rewrite E. Qed.
Lemma below_comp x x' y : (x == x')%Q -> clearly_below x y -> clearly_below x' y.
Proof. unfold clearly_below. intros E. now rewrite E. Qed.
Lemma about_iff x y : approx_eq x y tol = true <-> about_equal x y.
Proof. unfold approx_eq, about_equal, tol. apply Qle_bool_iff. Qed.
Lemma below_iff x y : approx_lt x y tol = true <-> clearly_below x y.
Proof. unfold approx_lt, clearly_below, tol. apply Qltb_lt. Qed.

Lemma room_ok ut fs nin l j : recorded_curve nin -> ctm_or_pq l ->
  exists b, room ut fs (Some nin) l j = Ok b /\ (b = true <-> has_room ut fs nin l j).
Proof.
  intros Hc K. unfold room, ctm_or_pq in *. destruct (l_body l) as [cs|m q v|q v] eqn:B; [|exists true; split; [reflexivity|]|contradiction].
  - destruct cs as [|c cs]; [congruence|]. unfold below_capacity. destruct (slope_ok nin j Hc) as (x & -> & X). cbn [bind]. eexists. split; [reflexivity|].
    rewrite below_iff. split.
    + intros H. right. exists c, cs, x. auto.
    + intros [(m & q & v & E)|(c' & cs' & y & E & Y & H)]; [congruence|]. rewrite B in E. injection E as <- <-. revert H. apply below_comp.
      now rewrite (counted_same nin j y x Hc Y X).
  - split; [intros _; left; eauto|reflexivity].
Qed.
Lemma last_opt_app {A} (l : list A) x : last_opt (l ++ [x]) = Some x.
Proof. unfold last_opt. rewrite app_length. cbn [length]. rewrite nth_error_app2 by lia. now replace (length l + 1 - 1 - length l)%nat with 0%nat by lia. Qed.
Lemma at_capacity_ok ut fs nout cs fft j l : recorded_curve nout -> cs <> [] -> l_body l = BCtm cs ->
  exists b, at_capacity ut fs (Some nout) cs fft j = Ok b /\ (b = true <-> critical ut fs nout l fft j).
Proof.
  intros Hc K B. destruct (exists_last K) as (cs' & c & E). subst cs. unfold at_capacity. destruct (slope_ok nout (j + fft) Hc) as (x & -> & X). cbn [bind].
  rewrite last_opt_app. eexists. split; [reflexivity|]. rewrite about_iff. split.
  - intros H. exists cs', c, x. auto.
  - intros (cs2 & c2 & y & E & Y & H). rewrite B in E. injection E as E. apply app_inj_tail in E as [-> ->]. revert H. apply about_comp.
    now rewrite (counted_same nout (j + fft) y x Hc Y X).
Qed.

(** * Searches *)
Lemma queue_end_ok cong stop T : forall k j, T <= Zlen cong -> 1 <= j -> j + Z.of_nat k = Z.max j T ->
  exists r, queue_end cong stop j k = Ok r /\ some_queue_until cong T stop (j - 1) r.
Proof.
  intros k. induction k as [|k IH]; intros j L Hj E.
  - exists stop. split; [reflexivity|]. right. split; [reflexivity|]. intros; lia.
  - cbn [queue_end]. rewrite cong_row by lia. cbn [bind]. 
    assert (C : (do b <- (if cong_at cong (j - 1) then row_at cong j else Ok true); if cong_at cong (j - 1) && negb b then Ok j else queue_end cong stop (j + 1) k)
                = if cong_at cong (j - 1) && negb (cong_at cong j) then Ok j else queue_end cong stop (j + 1) k).
    { rewrite cong_row by lia. destruct (cong_at cong (j - 1)); reflexivity. }
    rewrite C. clear C. destruct (cong_at cong (j - 1) && negb (cong_at cong j)) eqn:G.
    + apply andb_prop in G as [G1 G2]. apply negb_true_iff in G2. exists j. split; [reflexivity|]. left. split; [lia|]. split; [split; assumption|]. intros; lia.
    + destruct (IH (j + 1) L ltac:(lia) ltac:(lia)) as (r & Er & Sr). exists r. split; [exact Er|].
      assert (N : ~ gone_at cong j). { intros [G1 G2]. rewrite G1, G2 in G. discriminate. }
      replace (j + 1 - 1) with j in Sr by lia. destruct Sr as [(B & G1 & F)|(-> & F)].
      * left. split; [lia|]. split; [exact G1|]. intros i Hi. destruct (Z.eq_dec i j) as [->|]; [exact N|]. apply F. lia.
      * right. split; [reflexivity|]. intros i Hi. destruct (Z.eq_dec i j) as [->|]; [exact N|]. apply F. lia.
Qed.
Lemma stays cong u k : cong_at cong u = true -> (forall j, u < j < k -> ~ gone_at cong j) -> forall j, u <= j < k -> cong_at cong j = true.
Proof.
  intros C F j [Hj Hk]. revert Hk. pattern j. apply (Zlt_lower_bound_ind _ u); [|exact Hj]. clear j Hj. intros j IH Hj Hk.
  destruct (Z.eq_dec j u) as [->|N]; [exact C|]. destruct (cong_at cong j) eqn:X; [reflexivity|]. exfalso. apply (F j ltac:(lia)). split; [|exact X]. apply IH; lia.
Qed.
Lemma own_queue cong T stop u d : cong_at cong u = true -> some_queue_until cong T stop u d -> queue_until cong T stop u d.
Proof.
  intros C [(B & (G1 & G2) & F)|(-> & F)].
  - left. split; [exact B|]. split; [apply (stays cong u d C F)|exact G2].
  - right. split; [reflexivity|]. apply (stays cong u T C F).
Qed.
Lemma some_queue_bound cong T stop u d : u < T -> u <= stop -> some_queue_until cong T stop u d -> u <= d /\ d <= Z.max T stop.
Proof. intros H H2 [(B & _)|(-> & _)]; lia. Qed.

Lemma dissipated_ok ut fs nout l fft T stop tts cong i : recorded_curve nout -> ctm_or_pq l -> marks fft T tts cong -> 0 <= fft -> 0 <= i < T -> i <= stop ->
  exists d, dissipated ut fs (Some nout) l fft T stop tts cong i = Ok d /\ clears ut fs nout l fft T stop cong i d /\ i <= d <= Z.max T stop.
Proof.
  intros Hc K (L1 & L2 & M) Hf Hi Hs. unfold dissipated. rewrite cong_row by lia. cbn [bind].
  destruct (queue_end_ok cong stop T (Z.to_nat (T - 1 - i)) (i + 1) L2 ltac:(lia) ltac:(lia)) as (r & Er & Sr). replace (i + 1 - 1) with i in Sr by lia.
  assert (Lt : i < T) by lia. pose proof (some_queue_bound _ _ _ _ _ Lt Hs Sr) as Br.
  destruct (cong_at cong i) eqn:C.
  - exists r. split; [exact Er|]. split; [|lia]. left. split; [exact C|]. now apply own_queue.
  - destruct (M i Hi) as (t & Et & Ft & Ct). destruct (row_at_ok tts i ltac:(lia)) as (t' & Et' & ->). rewrite Et in Et'. injection Et' as <-. cbn [bind].
    assert (E : (t == inject_Z fft)%Q). { assert (~ (inject_Z fft < t)%Q) by (intros X; apply Ct in X; congruence). lra. }
    assert (A : approx_eq t (inject_Z fft) tol = true).
    { apply about_iff. unfold about_equal. rewrite E. assert (Z0 : (inject_Z fft - inject_Z fft == 0)%Q) by ring. rewrite Z0. change (Qabs 0) with 0%Q.
      assert ((0 <= Qmax (Qabs (inject_Z fft)) (Qabs (inject_Z fft)))%Q); [|lra]. eapply Qle_trans; [apply (Qabs_nonneg (inject_Z fft))|apply Q.le_max_l]. }
    rewrite A. cbn [guard bind]. unfold ctm_or_pq in K. destruct (l_body l) as [cs|m q v|q v] eqn:B; [| |contradiction].
    + destruct (at_capacity_ok ut fs nout cs fft i l Hc K B) as (b & -> & Hb). cbn [bind]. destruct b.
      * exists r. split; [exact Er|]. split; [|lia]. right; left. split; [exact C|]. split; [now apply Hb|exact Sr].
      * exists i. split; [reflexivity|]. split; [|lia]. right; right. split; [exact C|]. split; [|reflexivity]. intros X. apply Hb in X. discriminate.
    + exists i. split; [reflexivity|]. split; [|lia]. right; right. split; [exact C|]. split; [|reflexivity]. intros (cs & c & x & X & _). congruence.
Qed.

Lemma lift_up_ok rm (R : Z -> Prop) T : (forall j, exists b, rm j = Ok b /\ (b = true <-> R j)) ->
  forall k i, i + Z.of_nat k = T -> exists u, lift_up rm i k = Ok u /\ first_room R T i u.
Proof.
  intros H k. induction k as [|k IH]; intros i E.
  - exists i. split; [reflexivity|]. split; [lia|]. split; intros; lia.
  - cbn [lift_up]. destruct (H i) as (b & -> & Hb). cbn [bind]. destruct b.
    + exists i. split; [reflexivity|]. split; [lia|]. split; [intros; lia|]. intros _. now apply Hb.
    + destruct (IH (i + 1) ltac:(lia)) as (u & Eu & B & F & G). exists u. split; [exact Eu|]. split; [lia|]. split; [|exact G].
      intros j Hj. destruct (Z.eq_dec j i) as [->|]; [intros X; apply Hb in X; discriminate|]. apply F. lia.
Qed.

(** * Marginal costs *)
Definition priced (ut fs : Q) (nin nout : curve) (l : link) (fft T : Z) (cong : list bool) (i : Z) (x : Q) : Prop :=
  exists u d, first_room (has_room ut fs nin l) T i u /\ (u = T /\ d = 2 * T \/ u < T /\ clears ut fs nout l fft T (2 * T) cong u d) /\
    u <= d <= 2 * T /\ x = inject_Z (d - u + fft).
(** entries below [n] are done, the others as they were *)
Definition done_to (ut fs : Q) (nin nout : curve) (l : link) (fft T : Z) (r0 r : rows) (n : Z) : Prop :=
  T <= Zlen (r_tt r) /\ T <= Zlen (r_cost r) /\ r_cong r = r_cong r0 /\
  (forall i, 0 <= i < n -> exists x, nth_error (r_tt r) (Z.to_nat i) = Some x /\ nth_error (r_cost r) (Z.to_nat i) = Some x /\ priced ut fs nin nout l fft T (r_cong r0) i x) /\
  (forall i, n <= i < T -> nth_error (r_tt r) (Z.to_nat i) = nth_error (r_tt r0) (Z.to_nat i)).

(** reading only entries not yet overwritten: marks from [n] on are enough *)
Lemma dissipated_ext ut fs nout l fft T stop a b cong i : nth_error a (Z.to_nat i) = nth_error b (Z.to_nat i) ->
  dissipated ut fs nout l fft T stop a cong i = dissipated ut fs nout l fft T stop b cong i.
Proof. intros E. unfold dissipated, row_at at 2 4. rewrite E. reflexivity. Qed.

Lemma marginal_step ut fs nin nout l fft T r0 r n : recorded_curve nin -> recorded_curve nout -> ctm_or_pq l -> marks fft T (r_tt r0) (r_cong r0) -> 0 <= fft ->
  0 <= n < T -> done_to ut fs nin nout l fft T r0 r n ->
  exists r', marginal_entry ut fs (Some nin) (Some nout) l fft T r n = Ok r' /\ done_to ut fs nin nout l fft T r0 r' (n + 1).
Proof.
  intros Hi Ho K M Hf Hn (L1 & L2 & C & D & R). unfold marginal_entry.
  destruct (lift_up_ok (room ut fs (Some nin) l) (has_room ut fs nin l) T (fun j => room_ok ut fs nin l j Hi K) (Z.to_nat (T - n)) n ltac:(lia)) as (u & -> & U). cbn [bind].
  assert (Bu : n <= u <= T) by apply U.
  assert (X : exists d, (if u =? T then Ok (2 * T) else dissipated ut fs (Some nout) l fft T (2 * T) (r_tt r) (r_cong r) u) = Ok d /\
              (u = T /\ d = 2 * T \/ u < T /\ clears ut fs nout l fft T (2 * T) (r_cong r0) u d) /\ u <= d <= 2 * T).
  { destruct (Z.eqb_spec u T) as [->|N]; [exists (2 * T); split; [reflexivity|]; split; [left; auto|lia]|].
    rewrite C, (dissipated_ext _ _ _ _ _ _ _ _ (r_tt r0)) by (apply R; lia).
    destruct (dissipated_ok ut fs nout l fft T (2 * T) (r_tt r0) (r_cong r0) u Ho K M Hf ltac:(lia) ltac:(lia)) as (d & -> & Cd & Bd). exists d. split; [reflexivity|].
    split; [right; split; [lia|exact Cd]|lia]. }
  destruct X as (d & -> & Cd & Bd). cbn [bind]. rewrite (proj2 (Z.leb_le u d)) by lia. cbn [guard bind]. cbv zeta.
  rewrite !row_set_ok by lia. cbn [bind]. eexists. split; [reflexivity|].
  assert (Ln : forall (q : list Q), T <= Zlen q -> (Z.to_nat n < length q)%nat) by (intros q; unfold Zlen; lia).
  split; cbn [r_tt r_cost r_cong]; [now rewrite put_Zlen|]. split; [now rewrite put_Zlen|]. split; [exact C|]. split.
  - intros i Hin. destruct (Z.eq_dec i n) as [->|N].
    + exists (inject_Z (d - u + fft)). rewrite !put_same by auto. repeat split. exists u, d. auto.
    + destruct (D i ltac:(lia)) as (x & A & B & P). exists x. rewrite !put_other by lia. auto.
  - intros i Hin. rewrite put_other by lia. apply R. lia.
Qed.
Lemma marginal_fold ut fs nin nout l fft T r0 : recorded_curve nin -> recorded_curve nout -> ctm_or_pq l -> marks fft T (r_tt r0) (r_cong r0) -> 0 <= fft ->
  forall k n r, 0 <= n -> n + Z.of_nat k = T -> done_to ut fs nin nout l fft T r0 r n ->
  exists r', foldM (marginal_entry ut fs (Some nin) (Some nout) l fft T) r (ints n k) = Ok r' /\ done_to ut fs nin nout l fft T r0 r' T.
Proof.
  intros Hi Ho K M Hf k. induction k as [|k IH]; intros n r Hn E D.
  - exists r. split; [reflexivity|]. assert (n = T) by lia. subst n. exact D.
  - rewrite ints_S. cbn [foldM]. destruct (marginal_step ut fs nin nout l fft T r0 r n Hi Ho K M Hf ltac:(lia) D) as (r1 & -> & D1). cbn [bind]. apply (IH (n + 1)); [lia|lia|exact D1].
Qed.
Lemma marginal_ok ut fs nin nout l fft T r0 : recorded_curve nin -> recorded_curve nout -> ctm_or_pq l -> marks fft T (r_tt r0) (r_cong r0) -> T <= Zlen (r_cost r0) -> 0 <= fft -> 0 < T ->
  link_fftt l = Ok fft -> exists r', marginal_rows ut fs (Some nin) (Some nout) l T r0 = Ok r' /\ done_to ut fs nin nout l fft T r0 r' T.
Proof.
  intros Hi Ho K M Lc Hf HT Ef. unfold marginal_rows. rewrite (proj2 (Z.ltb_lt 0 T) HT), Ef. cbn [guard bind].
  apply (marginal_fold ut fs nin nout l fft T r0 Hi Ho K M Hf (Z.to_nat T) 0 r0); [lia|lia|].
  destruct M as (A & _). split; [exact A|]. split; [exact Lc|]. split; [reflexivity|]. split; [intros; lia|reflexivity].
Qed.

(** * Building the tables *)
Definition filled (fft : Z) (vot toll : Q) (T : Z) (r : rows) (n : Z) : Prop :=
  T <= Zlen (r_tt r) /\ T <= Zlen (r_cost r) /\ T <= Zlen (r_cong r) /\
  forall i, 0 <= i < n -> exists t, nth_error (r_tt r) (Z.to_nat i) = Some t /\ (inject_Z fft <= t)%Q /\
    nth_error (r_cost r) (Z.to_nat i) = Some (vot * t + toll)%Q /\ nth_error (r_cong r) (Z.to_nat i) = Some (Qltb (inject_Z fft) t).
Lemma build_step nin nout fft vot toll T x n y : 0 <= n < T -> filled fft vot toll T (snd x) n ->
  build_entry nin nout (inject_Z fft) vot toll T x n = Ok y -> filled fft vot toll T (snd y) (n + 1).
Proof.
  intros Hn (L1 & L2 & L3 & F) E. unfold build_entry in E. apply bind_ok in E as ([t lv] & Et & E). cbn [fst snd] in E. cbv zeta in E.
  rewrite !row_set_ok in E by lia. cbn [bind] in E. injection E as <-. unfold filled. cbn [snd r_tt r_cost r_cong]. rewrite !put_Zlen. repeat (split; [assumption|]).
  intros i Hi. destruct (Z.eq_dec i n) as [->|N].
  - exists t. unfold Zlen in *. rewrite !put_same by lia. split; [reflexivity|]. split; [|split; reflexivity].
    pose proof (travel_time_floor _ _ _ _ _ _ _ _ Et) as X. now rewrite trunc_Z in X.
  - rewrite !put_other by lia. apply F. lia.
Qed.
Lemma build_fold nin nout fft vot toll T : forall k n x y, 0 <= n -> n + Z.of_nat k = T -> filled fft vot toll T (snd x) n ->
  foldM (build_entry nin nout (inject_Z fft) vot toll T) x (ints n k) = Ok y -> filled fft vot toll T (snd y) T.
Proof.
  intros k. induction k as [|k IH]; intros n x y Hn E F H.
  - cbn in H. injection H as <-. assert (n = T) by lia. subst n. exact F.
  - rewrite ints_S in H. cbn [foldM] in H. apply bind_ok in H as (z & Ez & H). apply (IH (n + 1) z y); [lia|lia| |exact H]. eapply build_step; eauto. lia.
Qed.
Lemma build_filled nin nout fft vot toll T r r' : 0 <= T -> T <= Zlen (r_tt r) -> T <= Zlen (r_cost r) -> T <= Zlen (r_cong r) ->
  build_rows nin nout (inject_Z fft) vot toll T r = Ok r' -> filled fft vot toll T r' T.
Proof.
  intros HT L1 L2 L3 H. unfold build_rows in H. apply bind_ok in H as (x & Ex & H). injection H as <-.
  apply (build_fold nin nout fft vot toll T (Z.to_nat T) 0 (-1 # 1, r) x)%Z; [lia|lia| |exact Ex]. cbn [snd]. repeat (split; [assumption|]). intros; lia.
Qed.
Lemma filled_marks fft vot toll T r : filled fft vot toll T r T -> marks fft T (r_tt r) (r_cong r).
Proof.
  intros (L1 & L2 & L3 & F). split; [exact L1|]. split; [exact L3|]. intros i Hi. destruct (F i Hi) as (t & Et & Ft & _ & Ec). exists t. split; [exact Et|]. split; [exact Ft|].
  unfold cong_at. rewrite (nth_error_nth _ _ _ Ec). apply Qltb_lt.
Qed.
