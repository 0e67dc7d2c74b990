(** Proofs about the link transmission model. *)
From Verif Require Import Base Base_lemmas Model_Num Proof_Num Model_CC Spec_CC Proof_CC Proof_CC3 Model_Link Spec_Link Proof_Link Proof_Link4 Model_Ltm Spec_Ltm.
Local Open Scope Q_scope.

Lemma nth_error_firstn_lt {A} (l : list A) n i : (i < n)%nat -> nth_error (firstn n l) i = nth_error l i.
Proof.
  revert n i. induction l as [|x l IH]; intros n i H; [now rewrite firstn_nil|].
  destruct n; [lia|]. destruct i; [reflexivity|]. cbn. apply IH. lia.
Qed.

(** ** lookups in a sorted curve that begins at time zero *)
Definition from_zero (c : curve) : Prop := forall x l, c = x :: l -> fst x == 0.

Lemma get_result_in c t : times_increase c -> from_zero c ->
  exists v, get_result c t = Ok v /\ (v = 0 /\ c = [] \/ exists r, In r c /\ v = snd r).
Proof.
  intros Hs Hz. unfold get_result. destruct c as [|x [|y l]].
  - eauto.
  - exists (snd x). split; [reflexivity|]. right. exists x. simpl. auto.
  - set (c := x :: y :: l) in *. assert (L2 : (2 <= length c)%nat) by (simpl; lia).
    destruct (Qleb_spec t (fst x)) as [Le|Gt].
    + exists (snd x). split; [reflexivity|]. right. exists x. simpl. auto.
    + destruct (lower_bound_spec (fun r => approx_lt (fst r) t tol) c (length c)) as (A & B & C); [lia| |].
      { intros i k ri rk L Ei Ek. apply approx_lt_mono. apply Qlt_le_weak. eapply Hs; eauto. }
      set (j := lower_bound _ c (length c)) in *.
      assert (Hj : (1 <= j)%nat).
      { destruct (Nat.eq_dec j 0) as [E0|]; [|lia]. exfalso.
        pose proof (C 0%nat x ltac:(lia) eq_refl) as F. cbn beta in F.
        assert (Z0 : fst x == 0) by (apply (Hz x (y :: l)); reflexivity).
        assert (approx_lt (fst x) t tol = true).
        { apply approx_lt_iff. unfold tol. qcases; lra. }
        congruence. }
      rewrite (proj2 (Nat.leb_le _ _) Hj). cbn [guard bind].
      assert (Last : exists v, match last_opt c with Some r => Ok (snd r) | None => Err EUB end = Ok v /\ (v = 0 /\ c = [] \/ exists r, In r c /\ v = snd r)).
      { unfold last_opt. destruct (nth_error_Some_ex c (length c - 1)) as (rp & Ep); [lia|]. rewrite Ep.
        exists (snd rp). split; [reflexivity|]. right. exists rp. split; [eapply nth_error_In; eauto|reflexivity]. }
      destruct (nth_error c j) as [rj|] eqn:Ej; [|exact Last].
      destruct (approx_eq (fst rj) t tol).
      * exists (snd rj). split; [reflexivity|]. right. exists rj. split; [eapply nth_error_In; eauto|reflexivity].
      * destruct (Qltb t (fst rj)); [|exact Last].
        destruct (nth_error_Some_ex c (j - 1)) as (rp & Ep); [lia|]. rewrite Ep.
        exists (snd rp). split; [reflexivity|]. right. exists rp. split; [eapply nth_error_In; eauto|reflexivity].
Qed.

(** a curve whose values lie in a range is read inside that range *)
Lemma get_result_range (P : Q -> Prop) c t v : times_increase c -> from_zero c -> P 0 ->
  (forall r, In r c -> P (snd r)) -> get_result c t = Ok v -> P v.
Proof.
  intros Hs Hz P0 Hr E. destruct (get_result_in c t Hs Hz) as (w & Ew & D). rewrite Ew in E. apply Ok_inj in E. subst w.
  destruct D as [[-> _]|(r & I & ->)]; [exact P0|now apply Hr].
Qed.

(** the times of a well kept curve: increasing from zero, at most [b] *)
Record kept (b : Q) (c : curve) : Prop := {
  kp_inc : times_increase c;
  kp_zero : from_zero c;
  kp_le : forall r, In r c -> fst r <= b }.

Lemma kept_nil b : kept b [].
Proof. split; [intros [] ? ? ? ? E; discriminate|intros ? ? E; discriminate|intros ? []]. Qed.
Lemma kept_weaken b b' c : b <= b' -> kept b c -> kept b' c.
Proof. intros L [A B C]. split; [exact A|exact B|]. intros r I. specialize (C r I). lra. Qed.
Lemma kept_firstn b c n : kept b c -> kept b (firstn n c).
Proof.
  intros [A B C]. split.
  - intros i k ri rk L Ei Ek.
    assert (K : (k < n)%nat).
    { assert (nth_error (firstn n c) k <> None) by congruence. apply nth_error_Some in H. pose proof (firstn_le_length n c).
      rewrite firstn_length in H. lia. }
    rewrite nth_error_firstn_lt in Ei, Ek by lia. exact (A i k ri rk L Ei Ek).
  - intros x l E. destruct c as [|y c]; destruct n; try discriminate. cbn in E. injection E as <- _. eapply B; reflexivity.
  - intros r I. apply C. rewrite <- (firstn_skipn n c). apply in_or_app. left. exact I.
Qed.

Lemma kept_add b c r : kept b c -> b <= fst r -> (c = [] -> fst r == 0) ->
  exists c', add_increment c r = Ok c' /\ kept (fst r) c' /\ c' <> [].
Proof.
  intros K Hb H0. destruct (add_increment_accepts c r) as (c' & E).
  { intros q Eq. apply not_approx_lt_ge. apply (kp_le _ _ K q) in Eq || idtac.
    assert (In q c) by (unfold last_opt in Eq; eapply nth_error_In; eauto). pose proof (kp_le _ _ K q H). lra. }
  exists c'. split; [exact E|].
  assert (T : times_increase c') by (eapply add_increment_sorted; [apply K|exact E]).
  apply add_increment_inv in E. destruct E as [[-> ->]|(l & q & -> & [[A ->]|[A [_ ->]]])].
  - split; [|discriminate]. split; [exact T| |].
    + intros x l Ex. injection Ex as <- _. now apply H0.
    + intros x [<-|[]]. lra.
  - split; [|now destruct l]. split; [exact T| |].
    + intros x l' Ex. destruct l as [|y l]; cbn in Ex.
      * injection Ex as <- _. cbn. apply (kp_zero _ _ K q []). reflexivity.
      * injection Ex as <- _. apply (kp_zero _ _ K y (l ++ [q])). reflexivity.
    + intros x I. apply in_app_or in I. destruct I as [I|[<-|[]]].
      * pose proof (kp_le _ _ K x (in_or_app _ _ _ (or_introl I))). lra.
      * cbn. assert (I : In q (l ++ [q])) by (apply in_or_app; right; left; reflexivity). pose proof (kp_le _ _ K q I). lra.
  - split; [|now destruct l]. split; [exact T| |].
    + intros x l' Ex. destruct l as [|y l]; cbn in Ex.
      * injection Ex as <- _. apply (kp_zero _ _ K q []). reflexivity.
      * injection Ex as <- _. apply (kp_zero _ _ K y (l ++ [q])). reflexivity.
    + intros x I. cbn [app] in I. apply in_app_or in I. destruct I as [I|[<-|[<-|[]]]].
      * pose proof (kp_le _ _ K x (in_or_app _ _ _ (or_introl I))). lra.
      * lra.
      * cbn. lra.
Qed.

Lemma shrink_kept b c n : kept b c -> (0 <= n)%Z -> shrink c n = Ok (firstn (Z.to_nat n) c).
Proof. intros K H. apply shrink_keeps_oldest; [apply K|exact H]. Qed.

(** ** one interval *)
Record interval_facts (r : Q) (stay inc : list Z) (x y : ltm) (s d : Q) (cin : curve) : Prop := {
  if_supply : lt_supply x = Ok s;
  if_room : (Zlen (lt_in x ++ inc)%list <= trunc (s * p_fs (lt_par x)))%Z;
  if_cin : add_increment (lt_Nin x) (lt_time x, inject_Z (Zlen (lt_in x ++ inc)%list) / p_fs (lt_par x)) = Ok cin;
  if_nin : shrink cin (lt_size x) = Ok (lt_Nin y);
  if_nout : exists no, shrink (lt_Nout x) (lt_size x) = Ok no /\
    add_increment no (lt_time x, lt_prev x - inject_Z (Zlen stay) / p_fs (lt_par x)) = Ok (lt_Nout y);
  if_demand : exists a b, get_result (lt_Nin y) (lt_time x + p_ut (lt_par x) - p_len (lt_par x) / p_ffs (lt_par x)) = Ok a /\
    get_result (lt_Nout y) (lt_time x) = Ok b /\
    d = (if Qltb (lt_cap (lt_par x)) (a - b) then lt_cap (lt_par x) else a - b);
  if_now : lt_now y = (lt_now x + 1)%Z;
  if_in : lt_in y = [];
  if_par : lt_par y = lt_par x;
  if_w : lt_w y = lt_w x;
  if_size : lt_size y = lt_size x;
  if_prev : lt_prev y = inject_Z (Zlen (lt_fin y)) / p_fs (lt_par x);
  if_line : (lt_fin y ++ lt_q y = stay ++ lt_q x ++ lt_in x ++ inc)%list;
  if_q : (exists m, lt_q y = skipn m (lt_q x ++ lt_in x ++ inc)) \/ (exists pre, lt_q y = pre ++ lt_q x ++ lt_in x ++ inc)%list;
  if_fin : Zlen (lt_fin y) =
    if Qltb d (inject_Z (Zlen stay) / p_fs (lt_par x))
    then (Zlen stay - Z.max 0 (Z.min (Zlen stay - trunc (d * p_fs (lt_par x))) (Zlen stay)))%Z
    else (Zlen stay + Z.max 0 (Z.min (rround r (d * p_fs (lt_par x)) - Zlen stay) (Zlen (lt_q x ++ lt_in x ++ inc)%list)))%Z }.

Lemma lt_interval_inv r stay inc x y : lt_interval r stay inc x = Ok y ->
  exists s d cin, interval_facts r stay inc x y s d cin.
Proof.
  unfold lt_interval. intros E. apply bind_ok in E as (z & Ez & E).
  unfold lt_clear in Ez. apply bind_ok in Ez as (s & Es & Ez). apply bind_ok in Ez as (u & Eg & Ez).
  apply guard_ok in Eg. cbn [lt_par lt_with lt_in lt_q lt_fin lt_now lt_Nin lt_Nout lt_prev lt_w lt_size] in *.
  apply bind_ok in Ez as (cin & Ec & Ez). rewrite move_queue_all in Ez. cbn [bind fst snd] in Ez.
  apply Ok_inj in Ez. subst z. unfold lt_evolve in E.
  cbn [lt_par lt_with lt_in lt_q lt_fin lt_now lt_Nin lt_Nout lt_prev lt_w lt_size] in E.
  apply bind_ok in E as (ni & Eni & E). apply bind_ok in E as (no & Eno & E).
  apply bind_ok in E as ([d c] & Ed & E). apply bind_ok in E as (m & Em & E). apply Ok_inj in E.
  unfold lt_demand in Ed. cbn [lt_par lt_with lt_in lt_q lt_fin lt_now lt_Nin lt_Nout lt_prev lt_w lt_size] in Ed.
  apply bind_ok in Ed as (c' & Ecout & Ed). apply bind_ok in Ed as (a & Ea & Ed). apply bind_ok in Ed as (b & Eb & Ed).
  apply Ok_pair in Ed as [Ed1 Ed2]. subst c'.
  exists s, d, cin. subst y. split; cbn [lt_par lt_with lt_in lt_q lt_fin lt_now lt_Nin lt_Nout lt_prev lt_w lt_size]; try reflexivity.
  - exact Es.
  - apply Bool.negb_true_iff in Eg. apply Z.ltb_ge in Eg. exact Eg.
  - exact Ec.
  - exact Eni.
  - exists no. split; [exact Eno|exact Ecout].
  - exists a, b. split; [exact Ea|]. split; [exact Eb|]. first [exact Ed1|symmetry; exact Ed1].
  - revert Em. destruct (Qltb d _); intros [= <-]; cbn [fst snd].
    + rewrite app_assoc, firstn_skipn. rewrite ?app_assoc. reflexivity.
    + rewrite <- !app_assoc. rewrite firstn_skipn. reflexivity.
  - revert Em. destruct (Qltb d _); intros [= <-]; cbn [fst snd].
    + right. eexists. reflexivity.
    + left. eexists. reflexivity.
  - revert Em. destruct (Qltb d _); intros [= <-]; cbn [fst snd].
    + unfold Zlen at 1. rewrite firstn_length. unfold Zlen. lia.
    + rewrite Zlen_app. unfold Zlen at 2. rewrite firstn_length. unfold Zlen. lia.
Qed.

(** ** the state invariant *)
Record lt_inv (x : ltm) : Prop := {
  li_now : (0 <= lt_now x)%Z;
  li_size : (1 <= lt_size x)%Z;
  li_in : lt_in x = [];
  li_Nin : kept (lt_time x - p_ut (lt_par x)) (lt_Nin x);
  li_Nout : kept (lt_time x - p_ut (lt_par x)) (lt_Nout x);
  li_Nin0 : lt_Nin x = [] -> lt_now x = 0%Z;
  li_Nout0 : lt_Nout x = [] -> lt_now x = 0%Z }.

Lemma lt_time_0 x : lt_now x = 0%Z -> lt_time x == 0.
Proof. intros E. unfold lt_time. rewrite E. change (inject_Z 0) with 0. ring. Qed.

Lemma lt_inv_supply x : lt_inv x -> exists s, lt_supply x = Ok s.
Proof.
  intros I. unfold lt_supply.
  destruct (get_result_in (lt_Nout x) (lt_time x + p_ut (lt_par x) - p_len (lt_par x) / lt_w x)) as (a & -> & _); [apply I|apply I|].
  destruct (get_result_in (lt_Nin x) (inject_Z (lt_now x))) as (b & -> & _); [apply I|apply I|].
  cbn [bind]. eauto.
Qed.

Lemma lt_interval_total r stay inc x s : 0 < p_ut (lt_par x) -> lt_inv x -> lt_supply x = Ok s ->
  (Zlen inc <= trunc (s * p_fs (lt_par x)))%Z -> exists y, lt_interval r stay inc x = Ok y.
Proof.
  intros Hu I Es Hs. pose proof (li_size _ I) as Sz.
  unfold lt_interval, lt_clear. rewrite (li_in _ I). cbn [app].
  change (lt_supply (lt_with stay inc x)) with (lt_supply x). rewrite Es.
  cbn [bind lt_with lt_par lt_in lt_q lt_fin lt_now lt_Nin lt_Nout lt_prev lt_w lt_size].
  assert (G : (trunc (s * p_fs (lt_par x)) <? Zlen inc)%Z = false) by (apply Z.ltb_ge; exact Hs).
  rewrite G. cbn [negb guard bind].
  change (lt_time (lt_with stay inc x)) with (lt_time x).
  destruct (kept_add _ (lt_Nin x) (lt_time x, inject_Z (Zlen inc) / p_fs (lt_par x)) (li_Nin _ I)) as (cin & Ec & K1 & _).
  { cbn. lra. } { intros E. cbn. apply lt_time_0. now apply (li_Nin0 _ I). }
  rewrite Ec. cbn [bind]. rewrite move_queue_all. cbn [bind fst snd].
  unfold lt_evolve. cbn [lt_par lt_in lt_q lt_fin lt_now lt_Nin lt_Nout lt_prev lt_w lt_size].
  rewrite (shrink_kept _ _ (lt_size x) K1) by lia. cbn [bind].
  rewrite (shrink_kept _ _ (lt_size x) (li_Nout _ I)) by lia. cbn [bind].
  unfold lt_demand. cbn [lt_par lt_in lt_q lt_fin lt_now lt_Nin lt_Nout lt_prev lt_w lt_size].
  set (no := firstn (Z.to_nat (lt_size x)) (lt_Nout x)).
  match goal with |- context [add_increment no ?p] =>
    destruct (kept_add _ no p (kept_firstn _ _ _ (li_Nout _ I))) as (cout & Eo & K2 & _) end.
  { cbn. unfold lt_time at 2. cbn [lt_par lt_now]. fold (lt_time x). lra. }
  { intros E. cbn. unfold lt_time. cbn [lt_par lt_now]. fold (lt_time x). apply lt_time_0. apply (li_Nout0 _ I).
    unfold no in E. destruct (lt_Nout x); [reflexivity|]. destruct (Z.to_nat (lt_size x)) eqn:Ez; [lia|discriminate]. }
  rewrite Eo. cbn [bind].
  match goal with |- context [get_result ?c ?t] =>
    destruct (get_result_in c t (kp_inc _ _ (kept_firstn _ _ _ K1)) (kp_zero _ _ (kept_firstn _ _ _ K1))) as (a & -> & _) end.
  cbn [bind].
  match goal with |- context [get_result ?c ?t] =>
    destruct (get_result_in c t (kp_inc _ _ K2) (kp_zero _ _ K2)) as (b & -> & _) end.
  cbn [bind]. destruct (Qltb _ (inject_Z (Zlen stay) / _)); cbn [bind]; eauto.
Qed.

Lemma lt_inv_step r stay inc x y s d cin : 0 < p_ut (lt_par x) -> lt_inv x ->
  interval_facts r stay inc x y s d cin -> lt_inv y.
Proof.
  intros Hu I F. pose proof (li_size _ I) as Sz. pose proof (li_now _ I) as Nw.
  assert (T : lt_time y - p_ut (lt_par y) == lt_time x).
  { unfold lt_time. rewrite (if_now _ _ _ _ _ _ _ _ F), (if_par _ _ _ _ _ _ _ _ F), injZ_succ. ring. }
  destruct (kept_add _ (lt_Nin x) (lt_time x, inject_Z (Zlen (lt_in x ++ inc)%list) / p_fs (lt_par x)) (li_Nin _ I)) as (c1 & Ec & K1 & N1).
  { cbn. lra. } { intros E. cbn. apply lt_time_0. now apply (li_Nin0 _ I). }
  rewrite (if_cin _ _ _ _ _ _ _ _ F) in Ec. apply Ok_inj in Ec. subst c1. cbn [fst] in K1.
  pose proof (if_nin _ _ _ _ _ _ _ _ F) as En. rewrite (shrink_kept _ _ _ K1) in En by lia. apply Ok_inj in En.
  destruct (if_nout _ _ _ _ _ _ _ _ F) as (no & Eno & Eo).
  rewrite (shrink_kept _ _ _ (li_Nout _ I)) in Eno by lia. apply Ok_inj in Eno.
  destruct (kept_add _ no (lt_time x, lt_prev x - inject_Z (Zlen stay) / p_fs (lt_par x)) ltac:(rewrite <- Eno; apply (kept_firstn _ _ _ (li_Nout _ I)))) as (c2 & Ec2 & K2 & N2).
  { cbn. lra. }
  { intros E. cbn. apply lt_time_0. apply (li_Nout0 _ I). rewrite <- Eno in E.
    destruct (lt_Nout x); [reflexivity|]. destruct (Z.to_nat (lt_size x)) eqn:Ez; [lia|discriminate]. }
  rewrite Eo in Ec2. apply Ok_inj in Ec2. subst c2. cbn [fst] in K2.
  split.
  - rewrite (if_now _ _ _ _ _ _ _ _ F). lia.
  - rewrite (if_size _ _ _ _ _ _ _ _ F). lia.
  - apply F.
  - eapply kept_weaken; [|rewrite <- En; apply kept_firstn; exact K1]. lra.
  - eapply kept_weaken; [|exact K2]. lra.
  - intros E. rewrite <- En in E. destruct cin; [now elim N1|]. destruct (Z.to_nat (lt_size x)) eqn:Ez; [lia|discriminate].
  - intros E. now elim N2.
Qed.

Lemma lt_inv_run es : forall x y, 0 < p_ut (lt_par x) -> lt_inv x -> ltm_run es x = Ok y ->
  lt_inv y /\ lt_par y = lt_par x /\ lt_w y = lt_w x /\ lt_size y = lt_size x.
Proof.
  induction es as [|[[r keep] inc] es IH]; intros x y Hu I E; cbn in E.
  - apply Ok_inj in E. subst y. auto.
  - apply bind_ok in E as (z & Ez & E). apply lt_interval_inv in Ez as (s & d & cin & F).
    pose proof (lt_inv_step _ _ _ _ _ _ _ _ Hu I F) as Iz.
    destruct (IH z y) as (A & B & C & D); [now rewrite (if_par _ _ _ _ _ _ _ _ F)|exact Iz|exact E|].
    rewrite (if_par _ _ _ _ _ _ _ _ F) in B. rewrite (if_w _ _ _ _ _ _ _ _ F) in C. rewrite (if_size _ _ _ _ _ _ _ _ F) in D. auto.
Qed.

Lemma make_ltm_inv p x : physical p -> make_ltm p = Ok x ->
  lt_inv x /\ lt_par x = p /\ lt_fin x = [] /\ lt_q x = [] /\ lt_now x = 0%Z /\ lt_Nin x = [] /\ lt_Nout x = [] /\ lt_prev x = 0.
Proof.
  intros (Hu & Hf & Hs & Hl & Hh & Hc & Hn) E. unfold make_ltm in E. apply bind_ok in E as (u & _ & E). apply Ok_inj in E. subst x.
  split; [|repeat (split; [reflexivity|]); reflexivity].
  split; cbn [lt_par lt_in lt_q lt_fin lt_now lt_Nin lt_Nout lt_prev lt_w lt_size]; try reflexivity; try lia; try apply kept_nil.
  match goal with |- context [trunc (?m / _)] => assert (0 <= m) end.
  { assert (A : 0 <= p_len p / p_ffs p) by (apply Qle_shift_div_l; lra).
    destruct (Qltb_spec (p_len p / (p_flow p / (p_hold p - p_flow p / p_ffs p))) (p_len p / p_ffs p)); lra. }
  match goal with |- context [trunc ?m] => pose proof (trunc_nonneg m) as T end.
  assert (A : (0 <= trunc ((if Qltb (p_len p / (p_flow p / (p_hold p - p_flow p / p_ffs p))) (p_len p / p_ffs p)
     then p_len p / p_ffs p else p_len p / (p_flow p / (p_hold p - p_flow p / p_ffs p))) / p_ut p))%Z).
  { apply T. apply Qle_shift_div_l; lra. }
  lia.
Qed.
