(** The hand-out of planned flows to the vehicles of one origin. *)
From Verif Require Import Base Base_lemmas Model_Num Proof_Num Model_Node Model_PreRouting Spec_PreRouting Proof_PreRouting.
Local Open Scope Z_scope.

(** the path indices handed out: [z] times [k], then those of the following paths *)
Fixpoint hand_out (k : nat) (zs : list nat) : list nat :=
  match zs with [] => [] | z :: zs' => repeat k z ++ hand_out (S k) zs' end.
Lemma hand_out_length zs : forall k, length (hand_out k zs) = fold_right Nat.add 0%nat zs.
Proof. induction zs as [|z zs IH]; intros k; [reflexivity|]. cbn. rewrite app_length, repeat_length, IH. reflexivity. Qed.
Lemma hand_out_low zs : forall k j, (j < k)%nat -> count_occ Nat.eq_dec (hand_out k zs) j = 0%nat.
Proof.
  induction zs as [|z zs IH]; intros k j H; [reflexivity|]. cbn [hand_out]. rewrite count_occ_app, IH by lia.
  assert (E : count_occ Nat.eq_dec (repeat k z) j = 0%nat). { induction z as [|z IHz]; [reflexivity|]. cbn. destruct (Nat.eq_dec k j); [lia|exact IHz]. } lia.
Qed.
Lemma hand_out_count zs : forall k j, count_occ Nat.eq_dec (hand_out k zs) (k + j)%nat = nth j zs 0%nat.
Proof.
  induction zs as [|z zs IH]; intros k j; [destruct j; reflexivity|]. cbn [hand_out]. rewrite count_occ_app. destruct j as [|j].
  - replace (k + 0)%nat with k by lia. rewrite hand_out_low by lia. cbn [nth]. assert (E : count_occ Nat.eq_dec (repeat k z) k = z). { induction z as [|z IHz]; [reflexivity|]. cbn. destruct (Nat.eq_dec k k); [now rewrite IHz|congruence]. } lia.
  - replace (k + S j)%nat with (S k + j)%nat by lia. rewrite IH. cbn [nth].
    assert (E : count_occ Nat.eq_dec (repeat k z) (S k + j)%nat = 0%nat). { induction z as [|z IHz]; [reflexivity|]. cbn. destruct (Nat.eq_dec k (S (k + j))); [lia|exact IHz]. } lia.
Qed.

Section Hand.
Context (T : rtable) (o : porigin) (d ass : Z) (dest : Z -> Z).
(** the path indices chosen by the loop for a queue of vehicles to [d] *)
Lemma choose_stay c : c_dest c = d -> (0 < c_remain c)%Q -> (0 <= c_this c)%Q -> choose T o ass d c = Ok c.
Proof.
  intros E H1 H2. unfold choose. rewrite E, Z.eqb_refl. cbn [negb andb]. assert (Qle_bool (c_remain c) 0 = false) as ->.
  { destruct (Qle_bool (c_remain c) 0) eqn:X; [apply Qle_bool_iff in X; lra|reflexivity]. } cbn [negb andb]. rewrite (proj2 (Qle_bool_iff _ _) H2). reflexivity.
Qed.
Lemma choose_next c r : c_dest c = d -> (c_remain c == 0)%Q -> (0 < c_this c)%Q -> planned T (po_node o) d (c_path c + 1) ass = Ok r ->
  choose T o ass d c = Ok {| c_dest := d; c_this := c_this c; c_path := c_path c + 1; c_remain := r |}.
Proof.
  intros E H1 H2 H3. unfold choose. rewrite E, Z.eqb_refl. cbn [negb andb]. assert (Qle_bool (c_remain c) 0 = true) as -> by (apply Qle_bool_iff; lra).
  cbn [andb]. assert (Qle_bool (c_this c) 0 = false) as ->. { destruct (Qle_bool (c_this c) 0) eqn:X; [apply Qle_bool_iff in X; lra|reflexivity]. }
  cbn [negb]. rewrite H3. reflexivity.
Qed.
Lemma injS n : (inject_Z (Z.of_nat (S n)) == inject_Z (Z.of_nat n) + 1)%Q.
Proof. rewrite Nat2Z.inj_succ. unfold Z.succ. rewrite inject_Z_plus. reflexivity. Qed.
Lemma injnat_nonneg n : (0 <= inject_Z (Z.of_nat n))%Q.
Proof. apply injZ_nonneg. lia. Qed.

Context (R : routes) (ps : list (list Z)) (HR : R (po_node o) d = Some ps).
Lemma route_of_nth k r : nth_error ps k = Some r -> route_of R (po_node o) d (Z.of_nat k) = Ok r.
Proof. intros H. unfold route_of. rewrite HR. destruct (Z.ltb_spec (Z.of_nat k) 0); [lia|]. now rewrite Nat2Z.id, H. Qed.

(** registering the whole queue: the planned numbers [r] (rest of path k) and [zs] (next paths) *)
Lemma register_all q : forall k r zs c tr,
  (forall v, In v q -> dest v = d) ->
  (forall j z, nth_error zs j = Some z -> (0 < z)%nat /\ exists x, planned T (po_node o) d (Z.of_nat (k + 1 + j)) ass = Ok x /\ (x == inject_Z (Z.of_nat z))%Q) ->
  (k + length zs < length ps)%nat ->
  c_dest c = d -> c_path c = Z.of_nat k -> (c_remain c == inject_Z (Z.of_nat r))%Q ->
  (c_this c == inject_Z (Z.of_nat (length q)))%Q -> length q = (r + fold_right Nat.add 0 zs)%nat ->
  exists c', foldM (register T R o ass dest) (c, tr) q =
    Ok (c', fold_left (fun tr e => track tr (fst e) (nth (snd e) ps [])) (combine q (hand_out k (r :: zs))) tr).
Proof.
  induction q as [|v q IH]; intros k r zs c tr Hd Hz Hl Ec Ep Er Et Hlen.
  - exists c. reflexivity.
  - assert (Ev : dest v = d) by (apply Hd; now left). cbn [foldM]. unfold register at 1. cbn [fst snd]. rewrite Ev. cbn [length] in Hlen, Et.
    destruct r as [|r].
    + destruct zs as [|z zs]; [cbn in Hlen; lia|]. destruct (Hz 0%nat z eq_refl) as (Zp & x & Ex & Vx). destruct z as [|z]; [lia|].
      replace (k + 1 + 0)%nat with (S k) in Ex by lia. cbn [length] in Hl. destruct (nth_error ps (S k)) as [rt|] eqn:Ert; [|apply nth_error_None in Ert; lia].
      rewrite (choose_next c x Ec).
      * cbn [bind c_path]. replace (c_path c + 1) with (Z.of_nat (S k)) by lia. rewrite (route_of_nth _ _ Ert). cbn [bind].
        destruct (IH (S k) z zs (use_one {| c_dest := d; c_this := c_this c; c_path := Z.of_nat (S k); c_remain := x |}) (track tr v rt)) as (c' & Hc').
        -- intros u Hu. apply Hd. now right.
        -- intros j y Hy. destruct (Hz (S j) y Hy) as (Y1 & y' & Y2 & Y3). split; [exact Y1|]. exists y'. split; [|exact Y3]. replace (S k + 1 + j)%nat with (k + 1 + S j)%nat by lia. exact Y2.
        -- lia.
        -- reflexivity.
        -- reflexivity.
        -- cbn [use_one c_remain]. rewrite Vx, injS. lra.
        -- cbn [use_one c_this]. rewrite Et, injS. lra.
        -- cbn in Hlen. lia.
        -- exists c'. rewrite Hc'. f_equal. f_equal. cbn [hand_out repeat app combine fold_left fst snd]. now rewrite (nth_error_nth _ _ _ Ert).
      * rewrite Er. reflexivity.
      * rewrite Et, injS. pose proof (injnat_nonneg (length q)). lra.
      * rewrite Ep. replace (Z.of_nat k + 1) with (Z.of_nat (S k)) by lia. exact Ex.
    + destruct (nth_error ps k) as [rt|] eqn:Ert; [|apply nth_error_None in Ert; lia].
      rewrite (choose_stay c Ec).
      * cbn [bind]. rewrite Ep, (route_of_nth _ _ Ert). cbn [bind].
        destruct (IH k r zs (use_one c) (track tr v rt)) as (c' & Hc').
        -- intros u Hu. apply Hd. now right.
        -- exact Hz.
        -- exact Hl.
        -- exact Ec.
        -- exact Ep.
        -- cbn [use_one c_remain]. rewrite Er, injS. lra.
        -- cbn [use_one c_this]. rewrite Et, injS. lra.
        -- lia.
        -- exists c'. rewrite Hc'. f_equal. f_equal. cbn [hand_out repeat app combine fold_left fst snd]. now rewrite (nth_error_nth _ _ _ Ert).
      * rewrite Er, injS. pose proof (injnat_nonneg r). lra.
      * rewrite Et. apply injnat_nonneg.
Qed.
End Hand.

(** the tracker after registering and sending *)
Lemma track_fold_out ps : forall es tr v, ~ In v (map fst es) -> tr_left (fold_left (fun tr e => track tr (fst e) (nth (snd e) ps [])) es tr) v = tr_left tr v.
Proof.
  induction es as [|[u k] es IH]; intros tr v H; [reflexivity|]. cbn [fold_left fst snd]. rewrite IH by (intros X; apply H; now right).
  unfold track. destruct (tr_left tr u); [reflexivity|]. cbn [tr_left]. apply upd_other. intros ->. apply H. now left.
Qed.
Lemma track_fold ps : forall es tr, NoDup (map fst es) -> (forall v, In v (map fst es) -> tr_left tr v = None) ->
  forall v k, In (v, k) es -> tr_left (fold_left (fun tr e => track tr (fst e) (nth (snd e) ps [])) es tr) v = Some (nth k ps []).
Proof.
  induction es as [|[u k] es IH]; intros tr N H0 v j; [intros []|]. cbn [map fst] in N. inversion N as [|? ? N1 N2]; subst. cbn [fold_left fst snd].
  assert (Eu : track tr u (nth k ps []) = {| tr_left := upd (tr_left tr) u (Some (nth k ps [])); tr_next := tr_next tr |}) by (unfold track; rewrite H0 by (now left); reflexivity).
  rewrite Eu. intros [E|H].
  - injection E as <- <-. rewrite track_fold_out by exact N1. cbn [tr_left]. apply upd_same.
  - apply IH; auto. intros w Hw. cbn [tr_left]. rewrite upd_other; [apply H0; now right|]. intros ->. contradiction.
Qed.
Lemma send_fold_out known : forall q tr tr' v, foldM (send known) tr q = Ok tr' -> ~ In v q -> tr_left tr' v = tr_left tr v /\ tr_next tr' v = tr_next tr v.
Proof.
  induction q as [|u q IH]; intros tr tr' v; cbn [foldM]; [intros E _; apply Ok_inj in E as <-; auto|]. intros H Hv. apply bind_ok in H as (t1 & H1 & H).
  destruct (IH t1 tr' v H (fun X => Hv (or_intror X))) as [-> ->]. unfold send in H1. destruct (tr_left tr u) as [[|l r]|]; try discriminate. apply bind_ok in H1 as (y & _ & H1).
  apply Ok_inj in H1 as <-. cbn. assert (v <> u) by (intros ->; apply Hv; now left). now rewrite !upd_other.
Qed.
Lemma send_fold known : forall q tr tr', NoDup q -> foldM (send known) tr q = Ok tr' -> forall v, In v q ->
  exists l r, tr_left tr v = Some (l :: r) /\ tr_left tr' v = Some r /\ tr_next tr' v = Some l.
Proof.
  induction q as [|u q IH]; intros tr tr' N; cbn [foldM]; [intros _ v []|]. inversion N as [|? ? N1 N2]; subst. intros H v Hv. apply bind_ok in H as (t1 & H1 & H).
  unfold send in H1. destruct (tr_left tr u) as [[|l r]|] eqn:Eu; try discriminate. apply bind_ok in H1 as (y & _ & H1). apply Ok_inj in H1 as <-.
  destruct Hv as [->|Hv].
  - exists l, r. split; [exact Eu|]. destruct (send_fold_out known q _ tr' v H N1) as [-> ->]. cbn. now rewrite !upd_same.
  - destruct (IH _ tr' N2 H v Hv) as (l' & r' & E1 & E2). cbn in E1. rewrite upd_other in E1 by (intros ->; contradiction). eauto.
Qed.
Lemma send_total known : forall q tr, NoDup q -> (forall v, In v q -> exists l r, tr_left tr v = Some (l :: r) /\ known l = true) -> exists tr', foldM (send known) tr q = Ok tr'.
Proof.
  induction q as [|u q IH]; intros tr N H; [eexists; reflexivity|]. inversion N as [|? ? N1 N2]; subst. cbn [foldM].
  destruct (H u (or_introl eq_refl)) as (l & r & E & K). unfold send at 1. rewrite E, K. cbn [guard bind]. apply IH; [exact N2|].
  intros v Hv. cbn. rewrite upd_other by (intros ->; contradiction). apply H. now right.
Qed.
Lemma track_keeps tr v r u x : tr_left tr u = Some x -> tr_left (track tr v r) u = Some x.
Proof. intros H. unfold track. destruct (tr_left tr v) eqn:E; [exact H|]. cbn. rewrite upd_other; [exact H|]. intros ->. congruence. Qed.
Lemma track_next tr v r u : tr_next (track tr v r) u = tr_next tr u.
Proof. unfold track. now destruct (tr_left tr v). Qed.
Lemma register_keeps T R o ass dest : forall q s s' u x, foldM (register T R o ass dest) s q = Ok s' -> tr_left (snd s) u = Some x -> tr_left (snd s') u = Some x.
Proof.
  induction q as [|v q IH]; intros s s' u x; cbn [foldM]; [intros E; apply Ok_inj in E as <-; auto|]. intros H E. apply bind_ok in H as (s1 & H1 & H).
  apply (IH s1 s' u x H). unfold register in H1. apply bind_ok in H1 as (c & _ & H1). apply bind_ok in H1 as (r & _ & H1). apply Ok_inj in H1 as <-. cbn. now apply track_keeps.
Qed.
