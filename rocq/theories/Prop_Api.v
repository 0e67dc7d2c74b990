(** C113-C118, C120, C121: the Python interface after a loading. *)
From Verif Require Import Base Base_lemmas Model_Num Proof_Num Model_CC Spec_CC Proof_CC Proof_CC3 Model_Path Model_Link Spec_Link Proof_Link Proof_Link3 Proof_Link4 Model_World Model_Node Spec_Node Proof_Node Proof_Node3
  Model_Sim Spec_Sim Proof_Sim1 Proof_Sim3 Proof_Sim4 Model_Grad Spec_Grad Proof_Grad1 Proof_Grad3 Proof_Grad5 Proof_Grad6 Spec_Curve Proof_Curve1 Proof_Curve4 Model_Dso Proof_Dso
  Model_Api Spec_Api Proof_McNode4 Proof_Api0 Proof_Api Proof_Api2 Proof_Api3 Ex_Net Prop_Node Prop_Sim Prop_Grad Prop_Curve Prop_Dso.
Local Open Scope Z_scope.

(** * C113: registration *)

(** Links are accepted exactly when all of them exist and none is repeated; then exactly
    they are registered, in the given order. *)
Theorem C113_links : forall known old ids,
  register_links known old ids = (ids, None) <-> (forall l, In l ids -> known l = true) /\ NoDup ids.
Proof.
  intros known old ids. unfold register_links. replace (match old with [] => old | _ => [] end) with (@nil Z) by (destruct old; reflexivity). split.
  - intros H. destruct (reg_links_inv known ids []) as (k & e & _ & E & C). rewrite H in E. injection E as _ <-.
    destruct C as [(_ & _ & A & ND)|(C & _)]; [|discriminate]. split; [intros l Hl; apply A, Hl|exact ND].
  - intros [A ND]. rewrite reg_links_ok by auto. reflexivity.
Qed.
Print Assumptions C113_links.
(** Otherwise an exception is raised at the first unknown or repeated link and the links
    before it are registered. *)
Theorem C113_links_rejected : forall known old ids, ~ ((forall l, In l ids -> known l = true) /\ NoDup ids) ->
  exists k l, nth_error ids k = Some l /\ (known l = false \/ In l (firstn k ids)) /\ register_links known old ids = (firstn k ids, Some EThrow).
Proof.
  intros known old ids H. unfold register_links. replace (match old with [] => old | _ => [] end) with (@nil Z) by (destruct old; reflexivity).
  destruct (reg_links_inv known ids []) as (k & e & _ & E & C). rewrite E. cbn [app].
  destruct C as [(_ & _ & A & ND)|(-> & l & N & C)]; [exfalso; apply H; split; [intros l Hl; apply A, Hl|exact ND]|].
  exists k, l. split; [exact N|]. split; [|reflexivity]. destruct C as [C|[[]|C]]; auto.
Qed.
Print Assumptions C113_links_rejected.
(** Refuted: "after a rejected registration the earlier one is still in force". *)
Theorem C113_rejected_registration_keeps_old_refuted : exists known old ids g,
  register_links known [] old = (old, None) /\ register_links known old ids = (g, Some EThrow) /\ g <> old.
Proof. exists (fun l => l <? 10), [1; 2], [3; 99], [3]. repeat split; try reflexivity. discriminate. Qed.
Print Assumptions C113_rejected_registration_keeps_old_refuted.

(** Paths are accepted exactly when all of them exist; repeated paths are accepted.  Then
    they are registered in the given order, and the index of a path is its first position. *)
Theorem C113_paths : forall known old ids, (g_vec old = [] -> g_map old = []) ->
  (snd (register_paths known old ids) = None <-> forall p, In p ids -> known p = true) /\
  (forall g, register_paths known old ids = (g, None) -> g_vec g = ids /\
     forall p j, path_index (g_map g) p = Some j <-> 0 <= j /\ first_at ids p (Z.to_nat j)).
Proof.
  intros known old ids Ho. unfold register_paths.
  set (o := match g_vec old with [] => old | _ => {| g_vec := []; g_map := [] |} end).
  assert (Eo : g_map o = []) by (unfold o; destruct (g_vec old); [apply Ho; reflexivity|reflexivity]).
  assert (Ev : g_vec o = []) by (unfold o; destruct (g_vec old) eqn:E; [exact E|reflexivity]).
  destruct (reg_paths_inv known ids o 0) as (k & e & E & V & C). split.
  - rewrite E. cbn [snd]. destruct C as [(-> & _ & A)|(-> & p & N & Kp)]; [tauto|]. split; [discriminate|]. intros H. rewrite (H p (nth_error_In _ _ N)) in Kp. discriminate.
  - intros g H. rewrite H in V, E. cbn [fst] in V. injection E as <-. destruct C as [(_ & -> & A)|(C & _)]; [|discriminate]. split; [rewrite V, Ev, firstn_all; reflexivity|].
    intros p j. assert (P : path_index (g_map o) p = None) by (rewrite Eo; reflexivity).
    destruct (reg_paths_index known ids o 0 g p H P) as [(B & D)|(i & F & B)]; rewrite B.
    + split; [discriminate|]. intros [_ [N _]]. destruct D. exact (nth_error_In _ _ N).
    + rewrite Z.add_0_l. split; [intros Q; injection Q as <-; rewrite Nat2Z.id; split; [lia|exact F]|]. intros [Hj [N F2]]. destruct F as [N' F2']. f_equal.
      assert (i = Z.to_nat j); [|lia]. destruct (lt_eq_lt_dec i (Z.to_nat j)) as [[L| ->]|L]; [destruct (F2 i L N')|reflexivity|destruct (F2' _ L N)].
Qed.
Print Assumptions C113_paths.
Example C113_case : register_links (fun l => l <? 10) [5] [3; 1; 2] = ([3; 1; 2], None) /\ register_links (fun l => l <? 10) [5] [3; 1; 3] = ([3; 1], Some EThrow) /\
  exists g, register_paths (fun p => p <? 10) {| g_vec := [4]; g_map := [(4, 0)] |} [7; 7; 8] = (g, None) /\ path_index (g_map g) 8 = Some 2 /\ Zlen (g_map g) = 2.
Proof. split; [reflexivity|]. split; [reflexivity|]. eexists. split; [reflexivity|]. split; reflexivity. Qed.

(** * C114: matrix of inflows *)

(** With valid windows the entry of row i (registered link i) and column t (window t) is
    that link's flow in that window. *)
Theorem C114_inflow_matrix : forall cur (cs : list curve) starts ends,
  (forall c, In c cs -> recorded_curve c) -> length starts = length ends -> Forall (good_window cur) (combine starts ends) ->
  exists m, inflow_matrix cur (map Some cs) starts ends = Ok m /\ length m = (length cs * length starts)%nat /\
    forall i t c s e, nth_error cs i = Some c -> nth_error starts t = Some s -> nth_error ends t = Some e ->
      exists x, nth_error m (i * length starts + t) = Some x /\ link_flow_between (Some c) (inject_Z s) (inject_Z e) = Ok x.
Proof.
  intros cur cs starts ends RC Len GW. unfold inflow_matrix. rewrite Len, Nat.eqb_refl. cbn [guard bind]. rewrite map_length.
  set (w := combine starts ends) in *. assert (Lw : length w = length ends) by (unfold w; rewrite combine_length; lia).
  set (check := fun t => do p <- row_at w t; check_window cur p).
  set (entry := fun (_ : unit) i t => do c <- row_at (map Some cs) i; do p <- row_at w t; do x <- link_flow_between c (inject_Z (fst p)) (inject_Z (snd p)); Ok (tt, x)).
  assert (En : forall i t, 0 <= i < Zlen cs -> 0 <= t < Zlen w -> exists c p x, nth_error cs (Z.to_nat i) = Some c /\ nth_error w (Z.to_nat t) = Some p /\
     link_flow_between (Some c) (inject_Z (fst p)) (inject_Z (snd p)) = Ok x /\ entry tt i t = Ok (tt, x)).
  { intros i t Hi Ht. destruct (row_at_ok cs i Hi) as (c & Nc & Ec). destruct (row_at_ok w t Ht) as (p & Np & Ep). pose proof (wflow_ok c p (RC c (nth_error_In _ _ Nc))) as W.
    exists c, p, (wflow c p). split; [exact Nc|]. split; [exact Np|]. split; [exact W|]. unfold entry. rewrite (row_at_map _ _ _ _ Ec), Ep. cbn [bind]. unfold window_flow in W. rewrite W. reflexivity. }
  assert (Ck : forall t, 0 <= t < Zlen w -> check t = Ok tt).
  { intros t Ht. unfold check. destruct (row_at_ok w t Ht) as (p & Np & Ep). rewrite Ep. cbn [bind]. rewrite Forall_forall in GW. pose proof (GW p (nth_error_In _ _ Np)) as G.
    destruct (check_window_cases cur p) as [[E _]|[_ B]]; [exact E|contradiction]. }
  set (ck := fun t => if (0 <=? t) && (t <? Zlen w) then Ok tt else Err EThrow : res unit).
  assert (X : exists x, fill_matrix check entry (length cs) (length w) 0%Q tt = Ok x).
  { assert (XX : fill_matrix check entry (length cs) (length w) 0%Q tt = fill_matrix ck entry (length cs) (length w) 0%Q tt).
    { unfold fill_matrix. generalize (tt, repeat 0%Q (length cs * length w)). assert (Hin : forall t, In t (ints 0 (length w)) -> check t = ck t).
      { intros t Ht. apply ints_In in Ht. rewrite Ck by (unfold Zlen; lia). unfold ck. destruct (Z.leb_spec 0 t), (Z.ltb_spec t (Zlen w)); unfold Zlen in *; try reflexivity; lia. }
      revert Hin. generalize (ints 0 (length w)). induction l as [|t l IH]; intros Hin x; [reflexivity|]. cbn [foldM]. rewrite (Hin t) by now left.
      destruct (ck t); cbn [bind]; [|reflexivity]. match goal with |- context [foldM ?g x ?l0] => destruct (foldM g x l0) as [y|]; [|reflexivity] end. apply IH. intros u Hu. apply Hin. now right. }
    rewrite XX. destruct (fill_tot ck entry (length cs) (length w) (fun _ => True) (fun _ _ _ => True) 0%Q tt) as [E|(_ & t & Ht & Et)].
    - intros [] i t _ Hi Ht. destruct (En i t Hi Ht) as (c & p & x & _ & _ & _ & E). exists tt, x. auto.
    - exact I.
    - intros t. unfold ck. destruct (_ && _); auto.
    - exact E.
    - exfalso. unfold ck in Et. destruct (Z.leb_spec 0 t), (Z.ltb_spec t (Zlen w)); unfold Zlen in *; try discriminate; lia. }
  destruct X as (([] & m) & E). rewrite E. cbn [bind snd]. exists m. split; [reflexivity|].
  destruct (fill_inv check entry (length cs) (length w) (fun _ => True)
     (fun i t x => exists c p, nth_error cs (Z.to_nat i) = Some c /\ nth_error w (Z.to_nat t) = Some p /\ link_flow_between (Some c) (inject_Z (fst p)) (inject_Z (snd p)) = Ok x) 0%Q tt tt m) as (_ & Lm & _ & G); [|exact I|exact E|].
  { intros [] i t s' a _ Hi Ht Ee. split; [exact I|]. destruct (En i t Hi Ht) as (c & p & x & Nc & Np & Wf & E'). rewrite E' in Ee. apply Ok_pair in Ee as [_ <-]. eauto. }
  split; [unfold Zlen in Lm; rewrite Lw in Lm; lia|]. intros i t c s e Nc Ns Ne.
  assert (Np : nth_error w t = Some (s, e)).
  { clear - Ns Ne. subst w. revert ends t Ns Ne. induction starts as [|a st IH]; intros [|b en] [|t] Ns Ne; try discriminate; cbn in *; [congruence|apply IH; assumption]. }
  assert (Hi : 0 <= Z.of_nat i < Z.of_nat (length cs)) by (assert (i < length cs)%nat by (apply nth_error_Some; congruence); lia).
  assert (Ht : 0 <= Z.of_nat t < Z.of_nat (length w)) by (assert (t < length w)%nat by (apply nth_error_Some; congruence); lia).
  destruct (G _ _ Hi Ht) as (x & Nx & c' & p & Nc' & Np' & Wf). rewrite Nat2Z.id in Nc', Np'. exists x. rewrite Nc in Nc'. injection Nc' as <-. rewrite Np in Np'. injection Np' as <-.
  split; [|exact Wf]. rewrite <- Nx. f_equal. rewrite Lw. lia.
Qed.
Print Assumptions C114_inflow_matrix.
(** Windows that are empty, reversed or not yet simulated are rejected. *)
Theorem C114_bad_window_rejected : forall cur (cs : list curve) starts ends,
  (forall c, In c cs -> recorded_curve c) -> length starts <> length ends \/ ~ Forall (good_window cur) (combine starts ends) ->
  inflow_matrix cur (map Some cs) starts ends = Err EThrow.
Proof.
  intros cur cs starts ends RC H. unfold inflow_matrix. destruct (Nat.eqb_spec (length starts) (length ends)) as [Len|]; [|reflexivity]. destruct H as [H|H]; [contradiction|]. cbn [guard bind].
  set (w := combine starts ends) in *. rewrite map_length.
  set (check := fun t => do p <- row_at w t; check_window cur p).
  set (entry := fun (_ : unit) i t => do c <- row_at (map Some cs) i; do p <- row_at w t; do x <- link_flow_between c (inject_Z (fst p)) (inject_Z (snd p)); Ok (tt, x)).
  unfold fill_matrix.
  assert (X : forall n k x, 0 <= k -> k + Z.of_nat n = Zlen w -> ~ Forall (good_window cur) (skipn (Z.to_nat k) w) -> Zlen (snd x) = Z.of_nat (length cs) * Z.of_nat (length w) ->
     foldM (fun x t => do _ <- check t; inner entry (length w) x t 0 (length cs)) x (ints k n) = Err EThrow).
  { induction n as [|n IH]; intros k x Hk Ek NB Lx.
    - exfalso. apply NB. rewrite skipn_all2; [constructor|unfold Zlen in Ek; lia].
    - rewrite ints_S. cbn [foldM]. unfold check at 1. destruct (row_at_ok w k) as (p & Np & Ep); [lia|]. rewrite Ep. cbn [bind].
      destruct (check_window_cases cur p) as [[E G]|[E _]]; rewrite E; cbn [bind]; [|reflexivity].
      destruct (inner_tot check entry (length cs) (length w) (fun _ => True) (fun _ _ _ => True) k) with (n := length cs) (k := 0) (x := x) as (y & Ey & _ & Ly); auto; try lia.
      { intros [] i t _ Hi Ht. destruct (row_at_ok cs i Hi) as (c & Nc & Ec). destruct (row_at_ok w t Ht) as (q & Nq & Eq). pose proof (wflow_ok c q (RC c (nth_error_In _ _ Nc))) as W.
        exists tt, (wflow c q). split; [|exact I]. unfold entry. rewrite (row_at_map _ _ _ _ Ec), Eq. cbn [bind]. unfold window_flow in W. rewrite W. reflexivity. }
      { unfold Zlen in Ek. lia. }
      rewrite Ey. cbn [bind]. apply IH; [lia|lia| |exact Ly]. intros B. apply NB. replace (Z.to_nat (k + 1)) with (S (Z.to_nat k)) in B by lia.
      clear - Np B G. revert Np B. generalize (Z.to_nat k). intros j. generalize w. intros w0. revert w0. induction j as [|j IH]; intros [|q w0] Np B; try discriminate; [injection Np as ->; constructor; auto|]. apply IH; assumption. }
  unfold inner in X. rewrite X; [reflexivity|lia|unfold Zlen; lia|exact H|]. cbn [snd]. unfold Zlen. rewrite repeat_length. lia.
Qed.
Print Assumptions C114_bad_window_rejected.
(** C114 for a run: the entry is the number of vehicles that entered the link in the window,
    over the flow scalar. *)
Theorem C114_run : forall N D w0 k s ls cs starts ends, net_ok N -> fresh_world N w0 -> (forall t, draws_valid (D t)) ->
  run N D k (init_state N w0) = Ok s -> Z.of_nat k < 10000 ->
  Forall2 (fun l c => In l (n_links N) /\ cc_Nin (w_cc (s_w s)) l = Some c) ls cs ->
  length starts = length ends -> Forall (fun w => 0 <= fst w < snd w /\ snd w <= Z.of_nat k) (combine starts ends) ->
  exists m, inflow_matrix (s_cur s) (map Some cs) starts ends = Ok m /\
    forall i t l a b, nth_error ls i = Some l -> nth_error starts t = Some a -> nth_error ends t = Some b ->
      exists x, nth_error m (i * length starts + t) = Some x /\
        (x == inject_Z (Zlen (entered N D w0 l (Z.to_nat b)) - Zlen (entered N D w0 l (Z.to_nat a))) / n_fs N)%Q.
Proof.
  intros N D w0 k s ls cs starts ends K F DV H Hk Hls Len GW.
  pose proof (reached_cur _ _ _ _ (st_reached _ _ _ F DV _ _ H)) as Cur. rewrite Cur.
  assert (RC : forall c, In c cs -> recorded_curve c).
  { intros c Hc. clear - K F DV H Hk Hls Hc. induction Hls as [|l c' ls cs [Hl Ec] Hls IH]; [destruct Hc|]. destruct Hc as [->|Hc]; [|auto].
    destruct (installed_in N D w0 K F DV k s l c Hl H Ec) as (incs & E & T). destruct (built_recorded incs (tl_mono _ _ _ _ T) (line_whole _ _ _ _ Hk T)) as (c' & E' & R & _).
    { intros r Hr. apply (units_nonneg (n_fs N)); [apply (no_fs _ K)|]. exact (line_units _ _ _ _ T r Hr). }
    rewrite E in E'. apply Ok_inj in E' as <-. exact R. }
  assert (G2 : Forall (good_window (Z.of_nat k)) (combine starts ends)) by (eapply Forall_impl; [|exact GW]; intros w Hw; cbv beta in Hw; unfold good_window; lia).
  destruct (C114_inflow_matrix (Z.of_nat k) cs starts ends RC Len G2) as (m & E & _ & M). exists m. split; [exact E|]. intros i t l a b Nl Ns Ne.
  assert (exists c, nth_error cs i = Some c /\ In l (n_links N) /\ cc_Nin (w_cc (s_w s)) l = Some c) as (c & Nc & Hl & Ec).
  { clear - Hls Nl. revert i Nl. induction Hls as [|l' c ls cs [Hl Ec] Hls IH]; intros [|i] Nl; try discriminate; cbn in *; [injection Nl as <-; eauto|apply IH, Nl]. }
  destruct (M i t c a b Nc Ns Ne) as (x & Nx & Fx). exists x. split; [exact Nx|].
  assert (W : 0 <= a < b /\ b <= Z.of_nat k).
  { rewrite Forall_forall in GW. specialize (GW (a, b)). cbn [fst snd] in GW. apply GW. clear - Ns Ne. revert ends t Ns Ne.
    induction starts as [|x st IH]; intros [|y en] [|t] Ns Ne; try discriminate; cbn in *; [left; congruence|right; eapply IH; eassumption]. }
  destruct (C40_run_window_counts_entries N D w0 k s l c (Z.to_nat a) (Z.to_nat b) K F DV H Hk Hl Ec) as (y & mid & Em & Fy & Qy); [lia|lia|].
  rewrite !Z2Nat.id in Fy by lia. rewrite Fx in Fy. apply Ok_inj in Fy as <-. rewrite Qy, Em, Zlen_app. apply Qmult_comp; [|reflexivity].
  replace (Zlen (entered N D w0 l (Z.to_nat a)) + Zlen mid - Zlen (entered N D w0 l (Z.to_nat a))) with (Zlen mid) by lia. reflexivity.
Qed.
Print Assumptions C114_run.

(** * C115: numpy arrays *)

(** A contiguous array is read as the list of its elements. *)
Theorem C115_contiguous : forall A (a : ndarray A), nd_stride a = 1 -> nd_read a = nd_list a.
Proof. intros A a H. apply nd_read_list. now left. Qed.
Print Assumptions C115_contiguous.
(** Refuted: "any array of the right type is read as the list of its elements": for every
    other stride and length from 2 there are contents that are read wrongly. *)
Theorem C115_strided_refuted : forall k n, k <> 1 -> (2 <= n)%nat -> exists a : ndarray Z, nd_stride a = k /\ nd_len a = n /\ nd_read a <> nd_list a.
Proof.
  intros k n Hk Hn. exists {| nd_mem := fun i => if i =? 1 then 1 else 0; nd_off := 0; nd_stride := k; nd_len := n |}. split; [reflexivity|]. split; [reflexivity|].
  unfold nd_read, nd_list. cbn [nd_mem nd_off nd_stride nd_len]. destruct n as [|[|n]]; [lia|lia|]. cbn [seq map]. intros E. apply (f_equal (fun l => nth 1 l 0)) in E. cbn [nth] in E.
  destruct (Z.eqb_spec (0 + k * Z.of_nat 1) 1); [lia|discriminate].
Qed.
Print Assumptions C115_strided_refuted.
(** every second start interval of [0, 1, 2, 3]: 0, 2 is meant, 0, 1 is read *)
Example C115_case : let a := {| nd_mem := fun i => i; nd_off := 0; nd_stride := 2; nd_len := 2 |} in nd_list a = [0; 2] /\ nd_read a = [0; 1].
Proof. split; reflexivity. Qed.

(** * C116: the assignment ratio matrix *)

(** Distinct registered paths [ids], one tree per registered link: the entry in the row of
    link i and window t, column of path j and departure interval a, times that path flow,
    is the flow of that path and interval that enters the link in the window; rows of
    windows not given are empty; and matrix times path flows is the sum of the assignment
    records of each link and window. *)
Theorem C116_matrix : forall cur known old ids g (trees : list cctree) starts ends n f,
  (g_vec old = [] -> g_map old = []) -> register_paths known old ids = (g, None) -> NoDup ids ->
  length starts = length ends -> Forall (good_window cur) (combine starts ends) -> Zlen starts <= n ->
  (forall t, In t trees -> good_tree n t) -> covers ids trees f ->
  exists M, complete_dar cur g (map Some trees) starts ends n f = Ok M /\
    (forall i t tr s e j a p x, nth_error trees i = Some tr -> nth_error (combine starts ends) t = Some (s, e) -> nth_error ids j = Some p -> path_flow tr p a (s, e) x ->
       let y := Z.of_nat j + Zlen ids * a in (M (Z.of_nat i + Zlen trees * Z.of_nat t)%Z y * nth (Z.to_nat y) f 0 == x)%Q) /\
    (forall x y, Zlen trees * Zlen starts <= x -> (M x y == 0)%Q) /\
    (forall i t tr s e l, nth_error trees i = Some tr -> nth_error (combine starts ends) t = Some (s, e) ->
       exists recs, add_dar_records [] (fun p => memb p ids) l (Some tr) (inject_Z s) (inject_Z e) = Ok recs /\
         (sumQ (map (fun y => M (Z.of_nat i + Zlen trees * Z.of_nat t)%Z y * nth (Z.to_nat y) f 0) (ints 0 (Z.to_nat (n * Zlen ids)))) == sumQ (map da_flow recs))%Q).
Proof.
  intros cur known old ids g trees starts ends n f Ho Hr ND Len GW LW GT CV. destruct (register_map known old ids g Ho Hr ND) as [Lm PM].
  set (ws := combine starts ends) in *. assert (Lws : Zlen ws = Zlen starts) by (unfold Zlen, ws; rewrite combine_length; lia).
  assert (LW' : Zlen ws <= n) by lia.
  exists (mat (path_index (g_map g)) ids trees ws f). split.
  { unfold complete_dar, complete_triplets. rewrite Len, Nat.eqb_refl. cbn [guard bind]. fold ws. rewrite Lm, !Zlen_mapS.
    rewrite (triplets_ok (path_index (g_map g)) ids trees ws n f cur PM GT CV GW). cbn [bind]. unfold from_triplets.
    rewrite (triplets_range (path_index (g_map g)) ids trees ws n f PM GT LW'). reflexivity. }
  split; [|split].
  - intros i t tr s e j a p x Nt Nw Nj PF. exact (mat_entry (path_index (g_map g)) ids trees ws n f PM GT CV i t (s, e) tr j a p x Nt Nw Nj PF).
  - intros x y Hx. unfold mat. apply (row_beyond (path_index (g_map g)) ids trees ws n f PM GT) with (x := x); [now rewrite Lws|].
    intros [[x' y'] v] Ne. cbn [fst] in Ne. destruct (Z.eqb_spec x' x); [contradiction|reflexivity].
  - intros i t tr s e l Nt Nw. exists (flat_map (rec1 (path_index (g_map g)) l (s, e)) tr). split.
    + pose proof (dar_closed (path_index (g_map g)) l (s, e) tr) as E. cbn [fst snd] in E. rewrite <- (app_nil_l (flat_map _ _)), <- E.
      * apply add_dar_ext. intros p. destruct (path_index (g_map g) p) as [j|] eqn:P; cbn [is_some].
        -- apply PM in P as [_ P]. apply memb_In. exact (nth_error_In _ _ P).
        -- apply memb_false. intros I. apply In_nth_error in I as (j & Nj). enough (path_index (g_map g) p = Some (Z.of_nat j)) by congruence. apply PM. rewrite Nat2Z.id. split; [lia|exact Nj].
      * intros x Hx. eapply Proof_Api3.tree_curves; eauto. exact (nth_error_In _ _ Nt).
    + exact (mat_row_sum (path_index (g_map g)) ids trees ws n f PM GT CV i t (s, e) tr l Nt Nw).
Qed.
Print Assumptions C116_matrix.

(** C116 for a run: when every vehicle that entered one of the links is on a registered path
    and departed in one of [n] intervals, matrix times path flows is the number of vehicles
    that entered each link in each window, over the flow scalar. *)
Theorem C116_run_matrix_times_flows : forall N D w0 k s ls trs known old ids g starts ends n f,
  net_ok N -> fresh_world N w0 -> (forall t, draws_valid (D t)) -> (n_fs N * dbl_eps < 1)%Q ->
  run N D k (init_state N w0) = Ok s -> Z.of_nat k < 10000 ->
  Forall2 (fun l tr => In l (n_links N) /\ ~ origin_fed N l /\ cc_Tin (w_cc (s_w s)) l = Some tr) ls trs ->
  (g_vec old = [] -> g_map old = []) -> register_paths known old ids = (g, None) -> NoDup ids ->
  length starts = length ends -> Forall (fun w => 0 <= fst w < snd w /\ snd w <= Z.of_nat k) (combine starts ends) -> Zlen starts <= n ->
  (forall l p a, In l ls -> In (p, a) (entered_labels N D w0 l k) -> 0 <= a < n /\
     exists j x, nth_error ids j = Some p /\ nth_error f (Z.to_nat (Z.of_nat j + Zlen ids * a)) = Some x /\ ~ (x == 0)%Q) ->
  exists M, complete_dar (s_cur s) g (map Some trs) starts ends n f = Ok M /\
    forall i t l a b, nth_error ls i = Some l -> nth_error (combine starts ends) t = Some (a, b) ->
      (sumQ (map (fun y => M (Z.of_nat i + Zlen ls * Z.of_nat t)%Z y * nth (Z.to_nat y) f 0) (ints 0 (Z.to_nat (n * Zlen ids)))) ==
       inject_Z (Zlen (entered N D w0 l (Z.to_nat b)) - Zlen (entered N D w0 l (Z.to_nat a))) / n_fs N)%Q.
Proof.
  intros N D w0 k s ls trs known old ids g starts ends n f K F DV Fe H Hk Hls Ho Hr ND Len GW LW LAB.
  rewrite (reached_cur _ _ _ _ (st_reached _ _ _ F DV _ _ H)).
  assert (G2 : Forall (good_window (Z.of_nat k)) (combine starts ends)) by (eapply Forall_impl; [|exact GW]; intros w Hw; cbv beta in Hw; unfold good_window; lia).
  assert (Tree : forall l tr, In l (n_links N) -> ~ origin_fed N l -> cc_Tin (w_cc (s_w s)) l = Some tr ->
    NoDup (map fst tr) /\ forall p a c, In ((p, a), c) tr -> recorded_curve c /\ In (p, a) (entered_labels N D w0 l k)).
  { intros l tr Hl Hof Et. destruct (run_Tin N D w0 K F DV l k s Hl Hof H) as (ops & G & (T1 & T2 & T3)). rewrite Et in G. pose proof (tree_ops _ _ _ (proj1 (fw_trees _ _ F l)) G) as E.
    destruct (tree_inv _ _ E) as (Hn & Hkeys & _). split; [exact Hn|]. intros p a c Hc. split.
    - exact (proj1 (proj2 (Proof_Grad6.tree_curves (n_fs N) ops tr (no_fs _ K) E (tl_mono _ _ _ _ T1) (fun o Ho0 => line_whole _ _ _ _ Hk T1 _ (in_map snd _ _ Ho0)) (fun o Ho0 => line_units _ _ _ _ T1 _ (in_map snd _ _ Ho0)) _ Hc))).
    - apply T3, Hkeys. change (p, a) with (fst ((p, a), c)). now apply in_map. }
  assert (Both : forall tr, In tr trs -> exists l, In l ls /\ In l (n_links N) /\ ~ origin_fed N l /\ cc_Tin (w_cc (s_w s)) l = Some tr).
  { clear - Hls. induction Hls as [|l tr ls trs X Hls IH]; intros tr' Hi; [destruct Hi|]. destruct Hi as [<-|Hi]; [exists l; split; [now left|exact X]|]. destruct (IH _ Hi) as (l' & A & B). exists l'. split; [now right|exact B]. }
  destruct (C116_matrix (Z.of_nat k) known old ids g trs starts ends n f Ho Hr ND Len G2 LW) as (M & E & _ & _ & RS).
  { intros tr Htr. destruct (Both tr Htr) as (l & Il & Hl & Hof & Et). destruct (Tree l tr Hl Hof Et) as [A B]. split; [exact A|]. intros p a c Hc. destruct (B p a c Hc) as [R L]. split; [exact R|]. apply (LAB l p a Il L). }
  { intros tr p a c j Htr Hc Nj. destruct (Both tr Htr) as (l & Il & Hl & Hof & Et). destruct (proj2 (Tree l tr Hl Hof Et) p a c Hc) as [_ L]. destruct (LAB l p a Il L) as (_ & j' & x & Nj' & X).
    assert (j = j') as ->; [|exists x; exact X]. eapply NoDup_nth_error; [exact ND| |congruence]. apply nth_error_Some. congruence. }
  exists M. split; [exact E|]. intros i t l a b Nl Nw.
  assert (exists tr, nth_error trs i = Some tr /\ In l (n_links N) /\ ~ origin_fed N l /\ cc_Tin (w_cc (s_w s)) l = Some tr) as (tr & Nt & Hl & Hof & Et).
  { clear - Hls Nl. revert i Nl. induction Hls as [|l' c ls cs X Hls IH]; intros [|i] Nl; try discriminate; cbn in *; [injection Nl as <-; eauto|apply IH, Nl]. }
  destruct (RS i t tr a b l Nt Nw) as (recs & Er & Q). assert (Zlen trs = Zlen ls) as Ez by (unfold Zlen; f_equal; clear - Hls; induction Hls; cbn [length]; congruence). rewrite Ez in Q. rewrite Q. clear Q.
  rewrite Forall_forall in GW. specialize (GW (a, b) (nth_error_In _ _ Nw)). cbn [fst snd] in GW.
  destruct (C41_run_records_are_entries N D w0 k s l tr (fun p => memb p ids) (Z.to_nat a) (Z.to_nat b) [] K F DV Fe H Hk Hl Hof Et) as (new & mid & Em & Ea & _ & _ & S); [lia|lia|].
  rewrite !Z2Nat.id in Ea by lia. rewrite Er in Ea. apply Ok_inj in Ea. cbn [app] in Ea. subst recs. rewrite S.
  - rewrite <- !(labels_len N D w0), Em, Zlen_app. apply Qmult_comp; [|reflexivity].
    replace (Zlen (entered_labels N D w0 l (Z.to_nat a)) + Zlen mid - Zlen (entered_labels N D w0 l (Z.to_nat a))) with (Zlen mid) by lia. reflexivity.
  - intros [p a'] Hin. apply memb_In. cbn [fst].
    assert (In (p, a') (entered_labels N D w0 l k)).
    { apply (during_mono N D w0 (fun w w' => map (label w') (newcomers w w' l)) (Z.to_nat b) k); [lia|]. fold (entered_labels N D w0 l (Z.to_nat b)). rewrite Em. apply in_or_app. now right. }
    destruct (LAB l p a' (nth_error_In _ _ Nl) H0) as (_ & j & x & Nj & _). exact (nth_error_In _ _ Nj).
Qed.
Print Assumptions C116_run_matrix_times_flows.

(** Refuted: "any accepted list of paths will do": with a path registered twice the matrix
    is too narrow, the columns of different paths coincide and the last ones are written
    outside the matrix. *)
Definition two_curve : curve := [(0, 0); (1, 1)]%Q.
Lemma two_recorded : recorded_curve two_curve.
Proof.
  assert (X : forall i j a b, (i < j)%nat -> nth_error two_curve i = Some a -> nth_error two_curve j = Some b -> a = (0, 0)%Q /\ b = (1, 1)%Q).
  { intros i j a b L A B. assert (j < 2)%nat by (change 2%nat with (length two_curve); apply nth_error_Some; congruence). assert (i = 0%nat) as -> by lia. assert (j = 1%nat) as -> by lia.
    injection A as <-. injection B as <-. auto. }
  constructor; [exists 0%Q, [(1, 1)%Q]; reflexivity| |]; intros i j a b L A B; destruct (X i j a b L A B) as [-> ->]; cbn; lra.
Qed.
Theorem C116_repeated_path_refuted : exists g M, register_paths (fun _ => true) {| g_vec := []; g_map := [] |} [7; 7; 8] = (g, None) /\
  window_flow two_curve (0, 1) 1 /\
  complete_dar 1 g [Some [((7, 1), two_curve); ((8, 0), two_curve)]] [0] [1] 2 (repeat 1%Q 6) = Ok M /\ (M 0%Z 2%Z == 2)%Q /\
  complete_dar 1 g [Some [((8, 1), two_curve)]] [0] [1] 2 (repeat 1%Q 6) = Err EUB.
Proof. eexists. eexists. split; [reflexivity|]. split; [reflexivity|]. split; [reflexivity|]. split; reflexivity. Qed.
Print Assumptions C116_repeated_path_refuted.

(** The hypotheses are met: one link, two paths, two departure intervals, one window. *)
Example C116_case : exists g M, register_paths (fun p => p <? 10) {| g_vec := []; g_map := [] |} [7; 8] = (g, None) /\
  good_tree 2 [((7, 1), two_curve); ((8, 0), two_curve)] /\ covers [7; 8] [[((7, 1), two_curve); ((8, 0), two_curve)]] [3; 4; 2; 0]%Q /\ path_flow [((7, 1), two_curve); ((8, 0), two_curve)] 7 1 (0, 1) 1 /\
  complete_dar 1 g [Some [((7, 1), two_curve); ((8, 0), two_curve)]] [0] [1] 2 [3; 4; 2; 0]%Q = Ok M /\ map (M 0) (ints 0 4) = [0; 1 # 4; 1 # 2; 0]%Q.
Proof.
  eexists. eexists. split; [reflexivity|]. split; [|split; [|split; [|split; [reflexivity|vm_compute; reflexivity]]]].
  - split; [repeat constructor; cbn; intuition discriminate|]. intros p a c [E|[E|[]]]; injection E as <- <- <-; (split; [apply two_recorded|lia]).
  - intros t p a c j [<-|[]] [E|[E|[]]] N; injection E as <- <- <-; destruct j as [|[|[|j]]]; cbn in N; try discriminate.
    + exists 2%Q. split; [reflexivity|discriminate].
    + exists 4%Q. split; [reflexivity|discriminate].
  - left. exists two_curve. split; [now left|]. exists 1%Q. split; [reflexivity|]. left. split; [reflexivity|reflexivity].
Qed.

(** The rows of get_dar_matrix: one for every registered link, window, registered path and
    departure interval with flow (above DBL_EPSILON) in that window, with that flow. *)
Theorem C116_rows : forall cur g links (trees : list cctree) starts ends,
  length links = length trees -> (forall t x, In t trees -> In x t -> recorded_curve (snd x)) ->
  length starts = length ends -> Forall (good_window cur) (combine starts ends) ->
  exists rows, dar_matrix cur g (combine links (map Some trees)) starts ends = Ok rows /\
    forall r, In r rows <-> exists i l t s e p a c y, nth_error links i = Some l /\ nth_error trees i = Some t /\ In (s, e) (combine starts ends) /\
      In ((p, a), c) t /\ In p (map fst (g_map g)) /\ window_flow c (s, e) y /\ (dbl_eps < y)%Q /\
      r = {| da_path := p; da_int := a; da_link := l; da_start := inject_Z s; da_flow := y |}.
Proof.
  intros cur g links trees starts ends Ll RC Len GW. unfold dar_matrix. rewrite Len, Nat.eqb_refl. cbn [guard bind].
  set (w := combine starts ends) in *. set (ls := combine links (map Some trees)). set (pm := path_index (g_map g)).
  assert (Lls : length ls = length trees) by (unfold ls; rewrite combine_length, map_length; lia).
  assert (Nls : forall i l t, nth_error ls i = Some (l, Some t) <-> nth_error links i = Some l /\ nth_error trees i = Some t).
  { unfold ls. clear - Ll. revert trees Ll. induction links as [|l0 links IH]; intros [|t0 trees] Ll i l t; cbn in Ll; try lia.
    - destruct i; cbn; (split; [discriminate|intros [? _]; discriminate]).
    - destruct i as [|i]; cbn [combine map nth_error]; [|apply IH; lia]. split; [intros E; injection E as <- <-; auto|intros [E1 E2]; injection E1 as <-; injection E2 as <-; auto]. }
  assert (Hpm : forall p, is_some (pm p) = true <-> In p (map fst (g_map g))).
  { intros p. unfold pm, path_index. destruct (find (fun e => fst e =? p) (g_map g)) as [e|] eqn:F; cbn [is_some].
    - apply find_some in F as [F E]. apply Z.eqb_eq in E. subst. split; [intros _; apply in_map; exact F|reflexivity].
    - split; [discriminate|]. intros H. apply in_map_iff in H as (e & <- & He). pose proof (find_none _ _ F e He) as N. cbv beta in N. rewrite Z.eqb_refl in N. discriminate. }
  set (new := fun (i t : Z) (p : Z * Z) => match nth_error ls (Z.to_nat i) with Some (l, Some tr) => flat_map (rec1 pm l p) tr | _ => [] end).
  rewrite (ow_append cur (length ls) w _ new GW).
  - eexists. split; [reflexivity|]. intros r. cbn [app]. rewrite in_flat_map. split.
    + intros (i & Hi & Hr). apply in_flat_map in Hr as (t & Ht & Hr). destruct (nth_error w (Z.to_nat t)) as [[s e]|] eqn:Nw; [|destruct Hr]. unfold new in Hr.
      destruct (nth_error ls (Z.to_nat i)) as [[l [tr|]]|] eqn:Nl; try destruct Hr. apply Nls in Nl as [N1 N2]. apply in_flat_map in Hr as (((p & a) & c) & Hx & Hr).
      unfold rec1, flowing in Hr. cbn [fst snd] in Hr. destruct (pm p) as [pi|] eqn:Ep; [|destruct Hr]. destruct (Qltb_spec dbl_eps (wflow c (s, e))) as [Q|]; [|destruct Hr]. destruct Hr as [<-|[]].
      exists (Z.to_nat i), l, tr, s, e, p, a, c, (wflow c (s, e)). split; [exact N1|]. split; [exact N2|]. split; [eapply nth_error_In; exact Nw|]. split; [exact Hx|]. split; [apply Hpm; rewrite Ep; reflexivity|].
      split; [apply wflow_ok; exact (RC _ _ (nth_error_In _ _ N2) Hx)|]. split; [exact Q|reflexivity].
    + intros (i & l & tr & s & e & p & a & c & y & N1 & N2 & Hw & Hx & Hp & Wf & Q & ->). exists (Z.of_nat i). split; [apply ints_In; assert (i < length trees)%nat by (apply nth_error_Some; congruence); lia|].
      apply In_nth_error in Hw as (t & Nw). apply in_flat_map. exists (Z.of_nat t). split; [apply ints_In; assert (t < length w)%nat by (apply nth_error_Some; congruence); lia|]. rewrite Nat2Z.id, Nw.
      unfold new. rewrite Nat2Z.id, (proj2 (Nls i l tr) (conj N1 N2)). apply in_flat_map. exists ((p, a), c). split; [exact Hx|]. unfold rec1, flowing. cbn [fst snd]. apply Hpm in Hp. destruct (pm p) as [pi|]; [|discriminate].
      pose proof (wflow_ok c (s, e) (RC _ _ (nth_error_In _ _ N2) Hx)) as W. unfold window_flow in W, Wf. rewrite W in Wf. apply Ok_inj in Wf. rewrite Wf. destruct (Qltb_spec dbl_eps y); [now left|contradiction].
  - intros acc i t p Hi Np Ht. destruct (row_at_ok ls i) as ((l & tr') & Nl & El); [unfold Zlen; lia|]. rewrite El. cbn [bind fst snd].
    assert (exists tr, tr' = Some tr) as (tr & ->). { unfold ls in Nl. apply nth_error_In, in_combine_r, in_map_iff in Nl as (tr & <- & _). eauto. }
    unfold new. rewrite Nl. apply Nls in Nl as [_ N2]. apply (dar_closed pm l p tr). intros x Hx. exact (RC _ _ (nth_error_In _ _ N2) Hx).
Qed.
Print Assumptions C116_rows.

Example C116_rows_case : exists g, register_paths (fun p => p <? 10) {| g_vec := []; g_map := [] |} [7] = (g, None) /\
  dar_matrix 1 g (combine [9] (map Some [[((7, 1), two_curve); ((8, 0), two_curve)]])) [0] [1] = Ok [{| da_path := 7; da_int := 1; da_link := 9; da_start := 0; da_flow := 1 |}].
Proof. eexists. split; [reflexivity|]. vm_compute. reflexivity. Qed.

(** Ten intervals of the example network (network, run and records of [C16_C54_case]): link
    20 is entered by four vehicles in the windows [0,4) and two in [4,10).  All hypotheses of
    the two theorems on runs are met. *)
Example C114_C116_run_case : net_ok xn /\ fresh_world xn xn_world /\ (forall t : Z, draws_valid xn_draws) /\ (n_fs xn * dbl_eps < 1)%Q /\ xn_run 10 = Ok (xn_at 10) /\
  (In 20 (n_links xn) /\ ~ origin_fed xn 20) /\
  (forall p a, In (p, a) (entered_labels xn (fun _ => xn_draws) xn_world 20 10) -> 0 <= a < 2 /\
     exists j x, nth_error [0; 2] j = Some p /\ nth_error [2; 2; 1; 1]%Q (Z.to_nat (Z.of_nat j + Zlen [0; 2] * a)) = Some x /\ ~ (x == 0)%Q) /\
  inflow_matrix 10 [cc_Nin (w_cc (s_w (xn_at 10))) 20] [0; 4] [4; 10] = Ok [4; 2]%Q /\
  exists g M, register_paths (fun p => p <? 3) {| g_vec := []; g_map := [] |} [0; 2] = (g, None) /\
    complete_dar 10 g [cc_Tin (w_cc (s_w (xn_at 10))) 20] [0; 4] [4; 10] 2 [2; 2; 1; 1]%Q = Ok M /\
    (sumQ (map (fun y => M 0%Z y * nth (Z.to_nat y) [2; 2; 1; 1] 0) (ints 0 4)) == 4)%Q /\
    (sumQ (map (fun y => M 1%Z y * nth (Z.to_nat y) [2; 2; 1; 1] 0) (ints 0 4)) == 2)%Q.
Proof.
  destruct C16_C54_case as (A1 & A2 & _ & A4 & A5 & A6 & _ & _ & A9 & A10 & A11).
  split; [exact A1|]. split; [exact A2|]. split; [intros t; apply xn_draws_valid|]. split; [vm_compute; reflexivity|]. split; [exact A4|]. split; [exact (conj A5 A6)|].
  rewrite A9, A10, A11. split; [|split; [vm_compute; reflexivity|]].
  - intros p a H. cbn [In] in H. destruct H as [H|[H|[H|[H|[H|[H|[]]]]]]]; injection H as <- <-; (split; [lia|]);
    first [exists 0%nat; eexists; split; [reflexivity|]; split; [reflexivity|]; discriminate|exists 1%nat; eexists; split; [reflexivity|]; split; [reflexivity|]; discriminate].
  - eexists. eexists. split; [reflexivity|]. split; [reflexivity|]. split; vm_compute; reflexivity.
Qed.

(** * C117: saved assignment ratios *)

(** When the registered paths are those with IDs 0, 1, 2, ... in this order, the lines of
    the file are the entries of the matrix. *)
Theorem C117_saved_lines_partial : forall cur known old ids g links (trees : list cctree) starts ends n f,
  (g_vec old = [] -> g_map old = []) -> register_paths known old ids = (g, None) -> (forall p j, nth_error ids j = Some p -> p = Z.of_nat j) ->
  length starts = length ends -> Forall (good_window cur) (combine starts ends) -> length links = length trees ->
  (forall t, In t trees -> good_tree n t) -> covers ids trees f ->
  exists lines, save_dar cur g (combine links (map Some trees)) starts ends f = Ok lines /\ complete_triplets cur g (map Some trees) starts ends f = Ok lines.
Proof.
  intros cur known old ids g links trees starts ends n f Ho Hr Hid Len GW Ll GT CV.
  assert (ND : NoDup ids). { apply NoDup_nth_error. intros i j Hi E. destruct (nth_error ids i) as [p|] eqn:Np; [|apply nth_error_None in Np; lia]. symmetry in E. apply Hid in Np, E. lia. }
  destruct (register_map known old ids g Ho Hr ND) as [Lm PM]. exists (triplets (path_index (g_map g)) ids trees (combine starts ends) f). split.
  - unfold save_dar. rewrite Len, Nat.eqb_refl. cbn [guard bind]. rewrite Lm. apply (save_ok (path_index (g_map g)) ids trees (combine starts ends) n f cur PM GT CV GW links Ll).
    intros p pi P. apply PM in P as [A P]. apply Hid in P. lia.
  - unfold complete_triplets. rewrite Len, Nat.eqb_refl. cbn [guard bind]. rewrite Lm, !Zlen_mapS. apply (triplets_ok (path_index (g_map g)) ids trees (combine starts ends) n f cur PM GT CV GW).
Qed.
Print Assumptions C117_saved_lines_partial.
(** Refuted without that restriction: registered in another order, the file has the columns
    of the IDs and divides by the flows of other paths; registered alone, a path with ID 5
    is divided by a flow outside the array. *)
Theorem C117_saved_lines_refuted :
  (exists g, register_paths (fun p => p <? 10) {| g_vec := []; g_map := [] |} [1; 0] = (g, None) /\
     complete_triplets 1 g [Some [((1, 0), two_curve)]] [0] [1] [2; 4]%Q = Ok [((0, 0), 1 # 2)] /\
     save_dar 1 g [(9, Some [((1, 0), two_curve)])] [0] [1] [2; 4]%Q = Ok [((0, 1), 1 # 4)]) /\
  (exists g, register_paths (fun p => p <? 10) {| g_vec := []; g_map := [] |} [5] = (g, None) /\
     complete_triplets 1 g [Some [((5, 0), two_curve)]] [0] [1] [2]%Q = Ok [((0, 0), 1 # 2)] /\
     save_dar 1 g [(9, Some [((5, 0), two_curve)])] [0] [1] [2]%Q = Err EUB).
Proof. split; eexists; (split; [reflexivity|]); split; vm_compute; reflexivity. Qed.
Print Assumptions C117_saved_lines_refuted.

(** * C118: totals *)

(** After any number of intervals the four totals are defined: vehicles released, time
    spent by them, vehicles still in the network, vehicles arrived; the first is the sum of
    the last two. *)
Theorem C118_totals : forall N D w0 k s ut, net_ok N -> fresh_world N w0 -> (forall t, draws_valid (D t)) -> run N D k (init_state N w0) = Ok s ->
  exists a h b c, travel_stats N ut (Z.of_nat k) (s_w s) = Ok (a, h, b, c) /\
    (a == inject_Z (f_num (w_fac (s_w s))) / n_fs N)%Q /\ (a == b + c)%Q /\
    (h == inject_Z (time_spent (Z.of_nat k) (s_w s)) * ut / 3600 / n_fs N)%Q /\
    (b == inject_Z (Zlen (f_live (w_fac (s_w s)))) / n_fs N)%Q /\ (c == inject_Z (Zlen (arrived (s_w s))) / n_fs N)%Q /\
    NoDup (f_live (w_fac (s_w s))) /\ forall v, In v (f_live (w_fac (s_w s))) <-> 1 <= v <= f_num (w_fac (s_w s)) /\ ~ In v (arrived (s_w s)).
Proof.
  intros N D w0 k s ut K F DV H. pose proof (reached_sinv _ _ _ _ K (st_reached _ _ _ F DV _ _ H)) as I. pose proof (run_unfinished N D w0 k s K F DV H) as U.
  set (w := s_w s) in *. pose proof (no_fs _ K) as Hf.
  assert (One : forall v, zc v (f_live (w_fac w)) + zc v (arrived w) = one_if ((1 <=? v) && (v <=? f_num (w_fac w)))) by (intros v; rewrite (i_live _ _ I); apply (i_count _ _ I)).
  assert (Le : forall v, zc v (f_live (w_fac w)) <= 1) by (intros v; pose proof (One v); pose proof (zc_nonneg v (arrived w)); unfold one_if in *; destruct (_ && _); lia).
  assert (P : Permutation (f_live (w_fac w) ++ arrived w) (ints 1 (Z.to_nat (f_num (w_fac w))))).
  { apply perm_cnt. intros v. apply Nat2Z.inj. change (zc v (f_live (w_fac w) ++ arrived w) = zc v (ints 1 (Z.to_nat (f_num (w_fac w))))). rewrite zc_app, One. unfold one_if.
    pose proof (i_num _ _ I). destruct (Z.leb_spec 1 v), (Z.leb_spec v (f_num (w_fac w))); cbn [andb].
    - pose proof (proj1 (NoDup_cnt _) (ints_NoDup 1 (Z.to_nat (f_num (w_fac w)))) v). assert (J : In v (ints 1 (Z.to_nat (f_num (w_fac w))))) by (apply ints_In; lia). apply cnt_In in J. unfold zc. lia.
    - symmetry. unfold zc. rewrite cnt_zero_notin; [reflexivity|]. rewrite ints_In. lia.
    - symmetry. unfold zc. rewrite cnt_zero_notin; [reflexivity|]. rewrite ints_In. lia.
    - symmetry. unfold zc. rewrite cnt_zero_notin; [reflexivity|]. rewrite ints_In. lia. }
  assert (Ln : Zlen (f_live (w_fac w)) + Zlen (arrived w) = f_num (w_fac w)).
  { pose proof (i_num _ _ I). apply Permutation_length in P. rewrite app_length in P. unfold ints in P. rewrite map_length, seq_length in P. unfold Zlen. lia. }
  assert (La : f_finished (w_fac w) = Zlen (arrived w)) by (rewrite (i_fin _ _ I); unfold arrived, Zlen; now rewrite map_length).
  pose proof (i_enr _ _ I) as Enr.
  assert (Hh : forall vs h, (fold_left (fun h v => h + inject_Z (Z.of_nat k - v_start (w_veh w v)) * ut / 3600) vs h == h + inject_Z (sumZ (map (fun v => (Z.of_nat k - v_start (w_veh w v))%Z) vs)) * ut / 3600)%Q).
  { induction vs as [|v vs IH]; intros h; cbn [fold_left map]; [change (inject_Z (sumZ [])) with 0%Q; field|]. rewrite IH. change (sumZ (?x :: ?l)) with (x + sumZ l). rewrite inject_Z_plus. field. }
  unfold travel_stats. assert (forallb (fun v => v_fin (w_veh w v) <? 0) (f_live (w_fac w)) = true) as ->.
  { apply forallb_forall. intros v Hv. rewrite (U v Hv). reflexivity. }
  cbn [guard bind]. eexists. eexists. eexists. eexists. split; [reflexivity|].
  split; [rewrite La; replace (Zlen (arrived w) + Zlen (f_live (w_fac w))) with (f_num (w_fac w)) by lia; reflexivity|].
  split; [replace (f_finished (w_fac w) + Zlen (f_live (w_fac w))) with (f_enroute (w_fac w) + f_finished (w_fac w)) by lia; rewrite inject_Z_plus; field; lra|].
  split; [rewrite Hh, (i_tt _ _ I); unfold time_spent; rewrite inject_Z_plus; unfold trip; field; lra|].
  split; [replace (f_enroute (w_fac w)) with (Zlen (f_live (w_fac w))) by lia; reflexivity|].
  split; [rewrite La; reflexivity|]. split.
  - apply NoDup_cnt. intros v. specialize (Le v). unfold zc in Le. lia.
  - intros v. specialize (One v). specialize (Le v). pose proof (zc_nonneg v (f_live (w_fac w))). pose proof (zc_nonneg v (arrived w)). rewrite !zc_In. unfold one_if in One.
    destruct (Z.leb_spec 1 v), (Z.leb_spec v (f_num (w_fac w))); cbn [andb] in One; lia.
Qed.
Print Assumptions C118_totals.
(** Seven intervals of the example network: nine vehicles, two of them still under way;
    42 vehicle intervals of five seconds. *)
Example C118_case : xn_run 7 = Ok (xn_at 7) /\ time_spent 7 (s_w (xn_at 7)) = 42 /\
  exists h, travel_stats xn 5 7 (s_w (xn_at 7)) = Ok (9%Q, h, 2%Q, 7%Q) /\ (h == 42 * 5 / 3600)%Q.
Proof. split; [apply xn_run_at; vm_compute; reflexivity|]. split; [vm_compute; reflexivity|]. eexists. split; vm_compute; reflexivity. Qed.

(** * C120: matrix of link travel times *)

(** Every entry is the link's travel time read from its own curves, whatever was asked
    before in the same call; above 20 free-flow times it is reported as infinite, or cut. *)
Theorem C120_tt_matrix : forall ut cur return_inf ks starts ca m,
  tt_matrix ut cur return_inf (fun _ => -1)%Q ks starts = Ok (ca, m) ->
  length m = (length ks * length starts)%nat /\ Forall (fun s => s < cur) starts /\
  forall i t k s, nth_error ks i = Some k -> nth_error starts t = Some s ->
    exists x lv, nth_error m (i * length starts + t) = Some (reported_tt ut (k_len k) (k_ffs k) return_inf x) /\
      travel_time (k_in k) (k_out k) (k_ff k) (-1) (inject_Z (s + 1)) cur = Ok (x, lv).
Proof.
  intros ut cur ri ks starts ca m H. unfold tt_matrix in H.
  pose (J := fun ca : Z -> Q => forall i k, row_at ks i = Ok k -> Qltb (ca i) 0 = true \/ exists s t, travel_time (k_in k) (k_out k) (k_ff k) (-1) s cur = Ok (t, ca i)).
  pose (R := fun i t (a : option Q) => exists k s x lv, nth_error ks (Z.to_nat i) = Some k /\ nth_error starts (Z.to_nat t) = Some s /\ a = reported_tt ut (k_len k) (k_ffs k) ri x /\
     travel_time (k_in k) (k_out k) (k_ff k) (-1) (inject_Z (s + 1)) cur = Ok (x, lv)).
  assert (HE : forall c i t c' a, J c -> 0 <= i < Z.of_nat (length ks) -> 0 <= t < Z.of_nat (length starts) ->
    (do k <- row_at ks i; do s <- row_at starts t; do x <- travel_time (k_in k) (k_out k) (k_ff k) (c i) (inject_Z (s + 1)) cur;
     Ok (upd c i (snd x), reported_tt ut (k_len k) (k_ffs k) ri (fst x))) = Ok (c', a) -> J c' /\ R i t a).
  { clear H. intros c i t c' a Jc Hi Ht E. apply bind_ok in E as (k & Ek & E). apply bind_ok in E as (s & Es & E). apply bind_ok in E as ((x & lv) & Ex & E). cbn [fst snd] in E. apply Ok_pair in E as [-> ->].
    assert (X : travel_time (k_in k) (k_out k) (k_ff k) (-1) (inject_Z (s + 1)) cur = Ok (x, lv)).
    { destruct (Jc i k Ek) as [Neg|(s0 & t0 & E0)].
      - rewrite <- Ex. unfold travel_time. change (Qltb (-1) 0) with true. rewrite Neg. reflexivity.
      - clear - Ex E0. unfold travel_time in *. destruct (k_in k) as [ni|]; [|discriminate]. change (Qltb (-1) 0) with true in *. cbv iota in *.
        apply bind_ok in E0 as (l0 & El & E0). apply bind_ok in E0 as (u & G0 & E0). apply bind_ok in E0 as (y & _ & E0). apply Ok_pair in E0 as [_ E0]. rewrite El. cbn [bind]. rewrite <- E0 in *. clear E0.
        apply guard_ok in G0. rewrite G0. cbn [guard bind]. apply Qle_bool_iff in G0. assert (Qltb (c i) 0 = false) as Z0 by (destruct (Qltb_spec (c i) 0); [lra|reflexivity]).
        rewrite Z0 in Ex. cbn [bind] in Ex. apply bind_ok in Ex as (u' & _ & Ex). exact Ex. }
    split.
    + intros i' k' Ek'. unfold upd. destruct (Z.eqb_spec i' i) as [->|_]; [|apply Jc, Ek']. right. rewrite Ek in Ek'. apply Ok_inj in Ek' as <-. eauto.
    + exists k, s, x, lv. apply row_at_inv in Ek as [_ Ek]. apply row_at_inv in Es as [_ Es]. auto. }
  assert (J0 : J (fun _ => (-1)%Q)) by (intros i k _; left; reflexivity).
  pose proof (fill_inv _ _ _ _ J R _ _ _ _ HE J0 H) as (_ & L & C & G).
  split; [unfold Zlen in L; lia|]. split.
    + apply Forall_forall. intros s Hs. apply In_nth_error in Hs as (t & Nt). assert (Ht : 0 <= Z.of_nat t < Z.of_nat (length starts)) by (assert (t < length starts)%nat by (apply nth_error_Some; congruence); lia).
      specialize (C _ Ht). rewrite (row_at_nth _ _ _ Nt) in C. cbn [bind] in C. unfold check_start in C. destruct (Z.leb_spec cur s); [discriminate|lia].
    + intros i t k s Nk Ns. assert (Hi : 0 <= Z.of_nat i < Z.of_nat (length ks)) by (assert (i < length ks)%nat by (apply nth_error_Some; congruence); lia).
      assert (Ht : 0 <= Z.of_nat t < Z.of_nat (length starts)) by (assert (t < length starts)%nat by (apply nth_error_Some; congruence); lia).
      destruct (G _ _ Hi Ht) as (a & Na & k' & s' & x & lv & Nk' & Ns' & -> & Tx). rewrite Nat2Z.id in Nk', Ns'. rewrite Nk in Nk'. rewrite Ns in Ns'. injection Nk' as <-. injection Ns' as <-.
      exists x, lv. split; [|exact Tx]. rewrite <- Na. f_equal. lia.
Qed.
Print Assumptions C120_tt_matrix.
(** With cutting no entry is infinite, and none exceeds 20 free-flow times. *)
Theorem C120_cut : forall ut len ffs x y, reported_tt ut len ffs false x = Some y -> (y <= 20 * len / ffs)%Q /\ (y <= x * ut)%Q.
Proof.
  intros ut len ffs x y. unfold reported_tt. destruct (Qltb_spec (tt_upper_bound * len / ffs) (x * ut)) as [L|L]; intros E; injection E as <-; unfold tt_upper_bound in *; lra.
Qed.
Print Assumptions C120_cut.
(** Refuted: "a link that is never congested is not reported as infinitely slow".  A link
    whose free-flow time is below a twentieth of an interval still takes one interval in the
    simulation, which is above the bound: every entry is infinite, or cut below the time
    the link takes when empty. *)
Theorem C120_short_links_refuted : forall ut cur ks starts ca m i t k s p l ret,
  tt_matrix ut cur ret (fun _ => -1)%Q ks starts = Ok (ca, m) -> nth_error ks i = Some k -> nth_error starts t = Some s ->
  make_pq p = Ok l \/ make_ctm p = Ok l -> p_ut p = ut -> (0 < ut)%Q -> k_ff k = inject_Z (freeflow_intervals p) -> k_len k = p_len p -> k_ffs k = p_ffs p ->
  (20 * p_len p / p_ffs p < ut)%Q ->
  link_fftt l = Ok (freeflow_intervals p) /\ 1 <= freeflow_intervals p /\
  nth_error m (i * length starts + t) = Some (if ret then None else Some (20 * p_len p / p_ffs p)%Q).
Proof.
  intros ut cur ks starts ca m i t k s p l ret H Nk Ns Hl Eu Hu Ff El Es Short. destruct (C120_tt_matrix _ _ _ _ _ _ _ H) as (_ & _ & M).
  split; [apply C53_pq_ctm_in_intervals; [exact Hl|rewrite Eu; exact Hu]|]. assert (F1 : 1 <= freeflow_intervals p) by (unfold freeflow_intervals; lia). split; [exact F1|].
  destruct (M i t k s Nk Ns) as (x & lv & N & T). rewrite N. apply travel_time_floor in T. rewrite Ff, trunc_Z in T. rewrite Zle_Qle in F1.
  assert (ut <= x * ut)%Q by (change (inject_Z 1) with 1%Q in F1; nra). unfold reported_tt. rewrite El, Es. unfold tt_upper_bound.
  destruct (Qltb_spec (20 * p_len p / p_ffs p) (x * ut)); [|lra]. destruct ret; reflexivity.
Qed.
Print Assumptions C120_short_links_refuted.
(** a link of 3 m at 20 m/s, intervals of 5 s: empty and reported as infinite *)
Definition short_p : lparam := {| p_kind := KPq; p_hold := 1 # 5; p_flow := 1; p_lanes := 1; p_len := 3; p_ffs := 20; p_ut := 5; p_fs := 1 |}.
Definition short_k : tt_link := {| k_in := Some fresh_curve; k_out := Some fresh_curve; k_ff := 1; k_len := 3; k_ffs := 20 |}.
Example C120_case : (exists l, make_pq short_p = Ok l) /\ (exists ca, tt_matrix 5 10 true (fun _ => -1)%Q [short_k] [2; 4] = Ok (ca, [None; None])) /\
  exists ca, tt_matrix 5 10 true (fun _ => -1)%Q [{| k_in := Some two_curve; k_out := Some [(0, 0); (3, 1)]%Q; k_ff := 1; k_len := 100; k_ffs := 20 |}] [0] = Ok (ca, [Some 10%Q]).
Proof. split; [eexists; reflexivity|]. split; eexists; vm_compute; reflexivity. Qed.

(** * C121: path travel times *)

(** For start intervals inside the simulation the entries are the times of a vehicle that
    enters each link when it leaves the one before; start intervals after it are rejected. *)
Theorem C121_path_tt_partial : forall ut cur tabs links starts,
  (forall l, In l links -> exists row, tabs l = Some row /\ Zlen row = cur) -> Forall (fun s => 0 <= s) starts ->
  (Forall (fun s => s < cur) starts -> exists xs, path_tt_row ut cur tabs links starts = Ok xs /\
     Forall2 (fun s x => exists ts e, drive (fun l t n => exists row y, tabs l = Some row /\ nth_error row (Z.to_nat (at_or_last cur t)) = Some y /\ round_up_time y tol = Ok n) links s ts e /\
                          x = ((inject_Z e - inject_Z s) * ut)%Q) starts xs) /\
  (~ Forall (fun s => s < cur) starts -> path_tt_row ut cur tabs links starts = Err EThrow).
Proof.
  intros ut cur tabs links starts HT Pos. unfold path_tt_row. induction Pos as [|s starts P Pos [IH1 IH2]].
  - split; [exists []; split; [reflexivity|constructor]|]. intros B. destruct B. constructor.
  - cbn [mapM]. unfold check_start at 1 3. destruct (Z.leb_spec cur s) as [L|L]; cbn [bind].
    { split; [intros B; inversion B; lia|reflexivity]. }
    destruct (C39_path_time_chains tabs cur links s ltac:(lia) P) as (ts & e & Dr & E & _); [intros l Hl; exact (HT l Hl)|]. rewrite E. cbn [bind]. split.
    + intros B. inversion B as [|? ? _ B']; subst. destruct (IH1 B') as (xs & Ex & F2). rewrite Ex. cbn [bind]. eexists. split; [reflexivity|]. constructor; [exists ts, e; auto|exact F2].
    + intros B. rewrite IH2; [reflexivity|]. intros B'. apply B. constructor; auto.
Qed.
Print Assumptions C121_path_tt_partial.
(** Refuted for negative start intervals: they are not rejected, the tables are read before
    their first element. *)
Theorem C121_negative_start_refuted : forall ut cur tabs l links s starts row, 0 < cur -> s < 0 -> tabs l = Some row ->
  path_tt_row ut cur tabs (l :: links) (s :: starts) = Err EUB.
Proof.
  intros ut cur tabs l links s starts row Hc Hs Er. unfold path_tt_row. cbn [mapM]. unfold check_start at 1. destruct (Z.leb_spec cur s); [lia|]. cbn [bind].
  unfold path_travel_time. rewrite Proof_Grad4.cround_Z. cbn [chain_tb]. unfold cell_at, clamp. rewrite Er. destruct (Z.ltb_spec s cur); [|lia]. destruct (Z.ltb_spec s 0); [reflexivity|lia].
Qed.
Print Assumptions C121_negative_start_refuted.
Example C121_case : path_tt_row 5 4 ex_tt [7; 8] [0; 1] = Ok [55; 35]%Q /\ path_tt_row 5 4 ex_tt [7; 8] [0; 4] = Err EThrow /\ path_tt_row 5 4 ex_tt [7; 8] [-1] = Err EUB.
Proof. repeat split; vm_compute; reflexivity. Qed.
