(** The assignment ratio matrix. *)
From Verif Require Import Base Base_lemmas Model_Num Proof_Num Model_CC Spec_CC Proof_CC Model_Link Spec_Link Proof_Link Proof_Link3 Proof_Link4 Model_World Model_Node Proof_Node Model_Sim Proof_Sim1
  Model_Grad Spec_Grad Proof_Grad1 Model_Dso Proof_Dso Model_Api Spec_Api Proof_McNode4 Proof_Api.
Local Open Scope Z_scope.

(** flow of a curve in a window *)
Definition wflow (c : curve) (w : Z * Z) : Q := match link_flow_between (Some c) (inject_Z (fst w)) (inject_Z (snd w)) with Ok x => x | Err _ => 0%Q end.
Lemma wflow_ok c w : recorded_curve c -> window_flow c w (wflow c w).
Proof.
  intros R. unfold window_flow, wflow, link_flow_between. destruct (get_result_total c R (inject_Z (fst w))) as (r1 & _ & E1). destruct (get_result_total c R (inject_Z (snd w))) as (r2 & _ & E2).
  rewrite E1, E2. reflexivity.
Qed.
Lemma wflow_results c w : recorded_curve c -> exists a b, get_result c (inject_Z (fst w)) = Ok a /\ get_result c (inject_Z (snd w)) = Ok b /\ (b - a)%Q = wflow c w.
Proof.
  intros R. unfold wflow, link_flow_between. destruct (get_result_total c R (inject_Z (fst w))) as (r1 & _ & E1). destruct (get_result_total c R (inject_Z (snd w))) as (r2 & _ & E2).
  exists (snd r1), (snd r2). rewrite E1, E2. auto.
Qed.

(** closed forms of the records of one link and window *)
Definition flowing (pm : Z -> option Z) (w : Z * Z) (x : (Z * Z) * curve) : option (Z * Q) :=
  match pm (fst (fst x)) with None => None | Some pi => if Qltb dbl_eps (wflow (snd x) w) then Some (pi, wflow (snd x) w) else None end.
Definition rec1 pm (l : Z) w (x : (Z * Z) * curve) : list dar :=
  match flowing pm w x with
  | Some (_, fl) => [{| da_path := fst (fst x); da_int := snd (fst x); da_link := l; da_start := inject_Z (fst w); da_flow := fl |}]
  | None => [] end.
Definition trip1 pm w row np (f : list Q) (x : (Z * Z) * curve) : list (Z * Z * Q) :=
  match flowing pm w x with
  | Some (pi, fl) => let y := pi + np * snd (fst x) in [(row, y, (fl / nth (Z.to_nat y) f 0)%Q)]
  | None => [] end.
Definition is_some {A} (o : option A) : bool := match o with Some _ => true | None => false end.

Lemma dar_closed pm l w t : (forall x, In x t -> recorded_curve (snd x)) -> forall acc,
  add_dar_records acc (fun q => is_some (pm q)) l (Some t) (inject_Z (fst w)) (inject_Z (snd w)) = Ok (acc ++ flat_map (rec1 pm l w) t).
Proof.
  unfold add_dar_records. induction t as [|x t IH]; intros R acc; cbn [foldM flat_map]; [now rewrite app_nil_r|].
  unfold dar_step at 1, rec1 at 1, flowing. destruct (wflow_results (snd x) w (R x (or_introl eq_refl))) as (a & b & Ea & Eb & Ed).
  destruct (pm (fst (fst x))) as [pi|]; cbn [is_some bind app]; [|apply IH; intros; apply R; now right].
  rewrite Ea, Eb. cbn [bind]. rewrite Ed. destruct (Qltb dbl_eps (wflow (snd x) w)); cbn [bind app]; rewrite IH by (intros; apply R; now right); [|reflexivity].
  now rewrite <- app_assoc.
Qed.
Lemma eigen_closed pm w li ii ne np f t : (forall x, In x t -> recorded_curve (snd x)) ->
  (forall x pi fl, In x t -> flowing pm w x = Some (pi, fl) -> 0 <= pi + np * snd (fst x) /\ exists fy, nth_error f (Z.to_nat (pi + np * snd (fst x))) = Some fy /\ ~ (fy == 0)%Q) -> forall acc,
  add_dar_records_eigen acc pm (Some t) (inject_Z (fst w)) (inject_Z (snd w)) li ii ne np f = Ok (acc ++ flat_map (trip1 pm w (li + ne * ii) np f) t).
Proof.
  unfold add_dar_records_eigen. induction t as [|x t IH]; intros R Hf acc; cbn [foldM flat_map]; [now rewrite app_nil_r|].
  assert (IH' : forall acc, foldM (eigen_step pm (inject_Z (fst w)) (inject_Z (snd w)) li ii ne np f) acc t = Ok (acc ++ flat_map (trip1 pm w (li + ne * ii) np f) t)).
  { apply IH; [intros; apply R; now right|]. intros y pi fl Hy. apply Hf. now right. }
  pose proof (Hf x) as Hx. unfold eigen_step at 1, trip1 at 1. unfold flowing in Hx |- *. destruct (wflow_results (snd x) w (R x (or_introl eq_refl))) as (a & b & Ea & Eb & Ed).
  destruct (pm (fst (fst x))) as [pi|]; cbn [bind app]; [|apply IH'].
  rewrite Ea, Eb. cbn [bind]. rewrite Ed. destruct (Qltb dbl_eps (wflow (snd x) w)); cbn [bind app]; [|apply IH'].
  destruct (Hx pi _ (or_introl eq_refl) eq_refl) as (P & fy & N & NZ). destruct (Z.ltb_spec (pi + np * snd (fst x)) 0); [lia|]. rewrite N.
  destruct (Qeq_bool fy 0) eqn:Q0; [apply Qeq_bool_iff in Q0; contradiction|]. cbn [negb guard bind]. rewrite IH', <- app_assoc. cbn [app].
  rewrite (nth_error_nth _ _ 0%Q N). reflexivity.
Qed.
Lemma save_closed pm w row np f t l : (forall x, In x t -> recorded_curve (snd x)) -> (forall p pi, pm p = Some pi -> pi = p) ->
  (forall x pi fl, In x t -> flowing pm w x = Some (pi, fl) -> 0 <= pi + np * snd (fst x) /\ exists fy, nth_error f (Z.to_nat (pi + np * snd (fst x))) = Some fy /\ ~ (fy == 0)%Q) ->
  mapM (save_line np f row) (flat_map (rec1 pm l w) t) = Ok (flat_map (trip1 pm w row np f) t).
Proof.
  intros R Hid. induction t as [|x t IH]; intros Hf; cbn [flat_map]; [reflexivity|]. pose proof (IH (fun y Hy => R y (or_intror Hy)) (fun y pi fl Hy => Hf y pi fl (or_intror Hy))) as IH'.
  pose proof (Hf x) as Hx. unfold rec1 at 1, trip1 at 1. destruct (flowing pm w x) as [[pi fl]|] eqn:F; [|exact IH'].
  destruct (Hx pi fl (or_introl eq_refl) eq_refl) as (P & fy & N & NZ). cbn [app mapM]. unfold save_line at 1. cbn [da_path da_int da_flow].
  assert (pi = fst (fst x)). { apply Hid. unfold flowing in F. destruct (pm (fst (fst x))) as [q|]; [|discriminate]. destruct (Qltb _ _); [|discriminate]. injection F as -> _. reflexivity. }
  rewrite <- H. unfold row_at. destruct (Z.ltb_spec (pi + np * snd (fst x)) 0); [lia|]. rewrite N. cbn [bind].
  destruct (Qeq_bool fy 0) eqn:Q0; [apply Qeq_bool_iff in Q0; contradiction|]. cbn [negb guard bind]. rewrite IH'. cbn [bind]. rewrite (nth_error_nth _ _ 0%Q N). reflexivity.
Qed.

(** the loops *)
Lemma ow_append {X} cur nl w (f : list X -> Z -> Z -> Z * Z -> res (list X)) (new : Z -> Z -> Z * Z -> list X) :
  Forall (good_window cur) w ->
  (forall acc i t p, 0 <= i < Z.of_nat nl -> nth_error w (Z.to_nat t) = Some p -> 0 <= t -> f acc i t p = Ok (acc ++ new i t p)) -> forall s,
  over_windows cur nl w f s = Ok (s ++ flat_map (fun i => flat_map (fun t => match nth_error w (Z.to_nat t) with Some p => new i t p | None => [] end) (ints 0 (length w))) (ints 0 nl)).
Proof.
  intros G Hf. unfold over_windows.
  assert (Inner : forall i, 0 <= i < Z.of_nat nl -> forall n k s, 0 <= k -> k + Z.of_nat n = Zlen w ->
    foldM (fun y t => do p <- row_at w t; do _ <- check_window cur p; f y i t p) s (ints k n) =
    Ok (s ++ flat_map (fun t => match nth_error w (Z.to_nat t) with Some p => new i t p | None => [] end) (ints k n))).
  { intros i Hi. induction n as [|n IH]; intros k s Hk En; [cbn; now rewrite app_nil_r|]. rewrite ints_S. cbn [foldM flat_map].
    destruct (row_at_ok w k) as (p & N & E); [lia|]. rewrite E, N. cbn [bind]. rewrite Forall_forall in G. pose proof (G p (nth_error_In _ _ N)) as Gp.
    destruct (check_window_cases cur p) as [[C _]|[_ C]]; [|contradiction]. rewrite C. cbn [bind]. rewrite (Hf s i k p Hi N Hk). cbn [bind]. rewrite IH by lia. now rewrite <- app_assoc. }
  assert (Outer : forall n k s, 0 <= k -> k + Z.of_nat n = Z.of_nat nl ->
    foldM (fun x i => foldM (fun y t => do p <- row_at w t; do _ <- check_window cur p; f y i t p) x (ints 0 (length w))) s (ints k n) =
    Ok (s ++ flat_map (fun i => flat_map (fun t => match nth_error w (Z.to_nat t) with Some p => new i t p | None => [] end) (ints 0 (length w))) (ints k n))).
  { induction n as [|n IH]; intros k s Hk En; [cbn; now rewrite app_nil_r|]. rewrite ints_S. cbn [foldM flat_map]. rewrite (Inner k) by (try lia; unfold Zlen; lia). cbn [bind].
    rewrite IH by lia. now rewrite <- app_assoc. }
  intros s. apply Outer; lia.
Qed.
Lemma ow_bad {X} cur nl w (f : list X -> Z -> Z -> Z * Z -> res (list X)) s : (0 < nl)%nat ->
  (forall acc i t p, 0 <= i < Z.of_nat nl -> exists x, f acc i t p = Ok x) -> ~ Forall (good_window cur) w -> over_windows cur nl w f s = Err EThrow.
Proof.
  intros Hn Hf NG. destruct nl as [|nl]; [lia|]. unfold over_windows. rewrite ints_S. cbn [foldM].
  assert (Inner : forall n k s, 0 <= k -> k + Z.of_nat n = Zlen w -> ~ Forall (good_window cur) (skipn (Z.to_nat k) w) ->
    foldM (fun y t => do p <- row_at w t; do _ <- check_window cur p; f y 0 t p) s (ints k n) = Err EThrow).
  { induction n as [|n IH]; intros k s0 Hk En NB.
    - exfalso. apply NB. rewrite skipn_all2; [constructor|]. unfold Zlen in En. lia.
    - rewrite ints_S. cbn [foldM]. destruct (row_at_ok w k) as (p & N & E); [lia|]. rewrite E. cbn [bind].
      destruct (check_window_cases cur p) as [[C Gp]|[C _]]; rewrite C; cbn [bind]; [|reflexivity].
      destruct (Hf s0 0 k p) as (x & Ex); [lia|]. rewrite Ex. cbn [bind]. apply IH; [lia|lia|]. intros B. apply NB.
      replace (Z.to_nat (k + 1)) with (S (Z.to_nat k)) in B by lia. clear - N B Gp. revert N B. generalize (Z.to_nat k). intros m. revert w.
      induction m as [|m IH]; intros [|q w] N B; try discriminate; [injection N as ->; constructor; auto|]. apply IH; assumption. }
  rewrite Inner; [reflexivity|lia|unfold Zlen; lia|exact NG].
Qed.

Lemma sumQ_flat {X Y} (g : Y -> Q) (F : X -> list Y) L : (sumQ (map g (flat_map F L)) == sumQ (map (fun a => sumQ (map g (F a))) L))%Q.
Proof. rewrite flat_map_concat_map, sumQ_map_concat, map_map. reflexivity. Qed.
Lemma ints_NoDup a n : NoDup (ints a n).
Proof. unfold ints. apply FinFun.Injective_map_NoDup; [intros x y H; lia|apply seq_NoDup]. Qed.
Lemma sumQ_ext_in {X} (g h : X -> Q) L : (forall x, In x L -> (g x == h x)%Q) -> (sumQ (map g L) == sumQ (map h L))%Q.
Proof. induction L as [|x L IH]; intros H; [reflexivity|]. unfold sumQ. cbn [map fold_right]. fold (sumQ (map g L)) (sumQ (map h L)). rewrite (H x) by now left. rewrite IH by (intros; apply H; now right). reflexivity. Qed.
Lemma col_inj np pi pi' i i' : 0 <= pi < np -> 0 <= pi' < np -> pi + np * i = pi' + np * i' -> pi = pi' /\ i = i'.
Proof. intros H H' E. assert (i = i'); [|lia]. destruct (Z.lt_trichotomy i i') as [L|[L|L]]; [|exact L|]; nia. Qed.
Lemma add_dar_ext P P' l tr s e : (forall p, P p = P' p) -> forall acc, add_dar_records acc P l (Some tr) s e = add_dar_records acc P' l (Some tr) s e.
Proof.
  intros X. unfold add_dar_records. induction tr as [|z tr IH]; intros acc; [reflexivity|]. cbn [foldM]. unfold dar_step at 1 3. rewrite X.
  match goal with |- bind ?u _ = bind ?u' _ => change u' with u; destruct u; [apply IH|reflexivity] end.
Qed.
