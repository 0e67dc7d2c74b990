(** C169-C174: link-travel-time gradients of the two-class calls. *)
From Verif Require Import Base Base_lemmas Model_Num Proof_Num Model_CC Spec_CC Model_Link Proof_Link4 Model_Node Proof_Node2 Proof_Node4 Proof_Safe2 Spec_Grad Model_Grad Proof_Grad1 Proof_Grad2
  Model_Dso Proof_Dso Prop_Dso Model_Api Model_Ltg Spec_Ltg Proof_Ltg Proof_Ltg2.
Local Open Scope Z_scope.

Lemma stretches_ok c ut cur thr links net paths starts xs p ids s l : stretches c ut cur thr links net paths starts = Ok xs -> In (p, ids) paths -> In l links -> In l ids -> In s starts ->
  existsb (fun l => memb l ids) links = true /\ s < cur /\ exists r, pass_links c ut cur thr (fun i => memb i links) net ids s (-1) = Ok r.
Proof.
  intros H Hp Hl Hi Hs. assert (B : existsb (fun l => memb l ids) links = true) by (apply existsb_exists; exists l; split; [exact Hl|now apply memb_In]). split; [exact B|].
  apply stretches_parts in H as (rs & F & ->). destruct (Forall2_In_l _ _ _ _ F Hp) as (r & _ & Pr). cbn [snd] in Pr. rewrite B in Pr. destruct Pr as (qs & Fq & _).
  destruct (Forall2_In_l _ _ _ _ Fq Hs) as (q & _ & L & r0 & E & _). cbn [snd] in E. eauto.
Qed.
Lemma rows_In c ut cur thr links net paths starts rows xs : stretches c ut cur thr links net paths starts = Ok xs -> ltg_matrix c ut cur thr links net paths starts = Ok rows ->
  forall r, In r rows <-> exists a v, In (o_path r, o_start r, (o_link r, a, v, o_grad r)) xs /\ a <= o_int r < v.
Proof.
  intros E H. unfold ltg_matrix in H. rewrite E in H. injection H as <-. intros r. rewrite in_flat_map. split.
  - intros ([[p s] [[[l a] v] g]] & Hx & Hr). cbn [grow_rows] in Hr. apply in_map_iff in Hr as (t & <- & Ht). apply ints_In' in Ht. cbn [o_path o_start o_link o_int o_grad]. exists a, v. split; [exact Hx|]. lia.
  - intros (a & v & Hx & L). eexists. split; [exact Hx|]. cbn [grow_rows]. apply in_map_iff. exists (o_int r). split; [destruct r; reflexivity|]. apply ints_In'. lia.
Qed.

(** C169: each row of the table is a delay that the extra vehicle of a registered path and
    a given start interval causes on a registered link, not before it started; and every
    such delay has a row.  The gradients are positive. *)
Theorem C169_rows : forall c ut cur thr links net paths starts rows,
  (forall i l o, net i = Some l -> t_out (tabs_of c l) = Some o -> recorded_curve o) ->
  ltg_matrix c ut cur thr links net paths starts = Ok rows ->
  (forall r, In r rows -> In (o_start r) starts /\ o_start r < cur /\ o_start r <= o_int r /\ (0 < ut -> 0 < o_grad r)%Q /\
     delays c ut cur thr links net paths (o_path r) (o_start r) (o_link r) (o_int r) (o_grad r)) /\
  (forall p s l t g, In s starts -> delays c ut cur thr links net paths p s l t g ->
     exists r, In r rows /\ o_path r = p /\ o_start r = s /\ o_link r = l /\ o_int r = t /\ (o_grad r == g)%Q).
Proof.
  intros c ut cur thr links net paths starts rows Ho H. assert (Ho' : forall i l, net i = Some l -> recorded_out (tabs_of c l)) by (intros i l E o Eo; eapply Ho; eauto).
  destruct (stretches c ut cur thr links net paths starts) as [xs|e] eqn:Ex; [|unfold ltg_matrix in H; rewrite Ex in H; discriminate].
  pose proof (rows_In _ _ _ _ _ _ _ _ _ _ Ex H) as R. split.
  - intros r Hr. apply R in Hr as (a & v & Hx & L). apply (stretches_In _ _ _ _ _ _ _ _ _ _ _ _ Ex) in Hx as (ids & Hp & _ & Hs & Ls & r0 & E0 & Hin).
    destruct (pass_links_spec _ _ _ _ _ _ Ho' _ _ _ _ E0) as [P1 _]. destruct (P1 _ _ _ _ Hin) as (pre & post & lk & x & y & -> & W & En & Al & D1 & D2 & O & La & Lv).
    split; [exact Hs|]. split; [exact Ls|]. split; [lia|]. split.
    + intros U. destruct La as (_ & p & d & f & e & o & z & _ & _ & _ & _ & _ & Q). cbv zeta in Q. destruct Q as (Q1 & _ & _ & Q2 & Q3).
      assert (N : (0 < inject_Z (Z.min e (cur - 1) + 1 - p))%Q) by (change 0%Q with (inject_Z 0); rewrite <- Zlt_Qlt; lia). rewrite Q3. pose proof eps_pos.
      assert (0 < z)%Q by (eapply Qlt_trans; [|exact Q2]; nra). apply Qlt_shift_div_l; [assumption|]. nra.
    + exists pre, post, lk, x, a, y, v. split; [exact Hp|]. split; [apply memb_In; exact W|]. auto.
  - intros p s l t g Hs (pre & post & lk & x & a & y & v & Hp & Hl & En & Al & O & La & L).
    destruct (stretches_ok _ _ _ _ _ _ _ _ _ _ _ s l Ex Hp Hl ltac:(apply in_or_app; right; left; reflexivity) Hs) as (B & Ls & r0 & E0).
    destruct (pass_links_spec _ _ _ _ _ _ Ho' _ _ _ _ E0) as [_ P2]. destruct (P2 pre l post lk x a y v g eq_refl (proj2 (memb_In _ _) Hl) En Al O La) as (g' & Hin & Eg).
    exists {| o_path := p; o_start := s; o_link := l; o_int := t; o_grad := g' |}. cbn [o_path o_start o_link o_int o_grad]. split; [|auto]. apply R. exists a, v. cbn [o_path o_start o_link o_int o_grad]. split; [|exact L].
    apply (stretches_In _ _ _ _ _ _ _ _ _ _ _ _ Ex). eauto 10.
Qed.
Print Assumptions C169_rows.

(** a connector (point-queue link 1, one interval) and a road (cell link 2) that is
    congested in intervals 1 to 3, of eight *)
Definition ex_connector : gtabs := {| t_tt := repeat 1%Q 8; t_cong := repeat false 8; t_diss := ints 0 8; t_ff := 1; t_out := Some (counts [0; 1; 2; 3; 4; 5; 5; 5; 5])%Q |}.
Definition ex_road : gtabs := {| t_tt := [1; 2; 3; 2; 1; 1; 1; 1]%Q; t_cong := [false; true; true; true; false; false; false; false]; t_diss := [0; 4; 4; 4; 4; 5; 6; 7]; t_ff := 1;
  t_out := Some (counts [0; 0; 1; 2; 3; 4; 5; 5; 5])%Q |}.
Definition ex_net (lv : Q) (i : Z) : option glink :=
  if i =? 1 then Some {| g_kind := GPq; g_cars := ex_connector; g_trucks := ex_connector; g_lv := 8; g_lv_truck := 8 |}
  else if i =? 2 then Some {| g_kind := GCtm; g_cars := ex_road; g_trucks := ex_road; g_lv := lv; g_lv_truck := 8 |} else None.
Definition key (r : grow) : Z * Z * Z * Z * Q := (o_path r, o_start r, o_link r, o_int r, Qred (o_grad r)).
Example C169_case : exists rows, ltg_matrix Cars 5 8 100 [2] (ex_net 8) [(7, [1; 2])] [0; 1] = Ok rows /\
  map key rows = [(7, 0, 2, 1, 5%Q); (7, 0, 2, 2, 5%Q); (7, 0, 2, 3, 5%Q)].
Proof. eexists. split; vm_compute; reflexivity. Qed.
Lemma ex_net_rec lv c i l o : ex_net lv i = Some l -> t_out (tabs_of c l) = Some o -> recorded_curve o.
Proof.
  unfold ex_net. intros E. destruct (i =? 1); [|destruct (i =? 2); [|discriminate]]; injection E as <-; destruct c; cbn [tabs_of g_cars g_trucks t_out ex_connector ex_road]; intros E; injection E as <-; rec_curve.
Qed.

Lemma foldM_same {A B} (f g : B -> A -> res B) : (forall acc x, f acc x = g acc x) -> forall l acc, foldM f acc l = foldM g acc l.
Proof. intros H. induction l as [|x l IH]; intros acc; [reflexivity|]. cbn [foldM]. rewrite H. destruct (g acc x); [cbn [bind]; apply IH|reflexivity]. Qed.
(** C170: the table of the cars depends on the data of the cars only. *)
Definition same_for (c : cls) (n n' : Z -> option glink) : Prop :=
  forall i, match n i, n' i with
            | Some l, Some l' => g_kind l = g_kind l' /\ (match c with Cars => g_cars l = g_cars l' /\ g_lv l = g_lv l' | Trucks => g_trucks l = g_trucks l' /\ g_lv_truck l = g_lv_truck l' end)
            | None, None => True
            | _, _ => False
            end.
Lemma matrix_ext (R : glink -> glink -> Prop) c : (forall l l', R l l' -> g_kind l = g_kind l' /\ tabs_of c l = tabs_of c l' /\ g_lv l = g_lv l') ->
  forall ut cur thr links net net' paths starts,
  (forall i, match net i, net' i with Some l, Some l' => R l l' | None, None => True | _, _ => False end) ->
  ltg_matrix c ut cur thr links net paths starts = ltg_matrix c ut cur thr links net' paths starts.
Proof.
  intros HR ut cur thr links net net' paths starts S0. unfold ltg_matrix. f_equal. unfold stretches.
  assert (P : forall w ids dep lift, pass_links c ut cur thr w net ids dep lift = pass_links c ut cur thr w net' ids dep lift).
  { intros w. induction ids as [|i ids IH]; intros dep lift; [reflexivity|]. cbn [pass_links]. specialize (S0 i). destruct (net i) as [l|], (net' i) as [l'|]; try contradiction; [|reflexivity].
    apply HR in S0. destruct S0 as (S1 & S2 & S3). assert (E : pass_link c ut cur thr (w i) l dep lift = pass_link c ut cur thr (w i) l' dep lift) by (unfold pass_link; rewrite S1, S2, S3; reflexivity).
    rewrite E. destruct (pass_link c ut cur thr (w i) l' dep lift) as [[[[[dep' lift'] a] m]|]|]; [|reflexivity|reflexivity]. cbn [bind]. now rewrite IH. }
  apply foldM_same. intros acc p. destruct (existsb _ links); [|reflexivity]. apply foldM_same. intros acc0 s. now rewrite P.
Qed.
Theorem C170_cars : forall ut cur thr links net net' paths starts, same_for Cars net net' ->
  ltg_matrix Cars ut cur thr links net paths starts = ltg_matrix Cars ut cur thr links net' paths starts.
Proof. intros. eapply matrix_ext; [|exact H]. cbn. intros l l'. tauto. Qed.
Print Assumptions C170_cars.
Example C170_case : same_for Cars (ex_net 8) (ex_net 8) /\ same_for Trucks (ex_net 8) (ex_net 1) /\ ~ same_for Cars (ex_net 8) (ex_net 1).
Proof.
  split; [|split].
  - intros i. destruct (ex_net 8 i); auto.
  - intros i. unfold ex_net. destruct (i =? 1); [auto|]. destruct (i =? 2); cbn; auto.
  - intros H. specialize (H 2). cbn in H. destruct H as (_ & _ & H). discriminate.
Qed.
(** C170 (refuted): "and the table of the trucks on that of the trucks only".  Both are
    computed up to the time until which the travel times of the cars are known: rows of
    the trucks are lost when cars are still waiting on the link. *)
Theorem C170_trucks_refuted : exists net net' rows, same_for Trucks net net' /\ (forall i l o, net i = Some l -> t_out (tabs_of Trucks l) = Some o -> recorded_curve o) /\
  ltg_matrix Trucks 5 8 100 [2] net [(7, [1; 2])] [0] = Ok rows /\ Zlen rows = 3 /\ ltg_matrix Trucks 5 8 100 [2] net' [(7, [1; 2])] [0] = Ok [].
Proof.
  exists (ex_net 8), (ex_net 1). eexists. split; [apply C170_case|]. split; [intros i l o; apply ex_net_rec|]. split; [vm_compute; reflexivity|]. split; reflexivity.
Qed.
Print Assumptions C170_trucks_refuted.
(** the actual behaviour: the table of the trucks depends on the tables of the trucks and on
    the time until which those of the cars are known *)
Theorem C170_trucks_partial : forall ut cur thr links net net' paths starts,
  (forall i, match net i, net' i with
             | Some l, Some l' => g_kind l = g_kind l' /\ g_trucks l = g_trucks l' /\ g_lv l = g_lv l'
             | None, None => True
             | _, _ => False
             end) ->
  ltg_matrix Trucks ut cur thr links net paths starts = ltg_matrix Trucks ut cur thr links net' paths starts.
Proof. intros ut cur thr links net net' paths starts H. eapply (matrix_ext (fun l l' => g_kind l = g_kind l' /\ g_trucks l = g_trucks l' /\ g_lv l = g_lv l')); [|exact H]. cbn. intros l l'. tauto. Qed.
Print Assumptions C170_trucks_partial.

Lemma foldM_ok {A B} (g : B -> A -> res B) : forall l, (forall x acc, In x l -> exists out, g acc x = Ok out) -> forall acc, exists out, foldM g acc l = Ok out.
Proof.
  induction l as [|x l IH]; intros H acc; [cbn; eauto|]. cbn [foldM]. destruct (H x acc (or_introl eq_refl)) as (o & ->). cbn [bind]. apply IH. intros y a Hy. apply H. now right.
Qed.
(** C171: with tables of travel times that keep the order of vehicles, the call returns for
    all paths that begin on a point-queue link and go on over point-queue and cell links,
    and all start intervals of the loading. *)
Theorem C171_returns : forall c ut cur thr links net paths starts,
  (forall s, In s starts -> 0 <= s < cur) ->
  (forall p, In p paths -> (exists l, In l links /\ In l (snd p)) -> traceable c cur net (snd p)) ->
  exists rows, ltg_matrix c ut cur thr links net paths starts = Ok rows.
Proof.
  intros c ut cur thr links net paths starts Hs Hp. unfold ltg_matrix, stretches.
  destruct (foldM_ok (fun acc p => if existsb (fun l => memb l (snd p)) links then
             foldM (fun acc s => do _ <- guard (s <? cur) EThrow; do r <- pass_links c ut cur thr (fun i => memb i links) net (snd p) s (-1); Ok (acc ++ map (fun x => (fst p, s, x)) r)) acc starts
           else Ok acc) paths) with (acc := @nil (Z * Z * stretch)) as (xs & ->); [|cbn [bind]; eauto].
  intros p acc Hin. destruct (existsb (fun l => memb l (snd p)) links) eqn:B; [|eauto]. apply existsb_exists in B as (l & Hl & Hm). apply memb_In in Hm. destruct (Hp p Hin (ex_intro _ l (conj Hl Hm))) as [T1 T2].
  apply foldM_ok. intros s acc0 Hin0. destruct (Hs s Hin0) as [S1 S2]. rewrite (proj2 (Z.ltb_lt s cur) S2). cbn [guard bind].
  destruct (pass_links_total c ut cur thr (fun i => memb i links) net ltac:(lia) (snd p) s (-1) T1 S1 (or_intror T2)) as (r & ->). cbn [bind]. eauto.
Qed.
Print Assumptions C171_returns.

Definition leaves_of (tb : gtabs) (cur t : Z) : Z := match leave tb cur t with Ok t' => t' | Err _ => -1 end.
Lemma check_consistent tb lv cur o f : Zlen (t_tt tb) = cur -> Zlen (t_cong tb) = cur -> Zlen (t_diss tb) = cur -> (0 < lv <= inject_Z cur)%Q -> t_out tb = Some o -> recorded_curve o -> free_time tb f -> 0 < cur ->
  forallb (fun t => leaves_of tb cur t <=? leaves_of tb cur (t + 1)) (ints 0 (Z.to_nat cur)) = true ->
  forallb (fun t => let d := nth (Z.to_nat t) (t_diss tb) 0 in (t <=? d) && (negb (nth (Z.to_nat t) (t_cong tb) false) || (t <? d)) && (leaves_of tb cur t <=? d + f)) (ints 0 (Z.to_nat cur)) = true ->
  consistent tb lv cur.
Proof.
  intros L1 L2 L3 V Eo Ro Ef C F1 F2. rewrite forallb_forall in F1, F2.
  assert (M1 : forall t t', 0 <= t -> leaves tb cur t t' -> t' = leaves_of tb cur t) by (intros t t' _ L; unfold leaves_of; now rewrite (proj2 (leave_iff _ _ _ _) L)).
  assert (M2 : forall t, 0 <= t -> leaves_of tb cur t <= leaves_of tb cur (t + 1)).
  { intros t Ht. destruct (Z.lt_ge_cases t cur) as [L|L]; [apply Z.leb_le, F1, ints_In'; lia|]. unfold leaves_of, leave. rewrite (proj2 (Z.ltb_ge t cur)), (proj2 (Z.ltb_ge (t + 1) cur)) by lia.
    destruct (row_at (t_tt tb) (cur - 1)) as [x|]; [|cbn; lia]. cbn [bind]. destruct (round_up_time x tol); cbn; lia. }
  assert (M3 : forall n t, 0 <= t -> leaves_of tb cur t <= leaves_of tb cur (t + Z.of_nat n)).
  { induction n as [|n IH]; intros t Ht; [rewrite Z.add_0_r; lia|]. specialize (IH t Ht). specialize (M2 (t + Z.of_nat n) ltac:(lia)). replace (t + Z.of_nat (S n)) with (t + Z.of_nat n + 1) by lia. lia. }
  assert (M4 : forall t d, entry (t_diss tb) t d -> 0 <= t < cur /\ nth (Z.to_nat t) (t_diss tb) 0 = d).
  { intros t d [E0 E]. split; [|now apply nth_error_nth]. split; [exact E0|]. assert (X : (Z.to_nat t < length (t_diss tb))%nat) by (apply nth_error_Some; congruence). unfold Zlen in L3. lia. }
  constructor; auto.
  - intros t u t' u' H Lt Lu. rewrite (M1 t t' ltac:(lia) Lt), (M1 u u' ltac:(lia) Lu). replace u with (t + Z.of_nat (Z.to_nat (u - t))) by lia. apply M3. lia.
  - intros t d Ed. destruct (M4 t d Ed) as [B E]. specialize (F2 t ltac:(apply ints_In'; lia)). cbv zeta in F2. rewrite E in F2. apply andb_prop in F2 as [F2 _]. apply andb_prop in F2 as [F2 F3]. apply Z.leb_le in F2. split; [exact F2|].
    intros [_ Ec]. rewrite (nth_error_nth _ _ _ Ec) in F3. cbn [negb orb] in F3. now apply Z.ltb_lt.
  - intros t d g p Ed _ Eg Lp. pose proof (free_fun _ _ _ Ef Eg) as <-. destruct (M4 t d Ed) as [B E]. specialize (F2 t ltac:(apply ints_In'; lia)). cbv zeta in F2. rewrite E in F2. apply andb_prop in F2 as [_ F2]. apply Z.leb_le in F2.
    rewrite (M1 t p ltac:(lia) Lp). exact F2.
  - eauto.
Qed.
Example C171_case : traceable Cars 8 (ex_net 8) [1; 2] /\ traceable Trucks 8 (ex_net 1) [1; 2].
Proof.
  assert (K1 : consistent ex_connector 8 8). { eapply check_consistent with (f := 1); try reflexivity; [split; [reflexivity|discriminate]|rec_curve]. }
  assert (K2 : forall lv, (0 < lv <= 8)%Q -> consistent ex_road lv 8). { intros lv B. eapply check_consistent with (f := 1); try reflexivity; [exact B|rec_curve]. }
  split; (split; [intros i [<-|[<-|[]]]; eexists; split; [reflexivity| |reflexivity|]; (split; [cbn; tauto|]); cbn; auto; apply K2; split; reflexivity || discriminate|eexists _, _, _; split; [reflexivity|split; reflexivity]]).
Qed.

(** C172 (refuted): "the call returns for every registered path".  It fails on a path that
    begins with a cell link, and on every path over a link on which cars stand since the
    first interval (no travel time of theirs is known: [lv] is 0). *)
Theorem C172_every_path_refuted : 
  (exists tb, consistent tb 8 8 /\
     ltg_matrix Cars 5 8 100 [2] (fun _ => Some {| g_kind := GCtm; g_cars := tb; g_trucks := tb; g_lv := 8; g_lv_truck := 8 |}) [(0, [2])] [0] = Err EAssert) /\
  (exists nin nout, recorded_curve nin /\ recorded_curve nout /\ last_valid_time nin nout 8 = Ok 0%Q /\
     ltg_matrix Cars 5 8 100 [2] (ex_net 0) [(0, [1; 2])] [0] = Err EAssert /\ ltg_matrix Trucks 5 8 100 [2] (ex_net 0) [(0, [1; 2])] [0] = Err EAssert).
Proof.
  split.
  - exists ex_road. split; [|vm_compute; reflexivity]. eapply check_consistent with (f := 1); try reflexivity; [split; [reflexivity|discriminate]|rec_curve].
  - exists (counts [0; 1; 2; 3; 3; 3; 3; 3; 3])%Q, (counts [0; 0; 0; 0; 0; 0; 0; 0; 0])%Q. split; [rec_curve|]. split; [rec_curve|]. repeat split; vm_compute; reflexivity.
Qed.
Print Assumptions C172_every_path_refuted.

(** * The matrix *)
Lemma sum_flat {A B} (F : B -> Q) (G : A -> list B) xs : (sumQ (map F (flat_map G xs)) == sumQ (map (fun x => sumQ (map F (G x))) xs))%Q.
Proof. induction xs as [|x xs IH]; [reflexivity|]. cbn [flat_map map]. rewrite map_app, sumQ_app, IH. reflexivity. Qed.
Lemma sum_same {A} (F G : A -> Q) xs : (forall x, In x xs -> (F x == G x)%Q) -> (sumQ (map F xs) == sumQ (map G xs))%Q.
Proof.
  induction xs as [|x xs IH]; intros H; [reflexivity|]. cbn [map]. change (sumQ (F x :: map F xs)) with (F x + sumQ (map F xs))%Q. change (sumQ (G x :: map G xs)) with (G x + sumQ (map G xs))%Q.
  rewrite (H x (or_introl eq_refl)), IH; [reflexivity|]. intros y Hy. apply H. now right.
Qed.
Lemma complete_sum c ut cur thr ai n links net paths starts rows m : ltg_matrix c ut cur thr links net paths starts = Ok rows -> complete_ltg c ut cur thr ai n links net paths starts = Ok m ->
  forall x y, (m x y == sumQ (map (fun r => if (link_ind links (o_link r) + Zlen links * Z.quot (o_int r) ai =? x)%Z && (o_path r + Zlen paths * Z.quot (o_start r) ai =? y)%Z then o_grad r else 0%Q) rows))%Q.
Proof.
  intros H1 H2 x y. unfold ltg_matrix in H1. unfold complete_ltg in H2. destruct (stretches c ut cur thr links net paths starts) as [xs|]; [|discriminate]. cbn [bind] in H1, H2. injection H1 as <-. unfold from_triplets in H2.
  apply bind_ok in H2 as (uu & _ & H2). injection H2 as <-. rewrite !sum_flat. apply sum_same. intros [[p s] [[[l a] v] g]] _. cbn [grow_rows]. rewrite !map_map. cbn [cell_of fst snd o_path o_start o_link o_int o_grad].
  set (H := fun t : Z => (link_ind links l + Zlen links * Z.quot t ai =? x) && (p + Zlen paths * Z.quot s ai =? y)).
  destruct (Z.lt_ge_cases a v) as [L|L].
  - pose proof (grouped_sum ai H (fun q => (link_ind links l + Zlen links * q =? x) && (p + Zlen paths * Z.quot s ai =? y)) a v g (fun _ => eq_refl) L) as E. unfold sumH in E. rewrite map_map in E. cbn [fst snd] in E. exact E.
  - unfold grouped. replace (Z.to_nat (v - a)) with 0%nat by lia. reflexivity.
Qed.
Lemma link_ind_spec links l : In l links -> 0 <= link_ind links l < Zlen links /\ nth_error links (Z.to_nat (link_ind links l)) = Some l.
Proof.
  unfold Zlen. induction links as [|x links IH]; [intros []|]. intros H. cbn [link_ind length]. destruct (Z.eqb_spec x l) as [-> |N]; [split; [lia|reflexivity]|]. destruct H as [H|H]; [contradiction|]. destruct (IH H) as [B E]. split; [lia|].
  replace (Z.to_nat (1 + link_ind links l)) with (S (Z.to_nat (link_ind links l))) by lia. exact E.
Qed.
Lemma cell_unique nl i k i' k' : 0 <= i < nl -> 0 <= i' < nl -> (i + nl * k = i' + nl * k' <-> i = i' /\ k = k').
Proof. intros A B. split; [|intros [-> ->]; reflexivity]. intros E. assert (k = k') by nia. split; [nia|assumption]. Qed.

(** C173: with path IDs 0, 1, 2, ... in the order of registration, the entry of link number
    [i] and path number [p] for the assignment intervals [k] and [n] is the sum of the
    gradients of the table for that link and path, arrivals in [k] and starts in [n]. *)
Theorem C173_totals : forall c ut cur thr ai N links net (paths : list gpath) starts rows m,
  (forall i l o, net i = Some l -> t_out (tabs_of c l) = Some o -> recorded_curve o) ->
  0 < ai -> NoDup links -> map fst paths = ints 0 (length paths) -> (forall s, In s starts -> 0 <= s) ->
  ltg_matrix c ut cur thr links net paths starts = Ok rows -> complete_ltg c ut cur thr ai N links net paths starts = Ok m ->
  forall i l p k n, entry links i l -> 0 <= p < Zlen paths ->
  (m (i + Zlen links * k)%Z (p + Zlen paths * n)%Z ==
     sumQ (map o_grad (filter (fun r => (o_link r =? l) && (o_path r =? p) && (o_int r / ai =? k) && (o_start r / ai =? n))%Z rows)))%Q.
Proof.
  intros c ut cur thr ai N links net paths starts rows m Ho Ha Nd Hid Hs H1 H2 i l p k n Ei Hp. rewrite (complete_sum _ _ _ _ _ _ _ _ _ _ _ _ H1 H2).
  assert (F : forall (f : grow -> bool) xs, (sumQ (map o_grad (filter f xs)) == sumQ (map (fun r => if f r then o_grad r else 0%Q) xs))%Q).
  { intros f xs. induction xs as [|x xs IH]; [reflexivity|]. cbn [filter map]. change (sumQ ((if f x then o_grad x else 0%Q) :: map (fun r => if f r then o_grad r else 0%Q) xs)) with ((if f x then o_grad x else 0) + sumQ (map (fun r => if f r then o_grad r else 0%Q) xs))%Q.
    rewrite <- IH. destruct (f x); [reflexivity|]. ring. }
  rewrite F. apply sum_same. intros r Hr. destruct (C169_rows _ _ _ _ _ _ _ _ _ Ho H1) as [R _]. destruct (R r Hr) as (Rs & _ & Rt & _ & pre & post & lk & x & a & y & v & Rp & Rl & _).
  specialize (Hs _ Rs). rewrite (Z.quot_div_nonneg (o_int r) ai), (Z.quot_div_nonneg (o_start r) ai) by lia. destruct (link_ind_spec _ _ Rl) as [Li Le]. destruct Ei as [Ei0 Ei].
  assert (Hi : i < Zlen links). { assert (X : (Z.to_nat i < length links)%nat) by (apply nth_error_Some; congruence). unfold Zlen. lia. }
  assert (Hq : 0 <= o_path r < Zlen paths). { apply (in_map fst) in Rp. cbn [fst] in Rp. rewrite Hid in Rp. apply ints_In' in Rp. unfold Zlen. lia. }
  assert (X : (link_ind links (o_link r) + Zlen links * (o_int r / ai) =? i + Zlen links * k) = (o_link r =? l) && (o_int r / ai =? k)).
  { apply Bool.eq_iff_eq_true. rewrite andb_true_iff, !Z.eqb_eq, cell_unique by lia. split; intros [A1 A2]; (split; [|exact A2]).
    - rewrite A1 in Le. congruence.
    - rewrite A1 in Le |- *. assert (E : Z.to_nat (link_ind links l) = Z.to_nat i); [|rewrite A1 in Li; lia]. eapply (proj1 (NoDup_nth_error links) Nd); [apply nth_error_Some; congruence|congruence]. }
  assert (Y : (o_path r + Zlen paths * (o_start r / ai) =? p + Zlen paths * n) = (o_path r =? p) && (o_start r / ai =? n)).
  { apply Bool.eq_iff_eq_true. rewrite andb_true_iff, !Z.eqb_eq, cell_unique by lia. reflexivity. }
  rewrite X, Y. destruct (o_link r =? l), (o_int r / ai =? k), (o_path r =? p), (o_start r / ai =? n); reflexivity.
Qed.
Print Assumptions C173_totals.
Example C173_case : exists m, complete_ltg Cars 5 8 100 2 4 [2] (ex_net 8) [(0, [1; 2])] [0; 1] = Ok m /\
  map (fun k => Qred (m k 0)) (ints 0 4) = [5; 10; 0; 0]%Q.
Proof. eexists. split; vm_compute; reflexivity. Qed.

(** C174 (refuted): "every column of the matrix belongs to the path at its position".  The
    position is computed from the ID: the delays of the only path, with ID 1, for starts in
    interval 0 are entered for starts in interval 1; and a queue that lasts beyond the
    intervals asked for is written outside the matrix. *)
Theorem C174_ids_refuted : exists net rows m, (forall i l o, net i = Some l -> t_out (tabs_of Cars l) = Some o -> recorded_curve o) /\
  ltg_matrix Cars 5 8 100 [2] net [(1, [1; 2])] [0] = Ok rows /\ Forall (fun r => o_start r = 0) rows /\ Zlen rows = 3 /\
  complete_ltg Cars 5 8 100 2 4 [2] net [(1, [1; 2])] [0] = Ok m /\ (forall k, 0 <= k < 4 -> (m k 0%Z == 0)%Q) /\ (m 1%Z 1%Z == 10)%Q /\
  complete_ltg Cars 5 8 100 2 1 [2] net [(0, [1; 2])] [0] = Err EUB.
Proof.
  exists (ex_net 8). eexists. eexists. split; [intros i l o; apply ex_net_rec|]. split; [vm_compute; reflexivity|]. split; [repeat constructor|]. split; [reflexivity|]. split; [vm_compute; reflexivity|]. split; [|split; vm_compute; reflexivity].
  intros k B. assert (k = 0 \/ k = 1 \/ k = 2 \/ k = 3) as [-> |[-> |[-> | ->]]] by lia; vm_compute; reflexivity.
Qed.
Print Assumptions C174_ids_refuted.
