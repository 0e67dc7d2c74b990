(** C247-C250: silencing a file descriptor. *)
From Verif Require Import Base Base_lemmas Model_Silence Spec_Silence Proof_Silence.
Local Open Scope Z_scope.

(** C247: in a silenced block nothing written to the descriptor reaches its file, what is written
    to others does; an exception of the block leaves the statement; afterwards every descriptor is
    as it was. *)
Theorem C247_silent : forall X fd f ws fails o (m : X) d, tab o fd = Some d -> room o -> (forall x data, In (x, data) ws -> tab o x <> None) ->
  exists o', silence (writes ws fails) fd (o, m) = (o', m, fails) /\ (forall x, tab o' x = tab o x) /\ log o' f = log o f ++ sent o fd f ws.
Proof.
  intros X fd f ws fails o m d T R H. destruct (enter o fd d T R) as (save & null & D1 & D2 & D3 & N1 & N2 & E). rewrite E. cbv zeta.
  set (o3 := set_tab (set_tab (set_tab o save (Some d)) null (Some Null)) fd (Some Null)).
  assert (T3 : forall x, tab o3 x = if Z.eq_dec x fd then Some Null else if Z.eq_dec x null then Some Null else if Z.eq_dec x save then Some d else tab o x).
  { intros x. unfold o3. cbn [set_tab tab]. now rewrite !upd_case. }
  destruct (writes_facts fails ws o3 m) as (o4 & W & T4 & L4 & G).
  { intros x data I. specialize (H x data I). rewrite T3. destruct (Z.eq_dec x fd), (Z.eq_dec x null), (Z.eq_dec x save); congruence. }
  rewrite W. rewrite (leave o4 m fails save null fd d D1 D2 D3).
  - eexists. split; [reflexivity|]. cbn [set_tab tab log]. split.
    + intros x. rewrite !upd_case, T4, T3. destruct (Z.eq_dec x save), (Z.eq_dec x null), (Z.eq_dec x fd); congruence.
    + rewrite G. change (log o3 f) with (log o f). f_equal. unfold sent. f_equal. apply map_ext_in. intros [x data] I. cbn [fst snd]. specialize (H x data I). rewrite T3.
      destruct (Z.eqb_spec x fd) as [Ex|Ex]; destruct (Z.eq_dec x fd); try contradiction; [reflexivity|]. destruct (Z.eq_dec x null); [congruence|]. destruct (Z.eq_dec x save); [congruence|reflexivity].
  - rewrite T4, T3. destruct (Z.eq_dec save fd), (Z.eq_dec save null), (Z.eq_dec save save); congruence.
  - rewrite T4, T3. destruct (Z.eq_dec null fd), (Z.eq_dec null null); congruence.
Qed.
Print Assumptions C247_silent.
(** any block that keeps its hands off open descriptors: all of them are as before, whether it
    returns or raises, and its exception is passed on *)
Theorem C247_restored : forall X (body : os * X -> os * X * bool) fd o m d, tab o fd = Some d -> room o -> polite body ->
  exists o3 o' m' x, silence body fd (o, m) = (o', m', x) /\ tab o3 fd = Some Null /\ snd (fst (body (o3, m))) = m' /\ snd (body (o3, m)) = x /\
  (forall y e, tab o y = Some e -> tab o' y = Some e) /\
  ((forall s y, tab (fst (fst (body s))) y = tab (fst s) y) -> forall y, tab o' y = tab o y).
Proof.
  intros X body fd o m d T R Pb. destruct (enter o fd d T R) as (save & null & D1 & D2 & D3 & N1 & N2 & E). rewrite E. cbv zeta.
  set (o3 := set_tab (set_tab (set_tab o save (Some d)) null (Some Null)) fd (Some Null)). exists o3.
  assert (T3 : forall x, tab o3 x = if Z.eq_dec x fd then Some Null else if Z.eq_dec x null then Some Null else if Z.eq_dec x save then Some d else tab o x).
  { intros x. unfold o3. cbn [set_tab tab]. now rewrite !upd_case. }
  pose proof (Pb (o3, m)) as P4. cbn [fst] in P4. pose proof (fun K : forall s y, tab (fst (fst (body s))) y = tab (fst s) y => K (o3, m)) as P5. cbn [fst] in P5.
  destruct (body (o3, m)) as [[o4 m'] x]. cbn [fst snd] in *.
  rewrite (leave o4 m' x save null fd d D1 D2 D3).
  - eexists. exists m', x. split; [reflexivity|]. split; [rewrite T3; destruct (Z.eq_dec fd fd); congruence|]. repeat (split; [reflexivity|]). cbn [set_tab tab]. split.
    + intros y e Ty. rewrite !upd_case. destruct (Z.eq_dec y save); [congruence|]. destruct (Z.eq_dec y null); [congruence|]. destruct (Z.eq_dec y fd) as [->|N]; [congruence|].
      apply P4. rewrite T3. destruct (Z.eq_dec y fd), (Z.eq_dec y null), (Z.eq_dec y save); congruence.
    + intros K y. specialize (P5 K). rewrite !upd_case, P5, T3. destruct (Z.eq_dec y save), (Z.eq_dec y null), (Z.eq_dec y fd); congruence.
  - apply P4. rewrite T3. destruct (Z.eq_dec save fd), (Z.eq_dec save null), (Z.eq_dec save save); congruence.
  - rewrite (P4 null Null); [discriminate|]. rewrite T3. destruct (Z.eq_dec null fd), (Z.eq_dec null null); congruence.
Qed.
Print Assumptions C247_restored.
Definition std : os := {| tab := fun x => if x =? 0 then Some (File 10) else if x =? 1 then Some (File 11) else if x =? 2 then Some (File 12) else None; lim := 8; log := fun _ => [] |}.
Example C247_case : tab std 1 = Some (File 11) /\ room std /\
  (let r := silence (writes [(1, [65; 66]); (2, [67]); (1, [68])] true) 1 (std, tt) in
   (map (log (fst (fst r))) [11; 12], map (tab (fst (fst r))) [1; 2; 3; 4], snd r)) = ([[]; [67]], [Some (File 11); Some (File 12); None; None], true).
Proof. split; [reflexivity|]. split; [exists 3%nat, 4%nat; repeat split; cbn; lia|vm_compute; reflexivity]. Qed.

(** C248, refuted: of a program that prints, exactly what it prints in the silenced block is
    suppressed.  So it is when the stream keeps nothing back.  With a buffer, what was kept when
    the block began can get lost, and what was kept when it ended appears. *)
Theorem C248_actual : forall fd f cap before inside after o, tab o fd = Some (File f) -> room o ->
  exists shown kept lost late, concat before = shown ++ kept /\ (length kept <= cap)%nat /\ kept ++ concat inside = lost ++ late /\ (length late <= cap)%nat /\
  log (program fd cap before inside after o) f = log o f ++ shown ++ late ++ concat after.
Proof.
  intros fd f cap before inside after o T R. unfold program.
  destruct (prints_facts fd cap before o [] ltac:(cbn; lia) ltac:(congruence)) as (o1 & a & t & E1 & D1 & L1 & T1 & M1 & G1). rewrite E1. cbv zeta. cbn [app] in D1.
  destruct (enter o1 fd (File f)) as (save & null & Q1 & Q2 & Q3 & N1 & N2 & E); [congruence|destruct R as (i & j & Lij & Ri & Rj); exists i, j; rewrite T1, M1; auto|]. rewrite E. cbv zeta.
  set (o3 := set_tab (set_tab (set_tab o1 save (Some (File f))) null (Some Null)) fd (Some Null)).
  assert (T3 : forall x, tab o3 x = if Z.eq_dec x fd then Some Null else if Z.eq_dec x null then Some Null else if Z.eq_dec x save then Some (File f) else tab o1 x).
  { intros x. unfold o3. cbn [set_tab tab]. now rewrite !upd_case. }
  destruct (prints_facts fd cap inside o3 t L1) as (o4 & b & u & E4 & D4 & L4 & T4 & M4 & G4); [rewrite T3; destruct (Z.eq_dec fd fd); congruence|]. rewrite E4.
  rewrite (leave o4 u false save null fd (File f) Q1 Q2 Q3).
  2:{ rewrite T4, T3. destruct (Z.eq_dec save fd), (Z.eq_dec save null), (Z.eq_dec save save); congruence. }
  2:{ rewrite T4, T3. destruct (Z.eq_dec null fd), (Z.eq_dec null null); congruence. }
  cbn [fst]. set (o5 := set_tab (set_tab (set_tab o4 fd (Some (File f))) null None) save None).
  assert (T5 : tab o5 fd = Some (File f)). { unfold o5. cbn [set_tab tab]. rewrite !upd_case. destruct (Z.eq_dec fd save), (Z.eq_dec fd null), (Z.eq_dec fd fd); congruence. }
  destruct (prints_facts fd cap after o5 u L4 ltac:(congruence)) as (o6 & c & r & E6 & D6 & L6 & T6 & M6 & G6). rewrite E6.
  destruct (write_facts o6 fd r ltac:(congruence)) as (o7 & W & _ & _ & G7). rewrite W. rewrite T6 in G7.
  exists a, t, b, u. repeat (split; [assumption|]). rewrite G7, G6, T5, Z.eqb_refl. change (log o5 f) with (log o4 f). rewrite G4, T3. destruct (Z.eq_dec fd fd); [|congruence].
  change (log o3 f) with (log o1 f). rewrite G1, T, Z.eqb_refl, app_nil_r, D6, <- !app_assoc. reflexivity.
Qed.
Print Assumptions C248_actual.
Theorem C248_unbuffered_partial : forall fd f before inside after o, tab o fd = Some (File f) -> room o ->
  log (program fd 0 before inside after o) f = log o f ++ concat before ++ concat after.
Proof.
  intros fd f before inside after o T R. destruct (C248_actual fd f 0 before inside after o T R) as (a & t & b & u & E & L & _ & L' & ->).
  destruct t; [|cbn in L; lia]. destruct u; [|cbn in L'; lia]. rewrite app_nil_r in E. now rewrite E.
Qed.
Print Assumptions C248_unbuffered_partial.
Theorem C248_suppressed_refuted :
  ~ (forall fd f cap before inside after o, tab o fd = Some (File f) -> room o -> log (program fd cap before inside after o) f = log o f ++ concat before ++ concat after).
Proof.
  intros H. specialize (H 1 11 4%nat [[65]] [[66; 67]] [[68]] std eq_refl). assert (R : room std) by (exists 3%nat, 4%nat; repeat split; cbn; lia). specialize (H R). vm_compute in H. discriminate.
Qed.
Print Assumptions C248_suppressed_refuted.
(** with a buffer of four bytes: printed inside and still shown; printed before and lost *)
Example C248_case : log (program 1 4 [[65]] [[66; 67]] [[68]] std) 11 = [65; 66; 67; 68] /\ log (program 1 4 [[65]] [[66; 67]; [69; 70]] [[68]] std) 11 = [68] /\
  log (program 1 0 [[65]] [[66; 67]] [[68]] std) 11 = [65; 68].
Proof. repeat split; vm_compute; reflexivity. Qed.

(** C249, refuted: for a descriptor that is not valid nothing is done.  The exceptions of the block
    disappear. *)
Theorem C249_actual : forall X (body : os * X -> os * X * bool) fd o m, tab o fd = None -> silence body fd (o, m) = (fst (body (o, m)), false).
Proof. intros X body fd o m T. unfold silence. rewrite T. reflexivity. Qed.
Print Assumptions C249_actual.
Theorem C249_nothing_done_refuted : ~ (forall X (body : os * X -> os * X * bool) fd o m, tab o fd = None -> silence body fd (o, m) = body (o, m)).
Proof. intros H. specialize (H unit (writes [(2, [67])] true) 7 std tt eq_refl). vm_compute in H. discriminate. Qed.
Print Assumptions C249_nothing_done_refuted.
Example C249_case : tab std 7 = None /\ snd (writes [(2, [67])] true (std, tt)) = true /\ snd (silence (writes [(2, [67])] true) 7 (std, tt)) = false.
Proof. repeat split; vm_compute; reflexivity. Qed.

(** C250, refuted: if silencing fails, the descriptors are as before.  With one free number the
    copy of the descriptor stays open; with none nothing changes. *)
Theorem C250_actual : forall X (body : os * X -> os * X * bool) fd o m d, tab o fd = Some d ->
  ((forall i, (i < lim o)%nat -> tab o (Z.of_nat i) <> None) -> silence body fd (o, m) = (o, m, true)) /\
  (forall i, (i < lim o)%nat -> tab o (Z.of_nat i) = None -> (forall j, (j < lim o)%nat -> j <> i -> tab o (Z.of_nat j) <> None) ->
     silence body fd (o, m) = (set_tab o (Z.of_nat i) (Some d), m, true)).
Proof.
  intros X body fd o m d T. unfold silence. rewrite T. unfold os_dup. rewrite T. unfold os_new.
  assert (Full : forall o' : os, (forall i, (i < lim o')%nat -> tab o' (Z.of_nat i) <> None) -> lowest_free o' = None).
  { intros o' F. unfold lowest_free. destruct (find _ _) as [x|] eqn:E; [|reflexivity]. apply find_some in E as [I E]. apply in_map_iff in I as (i & <- & I). apply in_seq in I.
    specialize (F i ltac:(lia)). destruct (tab o' (Z.of_nat i)); [discriminate|contradiction]. }
  split.
  - intros F. rewrite (Full o F). reflexivity.
  - intros i Li Ni Fi. destruct (lowest_some o i Li Ni) as (x & E & N). rewrite E.
    assert (Ex : x = Z.of_nat i).
    { unfold lowest_free in E. apply find_some in E as [I _]. apply in_map_iff in I as (k & <- & I). apply in_seq in I. destruct (Nat.eq_dec k i) as [->|Nk]; [reflexivity|]. exfalso. exact (Fi k ltac:(lia) Nk N). }
    subst x. rewrite Full; [reflexivity|]. intros k Lk. cbn [set_tab tab lim] in *. rewrite upd_case. destruct (Z.eq_dec (Z.of_nat k) (Z.of_nat i)); [discriminate|]. apply Fi; [exact Lk|congruence].
Qed.
Print Assumptions C250_actual.
Theorem C250_nothing_left_refuted :
  ~ (forall X (body : os * X -> os * X * bool) fd o m, (forall s, fst (fst (body s)) = fst s /\ snd (body s) = false) -> snd (silence body fd (o, m)) = true ->
     forall x, tab (fst (fst (silence body fd (o, m)))) x = tab o x).
Proof.
  intros H. specialize (H unit (fun s => (s, false)) 1 {| tab := tab std; lim := 4; log := fun _ => [] |} tt (fun s => conj eq_refl eq_refl) eq_refl 3). vm_compute in H. discriminate.
Qed.
Print Assumptions C250_nothing_left_refuted.
Example C250_case : let o := {| tab := tab std; lim := 4; log := fun _ => [] |} in
  (let r := silence (fun s : os * unit => (s, false)) 1 (o, tt) in (map (tab (fst (fst r))) [1; 3], snd r)) = ([Some (File 11); Some (File 11)], true).
Proof. vm_compute. reflexivity. Qed.
