(** C264-C265: message signs. *)
From Coq Require Import Ascii String Lqa Qround.
From Verif Require Import Base Base_lemmas Model_Num Proof_Num Model_Graph Spec_Graph Prop_Graph Model_CC Model_Path Model_Link Model_World Model_Node Model_Sim Model_Rt Model_Text Model_Io Model_Mio Spec_Io Spec_Mio Proof_Text Proof_Io Proof_Io2 Proof_Mio Proof_Mio3 Proof_Mio4 Prop_Io Spec_TdIo Proof_TdIo
  Prop_Rt Model_VmsIo Spec_VmsIo.
Local Open Scope list_scope.
Local Open Scope Z_scope.

Lemma sign_row_ok g m l x v : says_sign l x -> make_vms g (snd x) = Ok v -> sign_row g m l = Ok (insert m (fst x) v).
Proof.
  intros (w0 & w1 & W & A & B) V. apply split_words in W. unfold sign_row. rewrite W. cbn [length Nat.eqb word nth].
  rewrite (whole_stoi _ _ A). cbn [bind]. rewrite (whole_stoi _ _ B). cbn [bind]. now rewrite V.
Qed.
Lemma ends_are_nodes ops : forall a, (forall l f t, In (l, (f, t)) (a_links a) -> In f (a_nodes a)) ->
  forall l f t, In (l, (f, t)) (a_links (fold_left a_step ops a)) -> In f (a_nodes (fold_left a_step ops a)).
Proof.
  induction ops as [|o ops IH]; intros a H; [exact H|]. cbn [fold_left]. apply IH. intros l f t. unfold a_step. destruct (a_accepts a o) eqn:E; [|apply H].
  destruct o as [id|f0 t0 id]; cbn [a_links a_nodes].
  - intros I. apply in_or_app. left. eauto.
  - intros I. apply in_app_or in I as [I|[I|[]]]; [eauto|]. injection I as <- <- <-. cbn [a_accepts] in E. do 3 apply andb_true_iff in E as [E _]. now apply memb_In.
Qed.
Lemma make_vms_ok ops l : In l (map fst (a_links (a_build ops))) -> exists v, make_vms (gbuild ops) l = Ok v /\ vm_link v = l /\ vm_ratio v = 1%Q.
Proof.
  intros I. destruct (C17_graph_stores_what_was_added ops) as (_ & _ & CO & CN & CI & _ & CE). apply in_map_iff in I as ([k [f t]] & <- & I). cbn [fst].
  pose proof (proj2 (CE _ _ _) I) as E. unfold make_vms. rewrite E. cbn [bind fst].
  destruct (in_dec Z.eq_dec f (a_nodes (a_build ops))) as [J|J].
  - rewrite CO by exact J. cbn [bind]. eexists. split; [reflexivity|]. auto.
  - exfalso. apply J. apply (ends_are_nodes ops a_empty) with (l := k) (t := t); [intros ? ? ? []|exact I].
Qed.

(** The signs are those of the first [n] rows; comments and blank lines do not count.  A
    sign is on the link of its row, the first one if an id is repeated. *)
Theorem C264_signs_read : forall ops n content ls rs xs, file_lines content ls -> rows_of ls rs -> (Z.to_nat n <= length rs)%nat ->
  Forall2 says_sign (firstn (Z.to_nat n) rs) xs -> (forall x, In x xs -> In (snd x) (map fst (a_links (a_build ops)))) ->
  exists N m, (forall fuel, (N <= fuel)%nat -> build_signs fuel (gbuild ops) n (Some content) = Ok m) /\
    forall id, option_map vm_link (lookup m id) = first_of xs id.
Proof.
  intros ops n content ls rs xs L R H F K.
  assert (X : exists ys, Forall2 (fun l y => exists k, says_sign l (fst y, k) /\ make_vms (gbuild ops) k = Ok (snd y)) (firstn (Z.to_nat n) rs) ys /\ map (fun y => (fst y, vm_link (snd y))) ys = xs).
  { clear L R H. induction F as [|l [id k] rs' xs S0 F IH]; [exists []; split; [constructor|reflexivity]|].
    destruct IH as (ys & G & E); [intros x I; apply K; now right|]. destruct (make_vms_ok ops k (K (id, k) (or_introl eq_refl))) as (v & V & Lv & _).
    exists ((id, v) :: ys). split; [constructor; [exists k; auto|exact G]|]. cbn [map fst snd]. now rewrite Lv, E. }
  destruct X as (ys & G & <-).
  destruct (fill_ok (sign_row (gbuild ops)) (fun l id v => exists k, says_sign l (id, k) /\ make_vms (gbuild ops) k = Ok v)) with (rs := firstn (Z.to_nat n) rs) (xs := ys) (m := @nil (Z * vms)) as (m & E & Q).
  - intros m l id v (k & S0 & V). apply (sign_row_ok (gbuild ops) m l (id, k) v S0 V).
  - exact G.
  - exists (length ls), m. split; [intros fuel Hf; unfold build_signs; rewrite (read_file_rows _ _ _ _ _ _ _ L R H Hf); exact E|].
    intros id. rewrite Q. cbn [app]. clear. unfold first_of. induction ys as [|[i v] ys IH]; [reflexivity|]. cbn [map find fst snd]. destruct (i =? id); [reflexivity|exact IH].
Qed.
Print Assumptions C264_signs_read.

(** A row that does not have two whole numbers, or names no link, stops the reading with an
    exception. *)
Theorem C264_bad_row_refused : forall ops n content ls rs l, file_lines content ls -> rows_of ls rs -> (Z.to_nat n <= length rs)%nat ->
  In l (firstn (Z.to_nat n) rs) -> (forall x, says_sign l x -> ~ In (snd x) (map fst (a_links (a_build ops)))) ->
  forall fuel, (length ls <= fuel)%nat -> build_signs fuel (gbuild ops) n (Some content) = Err EThrow.
Proof.
  intros ops n content ls rs l L R H I N fuel Hf. unfold build_signs. rewrite (read_file_rows _ _ _ _ _ _ _ L R H Hf).
  destruct (C17_graph_stores_what_was_added ops) as (_ & _ & CO & CN & CI & _ & CE).
  assert (V : forall k e, make_vms (gbuild ops) k = Err e -> e = EThrow).
  { intros k e. unfold make_vms. destruct (get_endpoints (gbuild ops) k) as [[f t]|e'] eqn:E; cbn [bind fst].
    - destruct (in_dec Z.eq_dec f (a_nodes (a_build ops))) as [J|J]; [rewrite CO by exact J|rewrite CN by exact J]; cbn [bind]; congruence.
    - unfold get_endpoints in E. destruct (g_link _ k); congruence. }
  apply (foldM_bad _ _ l I).
  - intros m. unfold sign_row. destruct (split l ch_space) as [|w0 [|w1 [|w2 ws]]] eqn:E; pose proof (proj2 (split_words l _) E) as W; try reflexivity. cbn [length Nat.eqb word nth].
    destruct (stoi (trim w0)) as [id|e] eqn:A; cbn [bind]; [|now rewrite (stoi_throws _ _ A)].
    destruct (stoi (trim w1)) as [k|e] eqn:B; cbn [bind]; [|now rewrite (stoi_throws _ _ B)].
    destruct (make_vms (gbuild ops) k) as [v|e] eqn:M; cbn [bind]; [|now rewrite (V _ _ M)].
    exfalso. apply (N (id, k)); [exists w0, w1; split; [exact W|]; split; now apply stoi_whole|]. cbn [snd].
    unfold make_vms in M. apply bind_ok in M as ([f t] & M & _). apply CE in M. apply in_map_iff. exists (k, (f, t)). auto.
  - intros m x e. unfold sign_row. destruct (_ =? _)%nat; [|congruence].
    destruct (stoi _) as [id|e'] eqn:A; cbn [bind]; [|apply stoi_throws in A; congruence].
    destruct (stoi (trim (word _ 1))) as [k|e'] eqn:B; cbn [bind]; [|apply stoi_throws in B; congruence].
    destruct (make_vms (gbuild ops) k) as [v|e'] eqn:M; cbn [bind]; [discriminate|]. apply V in M. congruence.
Qed.
Print Assumptions C264_bad_row_refused.

Definition sign_case (f : text) : res (list (Z * Z)) := do m <- build_signs 20 (gbuild C17_ops) 2 (Some f); Ok (map (fun x => (fst x, vm_link (snd x))) m).
Example C264_case : sign_case (file "#id link~~5 10~ 6 13 ~7 11~") = Ok [(5, 10); (6, 13)] /\ sign_case (file "5 10~5 13~") = Ok [(5, 10)] /\
  sign_case (file "5 10~6 99~") = Err EThrow /\ sign_case (file "5 10~6~") = Err EThrow.
Proof. repeat split; vm_compute; reflexivity. Qed.

(** Signs whose detour link is slower than 60 miles per hour always announce congestion. *)
Theorem C265_warning_means_congestion_refuted : forall links v x, links (vm_detour v) = Some x -> ~ fast x ->
  exists t, sign_message links v = Ok t /\ warns t.
Proof.
  intros links v x E F. unfold sign_message. rewrite E. assert (B : Qltb (li_ffs x) (60 * 1600 / 3600) = true) by (apply Qltb_lt, Qnot_le_lt; exact F).
  rewrite B. eexists. split; [reflexivity|]. discriminate.
Qed.
Print Assumptions C265_warning_means_congestion_refuted.

(** Signs with a fast detour link announce congestion exactly when that link, not the one
    the sign is on, is congested; the minutes are its travel time rounded down. *)
Theorem C265_fast_detour : forall links v x, links (vm_detour v) = Some x -> fast x -> 
  exists t, sign_message links v = Ok t /\ (warns t <-> congested x) /\
    forall n, t = MMinutes n -> (0 <= li_tt x)%Q -> (inject_Z n * 60 <= li_tt x < (inject_Z n + 1) * 60)%Q.
Proof.
  intros links v x E F. unfold sign_message. rewrite E. assert (B : Qltb (li_ffs x) (60 * 1600 / 3600) = false) by (apply Qltb_ge; exact F). rewrite B.
  destruct (Qltb (li_len x / li_ffs x) (li_tt x)) eqn:C.
  - eexists. split; [reflexivity|]. split; [split; [intros _; now apply Qltb_lt|discriminate]|]. intros n En P. injection En as <-.
    assert (P6 : (0 <= li_tt x / 60)%Q) by (apply Qle_shift_div_l; [reflexivity|lra]). rewrite (trunc_floor _ P6).
    pose proof (Qfloor_le (li_tt x / 60)) as A. pose proof (Qlt_floor (li_tt x / 60)) as D. rewrite inject_Z_plus in D. change (inject_Z 1) with 1%Q in D.
    assert (X : (li_tt x == li_tt x / 60 * 60)%Q) by field. set (q := (li_tt x / 60)%Q) in *. clearbody q. split; lra.
  - eexists. split; [reflexivity|]. split; [split; [intros W; now destruct W|intros W; apply Qltb_lt in W; congruence]|discriminate].
Qed.
Print Assumptions C265_fast_detour.

(** A sign that was given no detour link stops the writing with an exception. *)
Theorem C265_no_detour_refused : forall links m id v, links (vm_detour v) = None -> In (id, v) m -> sign_lines links m = Err EThrow.
Proof.
  intros links m id v E I. unfold sign_lines. induction m as [|[i u] m IH]; [destruct I|]. cbn [mapR snd fst]. destruct I as [I|I].
  - injection I as -> ->. unfold sign_message. now rewrite E.
  - rewrite (IH I). unfold sign_message. destruct (links (vm_detour u)) as [x|]; [|reflexivity]. destruct (Qltb _ _); [reflexivity|]. destruct (Qltb _ _); reflexivity.
Qed.
Print Assumptions C265_no_detour_refused.

Definition sg_links (l : Z) : option linfo :=
  if l =? 10 then Some {| li_ffs := 20; li_len := 800; li_tt := 40 |} else if l =? 11 then Some {| li_ffs := 30; li_len := 900; li_tt := 150 |}
  else if l =? 13 then Some {| li_ffs := 30; li_len := 900; li_tt := 30 |} else None.
Definition sg (d : Z) : vms := {| vm_link := 10; vm_outs := [11; 10]; vm_detour := d; vm_ratio := 1 |}.
Example C265_case : sign_lines sg_links [(1, sg 10); (2, sg 11); (3, sg 13)] = Ok [(1, MExit 10); (2, MMinutes 2); (3, MCare)] /\ sign_lines sg_links [(1, sg 10); (2, sg (-1))] = Err EThrow.
Proof. split; vm_compute; reflexivity. Qed.
