(** C260-C261: the settings of vehicle tracking. *)
From Coq Require Import Ascii String.
From Verif Require Import Base Base_lemmas Model_Num Model_Graph Model_Text Model_Io Model_Mio Spec_Io Spec_Mio Proof_Text Proof_Io Proof_Io2 Proof_Mio4 Prop_Io Model_TrackIo Spec_TrackIo Proof_TrackIo
  Model_CC Model_Path Model_Link Model_World Model_Node Model_Sim Model_McLink Model_McNode Model_McSim Spec_McNode Spec_McSim Spec_McValid Ex_McNet Prop_McSim Prop_McValid Model_Track Spec_Track Prop_Track.
Local Open Scope list_scope.
Local Open Scope Z_scope.

(** The settings are the rows below the two headers, all of them, in their order; nothing
    else is ever read. *)
Theorem C260_settings_read : forall od_file int_file ls1 ls2 fuel ods ints, below_header od_file ls1 -> below_header int_file ls2 ->
  (length ls1 < fuel)%nat -> (length ls2 < fuel)%nat ->
  (read_tracking fuel od_file int_file = Ok (ods, ints) <-> Forall2 says_od ls1 ods /\ Forall2 says_interval ls2 ints).
Proof.
  intros f1 f2 ls1 ls2 fuel ods ints B1 B2 L1 L2. unfold read_tracking.
  destruct (file_cases track_od_row says_od od_row_cases f1 ls1 fuel B1 L1) as [(xs & F & ->)|((l & I & N) & ->)]; cbn [bind].
  2: { split; [discriminate|]. intros [F _]. exfalso. clear - F I N. induction F as [|a b la lb S0 F IH]; [destruct I|]. destruct I as [<-|I]; [exact (N _ S0)|now apply IH]. }
  destruct (file_cases track_int_row says_interval int_row_cases f2 ls2 fuel B2 L2) as [(ys & G & ->)|((l & I & N) & ->)]; cbn [bind].
  2: { split; [discriminate|]. intros [_ G]. exfalso. clear - G I N. induction G as [|a b la lb S0 G IH]; [destruct I|]. destruct I as [<-|I]; [exact (N _ S0)|now apply IH]. }
  split.
  - intros E. injection E as <- <-. auto.
  - intros [F' G']. rewrite (says_all_fun says_od od_fun _ _ _ F F'), (says_all_fun says_interval int_fun _ _ _ G G'). reflexivity.
Qed.
Print Assumptions C260_settings_read.

(** One bad row below a header, an empty line included, and the run is stopped by an
    exception. *)
Theorem C260_bad_row_refused : forall od_file int_file ls1 ls2 fuel, below_header od_file ls1 -> below_header int_file ls2 ->
  (length ls1 < fuel)%nat -> (length ls2 < fuel)%nat ->
  (exists l, In l ls1 /\ forall p, ~ says_od l p) \/ (exists l, In l ls2 /\ forall t, ~ says_interval l t) ->
  read_tracking fuel od_file int_file = Err EThrow.
Proof.
  intros f1 f2 ls1 ls2 fuel B1 B2 L1 L2 H. unfold read_tracking.
  destruct (file_cases track_od_row says_od od_row_cases f1 ls1 fuel B1 L1) as [(xs & F & ->)|(_ & ->)]; cbn [bind]; [|reflexivity].
  destruct (file_cases track_int_row says_interval int_row_cases f2 ls2 fuel B2 L2) as [(ys & G & ->)|(_ & ->)]; cbn [bind]; [|reflexivity].
  exfalso. destruct H as [(l & I & N)|(l & I & N)].
  - clear - F I N. induction F as [|a b la lb S0 F IH]; [destruct I|]. destruct I as [<-|I]; [exact (N _ S0)|now apply IH].
  - clear - G I N. induction G as [|a b la lb S0 F IH]; [destruct I|]. destruct I as [<-|I]; [exact (N _ S0)|now apply IH].
Qed.
Print Assumptions C260_bad_row_refused.

Example C260_case :
  read_tracking 10 (Some (file "O D~1 2~ 3  4 ~")) (Some (file "#interval~0~12")) = Ok ([(1, 2); (3, 4)], [0; 12]) /\
  read_tracking 10 None None = Ok ([], []) /\
  read_tracking 10 (Some (file "O D~1 2~~3 4~")) None = Err EThrow /\
  read_tracking 10 None (Some (file "#interval~0 1~")) = Err EThrow.
Proof. repeat split; vm_compute; reflexivity. Qed.

(** The first line of a file is never a setting.  A file without header loses its first
    row, and one with a single line counts as a missing file. *)
Theorem C261_first_line_lost : forall l content fuel, (content = l \/ content = l ++ [ch_newline]) -> l <> [] -> ~ In ch_newline l -> (0 < fuel)%nat ->
  forall int_file, read_tracking fuel (Some content) int_file = read_tracking fuel None int_file.
Proof.
  intros l content fuel H N1 N2 L f2. unfold read_tracking. f_equal.
  assert (B : below_header (Some content) []).
  { exists l. destruct H as [->| ->].
    - right. exists [], l. split; [reflexivity|]. split; [reflexivity|]. split; [constructor|]. split; [exact N2|exact N1].
    - left. split; [cbn; now rewrite app_nil_r|]. constructor; [exact N2|constructor]. }
  destruct (file_cases track_od_row says_od od_row_cases (Some content) [] fuel B L) as [(xs & F & ->)|((l' & [] & _) & _)]. inversion F. reflexivity.
Qed.
Print Assumptions C261_first_line_lost.

Lemma yt_pair_ex n : existsb (fun r => (tr_oid r =? 1) && (tr_veh r =? 1)) (yt_rows n) = true ->
  exists s trk rows r, yt_run n = Ok (s, trk, rows) /\ In r rows /\ tr_oid r = 1.
Proof.
  unfold yt_rows. destruct (yt_run n) as [[[s trk] rows]|]; [|discriminate]. intros B. apply existsb_exists in B as (r & Hr & B). exists s, trk, rows, r.
  apply andb_true_iff in B as [B1 B2]. apply Z.eqb_eq in B1. auto.
Qed.
(** The OD file lists the pair 77 88 and nothing else.  A vehicle of another pair is
    reported. *)
Theorem C261_only_listed_pairs_refuted : exists content l M D w0 C U R k s trk rows r,
  file_lines content [l] /\ says_od l (77, 88) /\ mvalid_input M w0 /\ (forall t, mdraws_valid (D t)) /\ (forall t x, Permutation x (R t x)) /\
  (forall fuel, (0 < fuel)%nat -> read_tracking fuel (Some content) None = Ok (tc_ods C, tc_ints C)) /\
  track_run M D C U R k (minit M w0) = Ok (s, trk, rows) /\ In r rows /\ tr_oid r <> 77.
Proof.
  destruct (yt_pair_ex 2 ltac:(vm_compute; reflexivity)) as (s & trk & rows & r & E & Hr & V). rewrite yt_run_ok in E.
  exists (file "77 88~"), (txt "77 88"), (yv true), (fun _ => ym_draws), ym_world, yt, yt_draw, (fun _ l => l), 2%nat, s, trk, rows, r.
  split. { left. split; [reflexivity|]. constructor; [|constructor]. cbn. intros X. repeat (destruct X as [X|X]; [discriminate X|]). exact X. }
  split. { exists (txt "77"), (txt "88"). split; [apply split_words; reflexivity|]. split; apply stoi_reads; reflexivity. }
  split; [apply yv_valid|]. split; [intros; apply ym_draws_valid|]. split; [reflexivity|].
  split. { intros fuel L. rewrite (C261_first_line_lost (txt "77 88") _ fuel); [reflexivity|right; reflexivity|discriminate| |exact L].
           cbn. intros X. repeat (destruct X as [X|X]; [discriminate X|]). exact X. }
  split; [exact E|]. split; [exact Hr|]. rewrite V. discriminate.
Qed.
Print Assumptions C261_only_listed_pairs_refuted.
