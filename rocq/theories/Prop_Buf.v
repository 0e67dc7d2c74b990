(** Saving and loading the shares of paths: C235-C238. *)
From Coq Require Import Ascii String Qabs Lqa.
From Verif Require Import Base Base_lemmas Model_Num Proof_Num Model_Graph Spec_Graph Proof_Graph Proof_Graph2 Proof_Link4 Model_Text Model_Io Model_Conf Spec_Conf Proof_Conf2 Spec_Io Proof_Text Proof_Io Proof_Io2 Proof_Io3
  Model_Buf Spec_Buf Proof_Buf Proof_Buf2.
Local Open Scope Z_scope.
Local Open Scope list_scope.

Lemma F2_repeat {A B} (P : A -> B -> Prop) x y k : P x y -> Forall2 P (repeat x k) (repeat y k).
Proof. intros H. induction k; cbn [repeat]; constructor; auto. Qed.

(** text with ~ for the end of a line *)
Definition file (s : string) : text := map (fun c => if Ascii.eqb c "~"%char then ch_newline else c) (txt s).

(** ** C235: a path table with shares that is saved and loaded again has the same paths with the
    same links, and every share up to half of the sixth decimal and the error of [std::stof]. *)
Theorem C235_round_trip : forall stof eps ops T B keys, let g := gbuild ops in let ps := concat (map (fun k => paths_at T (fst k) (snd k)) keys) in
  (0 <= eps)%Q -> reads_numerals stof eps ->
  (forall l l' f t, get_endpoints g l = Ok (f, t) -> get_endpoints g l' = Ok (f, t) -> l = l') ->
  NoDup keys -> (forall o d, T o d <> None -> In (o, d) keys) ->
  (forall o d p, In p (paths_at T o d) -> hd 0 (lp_nodes p) = o /\ last (lp_nodes p) 0 = d /\ (2 <= length (lp_nodes p))%nat /\
     Forall (fun n => -2147483648 <= n <= 2147483647) (lp_nodes p) /\ along g (lp_nodes p) (lp_links p)) -> ps <> [] ->
  exists content bcontent, save_buffered keys T B = Ok (content, bcontent) /\ exists N, forall fuel, (N <= fuel)%nat ->
    exists T' L, load_buffered stof fuel g (Z.of_nat (length ps)) (Some content) (Some bcontent) = Ok (Some (T', L)) /\
      forall o d, Forall2 (fun p' p => lp_nodes p' = lp_nodes p /\ lp_links p' = lp_links p /\ Forall2 (near eps) (L (lp_id p')) (B p)) (paths_at T' o d) (paths_at T o d).
Proof.
  intros stof eps ops T B keys g ps He Hs U ND Cov HP Np.
  assert (In_ps : forall p, In p ps -> exists o d, In p (paths_at T o d)).
  { intros p I. unfold ps in I. apply in_concat in I as (l & I & J). apply in_map_iff in I as ([o d] & <- & _). eauto. }
  assert (Ne : Forall (fun p => lp_nodes p <> []) ps).
  { apply Forall_forall. intros p I. destruct (In_ps p I) as (o & d & J). destruct (HP _ _ _ J) as (_ & _ & L & _). intros E. rewrite E in L. cbn in L. lia. }
  exists (unlines (map (fun p => line_of (lp_nodes p)) ps)), (unlines (map (fun p => fline (B p)) ps)). split.
  { unfold save_buffered. rewrite (save_lines keys T Ne). cbn [bind]. do 2 f_equal. unfold unlines. rewrite map_map. f_equal.
    change (in_order keys T) with ps. apply map_ext. intros p. apply buffer_fline. }
  destruct (saved_rows ps Ne) as (Sl & Ro). exists (length (map (fun p => line_of (lp_nodes p)) ps)). intros fuel Hf.
  assert (FL : file_lines (unlines (map (fun p => line_of (lp_nodes p)) ps)) (map (fun p => line_of (lp_nodes p)) ps)) by (left; split; [reflexivity|exact Sl]).
  assert (Pos : 0 < Z.of_nat (length ps)) by (destruct ps; [contradiction|cbn [length]; lia]).
  assert (Len : Z.to_nat (Z.of_nat (length ps)) = length (map (fun p => line_of (lp_nodes p)) ps)) by (rewrite map_length; lia).
  assert (F : Forall2 says_nodes (map (fun p => line_of (lp_nodes p)) ps) (map lp_nodes ps)).
  { clear -HP In_ps. assert (A : forall p, In p ps -> Forall (fun n => -2147483648 <= n <= 2147483647) (lp_nodes p)) by (intros p I; destruct (In_ps p I) as (o & d & J); apply (HP _ _ _ J)).
    clear -A. induction ps as [|p l IH]; cbn [map]; constructor; [apply line_says; apply A; left; reflexivity|apply IH; intros q I; apply A; right; exact I]. }
  assert (Q : exists qss, Forall2 (fun l qs => numbers stof l = Ok qs) (map (fun p => fline (B p)) ps) qss /\ Forall2 (fun qs p => Forall2 (near eps) qs (B p)) qss ps).
  { clear -He Hs. induction ps as [|p l (qss & Q1 & Q2)]; [exists []; split; constructor|]. destruct (read_fline stof eps (B p) He Hs) as (qs & E & N). exists (qs :: qss).
    split; constructor; auto. unfold numbers. rewrite (proj1 (split_words _ _) (fline_words (B p))). exact E. }
  destruct Q as (qss & Q1 & Q2).
  assert (Sn : seen (Z.to_nat (Z.of_nat (length ps))) (open_file (Some (unlines (map (fun p => fline (B p)) ps)))) [] = map (fun p => fline (B p)) ps).
  { pose proof (seen_term (map (fun p => fline (B p)) ps) 0 (open_file (Some (unlines (map (fun p => fline (B p)) ps)))) [] eq_refl eq_refl) as X.
    rewrite Nat.add_0_r, map_length in X. rewrite Nat2Z.id, X; [|split; [reflexivity|]].
    - rewrite app_nil_r, map_map. apply map_ext. intros p. apply stripped_trim, fline_stripped.
    - apply Forall_forall. intros l I. apply in_map_iff in I as (p & <- & _). apply fline_one_line. }
  destruct (load_ok stof g (a_build ops) fuel (Z.of_nat (length ps)) _ _ _ (map lp_nodes ps) (Some (unlines (map (fun p => fline (B p)) ps))) qss (gbuild_rep ops) FL Ro Pos)
    as (T' & qs & L & E & _ & HT & _ & F3 & M).
  { rewrite Len. lia. } { lia. } { rewrite Len, firstn_all. exact F. }
  { intros ns I. apply in_map_iff in I as (p & <- & I). destruct (In_ps p I) as (o & d & J). destruct (HP _ _ _ J) as (_ & _ & X & _ & A). eauto. }
  { rewrite Sn. exact Q1. }
  exists T', L. split; [exact E|]. intros o d.
  assert (P1 : paths_at T' o d = paths_of o d qs) by (unfold paths_at; rewrite (HT o d); destruct (paths_of o d qs); reflexivity). rewrite P1.
  assert (P2 : paths_at T o d = paths_of o d ps) by (symmetry; apply paths_of_table; auto; intros o' d' p J; destruct (HP _ _ _ J) as (A & C & _); auto). rewrite P2.
  assert (AL : forall p, In p ps -> along g (lp_nodes p) (lp_links p)) by (intros p I; destruct (In_ps p I) as (o' & d' & J); apply (HP _ _ _ J)).
  clear -F3 AL U M Q2. clearbody ps. revert qss M ps AL F3 Q2. induction qs as [|q qs IH]; intros qss M ps AL F3 Q2; destruct ps as [|p ps]; cbn [map] in *; inversion F3; subst; [constructor|].
  inversion Q2 as [|? ? ? ? Q0 Q2']; subst. match goal with H : _ /\ along _ _ (lp_links q) |- _ => destruct H as [Eq Aq] end.
  specialize (IH _ eq_refl ps ltac:(intros; apply AL; right; assumption) ltac:(assumption) Q2').
  unfold paths_of in *. cbn [filter]. rewrite Eq. destruct ((hd 0 (lp_nodes p) =? o) && (last (lp_nodes p) 0 =? d)); [|exact IH]. constructor; [|exact IH].
  split; [exact Eq|]. split; [|exact Q0]. apply (along_det g (lp_nodes p) U); [exact Aq|apply AL; left; reflexivity].
Qed.
Print Assumptions C235_round_trip.

(** ** C236: what saving loses.  Shares below half of a millionth come back as zero; whole numbers
    of millionths are written exactly. *)
Theorem C236_small_shares_lost : forall stof eps q, reads_numerals stof eps -> (Qabs q < 1 # 2000000)%Q -> exists q', stof (flt_string q) = Ok q' /\ (q' == 0)%Q.
Proof.
  intros stof eps q H B. destruct (flt_value q 0) as (v & Nv & Ev).
  - apply half_even_small; change (inject_Z 1000000) with (1000000#1)%Q; destruct (Qltb_spec q 0) as [C|C]; [|rewrite Qabs_pos in B by lra|rewrite Qabs_neg in B by lra|rewrite Qabs_pos in B by lra]; lra.
  - assert (Z0 : (v == 0)%Q) by (rewrite Ev; destruct (Qltb q 0); reflexivity). destruct (H _ _ Nv) as (q' & E & K). exists q'. split; [exact E|].
    assert (A : (Qabs v == 0)%Q) by (rewrite Z0; reflexivity). rewrite A in K. apply Qabs_Qle_condition in K as [K1 K2]. lra.
Qed.
Print Assumptions C236_small_shares_lost.
Theorem C236_millionths_kept : forall stof q n, reads_numerals stof 0 -> (q == n # 1000000)%Q -> exists q', stof (flt_string q) = Ok q' /\ (q' == q)%Q.
Proof.
  intros stof q n H E. assert (E' : (q == inject_Z n * (1 # 1000000))%Q) by (rewrite E; unfold Qeq, Qmult, inject_Z; cbn [Qnum Qden]; lia).
  assert (Ab : (inject_Z (Z.abs n) == if Qltb q 0 then - inject_Z n else inject_Z n)%Q).
  { destruct (Qltb_spec q 0) as [C|C].
    - assert (n < 0) by (rewrite Zlt_Qlt; change (inject_Z 0) with 0%Q; lra). rewrite Z.abs_neq by lia. now rewrite inject_Z_opp.
    - assert (0 <= n) by (rewrite Zle_Qle; change (inject_Z 0) with 0%Q; lra). rewrite Z.abs_eq by lia. reflexivity. }
  assert (Aq : (inject_Z (Z.abs n) == (if Qltb q 0 then - q else q) * (1000000 # 1))%Q) by (eapply Qeq_trans; [exact Ab|]; destruct (Qltb q 0); lra).
  destruct (flt_value q (Z.abs n)) as (v & Nv & Ev).
  - apply half_even_int. change (inject_Z 1000000) with (1000000#1)%Q. lra.
  - destruct (H _ _ Nv) as (q' & Eq & K). exists q'. split; [exact Eq|].
    assert (Dv : (inject_Z (Z.abs n) / (1000000 # 1) == inject_Z (Z.abs n) * (1 # 1000000))%Q) by field.
    assert (X : (v == q)%Q) by (eapply Qeq_trans; [exact Ev|]; unfold signed; destruct (Qltb q 0); lra).
    apply Qabs_Qle_condition in K as [K1 K2]. lra.
Qed.
Print Assumptions C236_millionths_kept.

(** [std::stof] without rounding: no number at the start is an exception *)
Definition stof0 (w : text) : res Q := match w with c :: _ => if Ascii.eqb c ch_hash then Err EThrow else Ok (atof w) | [] => Err EThrow end.
Lemma stof0_reads : reads_numerals stof0 0.
Proof.
  intros t q H. exists (atof t). pose proof (atof_numeral t q [] H ltac:(discriminate)) as A. rewrite app_nil_r in A. split.
  - unfold stof0. destruct H as [neg a Hn Ha|neg a b Hn Ha Hb]; destruct a as [|c a]; try congruence; inversion Ha as [|? ? (n & I & ->) _]; subst; destruct neg; try reflexivity; cbn [app];
      (repeat destruct I as [<-|I]; try destruct I; reflexivity).
  - rewrite A. assert (E : (q - q == 0)%Q) by ring. rewrite E. change (Qabs 0) with 0%Q. lra.
Qed.
Definition xb_ops : list gop := [GNode 1; GNode 2; GNode 3; GLink 1 2 7; GLink 2 3 8; GLink 1 3 9].
Definition xb_paths : list lpath := [{| lp_id := 0; lp_nodes := [1; 2; 3]; lp_links := [7; 8] |}; {| lp_id := 1; lp_nodes := [1; 3]; lp_links := [9] |}].
Definition xb_table : ptable := fun o d => if (o =? 1) && (d =? 3) then Some xb_paths else None.
(** saved, loaded again, and the shares found *)
Definition again (T : ptable) (B : lpath -> list Q) (keys : list (Z * Z)) (o d : Z) : res (list (list Q)) :=
  do cb <- save_buffered keys T B;
  do x <- load_buffered stof0 10 (gbuild xb_ops) (Z.of_nat (length (in_order keys T))) (Some (fst cb)) (Some (snd cb));
  match x with Some (T', L) => Ok (map (fun p => map Qred (L (lp_id p))) (paths_at T' o d)) | None => Err EThrow end.
Theorem C236_exact_refuted :
  ~ (forall B qss, again xb_table B [(1, 3)] 1 3 = Ok qss -> Forall2 (fun qs p => Forall2 Qeq qs (B p)) qss xb_paths).
Proof.
  intros H. specialize (H (fun _ => [1 # 3]%Q) [[333333 # 1000000]; [333333 # 1000000]]%Q ltac:(vm_compute; reflexivity)).
  inversion H as [|? ? ? ? K _]; subst. inversion K as [|? ? ? ? E _]; subst. discriminate E.
Qed.
Print Assumptions C236_exact_refuted.

(** ** C237: remarks in the file of shares.  The [i]-th path gets the numbers of the [i]-th line,
    whatever it is; a blank line counts as a line without numbers and a remark is an exception. *)
Theorem C237_line_by_line : forall stof ops n content ls rs nss bcontent bls qss, let g := gbuild ops in
  file_lines content ls -> rows_of ls rs -> 0 < n -> (Z.to_nat n <= length rs)%nat ->
  Forall2 says_nodes (firstn (Z.to_nat n) rs) nss -> (forall ns, In ns nss -> (2 <= length ns)%nat /\ exists ls, along g ns ls) ->
  file_lines bcontent bls -> (Z.to_nat n <= length bls)%nat -> Forall2 (line_numbers stof) (firstn (Z.to_nat n) bls) qss ->
  exists N, forall fuel, (N <= fuel)%nat -> exists T ps L, load_buffered stof fuel g n (Some content) (Some bcontent) = Ok (Some (T, L)) /\ table_of T ps /\
    Forall2 (fun ns p => lp_nodes p = ns /\ along g ns (lp_links p)) nss ps /\ map (fun p => L (lp_id p)) ps = qss.
Proof.
  intros stof ops n content ls rs nss bcontent bls qss g FL RO Hn Hr F HN BL Hb Q. exists (length ls). intros fuel Hf.
  destruct (load_ok stof g (a_build ops) fuel n content ls rs nss (Some bcontent) qss (gbuild_rep ops) FL RO Hn Hr Hf F HN) as (T & ps & L & E & _ & HT & _ & A & M); [|exists T, ps, L; auto].
  rewrite (seen_left _ _ _ bls (open_left _ _ BL) Hb). induction Q; cbn [map]; constructor; auto. now apply line_numbers_ok.
Qed.
Print Assumptions C237_line_by_line.
Theorem C237_remark_fails : forall stof ops n content ls rs nss bcontent bls k qss w ws r, let g := gbuild ops in
  file_lines content ls -> rows_of ls rs -> (Z.to_nat n <= length rs)%nat ->
  Forall2 says_nodes (firstn (Z.to_nat n) rs) nss -> (forall ns, In ns nss -> (2 <= length ns)%nat /\ exists ls, along g ns ls) ->
  file_lines bcontent bls -> (Z.to_nat n <= length bls)%nat -> (k < Z.to_nat n)%nat -> Forall2 (line_numbers stof) (firstn k bls) qss ->
  stripped (nth k bls []) r -> words r (w :: ws) -> stof (trim w) = Err EThrow ->
  exists N, forall fuel, (N <= fuel)%nat -> load_buffered stof fuel g n (Some content) (Some bcontent) = Err EThrow.
Proof.
  intros stof ops n content ls rs nss bcontent bls k qss w ws r g FL RO Hr F HN BL Hb Hk Q Sr W St. exists (length ls). intros fuel Hf.
  pose proof (seen_left (Z.to_nat n) _ [] bls (open_left _ _ BL) Hb) as Sn.
  assert (L1 : firstn k (map trim (firstn (Z.to_nat n) bls)) = map trim (firstn k bls)) by (rewrite firstn_map, firstn_firstn; f_equal; f_equal; lia).
  assert (L2 : nth k (map trim (firstn (Z.to_nat n) bls)) [] = r).
  { rewrite <- (stripped_trim _ _ Sr). change (@nil ascii) with (trim []) at 1. rewrite map_nth. f_equal.
    rewrite <- (firstn_skipn (Z.to_nat n) bls) at 2. rewrite app_nth1; [reflexivity|]. rewrite firstn_length. lia. }
  eapply (load_fail stof g (a_build ops) fuel n content ls rs nss (Some bcontent) k qss w ws (gbuild_rep ops) FL RO Hr Hf F HN Hk); [| |exact St]; rewrite Sn.
  - rewrite L1. clear -Q. induction Q; cbn [map]; constructor; auto. now apply line_numbers_ok.
  - rewrite L2. now apply split_words.
Qed.
Print Assumptions C237_remark_fails.
Definition loaded (n : Z) (file bfile : option text) : res (list (list Q)) :=
  do x <- load_buffered stof0 20 (gbuild xb_ops) n file bfile;
  match x with Some (_, L) => Ok (map (fun i => map Qred (L (Z.of_nat i))) (seq 0 (Z.to_nat n))) | None => Err EThrow end.
Theorem C237_remarks_skipped_refuted :
  ~ (forall bcontent bls brs qss, file_lines bcontent bls -> rows_of bls brs -> Forall2 (line_numbers stof0) brs qss -> length qss = 2%nat ->
       loaded 2 (Some (file "1 2 3~1 3~")) (Some bcontent) = Ok qss).
Proof.
  intros H. specialize (H (file "#shares~1 3~5 1~") [txt "#shares"; txt "1 3"; txt "5 1"] [txt "1 3"; txt "5 1"]).
  assert (F : exists qss, Forall2 (line_numbers stof0) [txt "1 3"; txt "5 1"] qss /\ length qss = 2%nat).
  { eexists. split; [constructor; [|constructor; [|constructor]]|reflexivity].
    - eexists _, _. split; [apply trim_stripped|]. split; [apply split_words; reflexivity|]. constructor; [|constructor; [|constructor]]; eexists; (split; [apply trim_stripped|vm_compute; reflexivity]).
    - eexists _, _. split; [apply trim_stripped|]. split; [apply split_words; reflexivity|]. constructor; [|constructor; [|constructor]]; eexists; (split; [apply trim_stripped|vm_compute; reflexivity]). }
  destruct F as (qss & F & L). specialize (H qss). assert (X : loaded 2 (Some (file "1 2 3~1 3~")) (Some (file "#shares~1 3~5 1~")) = Err EThrow) by (vm_compute; reflexivity).
  assert (A1 : file_lines (file "#shares~1 3~5 1~") [txt "#shares"; txt "1 3"; txt "5 1"]) by (left; split; [reflexivity|]; repeat constructor; vm_compute; intuition discriminate).
  assert (A2 : rows_of [txt "#shares"; txt "1 3"; txt "5 1"] [txt "1 3"; txt "5 1"]).
  { eapply ro_skip; [apply trim_stripped|right; eexists; reflexivity|]. apply (ro_row (txt "1 3")); [apply (trim_stripped (txt "1 3"))|discriminate|].
    apply (ro_row (txt "5 1")); [apply (trim_stripped (txt "5 1"))|discriminate|constructor]. }
  specialize (H A1 A2 F L). rewrite X in H. discriminate H.
Qed.
Print Assumptions C237_remarks_skipped_refuted.

(** ** C238: a missing or short file of shares.  Without the file no path gets shares; after the
    end of a file that ends with a newline the paths get none, otherwise those of the last line. *)
Theorem C238_missing_file : forall stof ops n content ls rs nss, let g := gbuild ops in
  file_lines content ls -> rows_of ls rs -> 0 < n -> (Z.to_nat n <= length rs)%nat ->
  Forall2 says_nodes (firstn (Z.to_nat n) rs) nss -> (forall ns, In ns nss -> (2 <= length ns)%nat /\ exists ls, along g ns ls) ->
  exists N, forall fuel, (N <= fuel)%nat -> exists T ps L, load_buffered stof fuel g n (Some content) None = Ok (Some (T, L)) /\ table_of T ps /\
    map lp_nodes ps = nss /\ forall p, In p ps -> L (lp_id p) = [].
Proof.
  intros stof ops n content ls rs nss g FL RO Hn Hr F HN. exists (length ls). intros fuel Hf.
  destruct (load_ok stof g (a_build ops) fuel n content ls rs nss None (repeat [] (Z.to_nat n)) (gbuild_rep ops) FL RO Hn Hr Hf F HN) as (T & ps & L & E & _ & HT & _ & A & M).
  - rewrite seen_missing. now apply F2_repeat.
  - exists T, ps, L. split; [exact E|]. split; [exact HT|]. split; [clear -A; induction A as [|? ? ? ? [X _] _ IH]; cbn [map]; congruence|].
    intros p I. apply (in_map (fun p => L (lp_id p))) in I. rewrite M in I. exact (repeat_spec _ _ _ I).
Qed.
Print Assumptions C238_missing_file.
Theorem C238_short_file : forall stof ops n content ls rs nss bcontent bls qss, let g := gbuild ops in
  file_lines content ls -> rows_of ls rs -> 0 < n -> (Z.to_nat n <= length rs)%nat ->
  Forall2 says_nodes (firstn (Z.to_nat n) rs) nss -> (forall ns, In ns nss -> (2 <= length ns)%nat /\ exists ls, along g ns ls) ->
  Forall2 (line_numbers stof) bls qss -> (length bls < Z.to_nat n)%nat ->
  (terminated bcontent bls -> exists N, forall fuel, (N <= fuel)%nat -> exists T ps L, load_buffered stof fuel g n (Some content) (Some bcontent) = Ok (Some (T, L)) /\ table_of T ps /\
     map lp_nodes ps = nss /\ map (fun p => L (lp_id p)) ps = qss ++ repeat [] (Z.to_nat n - length bls)) /\
  (forall la qs, unterminated bcontent bls la -> line_numbers stof la qs -> exists N, forall fuel, (N <= fuel)%nat -> exists T ps L,
     load_buffered stof fuel g n (Some content) (Some bcontent) = Ok (Some (T, L)) /\ table_of T ps /\
     map lp_nodes ps = nss /\ map (fun p => L (lp_id p)) ps = qss ++ repeat qs (Z.to_nat n - length bls)).
Proof.
  intros stof ops n content ls rs nss bcontent bls qss g FL RO Hn Hr F HN Q Hb.
  assert (Q' : Forall2 (fun l qs => numbers stof l = Ok qs) (map trim bls) qss) by (clear -Q; induction Q; cbn [map]; constructor; auto; now apply line_numbers_ok).
  assert (Nd : forall ps : list lpath, Forall2 (fun ns p => lp_nodes p = ns /\ along g ns (lp_links p)) nss ps -> map lp_nodes ps = nss) by (intros ps A; clear -A; induction A as [|? ? ? ? [X _] _ IH]; cbn [map]; congruence).
  split.
  - intros Tm. exists (length ls). intros fuel Hf.
    destruct (load_ok stof g (a_build ops) fuel n content ls rs nss (Some bcontent) (qss ++ repeat [] (Z.to_nat n - length bls)) (gbuild_rep ops) FL RO Hn Hr Hf F HN) as (T & ps & L & E & _ & HT & _ & A & M).
    + replace (Z.to_nat n) with (length bls + (Z.to_nat n - length bls))%nat at 1 by lia. rewrite (seen_term bls _ (open_file (Some bcontent)) [] eq_refl eq_refl Tm). apply Forall2_app; [exact Q'|].
      now apply F2_repeat.
    + exists T, ps, L. auto.
  - intros la qs Tm Hl. exists (length ls). intros fuel Hf.
    destruct (load_ok stof g (a_build ops) fuel n content ls rs nss (Some bcontent) (qss ++ repeat qs (Z.to_nat n - length bls)) (gbuild_rep ops) FL RO Hn Hr Hf F HN) as (T & ps & L & E & _ & HT & _ & A & M).
    + replace (Z.to_nat n) with (length bls + S (Z.to_nat n - length bls - 1))%nat at 1 by lia. rewrite (seen_unterm bls _ (open_file (Some bcontent)) [] la eq_refl eq_refl Tm). apply Forall2_app; [exact Q'|].
      replace (S (Z.to_nat n - length bls - 1)) with (Z.to_nat n - length bls)%nat by lia.
      apply F2_repeat. now apply line_numbers_ok.
    + exists T, ps, L. auto.
Qed.
Print Assumptions C238_short_file.
Theorem C238_missing_file_reported_refuted : ~ (forall n content, 0 < n -> exists e, loaded n (Some content) None = Err e).
Proof. intros H. destruct (H 2 (file "1 2 3~1 3~") eq_refl) as (e & E). vm_compute in E. discriminate. Qed.
Print Assumptions C238_missing_file_reported_refuted.
Theorem C238_short_file_reported_refuted :
  ~ (forall n content bcontent bls, 0 < n -> file_lines bcontent bls -> (length bls < Z.to_nat n)%nat -> exists e, loaded n (Some content) (Some bcontent) = Err e).
Proof.
  intros H. destruct (H 2 (file "1 2 3~1 3~") (file "1 3") [txt "1 3"] eq_refl) as (e & E); [right; exists [], (txt "1 3")|cbn; lia|vm_compute in E; discriminate].
  split; [reflexivity|]. split; [reflexivity|]. split; [constructor|]. split; [vm_compute; intuition discriminate|discriminate].
Qed.
Print Assumptions C238_short_file_reported_refuted.

(** ** Concrete cases *)
Example C235_case : reads_numerals stof0 0 /\ (forall o d p, In p (paths_at xb_table o d) -> hd 0 (lp_nodes p) = o /\ last (lp_nodes p) 0 = d) /\
  again xb_table (fun p => if lp_id p =? 0 then [] else [5 # 2; - (7 # 4); 2 # 3])%Q [(1, 3)] 1 3 = Ok [[]; [5 # 2; - (7 # 4); 666667 # 1000000]]%Q /\
  option_map snd (match save_buffered [(1, 3)] xb_table (fun _ => [5 # 2; - (7 # 4); 2 # 3; 123456789 # 1])%Q with Ok x => Some x | Err _ => None end) =
    Some (file "2.500000 -1.750000 0.666667 123456789.000000~2.500000 -1.750000 0.666667 123456789.000000~").
Proof.
  split; [exact stof0_reads|]. split; [|split; vm_compute; reflexivity]. intros o d p. unfold paths_at, xb_table. destruct ((o =? 1) && (d =? 3)) eqn:E; [|intros []].
  apply andb_prop in E as [E1 E2]. apply Z.eqb_eq in E1, E2. subst. intros [<-|[<-|[]]]; split; reflexivity.
Qed.
Example C236_case : flt_string (1 # 3000000) = txt "0.000000" /\ flt_string (3 # 2000000) = txt "0.000002" /\ flt_string (5 # 2000000) = txt "0.000002" /\ flt_string (-(1 # 1000000)) = txt "-0.000001".
Proof. repeat split; vm_compute; reflexivity. Qed.
Example C237_case : loaded 2 (Some (file "1 2 3~1 3~")) (Some (file "~1 3~")) = Ok [[]; [1; 3]]%Q /\ loaded 2 (Some (file "1 2 3~1 3~")) (Some (file "1 3~~5 1~")) = Ok [[1; 3]; []]%Q /\
  loaded 2 (Some (file "1 2 3~1 3~")) (Some (file "1 3~#~5 1~")) = Err EThrow.
Proof. repeat split; vm_compute; reflexivity. Qed.
Example C238_case : loaded 2 (Some (file "1 2 3~1 3~")) (Some (file "1 3")) = Ok [[1; 3]; [1; 3]]%Q /\ loaded 2 (Some (file "1 2 3~1 3~")) (Some (file "1 3~")) = Ok [[1; 3]; []]%Q /\
  loaded 2 (Some (file "1 2 3~1 3~")) None = Ok [[]; []].
Proof. repeat split; vm_compute; reflexivity. Qed.
