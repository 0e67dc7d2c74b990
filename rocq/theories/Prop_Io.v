(** Reading and writing the input files: C66-C74. *)
From Coq Require Import Ascii String.
From Verif Require Import Base Base_lemmas Model_Num Model_Graph Spec_Graph Proof_Graph Proof_Graph2 Proof_Link Proof_Link4 Model_Text Model_Io Spec_Io Proof_Text Proof_Io Proof_Io2 Proof_Io3.
Local Open Scope list_scope.

(** examples are written as strings; ~ stands for a newline *)
Definition file (s : string) : text := map (fun c => if Ascii.eqb c (ascii_of_nat 126) then ch_newline else c) (txt s).

(** ** C66: only the first n data rows of a file matter *)
Theorem C66_same_rows_same_result n content1 ls1 rs1 content2 ls2 rs2 :
  file_lines content1 ls1 -> rows_of ls1 rs1 -> file_lines content2 ls2 -> rows_of ls2 rs2 ->
  (Z.to_nat n <= length rs1)%nat -> (Z.to_nat n <= length rs2)%nat -> firstn (Z.to_nat n) rs1 = firstn (Z.to_nat n) rs2 ->
  exists N, forall fuel, (N <= fuel)%nat ->
    build_node_factory fuel n (Some content1) = build_node_factory fuel n (Some content2) /\
    (forall stod, build_link_factory stod fuel n (Some content1) = build_link_factory stod fuel n (Some content2)) /\
    build_graph fuel n (Some content1) = build_graph fuel n (Some content2) /\
    (forall stod mi x, build_demand stod fuel mi n x (Some content1) = build_demand stod fuel mi n x (Some content2)) /\
    (forall g, load_path_table fuel g n (Some content1) = load_path_table fuel g n (Some content2)).
Proof.
  intros L1 R1 L2 R2 H1 H2 E. exists (length ls1 + length ls2)%nat. intros fuel Hf.
  unfold build_node_factory, build_link_factory, build_demand.
  split; [rewrite (read_file_rows _ _ _ _ _ _ _ L1 R1 H1), (read_file_rows _ _ _ _ _ _ _ L2 R2 H2), E by lia; reflexivity|].
  split; [intros stod; rewrite (read_file_rows _ _ _ _ _ _ _ L1 R1 H1), (read_file_rows _ _ _ _ _ _ _ L2 R2 H2), E by lia; reflexivity|].
  split; [rewrite (build_graph_rows _ _ _ _ _ L1 R1 H1), (build_graph_rows _ _ _ _ _ L2 R2 H2), E by lia; reflexivity|].
  split; [intros stod mi x; rewrite (read_file_rows _ _ _ _ _ _ _ L1 R1 H1), (read_file_rows _ _ _ _ _ _ _ L2 R2 H2), E by lia; reflexivity|].
  intros g. destruct (Z_lt_le_dec 0 n) as [P|P].
  - rewrite (load_rows _ _ _ _ _ _ L1 R1 P H1), (load_rows _ _ _ _ _ _ L2 R2 P H2), E by lia. reflexivity.
  - unfold load_path_table. assert (B : (n <=? 0)%Z = true) by lia. rewrite B. reflexivity.
Qed.
Print Assumptions C66_same_rows_same_result.

Lemma file_lines_nil : file_lines [] []. Proof. left. split; [reflexivity|constructor]. Qed.
Example C66_case :
  build_node_factory 10 2 (Some (file "# comment~~ 1 FWJ ~2 DMOND x~ignored")) = Ok [(1, NFwj); (2, NOrigin)] /\
  build_node_factory 10 2 (Some (file "1 FWJ~2  DMOND x~")) = Ok [(1, NFwj); (2, NOrigin)].
Proof. split; vm_compute; reflexivity. Qed.

(** ** C67: a file with too few rows *)
(** the last line is complete: the reader never ends *)
Theorem C67_truncated_file_reported_refuted n content ls rs : terminated content ls -> rows_of ls rs -> (length rs < Z.to_nat n)%nat ->
  (forall xs, Forall2 (fun l x => says_node l (fst x) (snd x)) rs xs -> forall fuel, build_node_factory fuel n (Some content) = Err EFuel) /\
  (forall stod xs, Forall2 (fun l x => says_link stod l (fst x) (snd x)) rs xs -> forall fuel, build_link_factory stod fuel n (Some content) = Err EFuel) /\
  (forall xs, Forall2 says_three rs xs -> NoDup (map fst xs) -> (forall x, In x xs -> fst (snd x) <> snd (snd x)) ->
     forall fuel, build_graph fuel n (Some content) = Err EFuel) /\
  (forall ops nss, Forall2 says_nodes rs nss -> (forall ns, In ns nss -> (2 <= length ns)%nat /\ exists ls, along (gbuild ops) ns ls) ->
     forall fuel, load_path_table fuel (gbuild ops) n (Some content) = Err EFuel).
Proof.
  intros T R H. unfold build_node_factory, build_link_factory. cbn [read_file].
  assert (K : forall A (f : A -> text -> res A) a a' fuel, foldM f a rs = Ok a' -> read_rows f fuel (Z.to_nat n) (open_file (Some content)) [] a = Err EFuel).
  { intros A f a a' fuel F. eapply (hang_term f ls rs); eauto. }
  split; [|split; [|split]].
  - intros xs F fuel. destruct (fill_ok node_row says_node node_row_ok rs xs F []) as (m' & E & _). rewrite (K _ _ _ _ _ E). reflexivity.
  - intros stod xs F fuel.
    assert (F' : Forall2 (fun l x => exists d, says_link stod l (fst x) d /\ snd x = converted d) rs (map (fun x => (fst x, converted (snd x))) xs))
      by (clear -F; induction F; cbn [map]; constructor; cbn [fst snd]; eauto).
    destruct (fill_ok (link_row stod) (fun l id v => exists d, says_link stod l id d /\ v = converted d)
      ltac:(intros m l id v (d & S0 & ->); now apply link_row_ok) rs _ F' []) as (m' & E & _). rewrite (K _ _ _ _ _ E). reflexivity.
  - intros xs F ND NS fuel. destruct (graph_rows_ok rs xs F empty_graph a_empty rep_empty ND NS) as (g' & a' & E & _). unfold build_graph. rewrite (K _ _ _ _ _ E). reflexivity.
  - intros ops nss F HN fuel. destruct (path_rows_ok (gbuild ops) (a_build ops) (gbuild_rep ops) rs nss F HN no_paths [] holds_none) as (T' & qs & E & _).
    unfold load_path_table. destruct (n <=? 0)%Z eqn:B; [lia|]. rewrite (K _ _ _ _ _ E). reflexivity.
Qed.
Print Assumptions C67_truncated_file_reported_refuted.

Lemma Forall2_repeat {A B} (P : A -> B -> Prop) x y k : P x y -> Forall2 P (repeat x k) (repeat y k).
Proof. intros H. induction k; cbn [repeat]; constructor; assumption. Qed.
(** the last line is a row without newline: the row is taken again for each missing row; a node file
    is accepted, a path file gives copies of the last path *)
Theorem C67_last_row_repeated n content ls rs la r : unterminated content ls la -> rows_of ls rs -> stripped la r -> is_data r = true -> (length rs < Z.to_nat n)%nat ->
  exists N, forall fuel, (N <= fuel)%nat ->
  (forall xs y, Forall2 (fun l x => says_node l (fst x) (snd x)) rs xs -> says_node r (fst y) (snd y) ->
     exists m, build_node_factory fuel n (Some content) = Ok m /\ forall id, lookup m id = first_of (xs ++ [y]) id) /\
  (forall ops nss ns, Forall2 says_nodes rs nss -> says_nodes r ns -> (forall ns', In ns' (nss ++ [ns]) -> (2 <= length ns')%nat /\ exists ls, along (gbuild ops) ns' ls) ->
     exists T ps, load_path_table fuel (gbuild ops) n (Some content) = Ok (Some T) /\ table_of T ps /\ map lp_nodes ps = nss ++ repeat ns (Z.to_nat n - length rs)).
Proof.
  intros U R S0 D H. exists (length ls + Z.to_nat n)%nat. intros fuel Hf.
  split.
  - intros xs y F Sy. unfold build_node_factory, read_file.
    destruct (last_row_again node_row ls rs (open_file (Some content)) (Z.to_nat n) fuel [] [] la r R U eq_refl eq_refl S0 D H Hf) as (st & E). rewrite E.
    assert (F2 : Forall2 (fun l x => says_node l (fst x) (snd x)) (rs ++ repeat r (Z.to_nat n - length rs)) (xs ++ repeat y (Z.to_nat n - length rs))).
    { apply Forall2_app; [exact F|]. apply Forall2_repeat. assumption. }
    destruct (fill_ok node_row says_node node_row_ok _ _ F2 []) as (m' & E2 & K). unfold nodes in *. rewrite E2. cbn [bind fst]. exists m'. split; [reflexivity|].
    intros id. rewrite K. cbn [app]. destruct (Z.to_nat n - length rs)%nat as [|j] eqn:Ej; [lia|]. rewrite !first_of_app. destruct (first_of xs id); [reflexivity|].
    clear. cbn [repeat]. unfold first_of. cbn [find]. destruct (fst y =? id)%Z eqn:B; [reflexivity|]. induction j as [|j IH]; cbn [repeat find]; [reflexivity|]. now rewrite B.
  - intros ops nss ns F Sn HN. unfold load_path_table. assert (B : (n <=? 0)%Z = false) by lia. rewrite B.
    destruct (last_row_again (path_row (gbuild ops)) ls rs (open_file (Some content)) (Z.to_nat n) fuel [] no_paths la r R U eq_refl eq_refl S0 D H Hf) as (st & E). rewrite E.
    assert (F2 : Forall2 says_nodes (rs ++ repeat r (Z.to_nat n - length rs)) (nss ++ repeat ns (Z.to_nat n - length rs))).
    { apply Forall2_app; [exact F|]. apply Forall2_repeat. assumption. }
    destruct (path_rows_ok (gbuild ops) (a_build ops) (gbuild_rep ops) _ _ F2) with (T := no_paths) (ps := @nil lpath) as (T' & qs & E2 & (HT & _) & F3).
    { intros ns' I. apply HN. apply in_app_or in I as [I|I]; apply in_or_app; [left; exact I|right]. apply repeat_spec in I. left. now symmetry. }
    { exact holds_none. }
    rewrite E2. cbn [bind fst]. exists (lt_table T'), qs. split; [reflexivity|]. split; [exact HT|]. clear -F3. induction F3 as [|x p l ps [E _] F IH]; cbn [map]; congruence.
Qed.
Print Assumptions C67_last_row_repeated.

(** a missing file: endless for the network, accepted as empty for nodes, links, OD and demand *)
Theorem C67_missing_file fuel n ns nO nD stod mi x : 0 < n ->
  build_graph fuel n None = Err EFuel /\ build_node_factory fuel n None = Ok [] /\ build_link_factory stod fuel n None = Ok [] /\
  build_od_factory fuel ns nO nD None = Ok ([], []) /\ build_demand stod fuel mi n x None = Ok (fun _ _ => None).
Proof.
  intros P. repeat split. unfold build_graph. destruct (Z.to_nat n) as [|k] eqn:E; [lia|]. rewrite dead_loop; [reflexivity|right; reflexivity|reflexivity].
Qed.
Print Assumptions C67_missing_file.
Example C67_case :
  build_node_factory 1000 3 (Some (file "1 FWJ~2 FWJ~")) = Err EFuel /\ build_node_factory 1000 3 (Some (file "1 FWJ~2 FWJ")) = Ok [(1, NFwj); (2, NFwj)].
Proof. split; vm_compute; reflexivity. Qed.
Example C67_lines : terminated (file "1 FWJ~2 FWJ~") [txt "1 FWJ"; txt "2 FWJ"] /\ unterminated (file "1 FWJ~2 FWJ") [txt "1 FWJ"] (txt "2 FWJ").
Proof.
  assert (N : forall s, existsb (Ascii.eqb ch_newline) s = false -> ~ In ch_newline s).
  { intros s E I. assert (existsb (Ascii.eqb ch_newline) s = true) by (apply existsb_exists; exists ch_newline; split; [exact I|reflexivity]). congruence. }
  split; [split; [reflexivity|repeat constructor; apply N; reflexivity]|split; [reflexivity|split; [repeat constructor; apply N; reflexivity|split; [apply N; reflexivity|discriminate]]]].
Qed.

(** ** C68: words, stripping and numbers *)
Theorem C68_words s sep ws : split s sep = ws <-> tokens sep s ws.
Proof. symmetry. apply tokens_split. Qed.
Print Assumptions C68_words.
Theorem C68_strip l r : trim l = r <-> stripped l r.
Proof. symmetry. apply stripped_iff. Qed.
Print Assumptions C68_strip.
Theorem C68_numbers w : (forall z, stoi w = Ok z <-> reads_as w z) /\ ((forall z, ~ reads_as w z) -> stoi w = Err EThrow).
Proof.
  split; [intros z; apply stoi_reads|]. intros N. destruct (stoi w) as [z|e] eqn:E; [apply stoi_reads in E; elim (N z E)|]. apply stoi_err in E. now subst.
Qed.
Print Assumptions C68_numbers.
Theorem C68_number_round_trip z : -2147483648 <= z <= 2147483647 -> stoi (to_string z) = Ok z.
Proof. apply stoi_to_string. Qed.
Print Assumptions C68_number_round_trip.
Example C68_case : split (txt "  a bc  d ") ch_space = [txt "a"; txt "bc"; txt "d"] /\ trim (file " a b ~") = txt "a b" /\
  stoi (txt " -012x") = Ok (-12) /\ stoi (txt "x1") = Err EThrow /\ stoi (txt "2147483648") = Err EThrow /\ to_string (-120) = txt "-120".
Proof. repeat split; vm_compute; reflexivity. Qed.

(** ** C69: node, link and OD files *)
Theorem C69_nodes n content ls rs : file_lines content ls -> rows_of ls rs -> (Z.to_nat n <= length rs)%nat ->
  exists N, forall fuel, (N <= fuel)%nat ->
  (forall xs, Forall2 (fun l x => says_node l (fst x) (snd x)) (firstn (Z.to_nat n) rs) xs ->
     exists m, build_node_factory fuel n (Some content) = Ok m /\ NoDup (map fst m) /\ forall id, lookup m id = first_of xs id) /\
  ((exists l, In l (firstn (Z.to_nat n) rs) /\ forall id k, ~ says_node l id k) -> build_node_factory fuel n (Some content) = Err EThrow).
Proof.
  intros L R H. exists (length ls). intros fuel Hf. unfold build_node_factory. rewrite (read_file_rows _ _ _ _ _ _ _ L R H Hf). split.
  - intros xs F. destruct (fill_ok node_row says_node node_row_ok _ _ F []) as (m & E & K). exists m. split; [exact E|]. split; [|exact K].
    exact (fill_keys node_row says_node node_row_inv _ _ _ E (NoDup_nil _)).
  - intros (l & I & N). exact (fill_bad node_row says_node node_row_inv node_row_err _ l [] I N).
Qed.
Print Assumptions C69_nodes.
Theorem C69_links stod n content ls rs : (forall w e, stod w = Err e -> e = EThrow) -> file_lines content ls -> rows_of ls rs -> (Z.to_nat n <= length rs)%nat ->
  exists N, forall fuel, (N <= fuel)%nat ->
  (forall xs, Forall2 (fun l x => says_link stod l (fst x) (snd x)) (firstn (Z.to_nat n) rs) xs ->
     exists m, build_link_factory stod fuel n (Some content) = Ok m /\ NoDup (map fst m) /\
       forall id, match first_of xs id with
                  | Some d => exists a, lookup m id = Some a /\ la_kind a = ld_kind d /\ la_lanes a = ld_lanes d
                  | None => lookup m id = None
                  end) /\
  ((exists l, In l (firstn (Z.to_nat n) rs) /\ forall id d, ~ says_link stod l id d) -> build_link_factory stod fuel n (Some content) = Err EThrow).
Proof.
  intros Hs L R H. exists (length ls). intros fuel Hf. unfold build_link_factory. rewrite (read_file_rows _ _ _ _ _ _ _ L R H Hf).
  set (says := fun l id v => exists d, says_link stod l id d /\ v = converted d).
  assert (Rok : forall m l id v, says l id v -> link_row stod m l = Ok (insert m id v)) by (intros m l id v (d & S0 & ->); now apply link_row_ok).
  assert (Rinv : forall m l m', link_row stod m l = Ok m' -> exists id v, says l id v /\ m' = insert m id v)
    by (intros m l m' E; apply link_row_inv in E as (id & d & S0 & ->); exists id, (converted d); split; [exists d; auto|reflexivity]).
  assert (Rerr : forall m l e, link_row stod m l = Err e -> e = EThrow) by (intros m l e; now apply link_row_err).
  split.
  - intros xs F. assert (F' : Forall2 (fun l x => says l (fst x) (snd x)) (firstn (Z.to_nat n) rs) (map (fun x => (fst x, converted (snd x))) xs))
      by (clear -F; induction F; cbn [map]; constructor; cbn [fst snd]; [eexists; eauto|assumption]).
    destruct (fill_ok (link_row stod) says Rok _ _ F' []) as (m & E & K). exists m. split; [exact E|]. split; [exact (fill_keys (link_row stod) says Rinv _ _ _ E (NoDup_nil _))|].
    intros id. rewrite K. cbn [app]. clear. induction xs as [|[k d] xs IH]; [reflexivity|]. unfold first_of in *. cbn [map find fst snd] in *. destruct (k =? id)%Z; [|exact IH].
    cbn. eexists. split; [reflexivity|]. split; reflexivity.
  - intros (l & I & N). apply (fill_bad (link_row stod) says Rinv Rerr _ l [] I). intros id v (d & S0 & _). exact (N _ _ S0).
Qed.
Print Assumptions C69_links.
(** origins first, destinations after them; all rows are taken when each row has two numbers and the nodes have the right kind *)
Theorem C69_od_partial ns nO nD content ls rs xs ys : file_lines content ls -> rows_of ls rs -> (Z.to_nat nO + Z.to_nat nD <= length rs)%nat ->
  Forall2 says_two (firstn (Z.to_nat nO) rs) xs -> Forall2 says_two (firstn (Z.to_nat nD) (skipn (Z.to_nat nO) rs)) ys ->
  (forall x, In x xs -> lookup ns (snd x) = Some NOrigin) -> (forall y, In y ys -> lookup ns (snd y) = Some NDest) ->
  exists N, forall fuel, (N <= fuel)%nat -> exists os ds, build_od_factory fuel ns nO nD (Some content) = Ok (os, ds) /\
    (forall o, lookup os o = first_of xs o) /\ (forall d, lookup ds d = first_of ys d).
Proof.
  intros L R H F1 F2 K1 K2. exists (length ls). intros fuel Hf. rewrite (build_od_rows _ _ _ _ _ _ _ L R H Hf).
  destruct (origins_ok ns _ _ F1 K1 ([], [])) as (m1 & E1 & M1). rewrite E1. cbn [bind snd].
  destruct (dests_ok ns _ _ F2 K2 (m1, [])) as (m2 & E2 & M2). cbn [fst] in *. exists m1, m2. auto.
Qed.
Print Assumptions C69_od_partial.
(** a row without exactly two words is skipped without a report; a node of the wrong kind is undefined behaviour *)
Theorem C69_od_rows_reported_refuted ns x l : (forall w0 w1, ~ words l [w0; w1]) -> origin_row ns x l = Ok x /\ dest_row ns x l = Ok x.
Proof.
  intros N. unfold origin_row, dest_row. destruct (split l ch_space) as [|w0 [|w1 [|w2 ws]]] eqn:W; try (split; reflexivity). apply split_words in W. elim (N _ _ W).
Qed.
Print Assumptions C69_od_rows_reported_refuted.
Theorem C69_od_kinds_checked_refuted ns nO nD content ls rs x k : file_lines content ls -> rows_of ls rs -> (1 <= Z.to_nat nO <= length rs)%nat -> 
  says_two (hd [] rs) x -> lookup ns (snd x) = Some k -> k <> NOrigin ->
  exists N, forall fuel, (N <= fuel)%nat -> build_od_factory fuel ns nO nD (Some content) = Err EUB.
Proof.
  intros L R H S0 K Nk. exists (length ls). intros fuel Hf. unfold build_od_factory.
  destruct (read_rows_left (origin_row ns) ls rs (Z.to_nat nO) fuel (open_file (Some content)) [] ([], []) R (open_left _ _ L) ltac:(lia) Hf) as
    [(e & E1 & E2)|(a' & s' & line' & ls' & rs' & E1 & E2 & _)]; rewrite E2;
    (destruct rs as [|r rs]; [cbn in H; lia|]; cbn [hd] in S0; destruct (Z.to_nat nO) as [|j]; [lia|]; cbn [firstn foldM] in E1; destruct x as [o n];
     rewrite (origin_row_two ns _ r o n S0) in E1; cbn [snd] in K; rewrite K in E1; destruct k; [| |contradiction|]; cbn in E1; try discriminate; injection E1 as <-; reflexivity).
Qed.
Print Assumptions C69_od_kinds_checked_refuted.
Example C69_case :
  build_od_factory 20 [(1, NOrigin); (2, NDest)] 1 1 (Some (file "#o~7 1~#d~8 2~")) = Ok ([(7, 1)], [(8, 2)]) /\
  build_od_factory 20 [(1, NOrigin); (2, NDest)] 1 1 (Some (file "#o~7~#d~8 2~")) = Ok ([], [(8, 2)]) /\
  build_od_factory 20 [(1, NFwj); (2, NDest)] 1 1 (Some (file "#o~7 1~#d~8 2~")) = Err EUB.
Proof. repeat split; vm_compute; reflexivity. Qed.

(** ** C70: units *)
Theorem C70_units stod n content ls rs xs id d : file_lines content ls -> rows_of ls rs -> (Z.to_nat n <= length rs)%nat ->
  Forall2 (fun l x => says_link stod l (fst x) (snd x)) (firstn (Z.to_nat n) rs) xs -> first_of xs id = Some d ->
  exists N, forall fuel, (N <= fuel)%nat -> exists m a, build_link_factory stod fuel n (Some content) = Ok m /\ lookup m id = Some a /\
    (0 < ld_mph d -> la_len a / la_ffs a == 3600 * (ld_miles d / ld_mph d))%Q /\
    (la_flow a * 3600 == ld_vph d)%Q /\ (la_hold a * la_len a == ld_vpm d * ld_miles d)%Q /\ (la_len a == 1600 * ld_miles d)%Q /\ la_lanes a = ld_lanes d.
Proof.
  intros L R H F Fi. exists (length ls). intros fuel Hf. unfold build_link_factory. rewrite (read_file_rows _ _ _ _ _ _ _ L R H Hf).
  set (says := fun l id v => exists d, says_link stod l id d /\ v = converted d).
  assert (Rok : forall m l id v, says l id v -> link_row stod m l = Ok (insert m id v)) by (intros m l i v (d0 & S0 & ->); now apply link_row_ok).
  assert (F' : Forall2 (fun l x => says l (fst x) (snd x)) (firstn (Z.to_nat n) rs) (map (fun x => (fst x, converted (snd x))) xs))
    by (clear -F; induction F; cbn [map]; constructor; cbn [fst snd]; [eexists; eauto|assumption]).
  destruct (fill_ok (link_row stod) says Rok _ _ F' []) as (m & E & K). exists m, (converted d). split; [exact E|]. split.
  { rewrite K. cbn [app]. clear -Fi. induction xs as [|[k e] xs IH]; [discriminate|]. unfold first_of in *. cbn [map find fst snd] in *. destruct (k =? id)%Z; [|auto].
    cbn in Fi. injection Fi as ->. reflexivity. }
  cbn [converted la_len la_ffs la_flow la_hold la_lanes]. split; [intros P; field; intros Z0; rewrite Z0 in P; discriminate|]. split; [field|]. split; [field|]. split; [ring|reflexivity].
Qed.
Print Assumptions C70_units.
(** integers only *)
Definition stod_int (w : text) : res Q := do z <- stoi w; Ok (inject_Z z).
Example C70_case : exists m a, build_link_factory stod_int 20 1 (Some (file "#id~3 CTM 2 40 1800 200 3~")) = Ok m /\ lookup m 3 = Some a /\
  (la_len a == 3200)%Q /\ (la_len a / la_ffs a == 180)%Q /\ (la_flow a == 1 # 2)%Q /\ (la_hold a * la_len a == 400)%Q /\ la_kind a = FCtm.
Proof. eexists. eexists. repeat split; try (vm_compute; reflexivity). Qed.

(** ** C71: demand *)
Theorem C71_demand_partial stod mi n x content ls rs ys : file_lines content ls -> rows_of ls rs -> (Z.to_nat n <= length rs)%nat ->
  Forall2 (says_demand stod mi) (firstn (Z.to_nat n) rs) ys ->
  (forall y, In y ys -> lookup (fst x) (fst (fst y)) <> None /\ lookup (snd x) (snd (fst y)) <> None) -> NoDup (map fst ys) ->
  exists N, forall fuel, (N <= fuel)%nat -> exists D, build_demand stod fuel mi n x (Some content) = Ok D /\ forall o d v, D o d = Some v <-> In (o, d, v) ys.
Proof.
  intros L R H F K ND. exists (length ls). intros fuel Hf. unfold build_demand. rewrite (read_file_rows _ _ _ _ _ _ _ L R H Hf).
  destruct (demand_rows_ok stod mi x _ _ F K (fun _ _ => None)) as (D & E & KD). exists D. split; [exact E|]. intros o d v. rewrite KD. clear -ND. unfold first_row.
  induction ys as [|[[o' d'] v'] ys IH]; cbn [find fst snd]; [split; [discriminate|intros []]|]. cbn [map fst] in ND. inversion ND as [|? ? Ni ND']; subst.
  destruct (Z.eqb_spec o' o) as [->|No]; cbn [andb]; [destruct (Z.eqb_spec d' d) as [->|Nd]|]; cbn [option_map snd].
  - split; [intros [= ->]; left; reflexivity|]. intros [I|I]; [congruence|]. exfalso. apply Ni. change (o, d) with (fst (o, d, v)). now apply in_map.
  - rewrite (IH ND'). split; [right; assumption|intros [I|I]; [congruence|exact I]].
  - rewrite (IH ND'). split; [right; assumption|intros [I|I]; [congruence|exact I]].
Qed.
Print Assumptions C71_demand_partial.
(** a second row of a pair is dropped *)
Theorem C71_all_rows_count_refuted stod mi n x content ls rs ys : file_lines content ls -> rows_of ls rs -> (Z.to_nat n <= length rs)%nat ->
  Forall2 (says_demand stod mi) (firstn (Z.to_nat n) rs) ys ->
  (forall y, In y ys -> lookup (fst x) (fst (fst y)) <> None /\ lookup (snd x) (snd (fst y)) <> None) ->
  exists N, forall fuel, (N <= fuel)%nat -> exists D, build_demand stod fuel mi n x (Some content) = Ok D /\
    forall o d v ys1 ys2, ys = ys1 ++ (o, d, v) :: ys2 -> ~ In (o, d) (map fst ys1) -> D o d = Some v.
Proof.
  intros L R H F K. exists (length ls). intros fuel Hf. unfold build_demand. rewrite (read_file_rows _ _ _ _ _ _ _ L R H Hf).
  destruct (demand_rows_ok stod mi x _ _ F K (fun _ _ => None)) as (D & E & KD). exists D. split; [exact E|]. intros o d v ys1 ys2 -> Ni. rewrite KD. clear -Ni. unfold first_row.
  induction ys1 as [|[[o' d'] v'] ys1 IH]; cbn [app find fst snd].
  - rewrite !Z.eqb_refl. reflexivity.
  - cbn [map fst] in Ni. destruct (Z.eqb_spec o' o) as [->|No]; cbn [andb]; [destruct (Z.eqb_spec d' d) as [->|Nd]|]; [exfalso; apply Ni; left; reflexivity| |]; apply IH; intros I; apply Ni; right; exact I.
Qed.
Print Assumptions C71_all_rows_count_refuted.
Example C71_case : exists D, build_demand stod_int 20 2 2 ([(1, 5)], [(2, 6)]) (Some (file "1 2 10 20~1 2 30 40~")) = Ok D /\ D 1 2 = Some [10; 20]%Q.
Proof. eexists. split; vm_compute; reflexivity. Qed.

(** ** C72: saving and loading a path table *)
Theorem C72_round_trip ops T keys : let g := gbuild ops in let ps := concat (map (fun k => paths_at T (fst k) (snd k)) keys) in
  (forall l l' f t, get_endpoints g l = Ok (f, t) -> get_endpoints g l' = Ok (f, t) -> l = l') ->
  NoDup keys -> (forall o d, T o d <> None -> In (o, d) keys) ->
  (forall o d p, In p (paths_at T o d) -> hd 0 (lp_nodes p) = o /\ last (lp_nodes p) 0 = d /\ (2 <= length (lp_nodes p))%nat /\
     Forall (fun n => -2147483648 <= n <= 2147483647) (lp_nodes p) /\ along g (lp_nodes p) (lp_links p)) -> ps <> [] ->
  exists content, save_path_table keys T = Ok content /\ exists N, forall fuel, (N <= fuel)%nat ->
    exists T', load_path_table fuel g (Z.of_nat (length ps)) (Some content) = Ok (Some T') /\
      forall o d, map (fun p => (lp_nodes p, lp_links p)) (paths_at T' o d) = map (fun p => (lp_nodes p, lp_links p)) (paths_at T o d).
Proof.
  intros g ps U ND Cov HP Np.
  assert (In_ps : forall p, In p ps -> exists o d, In p (paths_at T o d)).
  { intros p I. unfold ps in I. apply in_concat in I as (l & I & J). apply in_map_iff in I as ([o d] & <- & _). eauto. }
  assert (Ne : Forall (fun p => lp_nodes p <> []) ps).
  { apply Forall_forall. intros p I. destruct (In_ps p I) as (o & d & J). destruct (HP _ _ _ J) as (_ & _ & L & _). intros E. rewrite E in L. cbn in L. lia. }
  exists (unlines (map (fun p => line_of (lp_nodes p)) ps)). split; [apply (save_lines keys T Ne)|].
  destruct (saved_rows ps Ne) as (Sl & Ro). exists (length (map (fun p => line_of (lp_nodes p)) ps)). intros fuel Hf.
  assert (FL : file_lines (unlines (map (fun p => line_of (lp_nodes p)) ps)) (map (fun p => line_of (lp_nodes p)) ps)) by (left; split; [reflexivity|exact Sl]).
  assert (Pos : 0 < Z.of_nat (length ps)) by (destruct ps; [contradiction|cbn [length]; lia]).
  assert (Len : Z.to_nat (Z.of_nat (length ps)) = length (map (fun p => line_of (lp_nodes p)) ps)) by (rewrite map_length; lia).
  rewrite (load_rows fuel g (Z.of_nat (length ps)) _ _ _ FL Ro Pos) by (rewrite ?Len; lia). rewrite Len, firstn_all.
  assert (F : Forall2 says_nodes (map (fun p => line_of (lp_nodes p)) ps) (map lp_nodes ps)).
  { clear -HP In_ps. assert (A : forall p, In p ps -> Forall (fun n => -2147483648 <= n <= 2147483647) (lp_nodes p)) by (intros p I; destruct (In_ps p I) as (o & d & J); apply (HP _ _ _ J)).
    clear -A. induction ps as [|p l IH]; cbn [map]; constructor; [apply line_says; apply A; left; reflexivity|apply IH; intros q I; apply A; right; exact I]. }
  destruct (path_rows_ok g (a_build ops) (gbuild_rep ops) _ _ F) with (T := no_paths) (ps := @nil lpath) as (T' & qs & E & (HT & _) & F3).
  { intros ns I. apply in_map_iff in I as (p & <- & I). destruct (In_ps p I) as (o & d & J). destruct (HP _ _ _ J) as (_ & _ & L & _ & A). eauto. }
  { exact holds_none. }
  rewrite E. cbn [bind]. exists (lt_table T'). split; [reflexivity|]. intros o d.
  assert (P1 : paths_at (lt_table T') o d = paths_of o d qs) by (unfold paths_at; rewrite (HT o d); cbn [app]; destruct (paths_of o d qs); reflexivity). rewrite P1.
  assert (P2 : paths_at T o d = paths_of o d ps) by (symmetry; apply paths_of_table; auto; intros o' d' p J; destruct (HP _ _ _ J) as (A & B & _); auto). rewrite P2.
  assert (AL : forall p, In p ps -> along g (lp_nodes p) (lp_links p)) by (intros p I; destruct (In_ps p I) as (o' & d' & J); apply (HP _ _ _ J)).
  clear -F3 AL U. clearbody ps. remember (map lp_nodes ps) as nss eqn:En. revert ps AL En. induction F3 as [|ns q nss qs [Eq Aq] F3 IH]; intros ps AL En; destruct ps as [|p ps]; try discriminate; [reflexivity|].
  cbn [map] in En. injection En as En1 En2. unfold paths_of in *. cbn [filter]. rewrite Eq, <- En1.
  assert (Lk : lp_links q = lp_links p) by (apply (along_det g ns U); [exact Aq|rewrite En1; apply AL; left; reflexivity]).
  specialize (IH ps ltac:(intros; apply AL; right; assumption) En2).
  destruct ((hd 0 ns =? o) && (last ns 0 =? d))%Z; [|exact IH]. cbn [map]. rewrite Eq, Lk, En1. f_equal. exact IH.
Qed.
Print Assumptions C72_round_trip.

Definition table1 (o d : Z) (ps : list lpath) : ptable := fun o' d' => if (o' =? o)%Z && (d' =? d)%Z then Some ps else None.
(** two parallel links: the loaded path uses another link than the saved one *)
Definition two_links : graph := gbuild [GNode 1; GNode 2; GLink 1 2 7; GLink 1 2 8].
Theorem C72_parallel_links_refuted : exists content T', let T := table1 1 2 [{| lp_id := 0; lp_nodes := [1; 2]; lp_links := [7] |}] in
  along two_links [1; 2] [7] /\ save_path_table [(1, 2)] T = Ok content /\ load_path_table 10 two_links 1 (Some content) = Ok (Some T') /\
  paths_at T' 1 2 = [{| lp_id := 0; lp_nodes := [1; 2]; lp_links := [8] |}].
Proof.
  eexists. eexists. split; [apply along_step; [reflexivity|constructor]|]. split; [vm_compute; reflexivity|]. split; [vm_compute; reflexivity|]. vm_compute. reflexivity.
Qed.
Print Assumptions C72_parallel_links_refuted.
Example C72_case : exists content T', let g := gbuild [GNode 1; GNode (-2); GNode 13; GLink 1 (-2) 7; GLink (-2) 13 8; GLink 1 13 9] in
  save_path_table [(1, 13); (1, -2)] (fun o d => if (d =? 13)%Z then Some [{| lp_id := 5; lp_nodes := [1; -2; 13]; lp_links := [7; 8] |}; {| lp_id := 6; lp_nodes := [1; 13]; lp_links := [9] |}] else
    if (d =? -2)%Z then Some [{| lp_id := 2; lp_nodes := [1; -2]; lp_links := [7] |}] else None) = Ok content /\
  content = file "1 -2 13~1 13~1 -2~" /\ load_path_table 10 g 3 (Some content) = Ok (Some T') /\ map lp_links (paths_at T' 1 13) = [[7; 8]; [9]].
Proof. eexists. eexists. split; [vm_compute; reflexivity|]. repeat split; vm_compute; reflexivity. Qed.

(** ** C73: loaded paths are routes *)
Theorem C73_paths_partial ops n content ls rs nss : let g := gbuild ops in
  file_lines content ls -> rows_of ls rs -> 0 < n -> (Z.to_nat n <= length rs)%nat ->
  Forall2 says_nodes (firstn (Z.to_nat n) rs) nss -> (forall ns, In ns nss -> (2 <= length ns)%nat /\ exists ls, along g ns ls) ->
  exists N, forall fuel, (N <= fuel)%nat -> exists T ps, load_path_table fuel g n (Some content) = Ok (Some T) /\ table_of T ps /\
    map lp_id ps = map Z.of_nat (seq 0 (length ps)) /\ Forall2 (fun ns p => lp_nodes p = ns /\ along g ns (lp_links p)) nss ps.
Proof.
  intros g L R P H F HN. exists (length ls). intros fuel Hf. rewrite (load_rows _ _ _ _ _ _ L R P H Hf).
  destruct (path_rows_ok g (a_build ops) (gbuild_rep ops) _ _ F HN no_paths [] holds_none) as (T' & qs & E & (HT & _ & HI) & F3).
  rewrite E. cbn [bind]. exists (lt_table T'), qs. auto.
Qed.
Print Assumptions C73_paths_partial.
(** consecutive nodes without a link: undefined behaviour in the first row, the previous link is
    taken again in later places *)
Theorem C73_hop_without_link_refuted ops n content ls rs f t ns : let g := gbuild ops in
  file_lines content ls -> rows_of ls rs -> (1 <= Z.to_nat n <= length rs)%nat -> says_nodes (hd [] rs) (f :: t :: ns) ->
  connections g f Outgoing <> Err EThrow -> (forall l, get_endpoints g l <> Ok (f, t)) ->
  exists N, forall fuel, (N <= fuel)%nat -> load_path_table fuel g n (Some content) = Err EUB.
Proof.
  intros g L R H (ws & W & F) Kn Nl. exists (length ls). intros fuel Hf. rewrite (load_rows _ _ _ _ _ _ L R) by lia.
  destruct rs as [|r rs]; [cbn in H; lia|]. cbn [hd] in W. destruct (Z.to_nat n) as [|j]; [lia|]. cbn [firstn foldM].
  assert (E : path_row g no_paths r = Err EUB); [|rewrite E; reflexivity].
  apply split_words in W. unfold path_row. rewrite W.
  assert (Len : length ws = length (f :: t :: ns)) by (clear -F; induction F; cbn; congruence).
  assert (M : mapR stoi ws = Ok (f :: t :: ns)) by (apply mapR_Forall2; clear -F; induction F; constructor; auto; now apply stoi_reads).
  assert (El : stoi (last ws []) = Ok (last (f :: t :: ns) 0)) by (apply stoi_reads; apply (Forall2_last reads_as); [exact F|destruct ws; discriminate]).
  assert (E0 : stoi (word ws 0) = Ok f) by (destruct ws as [|w0 ws]; [discriminate|]; inversion F; subst; now apply stoi_reads).
  rewrite Len. cbn [length Nat.leb]. rewrite E0, El, M. cbn [bind path_links].
  destruct (connections g f Outgoing) as [cs|e] eqn:C.
  - cbn [bind]. assert (I : In f (a_nodes (a_build ops))).
    { pose proof (rep_connections _ _ f Outgoing (gbuild_rep ops)) as Q. fold g in Q. rewrite C in Q. destruct (memb f (a_nodes (a_build ops))) eqn:B; [now apply memb_In|discriminate]. }
    destruct (hop g (a_build ops) f t (gbuild_rep ops) I) as (cs' & C' & [(l & _ & E)|(E & _)]); [elim (Nl l E)|].
    rewrite C in C'. apply Ok_inj in C'. subst cs'. rewrite E. reflexivity.
  - pose proof (rep_connections _ _ f Outgoing (gbuild_rep ops)) as Q. fold g in Q. rewrite C in Q. destruct (memb f (a_nodes (a_build ops))); [discriminate|]. injection Q as ->. elim Kn. reflexivity.
Qed.
Print Assumptions C73_hop_without_link_refuted.
Definition chain_graph : graph := gbuild [GNode 1; GNode 2; GNode 3; GNode 4; GLink 1 2 7; GLink 3 4 8].
Theorem C73_link_repeated_refuted : exists T, load_path_table 10 chain_graph 1 (Some (file "1 2 3 4~")) = Ok (Some T) /\
  map lp_links (paths_at T 1 4) = [[7; 7; 8]] /\ forall ls, ~ along chain_graph [1; 2; 3; 4] ls.
Proof.
  eexists. split; [vm_compute; reflexivity|]. split; [vm_compute; reflexivity|]. intros ls A.
  inversion A as [|? l1 ? ? ls1 E1 A1]; subst. inversion A1 as [|? l2 ? ? ls2 E2 A2]; subst.
  apply (rep_endpoints_iff _ _ _ _ _ (gbuild_rep _)) in E2. cbn in E2. destruct E2 as [E2|[E2|[]]]; discriminate.
Qed.
Print Assumptions C73_link_repeated_refuted.
Example C73_case : exists T, load_path_table 10 chain_graph 2 (Some (file "1 2~3 4~")) = Ok (Some T) /\ paths_at T 3 4 = [{| lp_id := 1; lp_nodes := [3; 4]; lp_links := [8] |}] /\
  load_path_table 10 chain_graph 1 (Some (file "2 3~")) = Err EUB.
Proof. eexists. repeat split; vm_compute; reflexivity. Qed.

(** ** C74: the network file *)
Theorem C74_network n content ls rs : 0 <= n -> file_lines content ls -> rows_of ls rs -> (Z.to_nat n <= length rs)%nat ->
  exists N, forall fuel, (N <= fuel)%nat ->
  ((exists g, build_graph fuel n (Some content) = Ok g) <->
    exists xs, Forall2 says_three (firstn (Z.to_nat n) rs) xs /\ NoDup (map fst xs) /\ forall x, In x xs -> fst (snd x) <> snd (snd x)) /\
  forall g xs, build_graph fuel n (Some content) = Ok g -> Forall2 says_three (firstn (Z.to_nat n) rs) xs ->
    (forall l f t, get_endpoints g l = Ok (f, t) <-> In (l, (f, t)) xs) /\
    (forall v dir, (exists x, In x xs /\ (v = fst (snd x) \/ v = snd (snd x))) ->
       connections g v dir = Ok (rev (map fst (filter (fun x => listed_at dir (snd x) =? v)%Z xs)))) /\
    (forall v dir, ~ (exists x, In x xs /\ (v = fst (snd x) \/ v = snd (snd x))) -> connections g v dir = Err EThrow).
Proof.
  intros Pn L R H. exists (length ls). intros fuel Hf. rewrite (build_graph_rows _ _ _ _ _ L R H Hf).
  set (rr := firstn (Z.to_nat n) rs) in *. assert (Lr : Z.of_nat (length rr) = n) by (unfold rr; rewrite firstn_length; lia).
  assert (Back : forall g, (do g <- foldM graph_row empty_graph rr; do _ <- guard (Z.of_nat (length (g_lids g)) =? n)%Z EAssert; Ok g) = Ok g ->
    exists xs, Forall2 says_three rr xs /\ NoDup (map fst xs) /\ forall x, In x xs -> fst (snd x) <> snd (snd x)).
  { intros g E. apply bind_ok in E as (g0 & E0 & E). apply bind_ok in E as ([] & G & E). apply guard_ok in G. apply Ok_inj in E. subst g0.
    destruct (graph_rows_inv rr empty_graph a_empty g rep_empty E0) as (ys & a' & R' & L' & Len & F & K). cbn [a_links a_empty app] in L'.
    pose proof (rep_lids _ _ R') as Q. rewrite L' in Q. rewrite Q, map_length in G. exists ys. split; [apply F; lia|]. split; [|exact K]. rewrite <- L'. apply (rep_lnodup _ _ R'). }
  assert (Forw : forall xs, Forall2 says_three rr xs -> NoDup (map fst xs) -> (forall x, In x xs -> fst (snd x) <> snd (snd x)) ->
    exists g a', (do g <- foldM graph_row empty_graph rr; do _ <- guard (Z.of_nat (length (g_lids g)) =? n)%Z EAssert; Ok g) = Ok g /\ Rep g a' /\ a_links a' = xs /\
      forall m, In m (a_nodes a') <-> exists x, In x xs /\ (m = fst (snd x) \/ m = snd (snd x))).
  { intros xs F ND NS. destruct (graph_rows_ok rr xs F empty_graph a_empty rep_empty ND NS) as (g & a' & E & _ & R' & L' & M). cbn [a_links a_empty app] in L'.
    exists g, a'. split; [|split; [exact R'|split; [exact L'|]]].
    - rewrite E. cbn [bind]. rewrite (rep_lids _ _ R'), L', map_length. assert (Len : length rr = length xs) by (clear -F; induction F; cbn; congruence).
      rewrite <- Len, Lr, Z.eqb_refl. reflexivity.
    - intros m. rewrite M. cbn [a_nodes a_empty]. split; [intros [[]|K]; exact K|right; assumption]. }
  split.
  - split; [intros (g & E); exact (Back g E)|]. intros (xs & F & ND & NS). destruct (Forw xs F ND NS) as (g & a' & E & _). eauto.
  - intros g xs E F. destruct (Back g E) as (xs' & F' & ND & NS).
    assert (xs' = xs).
    { clear -F F'. revert xs F. induction F' as [|l x rr xs' S0 F' IH]; intros xs F; inversion F as [|? y ? ys S1 F1]; subst; [reflexivity|]. f_equal; [|auto].
      destruct S0 as (w0 & w1 & w2 & W & A & B & C). destruct S1 as (v0 & v1 & v2 & W' & A' & B' & C'). apply split_words in W, W'. rewrite W in W'. injection W' as <- <- <-.
      apply stoi_reads in A, B, C, A', B', C'. destruct x as [i [f t]], y as [i' [f' t']]. cbn [fst snd] in *. congruence. }
    subst xs'. destruct (Forw xs F ND NS) as (g' & a' & E' & R' & L' & M). rewrite E in E'. apply Ok_inj in E'. subst g'. split; [|split].
    + intros l f t. rewrite (rep_endpoints_iff _ _ _ _ _ R'), L'. reflexivity.
    + intros v dir I. rewrite (rep_connections _ _ _ _ R'), (proj2 (memb_In _ _) (proj2 (M v) I)). unfold a_connections. rewrite L'. reflexivity.
    + intros v dir I. rewrite (rep_connections _ _ _ _ R'). destruct (memb v (a_nodes a')) eqn:B; [|reflexivity]. apply memb_In in B. elim I. now apply M.
Qed.
Print Assumptions C74_network.
Example C74_case : exists g, build_graph 10 2 (Some (file "#id f t~7 1 2~8 2 3~")) = Ok g /\ get_endpoints g 8 = Ok (2, 3) /\ connections g 2 Incoming = Ok [7] /\
  build_graph 10 2 (Some (file "7 1 2~7 2 3~")) = Err EThrow /\ build_graph 10 2 (Some (file "7 1 2~8 2~")) = Err EAssert.
Proof. eexists. repeat split; vm_compute; reflexivity. Qed.
