From Coq Require Import Ascii String.
From Verif Require Import Base Base_lemmas Model_Num Model_Graph Spec_Graph Proof_Graph Proof_Graph2 Proof_Link Proof_Link4 Model_Text Model_Io Spec_Io Proof_Text Proof_Io Proof_Io2.
Local Open Scope list_scope.

(** ** the network *)
Definition row_ops (x : Z * (Z * Z)) : list gop := [GNode (fst (snd x)); GNode (snd (snd x)); GLink (fst (snd x)) (snd (snd x)) (fst x)].
Lemma graph_row_three g l x : says_three l x -> graph_row g l = add_link (gstep (gstep g (GNode (fst (snd x)))) (GNode (snd (snd x)))) (fst (snd x)) (snd (snd x)) (fst x).
Proof.
  destruct x as [id [f t]]. intros (w0 & w1 & w2 & W & A & B & C). cbn [fst snd] in *. apply split_words in W. apply stoi_reads in A, B, C.
  unfold graph_row. rewrite W. cbn [length Nat.eqb word nth]. rewrite A, B, C. reflexivity.
Qed.
Lemma a_node_step a n : In n (a_nodes (a_step a (GNode n))) /\ a_links (a_step a (GNode n)) = a_links a /\
  forall m, In m (a_nodes (a_step a (GNode n))) <-> In m (a_nodes a) \/ m = n.
Proof.
  unfold a_step, a_accepts. destruct (memb n (a_nodes a)) eqn:M; cbn [negb].
  - apply memb_In in M. repeat split; auto. intros [H| ->]; auto.
  - cbn [a_nodes a_links]. repeat split; try (intros H).
    + apply in_or_app. right. left. reflexivity.
    + apply in_app_or in H as [H|[H|[]]]; auto.
    + apply in_or_app. destruct H as [H| ->]; [left; exact H|right; left; reflexivity].
Qed.
Lemma graph_step g a id f t : Rep g a -> ~ In id (map fst (a_links a)) -> f <> t ->
  exists g' a', add_link (gstep (gstep g (GNode f)) (GNode t)) f t id = Ok g' /\ g' = fold_left gstep (row_ops (id, (f, t))) g /\ Rep g' a' /\
    a_links a' = a_links a ++ [(id, (f, t))] /\ forall m, In m (a_nodes a') <-> In m (a_nodes a) \/ m = f \/ m = t.
Proof.
  intros R Ni Nf. pose proof (gstep_rep _ _ (GNode f) R) as R1. pose proof (gstep_rep _ _ (GNode t) R1) as R2.
  destruct (a_node_step a f) as (I1 & L1 & M1). destruct (a_node_step (a_step a (GNode f)) t) as (I2 & L2 & M2).
  pose proof (add_link_rep _ _ f t id R2) as H. set (a2 := a_step (a_step a (GNode f)) (GNode t)) in *.
  assert (Acc : a_accepts a2 (GLink f t id) = true).
  { unfold a_accepts. rewrite (proj2 (memb_In f (a_nodes a2))) by (apply M2; left; exact I1). rewrite (proj2 (memb_In t (a_nodes a2))) by exact I2. rewrite L2, L1.
    destruct (memb id (map fst (a_links a))) eqn:E; [apply memb_In in E; contradiction|]. destruct (Z.eqb_spec f t); [contradiction|reflexivity]. }
  destruct (add_link (gstep (gstep g (GNode f)) (GNode t)) f t id) as [g'|e] eqn:E; [|destruct H as [_ H]; congruence]. destruct H as [_ R3].
  exists g', (a_step a2 (GLink f t id)). split; [reflexivity|]. split.
  { cbn [row_ops fold_left fst snd]. unfold gstep at 1. cbn [gcall]. rewrite E. reflexivity. }
  split; [exact R3|]. unfold a_step at 1. rewrite Acc. cbn [a_links a_nodes]. rewrite L2, L1. split; [reflexivity|].
  intros m. unfold a_step at 1. rewrite Acc. cbn [a_nodes]. rewrite (M2 m), (M1 m). tauto.
Qed.
Lemma graph_rows_ok rs xs : Forall2 says_three rs xs -> forall g a, Rep g a -> NoDup (map fst (a_links a ++ xs)) -> (forall x, In x xs -> fst (snd x) <> snd (snd x)) ->
  exists g' a', foldM graph_row g rs = Ok g' /\ g' = fold_left gstep (flat_map row_ops xs) g /\ Rep g' a' /\ a_links a' = a_links a ++ xs /\
    forall m, In m (a_nodes a') <-> In m (a_nodes a) \/ exists x, In x xs /\ (m = fst (snd x) \/ m = snd (snd x)).
Proof.
  induction 1 as [|l [id [f t]] rs xs S0 F IH]; intros g a R ND NS.
  - exists g, a. rewrite app_nil_r. split; [reflexivity|]. split; [reflexivity|]. split; [exact R|]. split; [reflexivity|]. intros m. split; [auto|]. intros [H|(x & [] & _)]; exact H.
  - assert (Ni : ~ In id (map fst (a_links a))).
    { rewrite map_app in ND. cbn [map fst] in ND. apply NoDup_remove_2 in ND. intros I. apply ND. apply in_or_app. left. exact I. }
    destruct (graph_step g a id f t R Ni (NS _ (or_introl eq_refl))) as (g1 & a1 & E1 & G1 & R1 & L1 & M1).
    cbn [foldM]. rewrite (graph_row_three g l _ S0). cbn [fst snd]. rewrite E1. cbn [bind].
    destruct (IH g1 a1 R1) as (g' & a' & E2 & G2 & R2 & L2 & M2).
    { rewrite L1, <- app_assoc. exact ND. }
    { intros x I. apply NS. right. exact I. }
    exists g', a'. split; [exact E2|]. split; [cbn [flat_map]; rewrite fold_left_app, <- G1; exact G2|]. split; [exact R2|].
    split; [rewrite L2, L1, <- app_assoc; reflexivity|]. intros m. rewrite M2, M1. split.
    + intros [[H|H]|(x & I & H)]; [left; exact H|right; exists (id, (f, t)); split; [left; reflexivity|exact H]|right; exists x; split; [right; exact I|exact H]].
    + intros [H|(x & [<-|I] & H)]; [left; left; exact H|left; right; exact H|right; eauto].
Qed.
Lemma graph_row_cases g a l g' : Rep g a -> graph_row g l = Ok g' ->
  (g' = g /\ forall x, ~ says_three l x) \/ exists x a', says_three l x /\ Rep g' a' /\ a_links a' = a_links a ++ [x] /\ ~ In (fst x) (map fst (a_links a)) /\ fst (snd x) <> snd (snd x).
Proof.
  intros R E. destruct (split l ch_space) as [|w0 [|w1 [|w2 [|w3 ws]]]] eqn:W;
    try (left; unfold graph_row in E; rewrite W in E; cbn in E; apply Ok_inj in E; split; [now subst|]; intros x (v0 & v1 & v2 & H & _); apply split_words in H; congruence).
  right. assert (S0 : exists x, says_three l x).
  { unfold graph_row in E. rewrite W in E. cbn [length Nat.eqb word nth] in E. apply bind_ok in E as (id & A & E). apply bind_ok in E as (f & B & E). apply bind_ok in E as (t & C & E).
    exists (id, (f, t)), w0, w1, w2. apply split_words in W. apply stoi_reads in A, B, C. auto. }
  destruct S0 as ([id [f t]] & S0). rewrite (graph_row_three g l _ S0) in E. cbn [fst snd] in E.
  pose proof (gstep_rep _ _ (GNode f) R) as R1. pose proof (gstep_rep _ _ (GNode t) R1) as R2.
  destruct (a_node_step a f) as (I1 & L1 & M1). destruct (a_node_step (a_step a (GNode f)) t) as (I2 & L2 & M2).
  pose proof (add_link_rep _ _ f t id R2) as H. rewrite E in H. destruct H as [Acc R3].
  exists (id, (f, t)), (a_step (a_step (a_step a (GNode f)) (GNode t)) (GLink f t id)). split; [exact S0|]. split; [exact R3|].
  unfold a_step at 1. rewrite Acc. cbn [a_links]. rewrite L2, L1. split; [reflexivity|]. unfold a_accepts in Acc. rewrite L2, L1 in Acc. cbn [fst snd].
  apply Bool.andb_true_iff in Acc as [Acc N]. apply Bool.andb_true_iff in Acc as [_ M]. split.
  - intros I. apply memb_In in I. rewrite I in M. discriminate.
  - intros ->. rewrite Z.eqb_refl in N. discriminate.
Qed.
Lemma graph_rows_inv rs : forall g a g', Rep g a -> foldM graph_row g rs = Ok g' ->
  exists ys a', Rep g' a' /\ a_links a' = a_links a ++ ys /\ (length ys <= length rs)%nat /\ (length ys = length rs -> Forall2 says_three rs ys) /\ forall x, In x ys -> fst (snd x) <> snd (snd x).
Proof.
  induction rs as [|l rs IH]; intros g a g' R E; cbn [foldM] in E.
  - apply Ok_inj in E. subst g'. exists [], a. rewrite app_nil_r. split; [exact R|]. split; [reflexivity|]. split; [cbn; lia|]. split; [constructor|intros x []].
  - apply bind_ok in E as (g1 & E1 & E). destruct (graph_row_cases g a l g1 R E1) as [[-> N]|(x & a1 & S0 & R1 & L1 & Ni & Ns)].
    + destruct (IH g a g' R E) as (ys & a' & R' & L' & Len & F & K). exists ys, a'. cbn [length]. split; [exact R'|]. split; [exact L'|]. split; [lia|]. split; [lia|exact K].
    + destruct (IH g1 a1 g' R1 E) as (ys & a' & R' & L' & Len & F & K). exists (x :: ys), a'. split; [exact R'|]. split; [rewrite L', L1, <- app_assoc; reflexivity|].
      cbn [length]. split; [lia|]. split; [intros H; constructor; [exact S0|apply F; lia]|]. intros y [<-|I]; auto.
Qed.
Lemma build_graph_rows fuel n content ls rs : file_lines content ls -> rows_of ls rs -> (Z.to_nat n <= length rs)%nat -> (length ls <= fuel)%nat ->
  build_graph fuel n (Some content) =
  do g <- foldM graph_row empty_graph (firstn (Z.to_nat n) rs); do _ <- guard (Z.of_nat (length (g_lids g)) =? n)%Z EAssert; Ok g.
Proof.
  intros L R H Hf. unfold build_graph.
  destruct (read_rows_left graph_row ls rs (Z.to_nat n) fuel (open_file (Some content)) [] empty_graph R (open_left _ _ L) H Hf) as
    [(e & E1 & E2)|(a' & s' & line' & ls' & rs' & E1 & E2 & _)]; rewrite E2, E1; reflexivity.
Qed.

(** ** paths *)
Lemma first_to_spec g ls t : (forall l, In l ls -> exists e, get_endpoints g l = Ok e) ->
  (exists l f, first_to g ls t = Ok (Some l) /\ In l ls /\ get_endpoints g l = Ok (f, t)) \/
  (first_to g ls t = Ok None /\ forall l f, In l ls -> get_endpoints g l <> Ok (f, t)).
Proof.
  induction ls as [|l ls IH]; intros H; cbn [first_to].
  - right. split; [reflexivity|]. intros l f [].
  - destruct (H l (or_introl eq_refl)) as ([f t'] & E). rewrite E. cbn [bind snd]. destruct (Z.eqb_spec t' t) as [->|N].
    + left. exists l, f. split; [reflexivity|]. split; [left; reflexivity|exact E].
    + destruct (IH ltac:(intros; apply H; right; assumption)) as [(l' & f' & E1 & I & E2)|(E1 & K)].
      * left. exists l', f'. split; [exact E1|]. split; [right; exact I|exact E2].
      * right. split; [exact E1|]. intros l' f' [<-|I]; [rewrite E; congruence|eauto].
Qed.
(** the lookup of one hop *)
Lemma hop g a f t : Rep g a -> In f (a_nodes a) -> exists cs, connections g f Outgoing = Ok cs /\
  ((exists l, first_to g cs t = Ok (Some l) /\ get_endpoints g l = Ok (f, t)) \/
   (first_to g cs t = Ok None /\ forall l, get_endpoints g l <> Ok (f, t))).
Proof.
  intros R I. exists (a_connections a f Outgoing). rewrite (rep_connections _ _ _ _ R), (proj2 (memb_In _ _) I). split; [reflexivity|].
  assert (Out : forall l, In l (a_connections a f Outgoing) <-> exists t, get_endpoints g l = Ok (f, t)).
  { intros l. rewrite a_connections_In. split.
    - intros ([f' t'] & J & E). cbn in E. subst f'. exists t'. now apply (rep_endpoints _ _ _ _ _ R).
    - intros (t' & E). apply (rep_endpoints_iff _ _ _ _ _ R) in E. exists (f, t'). auto. }
  destruct (first_to_spec g (a_connections a f Outgoing) t) as [(l & f' & E1 & J & E2)|(E1 & K)].
  - intros l J. apply Out in J as (t' & E). eauto.
  - left. exists l. split; [exact E1|]. apply Out in J as (t' & E). congruence.
  - right. split; [exact E1|]. intros l E. apply (K l f); [|exact E]. apply Out. eauto.
Qed.
Lemma endpoints_node g a l f t : Rep g a -> get_endpoints g l = Ok (f, t) -> In f (a_nodes a) /\ In t (a_nodes a).
Proof. intros R E. apply (rep_endpoints_iff _ _ _ _ _ R) in E. destruct (rep_ends _ _ R _ _ _ E) as (A & B & _). auto. Qed.
Lemma path_links_ok g a ns : Rep g a -> forall ls0 cur, along g ns ls0 -> exists ls cur', path_links g cur ns = Ok (ls, cur') /\ along g ns ls.
Proof.
  intros R ls0 cur A. revert cur. induction A as [n|n l m ns ls E A IH]; intros cur.
  - exists [], cur. split; [reflexivity|constructor].
  - destruct (hop g a n m R) as (cs & C & [(l' & F & E')|(F & K)]); [apply (endpoints_node _ _ _ _ _ R E)| |elim (K l E)].
    destruct (IH (Some l')) as (ls' & cur' & P & A'). exists (l' :: ls'), cur'. split; [|constructor; assumption].
    cbn [path_links] in *. rewrite C. cbn [bind]. rewrite F. cbn [bind]. rewrite P. reflexivity.
Qed.
Lemma along_det g ns : (forall l l' f t, get_endpoints g l = Ok (f, t) -> get_endpoints g l' = Ok (f, t) -> l = l') ->
  forall ls ls', along g ns ls -> along g ns ls' -> ls = ls'.
Proof.
  intros U ls ls' A. revert ls'. induction A as [n|n l m ns ls E A IH]; intros ls' A'; inversion A'; subst; [reflexivity|]. f_equal; eauto.
Qed.

(** the state of the table after some paths *)
Definition holds (T : ltable) (ps : list lpath) : Prop := table_of (lt_table T) ps /\ lt_count T = Z.of_nat (length ps) /\ map lp_id ps = map Z.of_nat (seq 0 (length ps)).
Lemma last_app_one {A} (l : list A) x d : last (l ++ [x]) d = x.
Proof. induction l as [|y l IH]; [reflexivity|]. cbn [app]. destruct (l ++ [x]) eqn:E; [destruct l; discriminate|]. exact IH. Qed.
Lemma Forall2_last {A B} (P : A -> B -> Prop) l l' a b : Forall2 P l l' -> l <> [] -> P (last l a) (last l' b).
Proof.
  induction 1 as [|x y l l' H F IH]; intros N; [contradiction|]. destruct l as [|x2 l]; inversion F as [|? y2 ? l2]; subst; [exact H|]. apply IH. discriminate.
Qed.
Lemma paths_of_app o d ps p : paths_of o d (ps ++ [p]) = paths_of o d ps ++ if ((hd 0 (lp_nodes p) =? o) && (last (lp_nodes p) 0 =? d))%Z then [p] else [].
Proof. unfold paths_of. rewrite filter_app. cbn [filter]. destruct (_ && _)%Z; reflexivity. Qed.
Lemma path_row_ok g a T ps l ns ls0 : Rep g a -> holds T ps -> says_nodes l ns -> (2 <= length ns)%nat -> along g ns ls0 ->
  exists T' p, path_row g T l = Ok T' /\ holds T' (ps ++ [p]) /\ lp_nodes p = ns /\ along g ns (lp_links p).
Proof.
  intros R (HT & HC & HI) (ws & W & F) L A. apply split_words in W. unfold path_row. rewrite W.
  assert (Len : length ws = length ns) by (clear -F; induction F; cbn; congruence).
  assert (C : (2 <=? length ws)%nat = true) by (apply Nat.leb_le; lia). rewrite C.
  destruct ns as [|n0 ns]; [cbn in L; lia|]. destruct ws as [|w0 ws]; [cbn in Len; lia|]. cbn [word nth].
  assert (E0 : stoi w0 = Ok n0) by (inversion F; subst; now apply stoi_reads).
  assert (El : stoi (last (w0 :: ws) []) = Ok (last (n0 :: ns) 0)) by (apply stoi_reads; apply (Forall2_last reads_as); [exact F|discriminate]).
  rewrite E0, El. cbn [bind].
  assert (M : mapR stoi (w0 :: ws) = Ok (n0 :: ns)) by (apply mapR_Forall2; clear -F; induction F; constructor; auto; now apply stoi_reads).
  rewrite M. cbn [bind]. destruct (path_links_ok g a (n0 :: ns) R ls0 (lt_link T) A) as (ls & cur' & P & A'). rewrite P. cbn [bind fst snd].
  eexists. exists {| lp_id := lt_count T; lp_nodes := n0 :: ns; lp_links := ls |}. split; [reflexivity|]. split; [|split; [reflexivity|exact A']].
  unfold holds. cbn [lt_table lt_count]. rewrite app_length. cbn [length]. split; [|split].
  - intros o d. rewrite paths_of_app. cbn [lp_nodes]. change (hd 0 (n0 :: ns)) with n0. rewrite (Z.eqb_sym n0 o), (Z.eqb_sym _ d).
    destruct ((o =? n0) && (d =? last (n0 :: ns) 0))%Z eqn:B.
    + apply Bool.andb_true_iff in B as [B1 B2]. apply Z.eqb_eq in B1, B2. subst o d. rewrite HT. destruct (paths_of n0 (last (n0 :: ns) 0) ps); reflexivity.
    + rewrite (HT o d), app_nil_r. reflexivity.
  - lia.
  - rewrite map_app, HI. cbn [map lp_id]. rewrite HC, seq_app, map_app. reflexivity.
Qed.
Lemma path_rows_ok g a : Rep g a -> forall rs nss, Forall2 says_nodes rs nss -> (forall ns, In ns nss -> (2 <= length ns)%nat /\ exists ls, along g ns ls) ->
  forall T ps, holds T ps -> exists T' qs, foldM (path_row g) T rs = Ok T' /\ holds T' (ps ++ qs) /\ Forall2 (fun ns p => lp_nodes p = ns /\ along g ns (lp_links p)) nss qs.
Proof.
  intros R. induction 1 as [|l ns rs nss S0 F IH]; intros H T ps HT.
  - exists T, []. rewrite app_nil_r. split; [reflexivity|]. split; [exact HT|constructor].
  - destruct (H ns (or_introl eq_refl)) as (L & ls0 & A). destruct (path_row_ok g a T ps l ns ls0 R HT S0 L A) as (T1 & p & E1 & H1 & N1 & A1).
    cbn [foldM]. rewrite E1. cbn [bind]. destruct (IH ltac:(intros; apply H; right; assumption) T1 (ps ++ [p]) H1) as (T2 & qs & E2 & H2 & F2).
    exists T2, (p :: qs). split; [exact E2|]. rewrite <- app_assoc in H2. split; [exact H2|]. constructor; auto.
Qed.
Lemma load_rows fuel g n content ls rs : file_lines content ls -> rows_of ls rs -> 0 < n -> (Z.to_nat n <= length rs)%nat -> (length ls <= fuel)%nat ->
  load_path_table fuel g n (Some content) = do T <- foldM (path_row g) no_paths (firstn (Z.to_nat n) rs); Ok (Some (lt_table T)).
Proof.
  intros L R P H Hf. unfold load_path_table. assert (B : (n <=? 0)%Z = false) by lia. rewrite B.
  destruct (read_rows_left (path_row g) ls rs (Z.to_nat n) fuel (open_file (Some content)) [] no_paths R (open_left _ _ L) H Hf) as
    [(e & E1 & E2)|(a' & s' & line' & ls' & rs' & E1 & E2 & _)]; rewrite E2, E1; reflexivity.
Qed.
Lemma holds_none : holds no_paths [].
Proof. split; [intros o d; reflexivity|split; reflexivity]. Qed.

(** ** saving *)
Fixpoint join (ws : list text) : text :=
  match ws with
  | [] => []
  | [w] => w
  | w :: ws => w ++ ch_space :: join ws
  end.
Lemma removelast_join ws : ws <> [] -> removelast (concat (map (fun w => w ++ [ch_space]) ws)) = join ws.
Proof.
  induction ws as [|w ws IH]; intros N; [contradiction|]. destruct ws as [|w2 ws].
  - cbn [map concat join]. rewrite app_nil_r. apply removelast_last.
  - cbn [map concat] in *. rewrite removelast_app; [|destruct w2; discriminate]. rewrite IH by discriminate. cbn [join]. rewrite <- app_assoc. reflexivity.
Qed.
Lemma join_tokens ws : Forall (fun w => w <> [] /\ ~ In ch_space w) ws -> tokens ch_space (join ws) ws.
Proof.
  induction 1 as [|w ws [Nw Ns] F IH]; [constructor|]. destruct ws as [|w2 ws].
  - cbn [join]. rewrite <- (app_nil_r w) at 1. apply tk_word; auto.
  - cbn [join] in *. apply tk_word; auto; [right; eauto|]. constructor. exact IH.
Qed.
Lemma join_chars ws c : In c (join ws) -> c = ch_space \/ exists w, In w ws /\ In c w.
Proof.
  induction ws as [|w ws IH]; [contradiction|]. destruct ws as [|w2 ws].
  - cbn [join]. intros I. right. exists w. split; [left; reflexivity|exact I].
  - cbn [join] in *. intros I. apply in_app_or in I as [I|[<-|I]].
    + right. exists w. split; [left; reflexivity|exact I].
    + left. reflexivity.
    + destruct (IH I) as [->|(w' & J & K)]; [left; reflexivity|right; exists w'; split; [right; exact J|exact K]].
Qed.
Lemma join_head ws : ws <> [] -> Forall (fun w => w <> []) ws -> exists c r, join ws = c :: r /\ In c (hd [] ws).
Proof.
  intros N F. destruct ws as [|w ws]; [contradiction|]. inversion F as [|? ? Nw]; subst. destruct w as [|c w]; [contradiction|].
  destruct ws; cbn [join app hd]; eexists; eexists; (split; [reflexivity|left; reflexivity]).
Qed.
Lemma join_end ws : ws <> [] -> Forall (fun w => w <> []) ws -> exists c r, join ws = r ++ [c] /\ exists w, In w ws /\ In c w.
Proof.
  induction ws as [|w ws IH]; intros N F; [contradiction|]. inversion F as [|? ? Nw F']; subst. destruct ws as [|w2 ws].
  - cbn [join]. destruct (exists_last Nw) as (r & c & E). exists c, r. split; [exact E|]. exists w. split; [left; reflexivity|]. rewrite E. apply in_or_app. right. left. reflexivity.
  - destruct (IH ltac:(discriminate) F') as (c & r & E & w' & I & J). exists c, (w ++ ch_space :: r). split; [cbn [join] in *; rewrite E, <- app_assoc; reflexivity|].
    exists w'. split; [right; exact I|exact J].
Qed.
Definition line_of (ns : list Z) : text := join (map to_string ns).
Lemma line_chars ns c : In c (line_of ns) -> c = ch_space \/ number_char c.
Proof.
  intros I. apply join_chars in I as [H|(w & J & I)]; [left; exact H|]. apply in_map_iff in J as (z & <- & _). right. eapply to_string_chars; eauto.
Qed.
Lemma line_words ns : words (line_of ns) (map to_string ns).
Proof.
  apply join_tokens. apply Forall_forall. intros w I. apply in_map_iff in I as (z & <- & _). split; [apply to_string_nonempty|].
  intros J. apply to_string_chars in J. apply number_facts in J as (K & _). now apply K.
Qed.
Lemma line_says ns : Forall (fun z => -2147483648 <= z <= 2147483647) ns -> says_nodes (line_of ns) ns.
Proof.
  intros F. exists (map to_string ns). split; [apply line_words|]. induction F as [|z ns B F IH]; cbn [map]; constructor; [|exact IH]. apply stoi_reads. now apply stoi_to_string.
Qed.
Lemma line_stripped ns : ns <> [] -> exists c r, line_of ns = c :: r /\ c <> ch_hash /\ stripped (line_of ns) (line_of ns) /\ ~ In ch_newline (line_of ns).
Proof.
  intros N. assert (N' : map to_string ns <> []) by (destruct ns; [contradiction|discriminate]).
  assert (F : Forall (fun w : text => w <> []) (map to_string ns)) by (apply Forall_forall; intros w I; apply in_map_iff in I as (z & <- & _); apply to_string_nonempty).
  destruct (join_head _ N' F) as (c & r & E & I). destruct (join_end _ N' F) as (c2 & r2 & E2 & w2 & J & I2).
  assert (Nc : number_char c). { destruct ns as [|z ns]; [contradiction|]. cbn [map hd] in I. eapply to_string_chars; eauto. }
  assert (Nc2 : number_char c2). { apply in_map_iff in J as (z & <- & _). eapply to_string_chars; eauto. }
  exists c, r. split; [exact E|]. split; [apply (number_facts _ Nc)|]. split.
  - exists [], []. rewrite app_nil_r. repeat split; auto.
    + intros x r' H. unfold line_of in H. rewrite E in H. injection H as <- _. apply (number_facts _ Nc).
    + intros x r' H. unfold line_of in H. rewrite E2 in H. apply app_inj_tail in H as [_ <-]. apply (number_facts _ Nc2).
  - intros H. apply line_chars in H as [H|H]; [discriminate|]. apply number_facts in H. now apply H.
Qed.
Lemma string_line ns : ns <> [] -> node_vec_to_string ns = Ok (line_of ns ++ [ch_newline]).
Proof.
  intros N. unfold node_vec_to_string. destruct ns as [|z ns]; [contradiction|]. unfold line_of. rewrite <- removelast_join by discriminate. rewrite map_map. reflexivity.
Qed.
Lemma save_lines keys T : let ps := concat (map (fun k => paths_at T (fst k) (snd k)) keys) in
  Forall (fun p => lp_nodes p <> []) ps -> save_path_table keys T = Ok (unlines (map (fun p => line_of (lp_nodes p)) ps)).
Proof.
  cbv zeta. unfold save_path_table. change (fun k : Z * Z => match T (fst k) (snd k) with Some ps => ps | None => [] end) with (fun k : Z * Z => paths_at T (fst k) (snd k)).
  intros F. set (ps := concat (map (fun k => paths_at T (fst k) (snd k)) keys)) in *. clearbody ps.
  assert (M : mapR (fun p => node_vec_to_string (lp_nodes p)) ps = Ok (map (fun p => line_of (lp_nodes p) ++ [ch_newline]) ps)).
  { apply mapR_Forall2. induction F as [|p ps N F IH]; cbn [map]; constructor; [now apply string_line|exact IH]. }
  rewrite M. cbn [bind]. unfold unlines. rewrite map_map. reflexivity.
Qed.
Lemma saved_rows ps : Forall (fun p => lp_nodes p <> []) ps ->
  single_lines (map (fun p => line_of (lp_nodes p)) ps) /\ rows_of (map (fun p => line_of (lp_nodes p)) ps) (map (fun p => line_of (lp_nodes p)) ps).
Proof.
  induction 1 as [|p ps N F [IH1 IH2]]; cbn [map]; [split; constructor|]. destruct (line_stripped _ N) as (c & r & E & Nc & St & Nn). split.
  - constructor; assumption.
  - rewrite E in *. rewrite <- E at 1. rewrite E. apply ro_row; assumption.
Qed.
Lemma paths_of_table T keys o d : NoDup keys -> (forall o d, T o d <> None -> In (o, d) keys) ->
  (forall o d p, In p (paths_at T o d) -> hd 0 (lp_nodes p) = o /\ last (lp_nodes p) 0 = d) ->
  paths_of o d (concat (map (fun k => paths_at T (fst k) (snd k)) keys)) = paths_at T o d.
Proof.
  intros ND Cov Ends.
  assert (Same : forall o d, paths_of o d (paths_at T o d) = paths_at T o d).
  { intros o' d'. unfold paths_of. assert (H : forall p, In p (paths_at T o' d') -> ((hd 0 (lp_nodes p) =? o') && (last (lp_nodes p) 0 =? d'))%Z = true).
    { intros p I. destruct (Ends _ _ _ I) as [-> ->]. rewrite !Z.eqb_refl. reflexivity. }
    induction (paths_at T o' d') as [|p ps IH]; [reflexivity|]. cbn [filter]. rewrite H by (left; reflexivity). f_equal. apply IH. intros q I. apply H. right. exact I. }
  assert (Other : forall o1 d1, (o1, d1) <> (o, d) -> paths_of o d (paths_at T o1 d1) = []).
  { intros o1 d1 N. unfold paths_of. assert (H : forall p, In p (paths_at T o1 d1) -> ((hd 0 (lp_nodes p) =? o) && (last (lp_nodes p) 0 =? d))%Z = false).
    { intros p I. destruct (Ends _ _ _ I) as [-> ->]. destruct (Z.eqb_spec o1 o) as [->|]; [|reflexivity]. destruct (Z.eqb_spec d1 d) as [->|]; [contradiction|reflexivity]. }
    induction (paths_at T o1 d1) as [|p ps IH]; [reflexivity|]. cbn [filter]. rewrite H by (left; reflexivity). apply IH. intros q I. apply H. right. exact I. }
  assert (G : forall ks, NoDup ks -> paths_of o d (concat (map (fun k => paths_at T (fst k) (snd k)) ks)) =
    if existsb (fun k => (fst k =? o) && (snd k =? d))%Z ks then paths_at T o d else []).
  { induction ks as [|[o1 d1] ks IH]; intros H; [reflexivity|]. inversion H as [|? ? Ni H']; subst. cbn [map concat existsb fst snd].
    unfold paths_of. rewrite filter_app. fold (paths_of o d (paths_at T o1 d1)). fold (paths_of o d (concat (map (fun k => paths_at T (fst k) (snd k)) ks))). rewrite (IH H').
    destruct (Z.eqb_spec o1 o) as [->|N]; cbn [andb orb].
    - destruct (Z.eqb_spec d1 d) as [->|N]; cbn [orb].
      + rewrite Same. destruct (existsb _ ks) eqn:E; [|apply app_nil_r]. apply existsb_exists in E as ([o2 d2] & I & E). cbn in E. apply Bool.andb_true_iff in E as [E1 E2]. apply Z.eqb_eq in E1, E2. subst. contradiction.
      + rewrite Other by congruence. reflexivity.
    - rewrite Other by congruence. reflexivity. }
  rewrite (G keys ND). destruct (existsb _ keys) eqn:E; [reflexivity|]. unfold paths_at. destruct (T o d) as [ps|] eqn:ET; [|reflexivity].
  assert (I : In (o, d) keys) by (apply Cov; congruence). exfalso.
  assert (existsb (fun k => (fst k =? o) && (snd k =? d))%Z keys = true); [|congruence]. apply existsb_exists. exists (o, d). split; [exact I|]. cbn. rewrite !Z.eqb_refl. reflexivity.
Qed.
