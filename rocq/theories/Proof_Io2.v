From Coq Require Import Ascii String.
From Verif Require Import Base Base_lemmas Model_Num Model_Graph Spec_Graph Proof_Graph Proof_Graph2 Proof_Link Proof_Link4 Model_Text Model_Io Spec_Io Proof_Text Proof_Io.
Local Open Scope list_scope.

Lemma split_words l ws : words l ws <-> split l ch_space = ws.
Proof. apply tokens_split. Qed.

(** ** insertion keeps the first entry *)
Lemma first_of_app {V} (xs ys : list (Z * V)) k : first_of (xs ++ ys) k = match first_of xs k with Some v => Some v | None => first_of ys k end.
Proof. unfold first_of. induction xs as [|x xs IH]; cbn [app find]; [reflexivity|]. destruct (fst x =? k)%Z; [reflexivity|exact IH]. Qed.
Lemma lookup_first {V} (m : list (Z * V)) k : lookup m k = first_of m k.
Proof. unfold first_of. induction m as [|[k' v] m IH]; cbn [lookup find fst]; [reflexivity|]. destruct (k' =? k)%Z; [reflexivity|exact IH]. Qed.
Lemma first_of_one {V} (v : V) k k' : first_of [(k, v)] k' = if (k =? k')%Z then Some v else None.
Proof. unfold first_of. cbn. destruct (k =? k')%Z; reflexivity. Qed.
Lemma lookup_insert {V} (m : list (Z * V)) k v k' : lookup (insert m k v) k' = first_of (m ++ [(k, v)]) k'.
Proof.
  unfold insert. rewrite first_of_app, first_of_one, (lookup_first m k). destruct (first_of m k) as [w|] eqn:E.
  - rewrite lookup_first. destruct (first_of m k') eqn:E'; [reflexivity|]. destruct (Z.eqb_spec k k') as [<-|]; [congruence|reflexivity].
  - rewrite lookup_first, first_of_app, first_of_one. reflexivity.
Qed.
Lemma first_of_ext {V} (m m' : list (Z * V)) k v : (forall j, first_of m j = first_of m' j) -> forall j, first_of (m ++ [(k, v)]) j = first_of (m' ++ [(k, v)]) j.
Proof. intros H j. rewrite !first_of_app, H. reflexivity. Qed.

(** ** nodes *)
Lemma node_row_ok m l id k : says_node l id k -> node_row m l = Ok (insert m id k).
Proof.
  intros (w0 & w1 & ws & W & N & K). apply split_words in W. apply stoi_reads in N. apply stripped_trim in K. unfold node_row. rewrite W.
  cbn [length Nat.leb word nth]. rewrite N, K. cbn [bind]. rewrite (proj2 (node_kind_iff (node_name k) k) eq_refl). reflexivity.
Qed.
Lemma node_row_inv m l m' : node_row m l = Ok m' -> exists id k, says_node l id k /\ m' = insert m id k.
Proof.
  unfold node_row. destruct (split l ch_space) as [|w0 [|w1 ws]] eqn:W; try discriminate. cbn [length Nat.leb word nth]. intros H.
  apply bind_ok in H as (id & N & H). destruct (node_kind (trim w1)) as [k|] eqn:K; [|discriminate]. apply Ok_inj in H. subst m'.
  exists id, k. split; [|reflexivity]. exists w0, w1, ws. split; [now apply split_words|]. split; [now apply stoi_reads|]. apply node_kind_iff in K. now apply stripped_iff.
Qed.
Lemma node_row_err m l e : node_row m l = Err e -> e = EThrow.
Proof.
  unfold node_row. destruct (2 <=? _)%nat; [|now intros [= <-]]. destruct (stoi _) eqn:N; cbn [bind]; [|apply stoi_err in N; now intros [= <-]].
  destruct (node_kind _); [discriminate|now intros [= <-]].
Qed.

(** ** links *)
Definition converted (d : link_data) : link_args :=
  {| la_kind := ld_kind d; la_hold := ld_vpm d / 1600; la_flow := ld_vph d / 3600; la_lanes := ld_lanes d; la_len := ld_miles d * 1600; la_ffs := ld_mph d * 1600 / 3600 |}.
Lemma link_row_ok stod m l id d : says_link stod l id d -> link_row stod m l = Ok (insert m id (converted d)).
Proof.
  intros (w0 & w1 & w2 & w3 & w4 & w5 & w6 & ws & W & N & K & S2 & S3 & S4 & S5 & N6).
  apply split_words in W. apply stoi_reads in N, N6. apply stripped_trim in K. unfold link_row. rewrite W.
  cbn [length Nat.leb word nth]. rewrite N, S2, S3, S4, S5, N6, K. cbn [bind]. rewrite (proj2 (link_kind_iff _ (ld_kind d)) eq_refl). reflexivity.
Qed.
Lemma link_row_inv stod m l m' : link_row stod m l = Ok m' -> exists id d, says_link stod l id d /\ m' = insert m id (converted d).
Proof.
  unfold link_row. destruct (split l ch_space) as [|w0 [|w1 [|w2 [|w3 [|w4 [|w5 [|w6 ws]]]]]]] eqn:W; try discriminate. cbn [length Nat.leb word nth]. intros H.
  apply bind_ok in H as (id & N & H). apply bind_ok in H as (a & S2 & H). apply bind_ok in H as (b & S3 & H). apply bind_ok in H as (c & S4 & H).
  apply bind_ok in H as (h & S5 & H). apply bind_ok in H as (n & N6 & H).
  destruct (link_kind (trim w1)) as [k|] eqn:K; [|discriminate]. apply Ok_inj in H. subst m'.
  exists id, {| ld_kind := k; ld_miles := a; ld_mph := b; ld_vph := c; ld_vpm := h; ld_lanes := n |}. split; [|reflexivity].
  exists w0, w1, w2, w3, w4, w5, w6, ws. apply split_words in W. apply stoi_reads in N, N6. apply link_kind_iff in K. apply stripped_iff in K. cbn. repeat (split; [assumption|]). assumption.
Qed.
Lemma link_row_err stod m l e : (forall w e, stod w = Err e -> e = EThrow) -> link_row stod m l = Err e -> e = EThrow.
Proof.
  intros Hs. unfold link_row. destruct (7 <=? _)%nat; [|now intros [= <-]].
  destruct (stoi _) eqn:N; cbn [bind]; [|apply stoi_err in N; now intros [= <-]].
  destruct (stod (word _ 2)) eqn:S2; cbn [bind]; [|apply Hs in S2; now intros [= <-]].
  destruct (stod (word _ 3)) eqn:S3; cbn [bind]; [|apply Hs in S3; now intros [= <-]].
  destruct (stod (word _ 4)) eqn:S4; cbn [bind]; [|apply Hs in S4; now intros [= <-]].
  destruct (stod (word _ 5)) eqn:S5; cbn [bind]; [|apply Hs in S5; now intros [= <-]].
  destruct (stoi (word _ 6)) eqn:S6; cbn [bind]; [|apply stoi_err in S6; now intros [= <-]].
  destruct (link_kind _); [discriminate|now intros [= <-]].
Qed.

(** ** tables filled row by row *)
Section Fill.
Context {V : Type}.
Variable row : list (Z * V) -> text -> res (list (Z * V)).
Variable says : text -> Z -> V -> Prop.
Hypothesis row_ok : forall m l id v, says l id v -> row m l = Ok (insert m id v).
Hypothesis row_inv : forall m l m', row m l = Ok m' -> exists id v, says l id v /\ m' = insert m id v.
Hypothesis row_err : forall m l e, row m l = Err e -> e = EThrow.

Lemma fill_ok rs xs : Forall2 (fun l x => says l (fst x) (snd x)) rs xs -> forall m, exists m', foldM row m rs = Ok m' /\ forall k, lookup m' k = first_of (m ++ xs) k.
Proof.
  induction 1 as [|l [id v] rs xs S0 F IH]; intros m.
  - exists m. cbn. split; [reflexivity|]. intros k. rewrite app_nil_r. apply lookup_first.
  - cbn [foldM fst snd] in *. rewrite (row_ok m l id v S0). cbn [bind]. destruct (IH (insert m id v)) as (m' & E & H). exists m'. split; [exact E|].
    intros k. rewrite H. change ((id, v) :: xs) with ([(id, v)] ++ xs). rewrite app_assoc, !first_of_app. rewrite <- !first_of_app. rewrite (first_of_app (insert m id v)), (first_of_app (m ++ [(id, v)])).
    rewrite <- lookup_first, lookup_insert. reflexivity.
Qed.
Lemma fill_keys rs : forall m m', foldM row m rs = Ok m' -> NoDup (map fst m) -> NoDup (map fst m').
Proof.
  induction rs as [|l rs IH]; intros m m' E ND; cbn [foldM] in E; [apply Ok_inj in E; now subst|].
  apply bind_ok in E as (m1 & E1 & E). apply (IH _ _ E). apply row_inv in E1 as (id & v & _ & ->). unfold insert. destruct (lookup m id) eqn:L; [exact ND|].
  rewrite map_app. cbn [map fst]. apply NoDup_snoc; [exact ND|]. intros I. apply in_map_iff in I as ([k w] & Ek & I). cbn in Ek. subst k.
  clear -L I. induction m as [|[k x] m IH]; [contradiction|]. cbn [lookup] in L. destruct (Z.eqb_spec k id) as [->|N]; [discriminate|]. destruct I as [I|I]; [congruence|auto].
Qed.
Lemma fill_inv rs : forall m m', foldM row m rs = Ok m' -> exists xs, Forall2 (fun l x => says l (fst x) (snd x)) rs xs.
Proof.
  induction rs as [|l rs IH]; intros m m' E; cbn [foldM] in E; [exists []; constructor|].
  apply bind_ok in E as (m1 & E1 & E). apply row_inv in E1 as (id & v & S0 & _). destruct (IH _ _ E) as (xs & F). exists ((id, v) :: xs). constructor; assumption.
Qed.
Lemma fill_err rs : forall m e, foldM row m rs = Err e -> e = EThrow.
Proof.
  induction rs as [|l rs IH]; intros m e E; cbn [foldM] in E; [discriminate|]. destruct (row m l) as [m1|e1] eqn:R; cbn [bind] in E; [eauto|]. injection E as <-. eauto.
Qed.
Lemma fill_bad rs l : forall m, In l rs -> (forall id v, ~ says l id v) -> foldM row m rs = Err EThrow.
Proof.
  intros m I N. destruct (foldM row m rs) as [m'|e] eqn:E; [|apply fill_err in E; now subst].
  apply fill_inv in E as (xs & F). exfalso. induction F as [|l0 x rs xs S0 F IH]; [contradiction|]. destruct I as [<-|I]; [exact (N _ _ S0)|auto].
Qed.
End Fill.

(** ** origins and destinations *)
Lemma origin_row_two ns x l on n : says_two l (on, n) -> origin_row ns x l =
  match lookup ns n with Some NOrigin => Ok (insert (fst x) on n, snd x) | Some _ => Err EUB | None => Err EThrow end.
Proof.
  intros (w0 & w1 & W & A & B). apply split_words in W. apply stoi_reads in A, B. cbn [fst snd] in *. unfold origin_row. rewrite W. cbn [length Nat.eqb word nth]. rewrite A, B. reflexivity.
Qed.
Lemma dest_row_two ns x l dn n : says_two l (dn, n) -> dest_row ns x l =
  match lookup ns n with Some NDest => Ok (fst x, insert (snd x) dn n) | Some _ => Err EUB | None => Err EThrow end.
Proof.
  intros (w0 & w1 & W & A & B). apply split_words in W. apply stoi_reads in A, B. cbn [fst snd] in *. unfold dest_row. rewrite W. cbn [length Nat.eqb word nth]. rewrite A, B. reflexivity.
Qed.
Lemma origins_ok ns rs xs : Forall2 says_two rs xs -> (forall x, In x xs -> lookup ns (snd x) = Some NOrigin) ->
  forall m, exists m1, foldM (origin_row ns) m rs = Ok (m1, snd m) /\ forall k, lookup m1 k = first_of (fst m ++ xs) k.
Proof.
  induction 1 as [|l [o n] rs xs S0 F IH]; intros H m.
  - exists (fst m). split; [cbn; now destruct m|]. intros k. rewrite app_nil_r. apply lookup_first.
  - cbn [foldM]. rewrite (origin_row_two ns m l o n S0). pose proof (H (o, n) (or_introl eq_refl)) as Hn; cbn [snd] in Hn; rewrite Hn. cbn [bind].
    destruct (IH ltac:(intros; apply H; right; assumption) (insert (fst m) o n, snd m)) as (m1 & E & K). exists m1. split; [exact E|].
    intros k. rewrite K. cbn [fst]. change ((o, n) :: xs) with ([(o, n)] ++ xs). rewrite app_assoc, (first_of_app (insert _ _ _)), (first_of_app (fst m ++ _)).
    rewrite <- lookup_first, lookup_insert. reflexivity.
Qed.
Lemma dests_ok ns rs xs : Forall2 says_two rs xs -> (forall x, In x xs -> lookup ns (snd x) = Some NDest) ->
  forall m, exists m1, foldM (dest_row ns) m rs = Ok (fst m, m1) /\ forall k, lookup m1 k = first_of (snd m ++ xs) k.
Proof.
  induction 1 as [|l [o n] rs xs S0 F IH]; intros H m.
  - exists (snd m). split; [cbn; now destruct m|]. intros k. rewrite app_nil_r. apply lookup_first.
  - cbn [foldM]. rewrite (dest_row_two ns m l o n S0). pose proof (H (o, n) (or_introl eq_refl)) as Hn; cbn [snd] in Hn; rewrite Hn. cbn [bind].
    destruct (IH ltac:(intros; apply H; right; assumption) (fst m, insert (snd m) o n)) as (m1 & E & K). exists m1. split; [exact E|].
    intros k. rewrite K. cbn [snd]. change ((o, n) :: xs) with ([(o, n)] ++ xs). rewrite app_assoc, (first_of_app (insert _ _ _)), (first_of_app (snd m ++ _)).
    rewrite <- lookup_first, lookup_insert. reflexivity.
Qed.
Lemma build_od_rows fuel ns nO nD content ls rs : file_lines content ls -> rows_of ls rs -> (Z.to_nat nO + Z.to_nat nD <= length rs)%nat -> (length ls <= fuel)%nat ->
  build_od_factory fuel ns nO nD (Some content) =
  do x <- foldM (origin_row ns) ([], []) (firstn (Z.to_nat nO) rs); foldM (dest_row ns) x (firstn (Z.to_nat nD) (skipn (Z.to_nat nO) rs)).
Proof.
  intros L R H Hf. unfold build_od_factory.
  destruct (read_rows_left (origin_row ns) ls rs (Z.to_nat nO) fuel (open_file (Some content)) [] ([], []) R (open_left _ _ L) ltac:(lia) Hf) as
    [(e & E1 & E2)|(a' & s' & line' & ls' & rs' & E1 & E2 & L2 & R2 & E3 & H3)]; rewrite E2, E1; [reflexivity|]. cbn [bind fst snd]. subst rs'.
  destruct (read_rows_left (dest_row ns) ls' (skipn (Z.to_nat nO) rs) (Z.to_nat nD) fuel s' line' a' R2 L2) as
    [(e & E4 & E5)|(a2 & s2 & line2 & ls2 & rs2 & E4 & E5 & _)]; [rewrite skipn_length; lia|lia|rewrite E5, E4; reflexivity|rewrite E5, E4; reflexivity].
Qed.

(** ** demand *)
Lemma mapR_Forall2 {A B} (f : A -> res B) l r : mapR f l = Ok r <-> Forall2 (fun x y => f x = Ok y) l r.
Proof.
  revert r. induction l as [|x l IH]; intros r; cbn [mapR].
  - split; [intros E; apply Ok_inj in E; subst; constructor|inversion 1; reflexivity].
  - split.
    + intros E. apply bind_ok in E as (y & Ey & E). apply bind_ok in E as (r' & Er & E). apply Ok_inj in E. subst. constructor; [exact Ey|]. now apply IH.
    + inversion 1 as [|? y ? r' Ey F]; subst. rewrite Ey. cbn [bind]. apply IH in F. rewrite F. reflexivity.
Qed.
Definition add_demand (D : demand) (x : Z * Z * list Q) : demand :=
  fun o d => match D o d with Some v => Some v | None => if (o =? fst (fst x))%Z && (d =? snd (fst x))%Z then Some (snd x) else None end.
Lemma demand_row_ok stod mi x D l y : says_demand stod mi l y -> lookup (fst x) (fst (fst y)) <> None -> lookup (snd x) (snd (fst y)) <> None ->
  exists D', demand_row stod mi x D l = Ok D' /\ forall o d, D' o d = add_demand D y o d.
Proof.
  destruct y as [[o d] v]. intros (w0 & w1 & ws & ws' & W & A & B & Len & F) Ho Hd. cbn [fst snd] in *. apply split_words in W. apply stoi_reads in A, B.
  unfold demand_row. rewrite W. cbn [length word nth skipn]. rewrite app_length.
  assert (C : (mi + 2 <=? Z.of_nat (S (S (length ws + length ws'))))%Z = true) by lia. rewrite C, A, B. cbn [bind].
  assert (Fn : firstn (Z.to_nat mi) (ws ++ ws') = ws).
  { rewrite <- Len, Nat2Z.id, firstn_app, Nat.sub_diag, firstn_all. cbn. apply app_nil_r. }
  rewrite Fn. rewrite (proj2 (mapR_Forall2 stod ws v) F). cbn [bind].
  destruct (lookup (fst x) o); [|contradiction]. destruct (lookup (snd x) d); [|contradiction].
  destruct (D o d) as [v0|] eqn:E; eexists; (split; [reflexivity|]); intros o' d'; unfold add_demand; cbn [fst snd].
  - destruct (D o' d') eqn:E'; [reflexivity|]. destruct (Z.eqb_spec o' o) as [->|]; [|reflexivity]. destruct (Z.eqb_spec d' d) as [->|]; [congruence|reflexivity].
  - destruct (Z.eqb_spec o' o) as [->|]; cbn [andb]; [|now destruct (D o' d')]. destruct (Z.eqb_spec d' d) as [->|]; cbn [andb]; [now rewrite E|now destruct (D o d')].
Qed.
(** the demand given by the first row of the pair *)
Definition first_row (ys : list (Z * Z * list Q)) (o d : Z) : option (list Q) :=
  option_map snd (find (fun y => (fst (fst y) =? o) && (snd (fst y) =? d))%Z ys).
Lemma demand_rows_ok stod mi x rs ys : Forall2 (says_demand stod mi) rs ys ->
  (forall y, In y ys -> lookup (fst x) (fst (fst y)) <> None /\ lookup (snd x) (snd (fst y)) <> None) ->
  forall D, exists D', foldM (demand_row stod mi x) D rs = Ok D' /\ forall o d, D' o d = match D o d with Some v => Some v | None => first_row ys o d end.
Proof.
  induction 1 as [|l y rs ys S0 F IH]; intros H D.
  - exists D. split; [reflexivity|]. intros o d. cbn. now destruct (D o d).
  - destruct (H y (or_introl eq_refl)) as [Ho Hd]. destruct (demand_row_ok stod mi x D l y S0 Ho Hd) as (D1 & E1 & K1). cbn [foldM]. rewrite E1. cbn [bind].
    destruct (IH ltac:(intros; apply H; right; assumption) D1) as (D2 & E2 & K2). exists D2. split; [exact E2|]. intros o d. rewrite K2, K1. unfold add_demand, first_row. cbn [find].
    destruct (D o d); [reflexivity|]. rewrite (Z.eqb_sym o), (Z.eqb_sym d). destruct ((fst (fst y) =? o) && (snd (fst y) =? d))%Z; reflexivity.
Qed.
