(** C262-C263: text files with time-dependent costs. *)
From Coq Require Import Ascii String.
From Verif Require Import Base Base_lemmas Model_Num Model_Graph Model_Text Model_Io Model_Mio Spec_Io Spec_Mio Proof_Text Proof_Io Proof_Io2 Proof_Mio Proof_Mio2 Proof_Mio3 Proof_Mio4 Prop_Io Prop_Mio Model_TdIo Spec_TdIo Proof_TdIo.
Local Open Scope list_scope.
Local Open Scope Z_scope.

(** After reading a link file, a link has the costs of its last row; a link without row that
    had costs before has zeros; any other link has none. *)
Theorem C262_link_costs_read : forall stof n rows content ls xs m, headed content ls -> (Z.to_nat rows <= length ls)%nat ->
  Forall2 (says_lcost stof n) (firstn (Z.to_nat rows) ls) xs -> Forall (fun x => length (snd x) = n) m ->
  exists m', read_td_link_cost stof n rows (Some content) m = Ok m' /\ (forall k v, last_entry xs k v -> kfind Z.eqb m' k = Some v) /\
    forall k, ~ In k (map fst xs) -> kfind Z.eqb m' k = match kfind Z.eqb m k with Some _ => Some (repeat 0%Q n) | None => None end.
Proof.
  intros stof n rows content ls xs m Hd L F Hm. unfold read_td_link_cost, read_costs. destruct (zero_ok Z.eqb n Z.eqb_eq m Hm) as (m0 & -> & H0 & Z0). cbn [bind].
  rewrite (read_lines_headed _ _ _ _ _ Hd L). destruct (fill_spec Z.eqb n Z.eqb_eq (lcost_row stof n) (says_lcost stof n) _ xs (lcost_row_ok stof n) F m0 H0) as (m' & E & _ & A & B).
  exists m'. split; [exact E|]. split; [exact A|]. intros k N. rewrite (B k N), Z0. reflexivity.
Qed.
Print Assumptions C262_link_costs_read.

(** The same for movements. *)
Theorem C262_movement_costs_read : forall stof n rows content ls xs m, headed content ls -> (Z.to_nat rows <= length ls)%nat ->
  Forall2 (says_ncost stof n) (firstn (Z.to_nat rows) ls) xs -> Forall (fun x => length (snd x) = n) m ->
  exists m', read_td_node_cost stof n rows (Some content) m = Ok m' /\ (forall k v, last_entry xs k v -> kfind pair_eqb m' k = Some v) /\
    forall k, ~ In k (map fst xs) -> kfind pair_eqb m' k = match kfind pair_eqb m k with Some _ => Some (repeat 0%Q n) | None => None end.
Proof.
  intros stof n rows content ls xs m Hd L F Hm. unfold read_td_node_cost, read_costs. destruct (zero_ok pair_eqb n pair_eqb_ok m Hm) as (m0 & -> & H0 & Z0). cbn [bind].
  rewrite (read_lines_headed _ _ _ _ _ Hd L). destruct (fill_spec pair_eqb n pair_eqb_ok (ncost_row stof n) (says_ncost stof n) _ xs (ncost_row_ok stof n) F m0 H0) as (m' & E & _ & A & B).
  exists m'. split; [exact E|]. split; [exact A|]. intros k N. rewrite (B k N), Z0. reflexivity.
Qed.
Print Assumptions C262_movement_costs_read.

(** A missing file is refused. *)
Theorem C262_missing_file_refused : forall stof n rows m m', Forall (fun x => length (snd x) = n) m -> Forall (fun x => length (snd x) = n) m' ->
  read_td_link_cost stof n rows None m = Err EThrow /\ read_td_node_cost stof n rows None m' = Err EThrow.
Proof.
  intros stof n rows m m' H H'. unfold read_td_link_cost, read_td_node_cost, read_costs.
  destruct (zero_ok Z.eqb n Z.eqb_eq m H) as (? & -> & _). destruct (zero_ok pair_eqb n pair_eqb_ok m' H') as (? & -> & _). auto.
Qed.
Print Assumptions C262_missing_file_refused.

(** A row, among those announced, with another number of words or without numbers is refused. *)
Theorem C262_bad_row_refused : forall stof n rows content ls l m m', (forall w e, stof w = Err e -> e = EThrow) -> headed content ls -> (Z.to_nat rows <= length ls)%nat ->
  In l (firstn (Z.to_nat rows) ls) -> Forall (fun x => length (snd x) = n) m -> Forall (fun x => length (snd x) = n) m' ->
  ((forall x, ~ says_lcost stof n l x) -> read_td_link_cost stof n rows (Some content) m = Err EThrow) /\
  ((forall x, ~ says_ncost stof n l x) -> read_td_node_cost stof n rows (Some content) m' = Err EThrow).
Proof.
  intros stof n rows content ls l m m' HS Hd L I H H'. unfold read_td_link_cost, read_td_node_cost, read_costs.
  destruct (zero_ok Z.eqb n Z.eqb_eq m H) as (? & -> & _). destruct (zero_ok pair_eqb n pair_eqb_ok m' H') as (? & -> & _). cbn [bind].
  rewrite !(read_lines_headed _ _ _ _ _ Hd L). split; intros N.
  - apply (foldM_bad _ _ l I); [intros a; now apply lcost_row_bad|now apply lcost_throws].
  - apply (foldM_bad _ _ l I); [intros a; now apply ncost_row_bad|now apply ncost_throws].
Qed.
Print Assumptions C262_bad_row_refused.

(** Fewer rows than announced: refused if the last row ends with a newline ... *)
Theorem C263_short_file_refused : forall stof n rows content h ls xs m, terminated content (h :: ls) -> (length ls < Z.to_nat rows)%nat ->
  Forall2 (says_lcost stof n) ls xs -> Forall (fun x => length (snd x) = n) m ->
  read_td_link_cost stof n rows (Some content) m = Err EThrow.
Proof.
  intros stof n rows content h ls xs m T L F Hm. unfold read_td_link_cost, read_costs. destruct (zero_ok Z.eqb n Z.eqb_eq m Hm) as (m0 & -> & H0 & _). cbn [bind].
  rewrite (read_lines_term _ _ _ _ _ _ T) by lia. destruct (fill_spec Z.eqb n Z.eqb_eq (lcost_row stof n) (says_lcost stof n) _ xs (lcost_row_ok stof n) F m0 H0) as (m' & E & _).
  destruct (Z.to_nat rows - length ls)%nat eqn:Q; [lia|]. cbn [repeat]. eapply foldM_fail; [exact E|]. intros a. apply lcost_remark. left. constructor.
Qed.
Print Assumptions C263_short_file_refused.

(** ... but accepted if it does not: the last row is taken for every row that is missing. *)
Theorem C263_short_file_refuted : forall stof n rows content h ls la xs x m, unterminated content (h :: ls) la -> (length ls < Z.to_nat rows)%nat ->
  Forall2 (says_lcost stof n) ls xs -> says_lcost stof n la x -> Forall (fun x => length (snd x) = n) m ->
  exists m', read_td_link_cost stof n rows (Some content) m = Ok m' /\ forall k, ~ In k (map fst (xs ++ [x])) -> kfind Z.eqb m k = None -> kfind Z.eqb m' k = None.
Proof.
  intros stof n rows content h ls la xs x m T L F S0 Hm. unfold read_td_link_cost, read_costs. destruct (zero_ok Z.eqb n Z.eqb_eq m Hm) as (m0 & -> & H0 & Z0). cbn [bind].
  rewrite (read_lines_unterm _ _ _ _ _ _ _ T) by lia.
  assert (F2 : Forall2 (says_lcost stof n) (ls ++ repeat la (Z.to_nat rows - length ls)) (xs ++ repeat x (Z.to_nat rows - length ls))) by (apply Forall2_app; [exact F|now apply F2_repeat]).
  destruct (fill_spec Z.eqb n Z.eqb_eq (lcost_row stof n) (says_lcost stof n) _ _ (lcost_row_ok stof n) F2 m0 H0) as (m' & E & _ & _ & B).
  exists m'. split; [exact E|]. intros k N E0. rewrite B, Z0, E0; [reflexivity|]. intros I. apply N. rewrite map_app, in_app_iff in *. destruct I as [I|I]; [now left|]. right.
  apply in_map_iff in I as (y & <- & I). apply repeat_spec in I as ->. now left.
Qed.
Print Assumptions C263_short_file_refuted.

(** Reading with more intervals than before writes beyond the end of the old arrays. *)
Theorem C263_more_intervals_refuted : forall stof n rows file m k v, In (k, v) m -> (length v < n)%nat ->
  read_td_link_cost stof n rows file m = Err EUB.
Proof. intros stof n rows f m k v I L. unfold read_td_link_cost, read_costs. now rewrite (zero_bad n m k v I L). Qed.
Print Assumptions C263_more_intervals_refuted.

Example C262_case :
  read_td_link_cost stod_int 2 3 (Some (file "id c~7 1 2~8 3 4~7 5 6~")) [(9, [4; 4]%Q)] = Ok [(9, [0; 0]%Q); (7, [5; 6]%Q); (8, [3; 4]%Q)] /\
  read_td_node_cost stod_int 2 2 (Some (file "node~x 7 8 1 2~1 8 7 3 4")) [] = Ok [((7, 8), [1; 2]%Q); ((8, 7), [3; 4]%Q)] /\
  read_td_link_cost stod_int 2 5 (Some (file "id c~7 1 2~8 3 4")) [] = Ok [(7, [1; 2]%Q); (8, [3; 4]%Q)] /\
  read_td_link_cost stod_int 2 5 (Some (file "id c~7 1 2~8 3 4~")) [] = Err EThrow /\
  read_td_link_cost stod_int 3 1 (Some (file "id c~7 1 2 3~")) [(9, [4; 4]%Q)] = Err EUB.
Proof. repeat split; vm_compute; reflexivity. Qed.
