(** Property theorems: static shortest paths (C19 - C22). *)
From Verif Require Import Base Base_lemmas Model_Num Model_Graph Spec_Graph Proof_Graph Model_SP Spec_SP Proof_SP.

(** C19: FIFO search.  The graph is the result of any sequence of insertion
    calls; costs may be infinite but not negative; the id -1 is reserved by the
    code for "no link". *)
Theorem C19_fifo_tree_optimal : forall ops cm dest out0,
  let g := gbuild ops in let cost := cost_of cm in
  In dest (g_nids g) -> costs_ok g cm -> ~ In (-1) (g_lids g) ->
  exists N, forall fuel, (N <= fuel)%nat ->
  exists s, all_to_one_FIFO fuel g dest cm out0 = Ok s /\
  forall n, In n (g_nids g) ->
    (s_dist s n = None /\ unreachable g cost n dest /\ n <> dest /\ s_out s n = Some (-1)) \/
    (exists d ls ns, s_dist s n = Some d /\ least_cost g cost n dest d /\
       follows g (s_out s) n ls dest /\ visits g n ls ns /\ NoDup ns /\
       exists c, total_cost cost ls = Some c /\ (c == d)%Q).
Proof.
  intros ops cm dest out0 g cost Hd Hc Hm. pose proof (gbuild_rep ops) as R. fold g in R.
  rewrite (rep_nids _ _ R) in *. rewrite (rep_lids _ _ R) in Hm. exact (fifo_ok _ _ _ _ out0 R Hc Hd Hm).
Qed.
Print Assumptions C19_fifo_tree_optimal.

(** an unknown destination is an exception *)
Theorem C19_unknown_destination_throws : forall ops cm dest out0 fuel,
  ~ In dest (g_nids (gbuild ops)) -> all_to_one_FIFO (S fuel) (gbuild ops) dest cm out0 = Err EThrow.
Proof.
  intros ops cm dest out0 fuel H. unfold all_to_one_FIFO. cbn [search_loop fifo_init pop_front s_q s_flag fst].
  rewrite (rep_connections _ _ _ _ (gbuild_rep ops)). rewrite (rep_nids _ _ (gbuild_rep ops)) in H.
  apply memb_false in H. rewrite H. reflexivity.
Qed.
Print Assumptions C19_unknown_destination_throws.

Definition C19_ops := [GNode 1; GNode 2; GNode 3; GNode 4; GLink 1 2 10; GLink 2 3 11; GLink 1 3 12; GLink 2 1 13; GLink 3 4 14].
Definition C19_cost (l : Z) : option (option Q) :=
  match l with 10 => Some (Some 1%Q) | 11 => Some (Some 2%Q) | 12 => Some (Some 5%Q) | 13 => Some (Some 0%Q) | 14 => Some None | _ => None end.
Example C19_case : costs_ok (gbuild C19_ops) C19_cost /\ In 3 (g_nids (gbuild C19_ops)) /\ ~ In (-1) (g_lids (gbuild C19_ops)) /\
  match all_to_one_FIFO 20 (gbuild C19_ops) 3 C19_cost (fun _ => Some 99) with
  | Ok s => map (s_out s) [1; 2; 3; 4] = [Some 10; Some 11; Some 99; Some (-1)] /\ s_dist s 1 = Some 3%Q
  | Err _ => False end.
Proof.
  split; [|vm_compute; intuition discriminate].
  intros l e H. change (gbuild C19_ops) with (gbuild C19_ops) in H. destruct e as [f t].
  pose proof (gbuild_rep C19_ops) as R. apply (Proof_Graph2.rep_endpoints_iff _ _ _ _ _ R) in H. vm_compute in H.
  destruct H as [H|[H|[H|[H|[H|[]]]]]]; injection H as <- <- <-; eexists; (split; [reflexivity|]); simpl; try exact I; discriminate.
Qed.

(** C20: Dijkstra search with any choice of the element popped. *)
Theorem C20_dijkstra_tree_optimal : forall ops cm dest out0 pick,
  let g := gbuild ops in let cost := cost_of cm in
  In dest (g_nids g) -> costs_ok g cm -> ~ In (-1) (g_lids g) ->
  (forall n, In n (g_nids g) -> n <> dest -> out0 n = None \/ out0 n = Some (-1)) ->
  exists N, forall fuel, (N <= fuel)%nat ->
  exists s, all_to_one_Dijkstra fuel pick g dest cm out0 = Ok s /\
  forall n, In n (g_nids g) ->
    (s_dist s n = None /\ unreachable g cost n dest /\ n <> dest /\ s_out s n = Some (-1)) \/
    (exists d ls ns, s_dist s n = Some d /\ least_cost g cost n dest d /\
       follows g (s_out s) n ls dest /\ visits g n ls ns /\ NoDup ns /\
       exists c, total_cost cost ls = Some c /\ (c == d)%Q).
Proof.
  intros ops cm dest out0 pick g cost Hd Hc Hm Ho. pose proof (gbuild_rep ops) as R. fold g in R.
  rewrite (rep_nids _ _ R) in *. rewrite (rep_lids _ _ R) in Hm. exact (dijkstra_ok _ _ _ _ out0 pick R Hc Hd Hm Ho).
Qed.
Print Assumptions C20_dijkstra_tree_optimal.

(** both searches give the same distances *)
Theorem C20_dijkstra_agrees_with_fifo : forall ops cm dest pick out0,
  let g := gbuild ops in
  In dest (g_nids g) -> costs_ok g cm -> ~ In (-1) (g_lids g) ->
  exists N, forall fuel, (N <= fuel)%nat ->
  exists s s', all_to_one_Dijkstra fuel pick g dest cm (fun _ => None) = Ok s /\ all_to_one_FIFO fuel g dest cm out0 = Ok s' /\
  forall n, In n (g_nids g) ->
    match s_dist s n, s_dist s' n with
    | None, None => True
    | Some d, Some d' => (d == d')%Q
    | _, _ => False
    end.
Proof.
  intros ops cm dest pick out0 g Hd Hc Hm.
  destruct (C20_dijkstra_tree_optimal ops cm dest (fun _ => None) pick Hd Hc Hm) as (N1 & H1); [auto|].
  destruct (C19_fifo_tree_optimal ops cm dest out0 Hd Hc Hm) as (N2 & H2).
  exists (Nat.max N1 N2). intros fuel Hf. destruct (H1 fuel) as (s & E1 & R1); [lia|]. destruct (H2 fuel) as (s' & E2 & R2); [lia|].
  exists s, s'. split; [exact E1|]. split; [exact E2|]. intros n Hn. fold g in R1, R2.
  destruct (R1 n Hn) as [(-> & U1 & _)|(d1 & ls1 & ns1 & -> & L1 & F1 & V1 & _ & c1 & C1 & _)];
  destruct (R2 n Hn) as [(-> & U2 & _)|(d2 & ls2 & ns2 & -> & L2 & F2 & V2 & _ & c2 & C2 & _)].
  - exact I.
  - apply follows_route in F2. rewrite (U1 _ F2) in C2. discriminate.
  - apply follows_route in F1. rewrite (U2 _ F1) in C1. discriminate.
  - destruct L1 as [(l1 & k1 & A1 & B1 & D1) M1], L2 as [(l2 & k2 & A2 & B2 & D2) M2].
    pose proof (M1 _ _ A2 B2). pose proof (M2 _ _ A1 B1). lra.
Qed.
Print Assumptions C20_dijkstra_agrees_with_fifo.

(** a map left over from an earlier search makes an unreachable node look reachable *)
Theorem C20_reused_map_refuted : exists ops cm dest out0 s,
  all_to_one_Dijkstra 20 (fun _ => O) (gbuild ops) dest cm out0 = Ok s /\
  costs_ok (gbuild ops) cm /\ exists n l, s_dist s n = None /\ s_out s n = Some l /\ l <> -1.
Proof.
  exists [GNode 1; GNode 2; GNode 3; GLink 1 2 10], (fun _ => Some (Some 1%Q)), 3, (fun _ => Some 10).
  eexists. split; [vm_compute; reflexivity|]. split.
  - intros l e _. eexists. split; [reflexivity|discriminate].
  - exists 1, 10. split; [reflexivity|]. split; [reflexivity|discriminate].
Qed.
Print Assumptions C20_reused_map_refuted.

(** C21: the LIFO search is wrong; node 2 cannot reach 3 but gets a tree link,
    and the label 0 + 1 of node 1 is below its true distance *)
Theorem C21_lifo_tree_optimal_refuted : exists ops cm dest s,
  all_to_one_LIFO 20 (g_lids (gbuild ops)) (gbuild ops) dest cm (fun _ => None) = Ok s /\
  costs_ok (gbuild ops) cm /\ exists n d, s_dist s n = Some d /\ ~ least_cost (gbuild ops) (cost_of cm) n dest d.
Proof.
  exists [GNode 1; GNode 2; GNode 3; GLink 1 2 10; GLink 2 3 11], (fun l => Some (Some (if l =? 11 then 5%Q else 1%Q))), 3.
  eexists. split; [vm_compute; reflexivity|]. split.
  - intros l e _. eexists. split; [reflexivity|]. cbv beta. destruct (l =? 11); discriminate.
  - exists 1, 1%Q. split; [reflexivity|]. intros [(ls & c & R & C & E) _].
    assert (HR : forall u l w, get_endpoints (gbuild [GNode 1; GNode 2; GNode 3; GLink 1 2 10; GLink 2 3 11]) l = Ok (u, w) ->
      (l = 10 /\ u = 1 /\ w = 2) \/ (l = 11 /\ u = 2 /\ w = 3)).
    { intros u l w H. apply (Proof_Graph2.rep_endpoints_iff _ _ _ _ _ (gbuild_rep _)) in H. vm_compute in H.
      destruct H as [H|[H|[]]]; injection H as <- <- <-; auto. }
    inversion R as [|? ? ? ? ? E1 R1]; subst. destruct (HR _ _ _ E1) as [(-> & _ & ->)|(_ & ? & _)]; [|discriminate].
    inversion R1 as [|? ? ? ? ? E2 R2]; subst. destruct (HR _ _ _ E2) as [(_ & ? & _)|(-> & _ & ->)]; [discriminate|].
    inversion R2 as [|? ? ? ? ? E3 R3]; subst.
    + vm_compute in C. injection C as <-. vm_compute in E. discriminate.
    + destruct (HR _ _ _ E3) as [(_ & ? & _)|(_ & ? & _)]; discriminate.
Qed.
Print Assumptions C21_lifo_tree_optimal_refuted.

(** C22: extraction from a FIFO tree *)
Theorem C22_extract_path : forall ops cm dest out0,
  let g := gbuild ops in let cost := cost_of cm in
  In dest (g_nids g) -> costs_ok g cm -> ~ In (-1) (g_lids g) ->
  exists N, forall fuel, (N <= fuel)%nat ->
  exists s, all_to_one_FIFO fuel g dest cm out0 = Ok s /\
  forall n fuel', In n (g_nids g) -> (length (g_nids g) <= fuel')%nat ->
  (extract_path fuel' g dest (s_out s) n = Ok None /\ unreachable g cost n dest) \/
  (exists ns ls d c, extract_path fuel' g dest (s_out s) n = Ok (Some (ns, ls)) /\
     route g n ls dest /\ visits g n ls ns /\ NoDup ns /\
     least_cost g cost n dest d /\ total_cost cost ls = Some c /\ (c == d)%Q).
Proof.
  intros ops cm dest out0 g cost Hd Hc Hm. pose proof (gbuild_rep ops) as R. fold g in R.
  rewrite (rep_nids _ _ R) in *. rewrite (rep_lids _ _ R) in Hm.
  destruct (fifo_ok _ _ _ _ out0 R Hc Hd Hm) as (N & H). exists N. intros fuel Hf. destruct (H fuel Hf) as (s & E & S).
  exists s. split; [exact E|]. intros n fuel' Hn Hf'. eapply extract_result; eauto.
Qed.
Print Assumptions C22_extract_path.
Example C22_case : match all_to_one_FIFO 20 (gbuild C19_ops) 3 C19_cost (fun _ => None) with
  | Ok s => extract_path 4 (gbuild C19_ops) 3 (s_out s) 1 = Ok (Some ([1; 2; 3], [10; 11])) /\
            extract_path 4 (gbuild C19_ops) 3 (s_out s) 4 = Ok None
  | Err _ => False end.
Proof. vm_compute. auto. Qed.
