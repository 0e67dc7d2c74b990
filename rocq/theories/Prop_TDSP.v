(** Property theorems: time-dependent shortest paths (C23 - C25), movement costs (C26). *)
From Verif Require Import Base Base_lemmas Model_Num Model_Graph Spec_Graph Proof_Graph Proof_Graph2 Model_SP Spec_SP Proof_SP
  Model_TDSP Spec_TDSP Proof_TDSP Proof_TDSP2.

(** C23.  [lids] is the order in which the hash map of links is iterated. *)
Theorem C23_tdsp_optimal : forall ops lids dest M cost tt,
  let g := gbuild ops in
  In dest (g_nids g) -> ~ In (-1) (g_lids g) -> Permutation lids (g_lids g) -> 1 <= M -> td_tables_ok g M cost tt ->
  exists N, forall fuel, (N <= fuel)%nat ->
  exists s, update_tree fuel g lids dest M cost tt = Ok s /\
  forall n t, In n (g_nids g) -> 0 <= t < M ->
    td_least g (cost_at cost) (tt_at tt) M n t dest (td_dist s n t).
Proof.
  intros ops lids dest M cost tt g Hd Hm HP HM HT. pose proof (gbuild_rep ops) as R. fold g in R.
  rewrite (rep_nids _ _ R) in *. rewrite (rep_lids _ _ R) in *.
  destruct (update_tree_ok g _ R cost tt dest M HM HT Hd Hm lids) as (N & H).
  { intros l. split; apply Permutation_in; [exact HP|symmetry; exact HP]. }
  exists N. intros fuel Hf. destruct (H fuel Hf) as (s & E & HE & _). exists s. split; [exact E|].
  intros n t Hn Ht. apply (HE n t Hn Ht).
Qed.
Print Assumptions C23_tdsp_optimal.

(** C24: the extracted path, its travel time and its cost. [time] is clamped to
    the last interval; fuel = number of loop iterations allowed. *)
Theorem C24_tdsp_extraction : forall ops lids dest M cost tt,
  let g := gbuild ops in
  In dest (g_nids g) -> ~ In (-1) (g_lids g) -> Permutation lids (g_lids g) -> 1 <= M -> td_tables_ok g M cost tt ->
  exists N, forall fuel, (N <= fuel)%nat ->
  exists s, update_tree fuel g lids dest M cost tt = Ok s /\
  forall n time fuel', In n (g_nids g) -> 0 <= time -> (Z.to_nat M + length (g_nids g) <= fuel')%nat ->
  let t := Z.min time (M - 1) in
  (exists ls ns c x x', get_tdsp fuel' g dest M tt s n time = Ok (x', (ns, ls)) /\ (x' == x)%Q /\ visits g n ls ns /\
     td_way g (cost_at cost) (tt_at tt) M n t ls dest c x /\
     td_least g (cost_at cost) (tt_at tt) M n t dest (Some c)) \/
  (get_tdsp fuel' g dest M tt s n time = Ok ((-1)%Q, ([n], [])) /\
     td_least g (cost_at cost) (tt_at tt) M n t dest None).
Proof.
  intros ops lids dest M cost tt g Hd Hm HP HM HT. pose proof (gbuild_rep ops) as R. fold g in R.
  rewrite (rep_nids _ _ R) in *. rewrite (rep_lids _ _ R) in *.
  destruct (update_tree_ok g _ R cost tt dest M HM HT Hd Hm lids) as (N & H).
  { intros l. split; apply Permutation_in; [exact HP|symmetry; exact HP]. }
  exists N. intros fuel Hf. destruct (H fuel Hf) as (s & E & HE & HL). exists s. split; [exact E|].
  intros n time fuel' Hn Ht Hf'. cbv zeta. unfold get_tdsp. unfold guard. destruct (Z.leb_spec 0 time); [|lia]. cbn [bind].
  replace (if time <? M then time else M - 1) with (Z.min time (M - 1)) by (destruct (Z.ltb_spec time M); lia).
  set (t := Z.min time (M - 1)). assert (Hr : 0 <= t < M) by lia.
  pose proof (follow_ok g _ R cost tt dest M HM HT Hd s HL HE (Z.to_nat M) n t ltac:(lia) Hr Hn fuel' 0%Q [] [] ltac:(lia)) as HF.
  pose proof (proj1 (HE n t Hn Hr)) as Hl.
  destruct (td_dist s n t) as [d|].
  - left. destruct HF as (ls & ns & c & x & x' & E1 & Ex & Wy & V & Hc). exists ls, ns, c, x, x'.
    split; [exact E1|]. split; [lra|]. split; [exact V|]. split; [exact Wy|]. destruct Hl as [Ha Hmin]. split.
    + exists ls, c, x. split; [exact Wy|lra].
    + intros ls2 c2 x2 W2. pose proof (Hmin _ _ _ W2). lra.
  - right. split; [exact HF|exact Hl].
Qed.
Print Assumptions C24_tdsp_extraction.

(** a concrete instance: the cheap link 10 becomes expensive in interval 1 *)
Definition C23_ops := [GNode 1; GNode 2; GNode 3; GLink 1 2 10; GLink 2 3 11; GLink 1 3 12].
Definition C23_cost (l : Z) : option (Z -> option Q) :=
  Some (fun t => Some (if l =? 10 then (if t =? 0 then 1 else 9) else if l =? 11 then 2 else 6)%Q).
Definition C23_tt (l : Z) : option (Z -> Q) := Some (fun _ => (3#2)%Q).
Example C23_case : td_tables_ok (gbuild C23_ops) 4 C23_cost C23_tt /\
  match update_tree 20 (gbuild C23_ops) [12; 10; 11] 3 4 C23_cost C23_tt with
  | Ok s => td_dist s 1 0 = Some 3%Q /\ td_dist s 1 1 = Some 6%Q /\
      get_tdsp 9 (gbuild C23_ops) 3 4 C23_tt s 1 0 = Ok (12#4, ([1; 2; 3], [10; 11])) /\
      get_tdsp 9 (gbuild C23_ops) 3 4 C23_tt s 1 7 = Ok (3#2, ([1; 3], [12]))
  | Err _ => False end.
Proof.
  split.
  - intros l e _. split; [eexists; reflexivity|]. eexists. split; [reflexivity|]. intros t _. cbv beta.
    destruct (l =? 10), (t =? 0), (l =? 11); discriminate.
  - vm_compute. repeat split.
Qed.

(** C25 *)
Theorem C25_is_FIFO : forall lids cost M ut, (forall l, In l lids -> exists c, cost l = Some c) ->
  exists b, is_FIFO lids cost M ut = Ok b /\
    (b = true <-> forall l c, In l lids -> cost l = Some c ->
       forall i j, 0 <= i <= j -> j < M -> (inject_Z i * ut + c i <= inject_Z j * ut + c j)%Q).
Proof. intros. now apply is_FIFO_spec. Qed.
Print Assumptions C25_is_FIFO.
Example C25_case : is_FIFO [1] (fun _ => Some (fun t => if t =? 1 then 5 else 3)%Q) 3 2%Q = Ok true /\
  is_FIFO [1] (fun _ => Some (fun t => if t =? 1 then 6 else 3)%Q) 3 2%Q = Ok false.
Proof. split; reflexivity. Qed.

(** C26: total cost with movement costs *)
Fixpoint move_cost (cost : Z -> Q) (nc : Z -> Z -> option Q) (ls : list Z) : Q :=
  match ls with
  | [] => 0
  | l :: rest => cost l + match rest with [] => 0 | o :: _ => match nc l o with Some x => x | None => 0 end end + move_cost cost nc rest
  end.
Theorem C26_node_cost_optimal_refuted : exists ops cost nc dest s n d ls,
  all_to_one_FIFO_nc 20 (gbuild ops) dest (fun l => Some (Some (cost l))) nc (fun _ => None) = Ok s /\
  (forall l, (0 <= cost l)%Q) /\ (forall i o x, nc i o = Some x -> (0 <= x)%Q) /\
  s_dist s n = Some d /\ route (gbuild ops) n ls dest /\ (move_cost cost nc ls < d)%Q.
Proof.
  exists [GNode 1; GNode 2; GNode 3; GNode 4; GLink 1 2 10; GLink 2 4 11; GLink 2 3 12; GLink 3 4 13], (fun _ => 1%Q),
    (fun i o => if (i =? 10) && (o =? 11) then Some 10%Q else None), 4.
  eexists. exists 1. eexists. exists [10; 12; 13]. split; [vm_compute; reflexivity|]. split; [intros; discriminate|].
  split. { intros i o x. destruct ((i =? 10) && (o =? 11)); [injection 1 as <-; discriminate|discriminate]. }
  split; [reflexivity|]. split; [|reflexivity].
  repeat (econstructor; [reflexivity|]). constructor.
Qed.
Print Assumptions C26_node_cost_optimal_refuted.
