(** Property theorems: lowest-cost path queries of the two-class API (C175 - C177). *)
From Verif Require Import Base Base_lemmas Model_Num Proof_Num Model_Graph Spec_Graph Proof_Graph Proof_Graph2 Model_SP Spec_SP
  Model_TDSP Spec_TDSP Model_Path Spec_Path Model_Due Model_Lowest Spec_Lowest Proof_Lowest.
Open Scope Z_scope.

(** C175.  [M = ai * mx] intervals; the tables are long enough. *)
Theorem C175_lowest_path : forall ops lids ai mx len cost tt dests,
  let g := gbuild ops in let M := ai * mx in
  (forall d, In d dests -> In d (g_nids g)) -> ~ In (-1) (g_lids g) -> Permutation lids (g_lids g) -> 1 <= ai -> 1 <= M -> M <= len ->
  td_tables_ok g M cost tt -> takes_time g M (tt_at tt) ->
  exists N, forall fuel, (N <= fuel)%nat -> exists trees, lc_update fuel g lids ai mx len cost tt dests = Ok trees /\
  forall ps pset start o d fuel', In o (g_nids g) -> In d dests -> o <> d -> ps o d = Some pset -> 0 <= start -> start + ai <= M ->
  (Z.to_nat M + length (g_nids g) <= fuel')%nat ->
  (exists ls c x, td_way g (cost_at cost) (tt_at tt) M o start ls d c x) ->
  exists rows b z ns ls, lc_get fuel' g ai mx tt trees ps start o d = Ok rows /\ shows rows b z ns ls /\
    (b = 1 /\ listed pset ls \/ b = 0 /\ ~ listed pset ls) /\
    visits g o ls ns /\ route g o ls d /\ NoDup ns /\
    exists ls0 ns0 c x, td_way g (cost_at cost) (tt_at tt) M o start ls0 d c x /\
      td_least g (cost_at cost) (tt_at tt) M o start d (Some c) /\ whole c z /\
      visits g o ls0 ns0 /\ subseq ls ls0 /\ (NoDup ns0 -> ls = ls0).
Proof.
  intros ops lids ai mx len cost tt dests g M Hds Hneg HP Hai HM HL HT Hpos.
  destruct (update_good ops lids ai mx len cost tt dests Hds Hneg HP HM HL HT) as (N & HN). exists N. intros fuel Hf.
  destruct (HN fuel Hf) as (trees & E & G). exists trees. split; [exact E|].
  intros ps pset start o d fuel' Ho Hd Hod Hps H0 Hs Hf' (ls1 & c1 & x1 & W1). destruct (G d Hd) as (s & Es & Gs).
  destruct (get_cases ops ai mx cost tt dests Hds HM HT d s Gs Hpos trees ps pset start o fuel' Es Hps Ho Hai H0 Hs Hf')
    as [[? _]|[(_ & ls0 & ns0 & c & x & z & b & ns & ls & rows & A1 & A2 & A3 & A4 & A5 & A6 & A7 & A8 & A9 & A10 & A11 & A12)|(_ & _ & L)]].
  - contradiction.
  - exists rows, b, z, ns, ls. split; [exact A1|]. split; [exact A2|]. split; [exact A12|]. split; [exact A7|]. split; [exact A8|]. split; [exact A9|].
    exists ls0, ns0, c, x. repeat (split; [assumption|]). assumption.
  - destruct (L _ _ _ W1).
Qed.
Print Assumptions C175_lowest_path.

(** C177: when no path leads to the destination, or origin and destination are
    the same node, the query stops with an assertion. *)
Theorem C177_no_answer_refuted : forall ops lids ai mx len cost tt dests,
  let g := gbuild ops in let M := ai * mx in
  (forall d, In d dests -> In d (g_nids g)) -> ~ In (-1) (g_lids g) -> Permutation lids (g_lids g) -> 1 <= ai -> 1 <= M -> M <= len ->
  td_tables_ok g M cost tt -> takes_time g M (tt_at tt) ->
  exists N, forall fuel, (N <= fuel)%nat -> exists trees, lc_update fuel g lids ai mx len cost tt dests = Ok trees /\
  forall ps pset start o d fuel', In o (g_nids g) -> In d dests -> ps o d = Some pset -> 0 <= start -> start + ai <= M ->
  (Z.to_nat M + length (g_nids g) <= fuel')%nat ->
  (o = d \/ forall ls c x, ~ td_way g (cost_at cost) (tt_at tt) M o start ls d c x) ->
  lc_get fuel' g ai mx tt trees ps start o d = Err EAssert.
Proof.
  intros ops lids ai mx len cost tt dests g M Hds Hneg HP Hai HM HL HT Hpos.
  destruct (update_good ops lids ai mx len cost tt dests Hds Hneg HP HM HL HT) as (N & HN). exists N. intros fuel Hf.
  destruct (HN fuel Hf) as (trees & E & G). exists trees. split; [exact E|].
  intros ps pset start o d fuel' Ho Hd Hps H0 Hs Hf' Hno. destruct (G d Hd) as (s & Es & Gs).
  destruct (get_cases ops ai mx cost tt dests Hds HM HT d s Gs Hpos trees ps pset start o fuel' Es Hps Ho Hai H0 Hs Hf')
    as [[_ A]|[(Hod & ls0 & ns0 & c & x & z & b & ns & ls & rows & _ & _ & W & _)|(_ & A & _)]]; [exact A| |exact A].
  exfalso. destruct Hno as [->|Hno]; [congruence|exact (Hno _ _ _ W)].
Qed.
Print Assumptions C177_no_answer_refuted.

(** departures in the last assignment interval but its first are refused, although the trees cover them *)
Theorem C177_late_departure_refuted : forall fuel g ai mx tt trees ps start o d, ai * mx - ai < start ->
  lc_get fuel g ai mx tt trees ps start o d = Err EAssert.
Proof. intros. unfold lc_get. replace (start + ai <=? ai * mx) with false by (symmetry; apply Z.leb_gt; lia). reflexivity. Qed.
Print Assumptions C177_late_departure_refuted.
(** a simulation that ended before the last interval: the trees are built from entries outside the arrays *)
Theorem C177_short_run_refuted : forall fuel g lids ai mx len cost tt dests, lids <> [] -> dests <> [] -> len < ai * mx ->
  lc_update fuel g lids ai mx len cost tt dests = Err EUB.
Proof.
  intros fuel g lids ai mx len cost tt dests Hl Hd H. unfold lc_update. destruct dests as [|d ds]; [congruence|]. cbn [foldM].
  unfold lc_tree. replace (ai * mx <=? len) with false by (symmetry; apply Z.leb_gt; lia). destruct lids; [congruence|]. reflexivity.
Qed.
Print Assumptions C177_short_run_refuted.

(** the network of the examples: 1 -> 2 -> 1 and 1 -> 3, the last link expensive in the first two intervals; node 4 is isolated *)
Definition C175_g := gbuild [GNode 1; GNode 2; GNode 3; GNode 4; GLink 1 2 10; GLink 2 1 11; GLink 1 3 12].
Definition C175_cost (l : Z) : option (Z -> option Q) :=
  Some (fun t => Some (if l =? 12 then (if t <? 2 then 10 else 5 # 2) else 1)%Q).
Definition C175_tt (l : Z) : option (Z -> Q) := Some (fun _ => 1%Q).
Definition C175_ps (ls : list Z) (o d : Z) : option (list dpath) := Some [new_path ls []].
Example C175_hyp : td_tables_ok C175_g 4 C175_cost C175_tt /\ takes_time C175_g 4 (tt_at C175_tt).
Proof.
  split.
  - intros l e _. split; [eexists; reflexivity|]. eexists. split; [reflexivity|]. intros t _. cbv beta.
    destruct (l =? 12), (t <? 2); discriminate.
  - intros l e t _ _. reflexivity.
Qed.
Example C175_case : match lc_update 20 C175_g [12; 10; 11] 2 2 4 C175_cost C175_tt [3; 4; 3] with
  | Ok trees => lc_get 9 C175_g 2 2 C175_tt trees (C175_ps [12]) 2 1 3 = Ok [[1; -1]; [2; -1]; [1; 3]; [12; -1]] /\
      lc_get 9 C175_g 2 2 C175_tt trees (C175_ps [10; 11; 12]) 1 2 3 = Ok [[0; -1; -1]; [3; -1; -1]; [2; 1; 3]; [11; 12; -1]] /\
      lc_get 9 C175_g 2 2 C175_tt trees (C175_ps []) 1 1 4 = Err EAssert /\ lc_get 9 C175_g 2 2 C175_tt trees (C175_ps []) 1 3 3 = Err EAssert
  | Err _ => False end.
Proof. vm_compute. repeat split. Qed.

(** C176: the cost is cut to its whole part, and it is the cost of the way
    before cycles are removed: leaving node 1 at 0 the answer is link 12 with
    cost 4; that link costs 10, the way 10, 11, 12 costs 9/2. *)
Theorem C176_cost_of_path_refuted : exists trees rows,
  td_tables_ok C175_g 4 C175_cost C175_tt /\ takes_time C175_g 4 (tt_at C175_tt) /\
  lc_update 20 C175_g [12; 10; 11] 2 2 4 C175_cost C175_tt [3] = Ok trees /\
  lc_get 9 C175_g 2 2 C175_tt trees (C175_ps [12]) 0 1 3 = Ok rows /\ shows rows 1 4 [1; 3] [12] /\
  td_way C175_g (cost_at C175_cost) (tt_at C175_tt) 4 1 0 [12] 3 (10 + 0)%Q (1 + 0)%Q.
Proof.
  destruct (lc_update 20 C175_g [12; 10; 11] 2 2 4 C175_cost C175_tt [3]) as [trees|] eqn:E; [|exfalso; revert E; vm_compute; discriminate].
  assert (R : lc_get 9 C175_g 2 2 C175_tt trees (C175_ps [12]) 0 1 3 = Ok [[1; -1]; [4; -1]; [1; 3]; [12; -1]]).
  { enough (H : match lc_update 20 C175_g [12; 10; 11] 2 2 4 C175_cost C175_tt [3] with
      | Ok t => lc_get 9 C175_g 2 2 C175_tt t (C175_ps [12]) 0 1 3 = Ok [[1; -1]; [4; -1]; [1; 3]; [12; -1]] | Err _ => False end) by (rewrite E in H; exact H).
    vm_compute. reflexivity. }
  do 2 eexists. split; [apply C175_hyp|]. split; [apply C175_hyp|]. split; [reflexivity|]. split; [exact R|]. split.
  - do 2 eexists. split; [reflexivity|]. repeat split. intros x [<-|[<-|[]]]; reflexivity.
  - apply (td_cons C175_g (cost_at C175_cost) (tt_at C175_tt) 4 1 0 12 3 1 [] 3 10 0 0); [reflexivity|reflexivity| |constructor]. exists 1. split; reflexivity.
Qed.
Print Assumptions C176_cost_of_path_refuted.
