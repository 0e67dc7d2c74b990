(** Recorded link statistics (C36) and the first adaptive routing decision (C37). *)
From Verif Require Import Base Base_lemmas Model_Node Model_Stat Spec_Stat Proof_Stat.
Local Open Scope Z_scope.

(** recorder as initialised for window [n]; [ov], [ot]: volumes and travel times are
    recorded; the other flags: which files are written *)
Definition start (n : Z) (links : list Z) (ov bvl bvr ot btl btr : bool) : stats :=
  {| st_n := n; st_links := links; st_vol := init_srec links ov bvl bvr; st_tt := init_srec links ot btl btr |}.

(** After k >= 1 loading intervals the recorder has not failed; the per-interval value of
    every link is the one observed last, and the recorded value is the mean over the last
    complete window (the observed value of interval 0 before that). *)
Theorem C36_true_averages : forall n links flow tt ov bvl bvr ot btl btr k, 1 <= n -> NoDup links -> (1 <= k)%nat ->
  exists s, stat_run flow tt k (start n links ov bvl bvr ot btl btr) = Ok s /\
  (forall l, ov = true -> In l links -> m_load (sr_map (st_vol s)) l = Some (flow (Z.of_nat k - 1) l) /\
     exists r, m_rec (sr_map (st_vol s)) l = Some r /\ (r == recorded n (fun t => flow t l) (last_record n (Z.of_nat k - 1)))%Q) /\
  (forall l, ot = true -> In l links -> m_load (sr_map (st_tt s)) l = Some (tt (Z.of_nat k - 1) l) /\
     exists r, m_rec (sr_map (st_tt s)) l = Some r /\ (r == recorded n (fun t => tt t l) (last_record n (Z.of_nat k - 1)))%Q).
Proof.
  intros n links flow tt ov bvl bvr ot btl btr k Hn ND Hk. destruct (stat_run_ok n links flow tt ov bvl bvr ot btl btr Hn ND (S k)) as (s & E & _ & _ & V & T).
  exists s. split; [exact E|].
  assert (X : forall (g : Z -> Z -> Q) bl br q, qok n links g true bl br (S k) q -> forall l, In l links -> m_load (sr_map q) l = Some (g (Z.of_nat k - 1) l) /\
     exists r, m_rec (sr_map q) l = Some r /\ (r == recorded n (fun t => g t l) (last_record n (Z.of_nat k - 1)))%Q).
  { intros g bl br q (_ & H & _) l Hl. destruct (H l Hl) as ([[a b] c] & Ee & X & _). replace (Z.of_nat (S k) - 2) with (Z.of_nat k - 1) in X by lia.
    destruct X as (-> & B & _). apply entry_load in Ee as (A & C & _). split; [exact A|]. exists b. split; [exact C|]. apply B. lia. }
  split; intros l -> Hl; eapply X; eauto.
Qed.
Print Assumptions C36_true_averages.

(** The load file has one row per call (interval -1 is the empty network), the record
    file one row per multiple of the window, each with the values of all links in the
    order of the header. *)
Theorem C36_output_files : forall n links flow tt bvl bvr ot btl btr k, 1 <= n -> NoDup links ->
  exists s, stat_run flow tt k (start n links true bvl bvr ot btl btr) = Ok s /\
  let calls := map (fun i => Z.of_nat i - 1) (seq 0 (S k)) in
  (bvl = true -> exists rs, sr_load (st_vol s) = Some rs /\ same_rows rs (map (fun t => (t, map (flow t) links)) calls)) /\
  (bvr = true -> exists rs, sr_rec (st_vol s) = Some rs /\
     same_rows rs (map (fun t => (t, map (fun l => recorded n (fun t => flow t l) t) links)) (filter (fun t => Z.rem t n =? 0) calls))) /\
  (bvl = false -> sr_load (st_vol s) = None) /\ (bvr = false -> sr_rec (st_vol s) = None).
Proof.
  intros n links flow tt bvl bvr ot btl btr k Hn ND. destruct (stat_run_ok n links flow tt true bvl bvr ot btl btr Hn ND (S k)) as (s & E & _ & _ & V & _).
  exists s. split; [exact E|]. cbv zeta. destruct V as (_ & _ & L & R). unfold okfile in *. split; [|split; [|split]].
  - intros ->. destruct (sr_load (st_vol s)) as [rs|]; [|discriminate]. exists rs. split; [reflexivity|]. apply L.
  - intros ->. destruct (sr_rec (st_vol s)) as [rs|]; [|discriminate]. exists rs. split; [reflexivity|]. destruct R as (_ & R). unfold rec_rows in R.
    replace (filter (fun t => Z.rem t n =? 0) (map (fun i => Z.of_nat i - 1) (seq 0 (S k)))) with (filter (now_at n) (times (S k))); [exact R|].
    unfold times. apply filter_ext. intros t. unfold now_at. destruct (Z.eqb_spec t 0) as [->|]; [|apply orb_false_r]. now rewrite Z.rem_0_l by lia.
  - intros ->. destruct (sr_load (st_vol s)); [|reflexivity]. destruct L; discriminate.
  - intros ->. destruct (sr_rec (st_vol s)); [|reflexivity]. destruct R; discriminate.
Qed.
Print Assumptions C36_output_files.

(** The first routing decision is taken after the call for interval -1 only.  With window
    1 it uses the empty-network travel times. *)
Theorem C37_window_one : forall links flow tt ov bvl bvr btl btr vot toll l, NoDup links -> In l links ->
  exists s c, stat_run flow tt 0 (start 1 links ov bvl bvr true btl btr) = Ok s /\ link_cost vot toll s l = Some c /\ (c == tt (-1)%Z l * vot + toll l)%Q.
Proof.
  intros links flow tt ov bvl bvr btl btr vot toll l ND Hl. destruct (stat_run_ok 1 links flow tt ov bvl bvr true btl btr ltac:(lia) ND 1) as (s & E & _ & _ & _ & T).
  destruct T as (_ & T & _). destruct (T l Hl) as ([[a b] c] & Ee & _ & X). specialize (X eq_refl). cbn [fst snd] in X. change (1 =? 1) with true in X. cbv iota in X.
  apply entry_load in Ee as (_ & Er & _). exists s. eexists. split; [exact E|]. unfold link_cost. rewrite Er. split; [reflexivity|]. now rewrite X.
Qed.
Print Assumptions C37_window_one.

(** With any longer window every link has travel time 0 in the first routing decision:
    only the tolls count. *)
Theorem C37_longer_window_refuted : forall n links flow tt ov bvl bvr btl btr vot toll l, 2 <= n -> NoDup links -> In l links ->
  exists s c, stat_run flow tt 0 (start n links ov bvl bvr true btl btr) = Ok s /\ link_cost vot toll s l = Some c /\ (c == toll l)%Q.
Proof.
  intros n links flow tt ov bvl bvr btl btr vot toll l Hn ND Hl. destruct (stat_run_ok n links flow tt ov bvl bvr true btl btr ltac:(lia) ND 1) as (s & E & _ & _ & _ & T).
  destruct T as (_ & T & _). destruct (T l Hl) as ([[a b] c] & Ee & _ & X). specialize (X eq_refl). cbn [fst snd] in X. rewrite (proj2 (Z.eqb_neq n 1)) in X by lia.
  apply entry_load in Ee as (_ & Er & _). exists s. eexists. split; [exact E|]. unfold link_cost. rewrite Er. split; [reflexivity|]. rewrite X. ring.
Qed.
Print Assumptions C37_longer_window_refuted.

(** * Concrete cases: window 3, links 7 and 4, the value of link l at interval t is l+t *)
Example C36_case : let f := fun t l => inject_Z (l + t) in
  NoDup [7; 4] /\ (1 <= 8)%nat /\
  match stat_run f f 8 (start 3 [7; 4] true true true true false false) with
  | Ok s => option_map Qred (m_rec (sr_map (st_vol s)) 7) = Some 12%Q /\ m_load (sr_map (st_vol s)) 4 = Some 11%Q /\
            option_map (map (fun r => (fst r, map Qred (snd r)))) (sr_rec (st_vol s)) = Some [(0, [7; 4]%Q); (3, [9; 6]%Q); (6, [12; 9]%Q)]
  | Err _ => False
  end.
Proof.
  cbv zeta. split; [repeat constructor; cbn; intuition lia|]. split; [lia|]. vm_compute. auto.
Qed.
Example C37_case : NoDup [7; 4] /\ In 4 [7; 4] /\
  match stat_run (fun _ _ => 0%Q) (fun _ _ => 20%Q) 0 (start 5 [7; 4] false false false true false false) with
  | Ok s => option_map Qred (link_cost 2 (fun _ => 3%Q) s 4) = Some 3%Q
  | Err _ => False
  end.
Proof. split; [repeat constructor; cbn; intuition lia|]. split; [cbn; auto|]. vm_compute. reflexivity. Qed.
