(** No loading interval fails on valid input (C10). *)
From Verif Require Import Base Base_lemmas Model_Num Spec_Path Model_CC Model_Path Model_Link Spec_Link Model_World Model_Node Spec_Node Model_Sim Spec_Sim Spec_Route
  Spec_Valid Proof_Safe4 Ex_Net Prop_Node Prop_Sim.
Local Open Scope Z_scope.

(** However many intervals are run, the run does not throw, does not fail an assertion
    and has no undefined behaviour: the only way not to get a result is that the
    rejection loop of a junction has not been given enough random numbers. *)
Theorem C10_never_fails : forall N D w0 k e, valid_input N w0 -> (forall t, draws_valid (D t)) ->
  run N D k (init_state N w0) = Err e -> e = EFuel.
Proof. intros N D w0 k e VA DV E. destruct (run_safe N w0 VA D DV k) as [(s & E' & _)|E']; congruence. Qed.
Print Assumptions C10_never_fails.

(** If every in link of a junction keeps being picked by the rejection loop, every
    interval completes. *)
Theorem C10_every_interval_completes : forall N D w0 k, valid_input N w0 -> (forall t, draws_valid (D t)) ->
  (forall t n b, In (n, NFwj) (n_nodes N) -> In b (n_out N n) -> fair (d_pick (D t) n b) (length (n_in N n))) ->
  exists f0, forall f, (f0 <= f)%nat -> exists s, run N (fun t => with_fuel f (D t)) k (init_state N w0) = Ok s.
Proof. intros N D w0 k VA DV F. exact (run_terminates N w0 VA D DV F k). Qed.
Print Assumptions C10_every_interval_completes.

(** * Concrete cases *)
Lemma xn_valid w : w_pt w = xn_pt -> fresh_world xn w ->
  (forall l, In l (n_links xn) -> exists p, params_ok p /\ p_fs p = n_fs xn /\ fresh_link p (w_link w l) /\ (p_kind p = KLq -> lq_stable (l_par (w_link w l)))) ->
  valid_network xn w.
Proof.
  intros PT F L. constructor; auto; rewrite ?PT.
  - apply xn_net_ok.
  - reflexivity.
  - intros o d H. cbn in H. destruct H as [<-|[<-|[]]]; reflexivity.
  - intros n k H. cbn in H. repeat (destruct H as [H|H]; [injection H as <- <-; auto|]). destruct H.
  - intros l H. cbn in H. destruct H as [<-|[<-|[<-|[<-|[<-|[]]]]]]; cbn; auto.
  - intros o H. cbn in H. destruct H as [<-|[<-|[]]]; cbn; auto 10.
  - intros d H. cbn in H. destruct H as [<-|[]]; cbn; auto 10.
  - intros o d p (es & e & A & B & <-). cbn in A. destruct A as [A|[A|[]]]; injection A as <- <- <-; cbn in B;
      repeat (destruct B as [<-|B]; [cbn; auto 20|]); destruct B.
  - right. split; [reflexivity|]. split; [reflexivity|]. intros k es H. cbn in H. destruct H as [H|[H|[]]]; injection H as <- <-; intros e B; cbn in B;
      repeat (destruct B as [<-|B]; [split; [cbn; lia|cbn; intros x Hx; repeat (destruct Hx as [<-|Hx]; [lra|]); destruct Hx]|]); destruct B.
  - intros k es H. cbn in H. destruct H as [H|[H|[]]]; injection H as <- <-; discriminate.
  - intros o d H Hd. cbn in H. destruct H as [<-|[<-|[]]]; cbn in Hd; destruct Hd as [<-|[]]; (split; [cbn; auto|]); eexists; cbn; [now left|right; now left].
Qed.
Lemma xn_par_ok k c len : (0 < c)%Q -> (0 < len)%Q -> params_ok (xn_par k c len).
Proof. intros A B. unfold params_ok. cbn. repeat split; try assumption; try lra; try lia. Qed.
Lemma xn_links_ok l : In l (n_links xn) -> exists p, params_ok p /\ p_fs p = n_fs xn /\ fresh_link p (xn_link l) /\ (p_kind p = KLq -> lq_stable (l_par (xn_link l))).
Proof.
  intros Hl. cbn in Hl. destruct Hl as [<-|[<-|[<-|[<-|[<-|[]]]]]].
  - exists (xn_par KPq 10 100). split; [apply xn_par_ok; lra|]. split; [reflexivity|]. split; [reflexivity|discriminate].
  - exists (xn_par KPq 10 100). split; [apply xn_par_ok; lra|]. split; [reflexivity|]. split; [reflexivity|discriminate].
  - exists (xn_par KCtm (1 # 2) 300). split; [apply xn_par_ok; lra|]. split; [reflexivity|]. split; [vm_compute; reflexivity|discriminate].
  - exists (xn_par KPq 10 100). split; [apply xn_par_ok; lra|]. split; [reflexivity|]. split; [reflexivity|discriminate].
  - exists (xn_par KLq (1 # 2) 300). split; [apply xn_par_ok; lra|]. split; [reflexivity|]. split; [vm_compute; reflexivity|]. intros _.
    vm_compute. repeat split; discriminate.
Qed.
Example C10_case : valid_input xn xn_world /\ (forall t : Z, draws_valid ((fun _ => xn_draws) t)) /\
  (forall (t : Z) n b, In (n, NFwj) (n_nodes xn) -> In b (n_out xn n) -> fair (d_pick ((fun _ => xn_draws) t) n b) (length (n_in xn n))).
Proof.
  split; [|split].
  - split; [apply xn_valid; [reflexivity|apply xn_fresh|apply xn_links_ok]|]. intros o b H Hb. cbn in H. destruct H as [<-|[<-|[]]]; cbn in Hb; destruct Hb as [<-|[]]; reflexivity.
  - intros; apply xn_draws_valid.
  - intros t n b H _ k i Hi. exists (length (n_in xn n) * k + i)%nat. split; [cbn [d_pick xn_draws]; nia|]. cbn [d_pick xn_draws].
    rewrite Nat.add_comm, Nat.mul_comm, Nat.mod_add by lia. now apply Nat.mod_small.
Qed.

(** The connectors have to be point queues: an origin rounds the number of vehicles it
    sends up to the next integer, which a cell-transmission link with fractional supply
    refuses by throwing.  Here the supply is 5/2 vehicles and three are sent. *)
Definition cn_world : world := set_link xn_world 10 (xn_get (make_ctm (xn_par KCtm (1 # 4) 300))).
Definition cn_draws : draws :=
  {| d_rel := d_rel xn_draws; d_adapt := d_adapt xn_draws; d_oshuf := d_oshuf xn_draws; d_route := d_route xn_draws; d_orig := fun _ _ => (1 # 10)%Q;
     d_node := d_node xn_draws; d_pick := d_pick xn_draws; d_fuel := 100; d_inshuf := d_inshuf xn_draws; d_grj := d_grj xn_draws;
     d_cell := d_cell xn_draws; d_tree := d_tree xn_draws; d_any := d_any xn_draws |}.
Lemma cn_draws_valid : draws_valid cn_draws.
Proof. destruct xn_draws_valid as (A & B & C & E & _ & F). split; [exact A|]. split; [exact B|]. split; [exact C|]. split; [exact E|]. split; [|exact F]. intros; cbn; split; lra. Qed.
Theorem C10_ctm_connector_refuted : exists N D w0, valid_network N w0 /\ (forall t : Z, draws_valid (D t)) /\ run N D 1 (init_state N w0) = Err EThrow.
Proof.
  assert (L : forall l, In l (n_links xn) -> exists p, params_ok p /\ p_fs p = n_fs xn /\ fresh_link p (w_link cn_world l) /\ (p_kind p = KLq -> lq_stable (l_par (w_link cn_world l)))).
  { intros l Hl. cbn [w_link cn_world set_link]. destruct (Z.eq_dec l 10) as [->|Ne]; [|rewrite upd_other by exact Ne; now apply xn_links_ok]. rewrite upd_same.
    exists (xn_par KCtm (1 # 4) 300). split; [apply xn_par_ok; lra|]. split; [reflexivity|]. split; [vm_compute; reflexivity|discriminate]. }
  exists xn, (fun _ => cn_draws), cn_world. split; [|split].
  - apply xn_valid; [reflexivity| |exact L]. destruct xn_fresh as [F1 F2 F3 F4 F5 F6 F7]. constructor; auto.
    intros l Hl. destruct (L l Hl) as (p & _ & _ & Fp & _). eauto.
  - intros; apply cn_draws_valid.
  - vm_compute. reflexivity.
Qed.
Print Assumptions C10_ctm_connector_refuted.
