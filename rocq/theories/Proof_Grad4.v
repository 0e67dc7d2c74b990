(** Path travel times and costs. *)
From Verif Require Import Base Base_lemmas Model_Num Proof_Num Model_CC Spec_CC Proof_CC Proof_CC2 Proof_CC3 Spec_Grad Model_Grad Proof_Grad1 Proof_Grad2 Proof_Grad3.
Local Open Scope Z_scope.

Lemma clamp_min T t : clamp T t = at_or_last T t.
Proof. unfold clamp, at_or_last. destruct (Z.ltb_spec t T); lia. Qed.
Lemma cround_Z z : cround (inject_Z z) = z.
Proof.
  unfold cround. destruct (Qleb_spec 0 (inject_Z z)) as [H|H].
  - rewrite <- (trunc_floor (inject_Z z + (1 # 2))%Q) by lra. rewrite (trunc_unique _ z); [reflexivity| |lra|lra]. rewrite Zle_Qle. exact H.
  - assert (z < 0). { rewrite Zlt_Qlt. change (inject_Z 0) with 0%Q. lra. }
    rewrite <- (trunc_floor (- inject_Z z + (1 # 2))%Q) by lra. rewrite (trunc_unique _ (- z)); [lia|lia| |]; rewrite inject_Z_opp; lra.
Qed.

Definition tb_time (tt : table) (T : Z) (l t n : Z) : Prop := exists row x, tt l = Some row /\ nth_error row (Z.to_nat (at_or_last T t)) = Some x /\ round_up_time x tol = Ok n.

Lemma cell_at_ok tb T l t : 1 <= T -> 0 <= t -> (exists row, tb l = Some row /\ Z.of_nat (length row) = T) ->
  exists row x, tb l = Some row /\ nth_error row (Z.to_nat (at_or_last T t)) = Some x /\ cell_at tb l (clamp T t) = Ok x.
Proof.
  intros HT Ht (row & E & L). unfold cell_at. rewrite E, clamp_min. destruct (Z.ltb_spec (at_or_last T t) 0) as [C|_]; [unfold at_or_last in C; lia|].
  destruct (nth_error row (Z.to_nat (at_or_last T t))) as [x|] eqn:N; [eauto 6|]. apply nth_error_None in N. unfold at_or_last in N. lia.
Qed.
Lemma chain_tb_spec tt T links : forall t, 1 <= T -> 0 <= t -> (forall l, In l links -> exists row, tt l = Some row /\ Z.of_nat (length row) = T) ->
  exists ts e, chain_tb tt T links t = Ok e /\ drive (tb_time tt T) links t ts e /\ t + Z.of_nat (length links) <= e.
Proof.
  induction links as [|l ls IH]; intros t HT Ht Hr.
  - exists [], t. split; [reflexivity|]. split; [constructor|]. cbn [length]. lia.
  - cbn [chain_tb]. destruct (cell_at_ok tt T l t HT Ht (Hr l (or_introl eq_refl))) as (row & x & E & N & C). rewrite C. cbn [bind].
    destruct (round_up_time_total x tol) as (n & En & Hn). rewrite En. cbn [bind].
    destruct (IH (t + n)) as (ts & e & Ee & D & Le); [exact HT|lia|intros k Hk; apply Hr; right; exact Hk|].
    exists (t :: ts), e. split; [exact Ee|]. split; [|cbn [length]; lia]. econstructor; [|exact D]. exists row, x. auto.
Qed.
Lemma chain_cost_spec tt co T links : forall t acc, 1 <= T -> 0 <= t ->
  (forall l, In l links -> (exists row, tt l = Some row /\ Z.of_nat (length row) = T) /\ exists row, co l = Some row /\ Z.of_nat (length row) = T) ->
  exists ts e cs c, drive (tb_time tt T) links t ts e /\ chain_tb tt T links t = Ok e /\
    Forall2 (fun lt x => exists row, co (fst lt) = Some row /\ nth_error row (Z.to_nat (at_or_last T (snd lt))) = Some x) (combine links ts) cs /\
    length ts = length links /\ chain_cost tt co T links t acc = Ok c /\ (c == acc + sumQ cs)%Q.
Proof.
  induction links as [|l ls IH]; intros t acc HT Ht Hr.
  - exists [], t, [], acc. repeat split; try constructor. cbn. lra.
  - cbn [chain_cost chain_tb]. destruct (Hr l (or_introl eq_refl)) as (R1 & R2).
    destruct (cell_at_ok co T l t HT Ht R2) as (row' & y & E' & N' & C'). rewrite C'. cbn [bind].
    destruct (cell_at_ok tt T l t HT Ht R1) as (row & x & E & N & C). rewrite C. cbn [bind].
    destruct (round_up_time_total x tol) as (n & En & Hn). rewrite En. cbn [bind].
    destruct (IH (t + n) (acc + y)%Q) as (ts & e & cs & c & D & Ce & F & Ln & Ec & Eq); [exact HT|lia|intros k Hk; apply Hr; right; exact Hk|].
    exists (t :: ts), e, (y :: cs), c. split; [apply (drive_cons _ _ _ _ n); [exists row, x; auto|exact D]|]. split; [exact Ce|]. split; [cbn [combine]; constructor; [exists row'; auto|exact F]|].
    split; [cbn [length]; now rewrite Ln|]. split; [exact Ec|]. rewrite Eq. unfold sumQ; cbn [fold_right]. fold (sumQ cs). ring.
Qed.

(** paths inherit FIFO from their links *)
Lemma drive_fifo (time : Z -> Z -> Z -> Prop) links :
  (forall l t n t' n', In l links -> time l t n -> time l t' n' -> t <= t' -> t + n <= t' + n') ->
  forall t t' ts ts' e e', t <= t' -> drive time links t ts e -> drive time links t' ts' e' -> e <= e'.
Proof.
  induction links as [|l ls IH]; intros H t t' ts ts' e e' L D D'; inversion D; inversion D'; subst; [exact L|].
  eapply IH; [| |eassumption|eassumption].
  - intros k a b a' b' Hk. apply H. right. exact Hk.
  - eapply H; [left; reflexivity|eassumption|eassumption|exact L].
Qed.
Lemma drive_det (time : Z -> Z -> Z -> Prop) links : (forall l t n n', time l t n -> time l t n' -> n = n') ->
  forall t ts ts' e e', drive time links t ts e -> drive time links t ts' e' -> ts = ts' /\ e = e'.
Proof.
  induction links as [|l ls IH]; intros H t ts ts' e e' D D'; inversion D; inversion D'; subst; [auto|].
  match goal with A : time l t ?n, B : time l t ?n' |- _ => assert (n = n') by (eapply H; eauto); subst end.
  match goal with A : drive time ls ?a ?x ?y, B : drive time ls ?a ?x' ?y' |- _ => destruct (IH H a x x' y y' A B) as (-> & ->); auto end.
Qed.

(** the version reading the curves *)
Definition cc_time (tt : Z -> Q -> res Q) (l t n : Z) : Prop := exists x, tt l (inject_Z (t + 1)) = Ok x /\ round_up_time x tol = Ok n.
Lemma chain_cc_spec tt links : (forall l t, In l links -> (0 <= t)%Q -> exists x, tt l t = Ok x) -> forall t, 0 <= t ->
  exists ts e, chain_cc tt links t = Ok e /\ drive (cc_time tt) links t ts e /\ t + Z.of_nat (length links) <= e.
Proof.
  induction links as [|l ls IH]; intros H t Ht.
  - exists [], t. split; [reflexivity|]. split; [constructor|]. cbn [length]. lia.
  - cbn [chain_cc]. destruct (H l (inject_Z (t + 1)) (or_introl eq_refl)) as (x & E); [apply injZ_nonneg; lia|]. rewrite E. cbn [bind].
    destruct (round_up_time_total x tol) as (n & En & Hn). rewrite En. cbn [bind].
    destruct (IH (fun k a Hk => H k a (or_intror Hk)) (t + n)) as (ts & e & Ee & D & Le); [lia|].
    exists (t :: ts), e. split; [exact Ee|]. split; [|cbn [length]; lia]. econstructor; [|exact D]. exists x. auto.
Qed.
