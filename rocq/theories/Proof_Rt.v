(** Lemmas for the real-time engine: lifetimes, shares, signs. *)
From Verif Require Import Base Base_lemmas Model_Num Proof_Num Model_Graph Spec_Graph Proof_Graph Model_CC Proof_CC Model_Path Spec_Path Proof_Path
  Model_Link Spec_Link Model_World Model_Node Model_Sim Proof_GRJ Proof_Safe2 Proof_PreRouting Model_Rt Spec_Rt.
Open Scope Q_scope.

(** * Lifetimes *)
Lemma iters_dead n kept : life_iters (S n) false kept = Err EUB.
Proof. reflexivity. Qed.
Lemma iters_many n kept : life_iters (S (S n)) true kept = Err EUB.
Proof. reflexivity. Qed.

(** * Shares *)
Lemma set_ps_paths es : forall ps, length ps = length es -> Forall2 (fun e e' => e_path e' = e_path e /\ e_buf e' = e_buf e) es (set_ps es ps) /\ map e_p (set_ps es ps) = ps.
Proof.
  induction es as [|e es IH]; intros [|p ps] L; try discriminate L; [split; [constructor|reflexivity]|].
  injection L as L. destruct (IH ps L) as [A B]. split; [constructor; [split; reflexivity|exact A]|]. unfold set_ps in *. cbn. now rewrite B.
Qed.

Lemma nudge_val step g p : 0 <= step -> step <= 9999 -> 0 <= p -> p <= 1 ->
  nudge step g p == if Qltb 0 g then p / (1 + step) else p * (1 + step).
Proof.
  intros H0 H1 Hp Hp1. unfold nudge.
  assert (B : forall x, 0 <= x -> x <= 10000 -> Qmin (Qmax x (- (10000))) 10000 == x).
  { intros x A C. rewrite Q.max_l by lra. now rewrite Q.min_l by lra. }
  destruct (Qltb 0 g); apply B.
  - apply Qle_shift_div_l; lra.
  - apply Qle_shift_div_r; nra.
  - nra.
  - nra.
Qed.

Definition factor (step g : Q) : Q := if Qltb 0 g then / (1 + step) else 1 + step.
Lemma factor_pos step g : 0 <= step -> 0 < factor step g.
Proof. intros H. unfold factor. destruct (Qltb 0 g); [apply Qinv_lt_0_compat|]; lra. Qed.
Lemma nudge_factor step g p : 0 <= step -> step <= 9999 -> 0 <= p -> p <= 1 -> nudge step g p == p * factor step g.
Proof. intros. rewrite nudge_val by assumption. unfold factor. destruct (Qltb 0 g); [unfold Qdiv|]; reflexivity. Qed.

Lemma sum_share_le l : (forall p, In p l -> 0 <= p) -> forall p, In p l -> p <= sumQ l.
Proof.
  induction l as [|a l IH]; intros H p I; [destruct I|]. sq. assert (0 <= sumQ l) by (apply sumQ_nonneg; intros; apply H; now right).
  pose proof (H a (or_introl eq_refl)). destruct I as [<- | I]; [lra|]. pose proof (IH (fun q h => H q (or_intror h)) p I). lra.
Qed.

(** general form of one normalised update: shares are multiplied by positive factors *)
Definition reweighted (f : pentry -> Q) (es es' : list pentry) : Prop :=
  Forall2 (fun e e' => e_path e' = e_path e /\ e_buf e' = e_buf e /\
     e_p e' == e_p e * f e / sumQ (map (fun e => e_p e * f e) es)) es es'.

Lemma sumQ_ext2 {A} (l : list A) (f g : A -> Q) : (forall a, In a l -> f a == g a) -> sumQ (map f l) == sumQ (map g l).
Proof. induction l as [|a l IH]; intros H; sq; [reflexivity|]. rewrite IH by (intros; apply H; now right). now rewrite (H a) by now left. Qed.
Lemma sumQ_pos_of {A} (l : list A) (p f : A -> Q) : (forall a, In a l -> 0 <= p a) -> (forall a, In a l -> 0 < f a) -> 0 < sumQ (map p l) ->
  0 < sumQ (map (fun a => p a * f a) l).
Proof.
  induction l as [|a l IH]; intros Hp Hf HS; sq; cbn [map] in HS; rewrite ?sumQ_c, ?sumQ_n in HS; [lra|].
  assert (Pa := Hp a (or_introl eq_refl)). assert (Fa := Hf a (or_introl eq_refl)).
  assert (N : 0 <= sumQ (map (fun a => p a * f a) l)).
  { apply sumQ_nonneg. intros q I. apply in_map_iff in I as (x & <- & I). pose proof (Hp x (or_intror I)). pose proof (Hf x (or_intror I)). nra. }
  destruct (Qlt_le_dec 0 (p a)) as [L|L]; [assert (0 < p a * f a) by nra; lra|].
  assert (Z : p a == 0) by lra. assert (0 < sumQ (map (fun a => p a * f a) l)); [|rewrite Z; lra].
  apply IH; [intros; apply Hp; now right|intros; apply Hf; now right|lra].
Qed.

Lemma normalize_reweight es es0 (f : pentry -> Q) : es0 <> [] -> (forall e, In e es0 -> 0 <= e_p e) -> sumQ (map e_p es0) == 1 ->
  (forall e, In e es0 -> 0 < f e) ->
  Forall2 (fun e0 e => e_path e = e_path e0 /\ e_buf e = e_buf e0 /\ e_p e == e_p e0 * f e0) es0 es ->
  exists es', normalize_set es = Ok es' /\ reweighted f es0 es'.
Proof.
  intros NE HP HS HF F.
  assert (P : forall p, In p (map e_p es) -> 0 <= p).
  { intros p I. apply in_map_iff in I as (e & <- & I). clear HS NE. induction F as [|e0 e1 l l' (A & B & C) F IH]; [destruct I|].
    destruct I as [-> | I].
    - rewrite C. pose proof (HP e0 (or_introl eq_refl)). pose proof (HF e0 (or_introl eq_refl)). nra.
    - apply IH; auto; intros; [apply HP|apply HF]; now right. }
  unfold normalize_set. rewrite (normalize_ok _ P).
  assert (SE : sumQ (map e_p es) == sumQ (map (fun e => e_p e * f e) es0)).
  { clear - F. induction F as [|e0 e1 l l' (A & B & C) F IH]; sq; [reflexivity|]. rewrite IH, C. reflexivity. }
  assert (SP : 0 < sumQ (map (fun e => e_p e * f e) es0)) by (apply (sumQ_pos_of es0 e_p f HP HF); lra).
  pose proof (fold_minus0 (map e_p es) 0) as E0. pose proof (fold_plus (map e_p es) 0) as E1.
  destruct (Qeq_bool _ 0) eqn:Q; [apply Qeq_bool_iff in Q; exfalso; lra|]. cbn [bind].
  set (T := fold_left (fun t p => t + p) (map e_p es) 0) in *. eexists. split; [reflexivity|].
  assert (TS : T == sumQ (map (fun e => e_p e * f e) es0)) by lra.
  unfold reweighted. clearbody T. clear E0 E1 Q SE P HS NE. revert TS SP. generalize (sumQ (map (fun e => e_p e * f e) es0)). intros W TS SP.
  clear HP HF. induction F as [|e0 e1 l l' (A & B & C) F IH]; cbn; [constructor|]. constructor; [|exact IH]. cbn.
  split; [exact A|]. split; [exact B|]. rewrite TS, C. reflexivity.
Qed.

Lemma update_reweight col step es : shares_ok es -> 0 <= step -> step <= 9999 ->
  exists es', update_set col step es = Ok es' /\ reweighted (fun e => factor step (get_col col e)) es es'.
Proof.
  intros (NE & HP & HS) S0 S1. unfold update_set. apply normalize_reweight; auto; [intros; now apply factor_pos|].
  assert (LE : forall e, In e es -> e_p e <= 1).
  { intros e I. rewrite <- HS. apply sum_share_le; [intros p J; apply in_map_iff in J as (x & <- & J); auto|now apply in_map]. }
  clear HS NE. induction es as [|e es IH]; cbn; [constructor|]. constructor.
  - cbn. split; [reflexivity|]. split; [reflexivity|]. apply nudge_factor; auto; [apply HP|apply LE]; now left.
  - apply IH; intros; [apply HP|apply LE]; now right.
Qed.

Lemma reweighted_ok f es es' : shares_ok es -> (forall e, In e es -> 0 < f e) -> reweighted f es es' -> shares_ok es'.
Proof.
  intros (NE & HP & HS) HF R. unfold reweighted in R.
  assert (SP : 0 < sumQ (map (fun e => e_p e * f e) es)) by (apply (sumQ_pos_of es e_p f HP HF); lra).
  remember (sumQ (map (fun e => e_p e * f e) es)) as W eqn:EW. split; [|split].
  - intros ->. inversion R. now apply NE.
  - intros e' I. destruct (Forall2_In_r _ _ _ e' R I) as (e & Ie & _ & _ & E). rewrite E. apply Qle_shift_div_l; [exact SP|].
    pose proof (HP e Ie). pose proof (HF e Ie). nra.
  - assert (S : sumQ (map e_p es') == sumQ (map (fun e => e_p e * f e) es) / W).
    { clear - R. induction R as [|e e' l l' (A & B & C) R IH]; sq; [unfold Qdiv; ring|]. rewrite IH, C. unfold Qdiv. ring. }
    rewrite S, <- EW. field. lra.
Qed.

(** equal factors change nothing *)
Lemma reweighted_same (f : pentry -> Q) c es es' : shares_ok es -> 0 < c -> (forall e, In e es -> f e == c) -> reweighted f es es' -> same_shares es es'.
Proof.
  intros (NE & HP & HS) C HF R. unfold reweighted in R.
  assert (SW : sumQ (map (fun e => e_p e * f e) es) == c).
  { rewrite (sumQ_ext2 es _ (fun e => e_p e * c)) by (intros e I; now rewrite (HF e I)).
    assert (M : sumQ (map (fun e => e_p e * c) es) == sumQ (map e_p es) * c).
    { clear. induction es as [|e es IH]; sq; [ring|]. rewrite IH. ring. }
    rewrite M, HS. ring. }
  remember (sumQ (map (fun e => e_p e * f e) es)) as W eqn:EW. clear EW NE HP HS. unfold same_shares.
  induction R as [|e e' l l' (A & B & P) R IH]; [constructor|]. constructor.
  - split; [exact A|]. rewrite P, (HF e (or_introl eq_refl)), SW. field. lra.
  - apply IH. intros; apply HF; now right.
Qed.

Lemma same_shares_refl es : same_shares es es.
Proof. unfold same_shares. induction es; constructor; auto. split; reflexivity. Qed.
Lemma same_shares_trans a b c : same_shares a b -> same_shares b c -> same_shares a c.
Proof.
  unfold same_shares. intros F. revert c. induction F as [|x y l l' (A & B) F IH]; intros c G; inversion G; subst; [constructor|].
  constructor; [|auto]. destruct H1 as [A' B']. split; [congruence|]. now rewrite B', B.
Qed.
Lemma same_shares_ok es es' : same_shares es es' -> shares_ok es -> shares_ok es'.
Proof.
  intros F (NE & HP & HS). split; [|split].
  - intros ->. inversion F; subst. now apply NE.
  - intros e' I. destruct (Forall2_In_r _ _ _ e' F I) as (e & Ie & _ & E). rewrite E. auto.
  - rewrite <- HS. clear - F. induction F as [|x y l l' (A & B) F IH]; sq; [reflexivity|]. now rewrite IH, B.
Qed.
Lemma same_table_refl pt : same_table pt pt.
Proof. unfold same_table. induction pt; constructor; auto. split; [reflexivity|apply same_shares_refl]. Qed.
Lemma same_table_trans a b c : same_table a b -> same_table b c -> same_table a c.
Proof.
  unfold same_table. intros F. revert c. induction F as [|x y l l' (A & B) F IH]; intros c G; inversion G; subst; [constructor|].
  constructor; [|auto]. destruct H1 as [A' B']. split; [congruence|]. eapply same_shares_trans; eauto.
Qed.
Lemma same_table_ok a b : same_table a b -> table_ok a -> table_ok b.
Proof.
  intros F T k es I. destruct (Forall2_In_r _ _ _ (k, es) F I) as ([k0 es0] & I0 & _ & S). eapply same_shares_ok; [exact S|eapply T; eauto].
Qed.

(** * Gradients *)
Lemma link_mc_pos p tt : par_pos p -> 0 <= tt -> 0 < link_mc p tt.
Proof.
  intros [A B] T. unfold link_mc, divide.
  assert (L : 0 < p_len p / p_ffs p) by (apply Qlt_shift_div_l; lra).
  destruct (Qeqb_spec (p_len p) 0); [lra|]. destruct (Qeqb_spec (p_ffs p) 0); [lra|]. destruct (Qltb _ _); lra.
Qed.
