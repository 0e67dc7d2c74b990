(** One node update, whatever the node kind: which vehicles enter and leave each link. *)
From Verif Require Import Base Base_lemmas Model_Num Proof_Num Spec_Path Proof_Path Model_CC Spec_CC Proof_CC Model_Path Model_Link Spec_Link Spec_Node
  Proof_Link Proof_Link3 Proof_Link4 Proof_Link5 Model_World Model_Node Proof_Node Proof_Node2 Proof_Node3 Proof_Node4 Proof_Node5 Model_Sim Spec_Sim Proof_Sim1.
Local Open Scope Z_scope.

Lemma Zlen_concat_sum {A} (f : A -> list Z) l : Zlen (concat (map f l)) = sumZ (map (fun a => Zlen (f a)) l).
Proof. induction l; simpl; [reflexivity|]. rewrite Zlen_app. congruence. Qed.
Lemma Zlen_firstn {A} k (l : list A) : 0 <= k <= Zlen l -> Zlen (firstn (Z.to_nat k) l) = k.
Proof. unfold Zlen. intros H. rewrite firstn_length. lia. Qed.

Lemma in_firstn {A} (x : A) k l : In x (firstn k l) -> In x l.
Proof. intros H. rewrite <- (firstn_skipn k l). apply in_or_app. now left. Qed.

(** [enter l], [leave l]: vehicles put on / taken off link [l]; [ol n]: taken from the
    queue of origin [n]; [di n]: put in the queue of destination [n]. *)
Record neff (N : net) (t : Z) (w w' : world) (enter leave ol di : Z -> list Z) : Prop := {
  ne_keep : wkeep w w'; ne_like : forall l, link_like (w_link w l) (w_link w' l);
  ne_in : forall l, l_in (w_link w' l) = l_in (w_link w l) ++ enter l;
  ne_fin : forall l, Permutation (l_fin (w_link w l)) (leave l ++ l_fin (w_link w' l));
  ne_sub : forall l, subseq (l_fin (w_link w' l)) (l_fin (w_link w l));
  ne_oq : forall n, Permutation (w_oq w n) (ol n ++ w_oq w' n);
  ne_oq_sub : forall n, subseq (w_oq w' n) (w_oq w n);
  ne_dq : forall n, w_dq w' n = w_dq w n ++ di n;
  ne_enter_next : forall l v, In v (enter l) -> v_next (w_veh w v) = Some l;
  ne_enter_from : forall l v, In v (enter l) -> In l (n_links N) /\
     ((exists n, In v (ol n) /\ In l (n_out N n)) \/ (exists a, In v (leave a) /\ In l (n_out N (n_to N a))));
  ne_di_next : forall n v, In v (di n) -> v_next (w_veh w v) = None /\ exists a, In v (leave a) /\ n_to N a = n;
  ne_cur_in : forall l v, In v (enter l) -> v_cur (w_veh w' v) = Some l;
  ne_cur_di : forall n v, In v (di n) -> v_cur (w_veh w' v) = None;
  ne_cur_other : forall v, (forall l, ~ In v (enter l)) -> (forall n, ~ In v (di n)) -> v_cur (w_veh w' v) = v_cur (w_veh w v);
  ne_Nin : forall l, bump t (cc_Nin (w_cc w) l) (cc_Nin (w_cc w') l) (inject_Z (Zlen (enter l)) / n_fs N);
  ne_Nout : forall l, bump t (cc_Nout (w_cc w) l) (cc_Nout (w_cc w') l) (inject_Z (Zlen (leave l)) / n_fs N);
  ne_count : forall v, zcount N w' v = zcount N w v;
  ne_leave_to : forall l v, In v (leave l) -> (exists b, In v (enter b)) \/ In v (di (n_to N l));
  ne_ol_to : forall n v, In v (ol n) -> exists b, In v (enter b);
  ne_leave_in : forall l v, In v (leave l) -> In l (n_in N (n_to N l));
  ne_ol_in : forall n v, In v (ol n) -> In n (map o_node (n_origins N));
  ne_di_in : forall n v, In v (di n) -> In n (n_dests N) }.

Definition at_ {A} (l : list Z) (f : Z -> list A) (x : Z) : list A := if memb x l then f x else [].
Lemma at_in {A} l (f : Z -> list A) x : In x l -> at_ l f x = f x.
Proof. intros H. unfold at_. now rewrite (proj2 (memb_In _ _) H). Qed.
Lemma at_out {A} l (f : Z -> list A) x : ~ In x l -> at_ l f x = [].
Proof. intros H. unfold at_. now rewrite (proj2 (memb_false _ _) H). Qed.
Lemma In_at {A} l (f : Z -> list A) x v : In v (at_ l f x) -> In x l /\ In v (f x).
Proof. unfold at_. destruct (memb x l) eqn:E; [|intros []]. apply memb_In in E. auto. Qed.

Lemma junction_spec0 N D t n w w' flow : node_links_ok N n -> draws_valid D -> paired (w_cc w) ->
  junction_evolve (n_fs N) (n_in N n) (n_out N n) flow D t n w = Ok w' ->
  exists pass, fifo_passage N n w w' pass /\ wkeep w w' /\
    (forall a b v, In a (n_in N n) -> In b (n_out N n) -> In v (pass a b) -> v_cur (w_veh w' v) = Some b) /\
    (forall v, (forall a b, In a (n_in N n) -> In b (n_out N n) -> ~ In v (pass a b)) -> v_cur (w_veh w' v) = v_cur (w_veh w v)) /\
    (forall b, In b (n_out N n) -> bump t (cc_Nin (w_cc w) b) (cc_Nin (w_cc w') b) (inject_Z (Zlen (concat (map (fun a => pass a b) (n_in N n)))) / n_fs N)) /\
    (forall l, ~ In l (n_out N n) -> bump t (cc_Nin (w_cc w) l) (cc_Nin (w_cc w') l) (inject_Z 0 / n_fs N)) /\
    (forall a, In a (n_in N n) -> bump t (cc_Nout (w_cc w) a) (cc_Nout (w_cc w') a) (inject_Z (Zlen (concat (map (pass a) (n_out N n)))) / n_fs N)) /\
    (forall l, ~ In l (n_in N n) -> cc_Nout (w_cc w') l = cc_Nout (w_cc w) l).
Proof.
  intros (NI & NO & DJ) DV Pr H. pose proof DV as (_ & _ & _ & _ & _ & _ & Hsh & _).
  pose proof H as HP. apply junction_passage in HP; [|repeat split; auto|exact DV|exact Pr].
  apply junction_ok in H as (m & Hm & J); auto; [|intros b; apply Hsh].
  destruct (columns_ok _ _ _ _ _ _ _ _ NO Hm) as (_ & Em & supply & _ & Hc).
  destruct J as [je_keep0 je_oq0 je_dq0 je_like0 je_num0 je_in0 je_in_other0 je_fin0 je_fin_part0 je_fin_cnt0 je_fin_other0 je_cur0 je_Nin0 je_Nout0 je_Nout_other0]. set (col := fun b => match find (fun x => fst x =? b) m with Some x => snd x | None => [] end).
  assert (Hcol : forall b, In b (n_out N n) -> In (b, col b) m).
  { intros b Hb. rewrite <- Em in Hb. apply in_map_iff in Hb as ([b' c] & <- & Hb). unfold col. simpl.
    rewrite (find_keyed m b' c) by congruence || auto. exact Hb. }
  assert (Hm' : forall b c, In (b, c) m -> c = col b).
  { intros b c Hb. unfold col. rewrite (find_keyed m b c) by congruence || auto. reflexivity. }
  set (P := fun a b => firstn (Z.to_nat (mv (n_in N n) (col b) a)) (line w b (l_fin (w_link w a)))).
  assert (PP : forall a b, In a (n_in N n) -> In b (n_out N n) -> Zlen (P a b) = mv (n_in N n) (col b) a).
  { intros a b Ha Hb. apply Zlen_firstn. apply (je_num0 b (col b) a (Hcol b Hb) Ha). }
  destruct HP as (pass & F).
  assert (EP : forall a b, In a (n_in N n) -> In b (n_out N n) -> pass a b = P a b).
  { intros a b Ha Hb. pose proof (fp_first _ _ _ _ _ F a b Ha Hb) as E1.
    unfold line in E1. change (headed w b) with (goes w b) in E1. rewrite (je_fin_part0 b (col b) a (Hcol b Hb) Ha) in E1.
    rewrite <- (firstn_skipn (Z.to_nat (mv (n_in N n) (col b) a)) (filter (goes w b) (l_fin (w_link w a)))) in E1 at 1.
    apply app_inv_tail in E1. symmetry. exact E1. }
  exists pass. split; [exact F|]. split; [exact je_keep0|]. split; [|split; [|split; [|split; [|split]]]].
  - intros a b v Ha Hb Hv. rewrite EP in Hv by assumption.
    destruct (je_cur0 v) as [[_ C]|(b' & c' & a' & Hb' & Ha' & E & Hv')].
    + exfalso. apply C. exists b, (col b), a. auto.
    + rewrite E. f_equal. assert (goes w b v = true).
      { unfold P, line in Hv. apply in_firstn in Hv. apply filter_In in Hv. apply Hv. }
      assert (goes w b' v = true) by (apply in_firstn in Hv'; apply filter_In in Hv'; apply Hv').
      apply goes_next in H. apply goes_next in H0. congruence.
  - intros v Hv. destruct (je_cur0 v) as [[E _]|(b' & c' & a' & Hb' & Ha' & E & Hv')]; [exact E|].
    exfalso. assert (I : In b' (n_out N n)) by (rewrite <- Em; apply in_map_iff; exists (b', c'); auto).
    apply (Hv a' b' Ha' I). rewrite EP by assumption. unfold P. rewrite <- (Hm' b' c' Hb'). exact Hv'.
  - intros b Hb. replace (Zlen (concat (map (fun a => pass a b) (n_in N n)))) with (colsum m b); [apply je_Nin0|].
    rewrite Zlen_concat_sum.
    rewrite (sumZ_map_ext _ (mv (n_in N n) (col b))) by (intros a Ha; rewrite EP by assumption; now apply PP).
    rewrite mv_list; [|exact NI|apply (Hc b), Hcol, Hb].
    unfold colsum. specialize (Hcol b Hb). clear - Hcol Em NO. rewrite <- Em in NO.
    assert (E : filter (fun bc => fst bc =? b) m = [(b, col b)]).
    { revert Hcol NO. generalize (col b). intros c. clear col Em. induction m as [|[b' c'] m IH]; [intros []|]. cbn [map fst In filter]. intros H ND.
      apply NoDup_cons_iff in ND as [Nx ND]. destruct H as [E|H].
      - injection E as -> ->. rewrite Z.eqb_refl. f_equal. apply filter_all_false. intros [b'' c''] Hx. apply Z.eqb_neq. cbn [fst].
        intros ->. apply Nx. apply in_map_iff. exists (b, c''). auto.
      - destruct (Z.eqb_spec b' b) as [->|_]; [exfalso; apply Nx; apply in_map_iff; exists (b, c); auto|]. now apply IH. }
    rewrite E. simpl. lia.
  - intros l Hl. rewrite <- (colsum_none m l) by congruence. apply je_Nin0.
  - intros a Ha. replace (Zlen (concat (map (pass a) (n_out N n)))) with (sumZ (map (fun bc => mv (n_in N n) (snd bc) a) m)); [apply je_Nout0, Ha|].
    rewrite Zlen_concat_sum, <- Em, map_map. apply sumZ_map_ext. intros [b c] I. cbn [fst snd]. rewrite EP; [|exact Ha|rewrite <- Em; apply in_map_iff; exists (b, c); auto].
    rewrite PP; [|exact Ha|rewrite <- Em; apply in_map_iff; exists (b, c); auto]. now rewrite (Hm' b c I).
  - exact je_Nout_other0.
Qed.

Lemma bump_comp t c c' x y : (x == y)%Q -> x = y -> bump t c c' x -> bump t c c' y.
Proof. intros _ ->. auto. Qed.

Lemma junction_neff N D t n w w' flow : net_ok N -> draws_valid D -> paired (w_cc w) ->
  junction_evolve (n_fs N) (n_in N n) (n_out N n) flow D t n w = Ok w' -> exists enter leave, neff N t w w' enter leave (fun _ => []) (fun _ => []).
Proof.
  intros K DV Pr H. pose proof (no_around N K n) as NL. destruct (junction_spec0 _ _ _ _ _ _ _ NL DV Pr H) as (pass & F & W & C1 & C2 & B1 & B2 & B3 & B4).
  destruct NL as (NI & NO & DJ). pose proof F as [Ff Fs Fp Fe Fi Fo Fx [Fq Fd]].
  assert (EX : exists ent : Z -> list Z, forall b, In b (n_out N n) -> l_in (w_link w' b) = l_in (w_link w b) ++ ent b /\ Permutation (ent b) (concat (map (fun a => pass a b) (n_in N n)))).
  { exists (fun b => skipn (length (l_in (w_link w b))) (l_in (w_link w' b))). intros b Hb. destruct (Fe b Hb) as (order & Po & E).
    rewrite E, skipn_app, skipn_all, Nat.sub_diag. simpl. split; [reflexivity|].
    apply perm_cnt. intros v. rewrite !cnt_concat_map. apply Nat2Z.inj.
    assert (Q : forall l, Z.of_nat (list_sum l) = sumZ (map Z.of_nat l)) by (induction l; simpl; lia).
    rewrite !Q, !map_map. apply sumZ_perm, Permutation_map, Po. }
  destruct EX as (ent & Hent).
  assert (PN : forall a b v, In a (n_in N n) -> In b (n_out N n) -> In v (pass a b) -> v_next (w_veh w v) = Some b).
  { intros a b v Ha Hb Hv. assert (I : In v (line w b (l_fin (w_link w a)))) by (rewrite (Ff a b Ha Hb); apply in_or_app; now left).
    unfold line in I. apply filter_In in I as [_ I]. now apply (goes_next w b v). }
  assert (PE : forall b v, In v (at_ (n_out N n) ent b) -> In b (n_out N n) /\ exists a, In a (n_in N n) /\ In v (pass a b)).
  { intros b v Hv. apply In_at in Hv as [Hb Hv]. split; [exact Hb|]. destruct (Hent b Hb) as [_ P]. eapply Permutation_in in Hv; [|exact P].
    apply in_concat in Hv as (l & Hl & Hv). apply in_map_iff in Hl as (a & <- & Ha). eauto. }
  assert (PL : forall a v, In v (at_ (n_in N n) (fun a => concat (map (pass a) (n_out N n))) a) -> In a (n_in N n) /\ exists b, In b (n_out N n) /\ In v (pass a b)).
  { intros a v Hv. apply In_at in Hv as [Ha Hv]. split; [exact Ha|]. apply in_concat in Hv as (l & Hl & Hv). apply in_map_iff in Hl as (b & <- & Hb). eauto. }
  assert (PE' : forall a b v, In a (n_in N n) -> In b (n_out N n) -> In v (pass a b) -> In v (at_ (n_out N n) ent b)).
  { intros a b v Ha Hb Hv. rewrite at_in by exact Hb. destruct (Hent b Hb) as [_ P]. eapply Permutation_in; [symmetry; exact P|].
    apply in_concat. exists (pass a b). split; [apply in_map_iff; eauto|exact Hv]. }
  exists (at_ (n_out N n) ent), (at_ (n_in N n) (fun a => concat (map (pass a) (n_out N n)))). constructor.
  - exact W.
  - intros l. destruct (in_dec Z.eq_dec l (n_in N n)) as [I|I]; [rewrite (Fi l I); split; reflexivity|].
    destruct (in_dec Z.eq_dec l (n_out N n)) as [O|O]; [rewrite (Fo l O); split; reflexivity|]. rewrite Fx by assumption. split; reflexivity.
  - intros l. destruct (in_dec Z.eq_dec l (n_out N n)) as [O|O].
    + rewrite at_in by exact O. apply Hent, O.
    + rewrite at_out, app_nil_r by exact O. destruct (in_dec Z.eq_dec l (n_in N n)) as [I|I]; [rewrite (Fi l I); reflexivity|]. now rewrite Fx.
  - intros l. destruct (in_dec Z.eq_dec l (n_in N n)) as [I|I].
    + rewrite at_in by exact I. apply Fp, I.
    + rewrite at_out by exact I. simpl. destruct (in_dec Z.eq_dec l (n_out N n)) as [O|O]; [rewrite (Fo l O); reflexivity|]. now rewrite Fx.
  - intros l. destruct (in_dec Z.eq_dec l (n_in N n)) as [I|I]; [apply Fs, I|].
    destruct (in_dec Z.eq_dec l (n_out N n)) as [O|O]; [rewrite (Fo l O); apply subseq_refl|]. rewrite Fx by assumption. apply subseq_refl.
  - intros n'. rewrite Fq. reflexivity.
  - intros n'. rewrite Fq. apply subseq_refl.
  - intros n'. now rewrite Fd, app_nil_r.
  - intros l v Hv. apply PE in Hv as (Hb & a & Ha & Hv). eauto.
  - intros l v Hv. apply PE in Hv as (Hb & a & Ha & Hv). split; [apply (no_out N K n l Hb)|]. right. exists a. split.
    + rewrite at_in by exact Ha. apply in_concat. exists (pass a l). split; [apply in_map_iff; eauto|exact Hv].
    + now rewrite (proj2 (no_in N K n a Ha)).
  - intros n' v [].
  - intros l v Hv. apply PE in Hv as (Hb & a & Ha & Hv). eauto.
  - intros n' v [].
  - intros v Hv _. apply C2. intros a b Ha Hb C. apply (Hv b). eauto.
  - intros l. destruct (in_dec Z.eq_dec l (n_out N n)) as [O|O].
    + rewrite at_in by exact O. destruct (Hent l O) as [_ P]. unfold Zlen. rewrite (Permutation_length P). apply B1, O.
    + rewrite at_out by exact O. apply B2, O.
  - intros l. destruct (in_dec Z.eq_dec l (n_in N n)) as [I|I].
    + rewrite at_in by exact I. apply B3, I.
    + rewrite at_out, B4 by exact I. apply bump_same, zero_div.
  - intros v. eapply junction_count; eauto.
  - intros l v Hv. left. apply PL in Hv as (Ha & b & Hb & Hv). eauto.
  - intros n' v [].
  - intros l v Hv. apply PL in Hv as (Ha & _). now rewrite (proj2 (no_in N K n l Ha)).
  - intros n' v [].
  - intros n' v [].
Qed.

Lemma origin_neff N D t n w w' : net_ok N -> draws_valid D -> In n (map o_node (n_origins N)) ->
  node_evolve N D t w (n, NOrigin) = Ok w' -> exists enter ol, neff N t w w' enter (fun _ => []) ol (fun _ => []).
Proof.
  intros K DV Hn H. destruct (no_around N K n) as (NI & NO & DJ).
  destruct (origin_spec0 _ _ _ _ _ _ (no_fs N K) NO DV H) as (kf & Hk & (O & W & C & BO & BI & BX) & Hh).
  set (send := fun b => firstn (Z.to_nat (kf b)) (line w b (w_oq w n))) in *. pose proof O as [Of Os Op Oe Ox [Oq Od]].
  assert (SN : forall b v, In v (send b) -> v_next (w_veh w v) = Some b).
  { intros b v Hv. unfold send, line in Hv. apply in_firstn in Hv. apply filter_In in Hv as [_ G]. now apply (goes_next w b v). }
  assert (CI : forall b v, In b (n_out N n) -> In v (send b) -> In v (concat (map send (n_out N n)))).
  { intros b v Hb Hv. apply in_concat. exists (send b). split; [apply in_map; exact Hb|exact Hv]. }
  exists (at_ (n_out N n) send), (at_ [n] (fun _ => concat (map send (n_out N n)))). constructor.
  - exact W.
  - intros l. destruct (in_dec Z.eq_dec l (n_out N n)) as [I|I]; [rewrite (Oe l I); split; reflexivity|rewrite Ox by exact I; split; reflexivity].
  - intros l. destruct (in_dec Z.eq_dec l (n_out N n)) as [I|I]; [rewrite (Oe l I), at_in by exact I; reflexivity|rewrite Ox, at_out, app_nil_r by exact I; reflexivity].
  - intros l. simpl. destruct (in_dec Z.eq_dec l (n_out N n)) as [I|I]; [rewrite (Oe l I); reflexivity|now rewrite Ox].
  - intros l. destruct (in_dec Z.eq_dec l (n_out N n)) as [I|I]; [rewrite (Oe l I); apply subseq_refl|rewrite Ox by exact I; apply subseq_refl].
  - intros n'. destruct (Z.eq_dec n' n) as [->|Ne]; [rewrite at_in by (now left); exact Op|].
    rewrite at_out, Oq by (assumption || (intros [E|[]]; congruence)). reflexivity.
  - intros n'. destruct (Z.eq_dec n' n) as [->|Ne]; [exact Os|]. rewrite Oq by assumption. apply subseq_refl.
  - intros n'. now rewrite Od, app_nil_r.
  - intros l v Hv. apply In_at in Hv as [_ Hv]. auto.
  - intros l v Hv. apply In_at in Hv as [Hb Hv]. split; [apply (no_out N K n l Hb)|]. left. exists n. split; [|exact Hb].
    rewrite at_in by (now left). eauto.
  - intros n' v [].
  - intros l v Hv. apply In_at in Hv as [Hb Hv]. rewrite C, (proj2 (memb_In _ _) (CI l v Hb Hv)). auto.
  - intros n' v [].
  - intros v Hv _. rewrite C. replace (memb v _) with false; [reflexivity|]. symmetry. apply memb_false. intros I.
    apply in_concat in I as (l & Hl & I). apply in_map_iff in Hl as (b & <- & Hb). apply (Hv b). now rewrite at_in.
  - intros l. destruct (in_dec Z.eq_dec l (n_out N n)) as [I|I]; [rewrite at_in by exact I; apply BI, I|].
    rewrite at_out, BX by exact I. apply bump_same, zero_div.
  - intros l. rewrite BO. apply bump_same, zero_div.
  - intros v. eapply origin_count; eauto.
  - intros l v [].
  - intros n' v Hv. apply In_at in Hv as [_ Hv]. apply in_concat in Hv as (l & Hl & I). apply in_map_iff in Hl as (b & <- & Hb). exists b. now rewrite at_in.
  - intros l v [].
  - intros n' v Hv. apply In_at in Hv as [[<-|[]] _]. exact Hn.
  - intros n' v [].
Qed.

Lemma dest_neff N t n w w' : net_ok N -> In n (n_dests N) -> dest_evolve (n_fs N) (n_in N n) t n w = Ok w' ->
  exists leave di, neff N t w w' (fun _ => []) leave (fun _ => []) di.
Proof.
  intros K Hn H. destruct (no_around N K n) as (NI & _ & _). pose proof (dest_ok _ _ _ _ _ _ NI H) as J.
  pose proof J as [Dk Do Dqo Dq Dn Dl Dlo Dc E1 E2 E3 E4 E5].
  exists (at_ (n_in N n) (fun a => l_fin (w_link w a))), (at_ [n] (fun _ => concat (map (fun a => l_fin (w_link w a)) (n_in N n)))). constructor.
  - exact Dk.
  - intros l. destruct (in_dec Z.eq_dec l (n_in N n)) as [I|I]; [rewrite (Dl l I); split; reflexivity|rewrite Dlo by exact I; split; reflexivity].
  - intros l. rewrite app_nil_r. destruct (in_dec Z.eq_dec l (n_in N n)) as [I|I]; [rewrite (Dl l I); reflexivity|now rewrite Dlo].
  - intros l. destruct (in_dec Z.eq_dec l (n_in N n)) as [I|I]; [rewrite (Dl l I), at_in by exact I; simpl; now rewrite app_nil_r|].
    rewrite at_out, Dlo by exact I. reflexivity.
  - intros l. destruct (in_dec Z.eq_dec l (n_in N n)) as [I|I]; [rewrite (Dl l I); constructor|rewrite Dlo by exact I; apply subseq_refl].
  - intros n'. now rewrite Do.
  - intros n'. rewrite Do. apply subseq_refl.
  - intros n'. destruct (Z.eq_dec n' n) as [->|Ne]; [rewrite at_in by (now left); exact Dq|].
    rewrite at_out, Dqo, app_nil_r by (assumption || (intros [E|[]]; congruence)). reflexivity.
  - intros l v [].
  - intros l v [].
  - intros n' v Hv. apply In_at in Hv as [[<-|[]] Hv]. apply in_concat in Hv as (l & Hl & I). apply in_map_iff in Hl as (a & <- & Ha).
    split; [eauto|]. exists a. rewrite at_in by exact Ha. split; [exact I|]. apply (no_in N K n a Ha).
  - intros l v [].
  - intros n' v Hv. apply In_at in Hv as [_ Hv]. rewrite Dc, (proj2 (memb_In _ _) Hv). reflexivity.
  - intros v _ Hv. rewrite Dc. replace (memb v _) with false; [reflexivity|]. symmetry. apply memb_false. intros I.
    apply (Hv n). now rewrite at_in by (now left).
  - intros l. rewrite E1. apply bump_same, zero_div.
  - intros l. destruct (in_dec Z.eq_dec l (n_in N n)) as [I|I]; [rewrite at_in by exact I; apply E4, I|].
    rewrite at_out, E5 by exact I. apply bump_same, zero_div.
  - intros v. eapply dest_count; eauto.
  - intros l v Hv. right. apply In_at in Hv as [Ha Hv]. rewrite (proj2 (no_in N K n l Ha)), at_in by (now left).
    apply in_concat. exists (l_fin (w_link w l)). split; [|exact Hv]. apply in_map_iff. eauto.
  - intros n' v [].
  - intros l v Hv. apply In_at in Hv as [Ha _]. now rewrite (proj2 (no_in N K n l Ha)).
  - intros n' v [].
  - intros n' v Hv. apply In_at in Hv as [[<-|[]] _]. exact Hn.
Qed.

Lemma node_neff N D t w w' nk : net_ok N -> draws_valid D -> paired (w_cc w) -> In nk (n_nodes N) ->
  node_evolve N D t w nk = Ok w' -> exists enter leave ol di, neff N t w w' enter leave ol di.
Proof.
  intros K DV Pr I H. destruct nk as [n k]. destruct k.
  1,2: cbn [node_evolve] in H; destruct (junction_neff N D t n w w' _ K DV Pr H) as (e & o & J); eauto.
  - destruct (origin_neff N D t n w w' K DV (no_orig_nodes N K n I) H) as (e & o & J). eauto.
  - cbn [node_evolve] in H. destruct (dest_neff N t n w w' K (no_dest_nodes N K n I) H) as (e & o & J). eauto.
Qed.

Lemma bump_pair t c c' x : bump t c c' x -> (c = None <-> c' = None).
Proof. destruct c, c'; simpl; intros H; split; intros E; try discriminate; try contradiction; reflexivity. Qed.
Lemma neff_paired N t w w' e lv o d : neff N t w w' e lv o d -> paired (w_cc w) -> paired (w_cc w').
Proof.
  intros J P l. rewrite <- (bump_pair _ _ _ _ (ne_Nin _ _ _ _ _ _ _ _ J l)), <- (bump_pair _ _ _ _ (ne_Nout _ _ _ _ _ _ _ _ J l)). apply P.
Qed.
