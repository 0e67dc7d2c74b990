(** Unknown routing types and random routing (C251, C252). *)
From Verif Require Import Base Base_lemmas Model_Num Spec_Path Model_CC Model_Path Model_Link Spec_Link Model_World Model_Node Spec_Node Model_Sim Spec_Sim
  Proof_Link4 Proof_Sim1 Proof_Sim2 Proof_Sim3 Model_Other Spec_Other Proof_Other Ex_Net Prop_Node Prop_Sim.
Local Open Scope Z_scope.

(** C251: whatever the demand, a loading with a routing type that load_once does not know
    that ends without exception has not released a single vehicle, and its record of
    vehicles under way is zero throughout. *)
Theorem C251_nobody_released_partial : forall N D r w0 fuel s, net_ok N -> fresh_world N w0 -> (forall t, draws_valid (D t)) ->
  loading_other N D r fuel (init_state N w0) = Ok s -> nobody N (s_w s) /\ (forall x, In x (s_enroute s) -> x = 0).
Proof.
  intros N D r w0 fuel s K F DV H. destruct (loading_other_empty N D r K DV fuel (init_state N w0) s) as (A & B & C); auto.
  - cbn [init_state s_w]. now apply fresh_sinv.
  - cbn [init_state s_w]. now rewrite (fw_fac _ _ F).
  - intros x [].
  - split; [now apply empty_nobody|exact C].
Qed.
Print Assumptions C251_nobody_released_partial.

(** C251: and it does end without exception on a network with demand, on which the loading
    with fixed routing releases and delivers vehicles. *)
Theorem C251_reported_refuted : ~ (forall N D r w0 fuel s, net_ok N -> fresh_world N w0 -> (forall t : Z, draws_valid (D t)) ->
  (exists o d dem a, In o (n_origins N) /\ In (d, dem) (o_demand o) /\ n_start_assign N <= a < n_total_assign N /\ (1 < dem a)%Q) ->
  loading_other N D r fuel (init_state N w0) <> Ok s).
Proof.
  intros H. assert (E : is_ok (loading_other xn (fun _ => xn_draws) (fun _ _ => 0%nat) 30 (init_state xn xn_world)) = true) by (vm_compute; reflexivity).
  set (x := loading_other xn (fun _ => xn_draws) (fun _ _ => 0%nat) 30 (init_state xn xn_world)) in *. destruct x as [s|] eqn:X; [|discriminate E].
  subst x. apply (H xn (fun _ => xn_draws) (fun _ _ => 0%nat) xn_world 30%nat s xn_net_ok xn_fresh); [intros; apply xn_draws_valid| |exact X].
  unfold xn. cbn [n_origins n_start_assign n_total_assign]. eexists _, _, _, 0. split; [now left|]. split; [now left|]. split; [lia|]. reflexivity.
Qed.
Print Assumptions C251_reported_refuted.
Example C251_case :
  match loading_other xn (fun _ => xn_draws) (fun _ _ => 0%nat) 30 (init_state xn xn_world) with
  | Ok s => s_cur s = 6 /\ s_enroute s = [0; 0; 0; 0; 0; 0] /\ f_num (w_fac (s_w s)) = 0 | Err _ => False end.
Proof. vm_compute. repeat split. Qed.

(** * Random routing *)

(** Where a vehicle waits: at an origin node, or at the end of a link. *)
Definition origin_waits (N : net) (w : world) : list Z := concat (map (fun o => w_oq w (o_node o)) (n_origins N)).
Definition end_waits (N : net) (w : world) : list Z := concat (map (fun l => l_fin (w_link w l)) (n_links N)).

(** what one visit does *)
Lemma origin_visit N r n w v w' : random_origin_veh N r n w v = Ok w' -> exists b, In b (n_out N n) /\ pick_out (r v) (n_out N n) = Some b /\ w' = veh_next w v (Some b).
Proof.
  unfold random_origin_veh. destruct (pick_out (r v) (n_out N n)) as [b|] eqn:P; [|discriminate]. intros H. apply bind_ok in H as (u & _ & H). apply Ok_inj in H as <-.
  exists b. split; [eapply pick_out_In; eauto|]. auto.
Qed.
Lemma link_visit N r l w v w' : random_link_veh N r l w v = Ok w' -> exists x, x = pick_out (r v) (n_out N (n_to N l)) /\ w' = veh_next w v x /\
  (x = None <-> n_out N (n_to N l) = []).
Proof.
  unfold random_link_veh. intros H. destruct (n_out N (n_to N l)) as [|b0 bs] eqn:O.
  - apply Ok_inj in H as <-. exists None. split; [unfold pick_out; symmetry; now destruct (r v mod length (@nil Z))%nat|]. split; [reflexivity|]. tauto.
  - destruct (pick_out (r v) (b0 :: bs)) as [b|] eqn:P; [|discriminate]. apply bind_ok in H as (u & _ & H). apply Ok_inj in H as <-. exists (Some b). repeat split; discriminate.
Qed.
Definition others (vs : list Z) (w w' : world) : Prop := same_q w w' /\ forall v, ~ In v vs -> w_veh w' v = w_veh w v.
Lemma visit_others w v x : others [v] w (veh_next w v x).
Proof.
  split; [repeat split|]. intros u Hu. unfold veh_next. cbn [set_vehs w_veh]. apply upd_other. intros ->. apply Hu. now left.
Qed.
Lemma others_trans a b w1 w2 w3 : others a w1 w2 -> others b w2 w3 -> others (a ++ b) w1 w3.
Proof.
  intros [Q1 V1] [Q2 V2]. split; [eapply same_q_trans; eauto|]. intros v H. rewrite V2, V1; [reflexivity| |]; intros X; apply H; apply in_or_app; auto.
Qed.

(** a round over one queue: every member gets what its draw says *)
Lemma queue_round (f : world -> Z -> res world) (g : Z -> option Z) (P : Z -> Prop) : (forall w v w', f w v = Ok w' -> w' = veh_next w v (g v) /\ P v) ->
  forall vs w w', NoDup vs -> foldM f w vs = Ok w' -> others vs w w' /\ forall v, In v vs -> v_next (w_veh w' v) = g v /\ P v.
Proof.
  intros F. induction vs as [|v vs IH]; intros w w' ND H; cbn [foldM] in H.
  - apply Ok_inj in H as <-. split; [split; [apply same_q_refl|reflexivity]|]. intros v [].
  - apply NoDup_cons_iff in ND as [Nv ND]. apply bind_ok in H as (w1 & H1 & H). apply F in H1 as [-> Pv]. destruct (IH _ _ ND H) as (O & R). split.
    + change (v :: vs) with ([v] ++ vs). eapply others_trans; [apply visit_others|exact O].
    + intros u [<-|Hu]; [|now apply R]. split; [|exact Pv]. destruct O as [_ O]. rewrite (O v Nv). unfold veh_next. cbn [set_vehs w_veh]. rewrite upd_same. reflexivity.
Qed.
(** a round over many queues *)
Lemma queues_round {A} (q : world -> A -> list Z) (f : A -> world -> Z -> res world) (g : A -> Z -> option Z) (P : A -> Z -> Prop) :
  (forall a w v w', f a w v = Ok w' -> w' = veh_next w v (g a v) /\ P a v) -> (forall w w' a, same_q w w' -> q w' a = q w a) ->
  forall l w w', NoDup (concat (map (q w) l)) -> foldM (fun w a => foldM (f a) w (q w a)) w l = Ok w' ->
  others (concat (map (q w) l)) w w' /\ forall a v, In a l -> In v (q w a) -> v_next (w_veh w' v) = g a v /\ P a v.
Proof.
  intros F S. induction l as [|a l IH]; intros w w' ND H; cbn [foldM] in H.
  - apply Ok_inj in H as <-. split; [split; [apply same_q_refl|reflexivity]|]. intros a v [].
  - cbn [map concat] in *. apply bind_ok in H as (w1 & H1 & H). apply Proof_Link.NoDup_app_inv in ND as (N1 & N2 & Dj).
    destruct (queue_round (f a) (g a) (P a) (F a) _ _ _ N1 H1) as (O1 & R1).
    assert (E : map (q w1) l = map (q w) l) by (apply map_ext; intros x; apply S, O1). rewrite <- E in N2. destruct (IH _ _ N2 H) as (O2 & R2). rewrite E in O2.
    split; [eapply others_trans; eauto|]. intros b v Hb Hv. destruct Hb as [<-|Hb].
    + destruct (R1 v Hv) as [R1v Pv]. split; [|exact Pv]. destruct O2 as [_ O2]. rewrite O2; [exact R1v|]. intros X. exact (Dj v Hv X).
    + apply R2; [exact Hb|]. rewrite (S w w1 b (proj1 O1)). exact Hv.
Qed.

(** C252: after a round of random routing every vehicle waiting at an origin is sent to a
    link leaving that origin, every vehicle at the end of a link to a link leaving the
    node there, or nowhere exactly if no link leaves it; nobody else is touched. *)
Theorem C252_random_next_link : forall N r w w', NoDup (origin_waits N w ++ end_waits N w) -> random_routing N r w = Ok w' ->
  (forall o v, In o (n_origins N) -> In v (w_oq w (o_node o)) -> exists b, v_next (w_veh w' v) = Some b /\ In b (n_out N (o_node o))) /\
  (forall l v, In l (n_links N) -> In v (l_fin (w_link w l)) ->
     (n_out N (n_to N l) = [] -> v_next (w_veh w' v) = None) /\
     (n_out N (n_to N l) <> [] -> exists b, v_next (w_veh w' v) = Some b /\ In b (n_out N (n_to N l)))) /\
  (forall v, ~ In v (origin_waits N w ++ end_waits N w) -> w_veh w' v = w_veh w v) /\
  w_link w' = w_link w /\ w_oq w' = w_oq w /\ w_dq w' = w_dq w /\ w_fac w' = w_fac w.
Proof.
  intros N r w w' ND H. unfold random_routing in H. apply bind_ok in H as (w1 & H1 & H2). apply Proof_Link.NoDup_app_inv in ND as (N1 & N2 & Dj).
  destruct (queues_round (fun w o => w_oq w (o_node o)) (fun o => random_origin_veh N r (o_node o)) (fun o v => pick_out (r v) (n_out N (o_node o)))
    (fun o v => exists b, pick_out (r v) (n_out N (o_node o)) = Some b)) with (3 := N1) (4 := H1) as (O1 & R1).
  { intros o x v x' E. apply origin_visit in E as (b & _ & E & ->). rewrite E. eauto. }
  { intros x x' o (_ & -> & _). reflexivity. }
  assert (E : map (fun l => l_fin (w_link w1 l)) (n_links N) = map (fun l => l_fin (w_link w l)) (n_links N)) by (destruct O1 as [(-> & _) _]; reflexivity).
  unfold end_waits in N2, Dj. rewrite <- E in N2.
  destruct (queues_round (fun w l => l_fin (w_link w l)) (fun l => random_link_veh N r l) (fun l v => pick_out (r v) (n_out N (n_to N l))) (fun _ _ => True)) with (3 := N2) (4 := H2) as (O2 & R2).
  { intros l x v x' X. apply link_visit in X as (b & -> & -> & _). auto. }
  { intros x x' l (-> & _). reflexivity. }
  rewrite E in O2. split; [|split; [|split]].
  - intros o v Ho Hv. assert (Hn : ~ In v (concat (map (fun l => l_fin (w_link w l)) (n_links N)))).
    { intros X. apply (Dj v); [|exact X]. unfold origin_waits. apply in_concat. exists (w_oq w (o_node o)). split; [|exact Hv]. apply (in_map (fun o => w_oq w (o_node o))), Ho. }
    destruct O2 as [_ O2]. rewrite (O2 v Hn). destruct (R1 o v Ho Hv) as [-> (b & P)]. exists b. split; [exact P|eapply pick_out_In; eauto].
  - intros l v Hl Hv. assert (Hv1 : In v (l_fin (w_link w1 l))) by (destruct O1 as [(-> & _) _]; exact Hv). rewrite (proj1 (R2 l v Hl Hv1)). split.
    + intros ->. unfold pick_out. now destruct (r v mod length (@nil Z))%nat.
    + intros Ne. destruct (pick_out_some (r v) _ Ne) as (b & P). exists b. split; [exact P|eapply pick_out_In; eauto].
  - intros v Hv. destruct O1 as [_ O1], O2 as [_ O2]. rewrite O2, O1; [reflexivity| |]; intros X; apply Hv; apply in_or_app; [left|right]; exact X.
  - destruct O1 as [(A & B & C & D & E1) _], O2 as [(A' & B' & C' & D' & E') _]. repeat split; congruence.
Qed.
Print Assumptions C252_random_next_link.

(** C252: the round succeeds if every origin with a waiting vehicle has an outgoing link;
    and whatever outgoing link is named for each vehicle, some draw sends it there. *)
Theorem C252_round_completes : forall N r w, net_ok N -> (forall o, In o (n_origins N) -> w_oq w (o_node o) <> [] -> n_out N (o_node o) <> []) ->
  exists w', random_routing N r w = Ok w'.
Proof.
  intros N r w K H. unfold random_routing.
  assert (A : forall os w0, (forall o, In o os -> In o (n_origins N)) -> same_q w w0 -> exists w1, foldM (fun w o => foldM (random_origin_veh N r (o_node o)) w (w_oq w (o_node o))) w0 os = Ok w1 /\ same_q w w1).
  { induction os as [|o os IH]; intros w0 I Q; cbn [foldM]; [eauto|].
    assert (B : forall vs w0, same_q w w0 -> (vs <> [] -> n_out N (o_node o) <> []) -> exists w1, foldM (random_origin_veh N r (o_node o)) w0 vs = Ok w1 /\ same_q w w1).
    { induction vs as [|v vs IHv]; intros x Qx Ne; cbn [foldM]; [eauto|]. destruct (pick_out_some (r v) _ (Ne ltac:(discriminate))) as (b & P).
      assert (X : random_origin_veh N r (o_node o) x v = Ok (veh_next x v (Some b))) by (unfold random_origin_veh; rewrite P, (proj2 (memb_In _ _) (no_out _ K _ _ (pick_out_In _ _ _ P))); reflexivity).
      rewrite X. cbn [bind].
      apply IHv; [|intros _; apply Ne; discriminate]. eapply same_q_trans; [exact Qx|repeat split]. }
    destruct (B (w_oq w0 (o_node o)) w0 Q) as (w1 & -> & Q1).
    { destruct Q as (_ & -> & _). apply H, I. now left. }
    cbn [bind]. apply IH; [intros; apply I; now right|exact Q1]. }
  destruct (A (n_origins N) w (fun _ X => X) (same_q_refl w)) as (w1 & -> & _). cbn [bind]. clear A H. generalize (n_links N) at 1. intros ls. revert w1.
  induction ls as [|l ls IH]; intros w1; cbn [foldM]; [eauto|].
  assert (B : forall vs x, exists y, foldM (random_link_veh N r l) x vs = Ok y).
  { induction vs as [|v vs IHv]; intros x; cbn [foldM]; [eauto|]. 
    assert (X : exists y, random_link_veh N r l x v = Ok y).
    { unfold random_link_veh. destruct (n_out N (n_to N l)) as [|b0 bs] eqn:O; [eauto|].
      destruct (pick_out_some (r v) (b0 :: bs) ltac:(discriminate)) as (b & P). rewrite P. apply pick_out_In in P. rewrite <- O in P. rewrite (proj2 (memb_In _ _) (no_out _ K _ _ P)). cbn [guard bind]. eauto. }
    destruct X as (y & ->). cbn [bind]. apply IHv. }
  destruct (B (l_fin (w_link w1 l)) w1) as (y & ->). apply IH.
Qed.
Print Assumptions C252_round_completes.
Theorem C252_any_link_possible : forall N w (choice : Z -> Z), net_ok N ->
  (forall o v, In o (n_origins N) -> In v (w_oq w (o_node o)) -> In (choice v) (n_out N (o_node o))) ->
  NoDup (origin_waits N w ++ end_waits N w) ->
  exists r w', random_routing N r w = Ok w' /\ forall o v, In o (n_origins N) -> In v (w_oq w (o_node o)) -> v_next (w_veh w' v) = Some (choice v).
Proof.
  intros N w choice K C ND.
  set (pos := fix pos (x : Z) (l : list Z) : nat := match l with [] => 0%nat | y :: l' => if x =? y then 0%nat else S (pos x l') end).
  assert (PP : forall x l, In x l -> nth_error l (pos x l) = Some x).
  { intros x. induction l as [|y l IH]; intros Hx; [destruct Hx|]. cbn [pos]. destruct (Z.eqb_spec x y) as [->|Ne]; [reflexivity|]. destruct Hx as [->|Hx]; [congruence|]. now apply IH. }
  set (r := fun v => match find (fun o => memb v (w_oq w (o_node o))) (n_origins N) with Some o => pos (choice v) (n_out N (o_node o)) | None => 0%nat end).
  destruct (C252_round_completes N r w K) as (w' & E).
  { intros o Ho Ne X. destruct (w_oq w (o_node o)) as [|v q] eqn:Q; [congruence|]. specialize (C o v Ho). rewrite Q, X in C. destruct (C (or_introl eq_refl)). }
  exists r, w'. split; [exact E|]. intros o v Ho Hv.
  unfold random_routing in E. apply bind_ok in E as (w1 & H1 & H2). pose proof ND as ND'. apply Proof_Link.NoDup_app_inv in ND as (N1 & N2 & Dj).
  destruct (queues_round (fun w o => w_oq w (o_node o)) (fun o => random_origin_veh N r (o_node o)) (fun o v => pick_out (r v) (n_out N (o_node o)))
    (fun o v => True)) with (3 := N1) (4 := H1) as (O1 & R1).
  { intros o' x u x' X. apply origin_visit in X as (b & _ & -> & ->). auto. }
  { intros x x' o' (_ & -> & _). reflexivity. }
  assert (E : map (fun l => l_fin (w_link w1 l)) (n_links N) = map (fun l => l_fin (w_link w l)) (n_links N)) by (destruct O1 as [(-> & _) _]; reflexivity).
  unfold end_waits in N2, Dj. rewrite <- E in N2.
  destruct (queues_round (fun w l => l_fin (w_link w l)) (fun l => random_link_veh N r l) (fun l v => pick_out (r v) (n_out N (n_to N l))) (fun _ _ => True)) with (3 := N2) (4 := H2) as (O2 & _).
  { intros l x u x' X. apply link_visit in X as (b & -> & -> & _). auto. }
  { intros x x' l (-> & _). reflexivity. }
  assert (Hn : ~ In v (concat (map (fun l => l_fin (w_link w1 l)) (n_links N)))).
  { rewrite E. intros X. apply (Dj v); [|exact X]. unfold origin_waits. apply in_concat. exists (w_oq w (o_node o)). split; [|exact Hv]. apply (in_map (fun o => w_oq w (o_node o))), Ho. }
  destruct O2 as [_ O2]. rewrite (O2 v Hn), (proj1 (R1 o v Ho Hv)).
  assert (Fr : exists o', r v = pos (choice v) (n_out N (o_node o')) /\ o_node o' = o_node o).
  { unfold r. destruct (find _ (n_origins N)) as [o'|] eqn:Fd.
    - exists o'. split; [reflexivity|]. apply find_some in Fd as [Ho' Hm]. apply memb_In in Hm. pose proof (C o' v Ho' Hm) as C1. pose proof (C o v Ho Hv) as C2. exact (no_from _ K _ _ _ C1 C2).
    - exfalso. apply (find_none _ _ Fd o) in Ho. rewrite (proj2 (memb_In _ _) Hv) in Ho. discriminate Ho. }
  destruct Fr as (o' & -> & ->). unfold pick_out. pose proof (PP (choice v) _ (C o v Ho Hv)) as P. rewrite Nat.mod_small; [exact P|]. apply nth_error_Some. congruence.
Qed.
Print Assumptions C252_any_link_possible.
(** C252: a vehicle at an origin without outgoing link is undefined behaviour. *)
Theorem C252_closed_origin : forall N r w o os v vs, n_origins N = o :: os -> w_oq w (o_node o) = v :: vs -> n_out N (o_node o) = [] -> random_routing N r w = Err EUB.
Proof.
  intros N r w o os v vs E Q X. unfold random_routing. rewrite E. cbn [foldM]. rewrite Q. cbn [foldM]. 
  assert (Y : random_origin_veh N r (o_node o) w v = Err EUB) by (unfold random_origin_veh; rewrite X; unfold pick_out; now destruct (r v mod length (@nil Z))%nat).
  rewrite Y. reflexivity.
Qed.
Print Assumptions C252_closed_origin.

(** Three vehicles: two at the first origin, one at the end of the link behind it. *)
Definition rn_world : world := set_link (set_oq xn_world 1 [1; 2]) 10 (set_fin (w_link xn_world 10) [3]).
Example C252_case : NoDup (origin_waits xn rn_world ++ end_waits xn rn_world) /\ length (origin_waits xn rn_world ++ end_waits xn rn_world) = 3%nat /\
  match random_routing xn (fun v => Z.to_nat v) rn_world with
  | Ok w => map (fun v => v_next (w_veh w v)) [1; 2; 3] = [Some 10; Some 10; Some 25] | Err _ => False end.
Proof. split; [vm_compute; repeat constructor; cbn; intuition discriminate|]. split; vm_compute; reflexivity. Qed.
