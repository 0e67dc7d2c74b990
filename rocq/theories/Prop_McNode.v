(** Theorems about the nodes of two-class networks: C92-C96. *)
From Verif Require Import Base Base_lemmas Model_Num Proof_Num Spec_Path Model_CC Spec_CC Model_Path Model_Link Spec_Link Spec_Node Model_World Model_Node
  Model_McLink Spec_McLink Model_McNode Spec_McNode Proof_McNode Proof_McNode2 Proof_McNode3 Proof_McNode4 Proof_McNode5 Prop_McLink.
Local Open Scope Z_scope.

(** * C92 *)
(** A junction update moves vehicles first come first served per movement and changes
    nothing else about links and queues; the plans of all vehicles stay as they were,
    and exactly the vehicles that passed are on a new link: the one they headed for. *)
Theorem C92_junction_passage : forall fs pcu ins outs shuf t w w',
  (0 < fs)%Q -> around_ok ins outs -> (forall b, shuffle (shuf b)) ->
  mjunction_evolve fs pcu ins outs shuf t w = Ok w' ->
  exists pass, mpassage ins outs w w' pass /\ same_plans w w' /\
    (forall a b v, In a ins -> In b outs -> In v (pass a b) -> v_next (mw_veh w v) = Some b /\ v_cur (mw_veh w' v) = Some b) /\
    (forall v, (forall a b, In a ins -> In b outs -> ~ In v (pass a b)) -> v_cur (mw_veh w' v) = v_cur (mw_veh w v)).
Proof.
  intros fs pcu ins outs shuf t w w' Hf A Hs H. assert (P : forall b, Permutation (shuf b ins) ins) by (intros b; apply Hs).
  destruct (mjunction_ok _ _ _ _ _ _ _ _ Hf A P H) as (supply & w1 & _ & _ & M & R). eexists.
  split; [eapply junction_passage; eauto|]. split; [eapply junction_plans; eauto|]. split.
  - intros a b v Ha Hb Hv. split; [eapply pass_next; exact Hv|]. eapply (proj1 (junction_cur _ _ _ _ _ _ _ _ _ _ Hf A P M R v)); eauto.
  - intros v N. eapply (proj2 (junction_cur _ _ _ _ _ _ _ _ _ _ Hf A P M R v)). exact N.
Qed.
Print Assumptions C92_junction_passage.

(** Which vehicles passed is settled by the queues before and after. *)
Theorem C92_passage_determined : forall ins outs w w' p1 p2, mpassage ins outs w w' p1 -> mpassage ins outs w w' p2 ->
  forall a b, In a ins -> In b outs -> p1 a b = p2 a b.
Proof. exact passage_unique. Qed.
Print Assumptions C92_passage_determined.

(** The update never fails where everybody heads for a link out of the junction. *)
Theorem C92_junction_total : forall fs pcu ins outs shuf t w, mjunction_ready fs pcu ins outs shuf t w ->
  exists w', mjunction_evolve fs pcu ins outs shuf t w = Ok w' /\ mtimely (t + 1) (mw_cc w').
Proof. exact junction_total. Qed.
Print Assumptions C92_junction_total.
(** A vehicle that heads elsewhere stops the run. *)
Theorem C92_junction_lost_vehicle : forall fs pcu ins outs shuf t w a v, In a ins -> In v (ml_fin (mw_link w a)) ->
  (forall b, In b outs -> v_next (mw_veh w v) <> Some b) -> mjunction_evolve fs pcu ins outs shuf t w = Err EThrow.
Proof.
  intros fs pcu ins outs shuf t w a v Ha Hv N. unfold mjunction_evolve. destruct (mright_node w ins outs) eqn:E; [|reflexivity]. exfalso.
  unfold mright_node in E. rewrite forallb_forall in E. specialize (E a Ha). rewrite forallb_forall in E. specialize (E v Hv).
  apply existsb_exists in E as (b & Hb & G). apply mgoes_next in G. exact (N b Hb G).
Qed.
Print Assumptions C92_junction_lost_vehicle.

(** * C93 *)
(** Each movement gets its share of the room on the out link, in proportion to the
    equivalents waiting for it, rounded up to whole vehicles: it stops at the first
    vehicle that fills the share. *)
Theorem C93_junction_share : forall fs pcu ins outs shuf t w w' pass a b s,
  (0 < fs)%Q -> (0 < pcu)%Q -> around_ok ins outs -> (forall b, shuffle (shuf b)) ->
  mjunction_evolve fs pcu ins outs shuf t w = Ok w' -> mpassage ins outs w w' pass ->
  In a ins -> In b outs -> mlink_supply (mw_link w b) = Ok s -> (0 < waiting_pce pcu w a b)%Q ->
  (fair_share pcu ins w (s * fs) a b <= pce pcu (mw_cls w) (pass a b))%Q /\
  (forall p v, pass a b = p ++ [v] -> (pce pcu (mw_cls w) p < fair_share pcu ins w (s * fs) a b)%Q).
Proof.
  intros fs pcu ins outs shuf t w w' pass a b s Hf Hp A Hs H PP Ha Hb Es HD. assert (P : forall b, Permutation (shuf b ins) ins) by (intros b'; apply Hs).
  destruct (mjunction_ok _ _ _ _ _ _ _ _ Hf A P H) as (supply & w1 & Hsup & _ & M & R).
  rewrite (Hsup b Hb) in Es. apply Ok_inj in Es. subst s.
  rewrite (passage_unique _ _ _ _ _ _ PP (junction_passage _ _ _ _ _ _ _ _ _ _ Hf A P M R) a b Ha Hb). now apply pass_share.
Qed.
Print Assumptions C93_junction_share.
(** Everybody passes when the room is enough, nobody when there is none. *)
Theorem C93_junction_extremes : forall fs pcu ins outs shuf t w w' pass b s,
  (0 < fs)%Q -> (0 < pcu)%Q -> around_ok ins outs -> (forall b, shuffle (shuf b)) ->
  mjunction_evolve fs pcu ins outs shuf t w = Ok w' -> mpassage ins outs w w' pass ->
  In b outs -> mlink_supply (mw_link w b) = Ok s ->
  ((sumQ (map (fun a => waiting_pce pcu w a b) ins) <= s * fs)%Q -> forall a, In a ins -> pass a b = mline w b (ml_fin (mw_link w a))) /\
  ((s <= 0)%Q -> forall a, In a ins -> pass a b = []).
Proof.
  intros fs pcu ins outs shuf t w w' pass b s Hf Hp A Hs H PP Hb Es. assert (P : forall b, Permutation (shuf b ins) ins) by (intros b'; apply Hs).
  destruct (mjunction_ok _ _ _ _ _ _ _ _ Hf A P H) as (supply & w1 & Hsup & _ & M & R).
  rewrite (Hsup b Hb) in Es. apply Ok_inj in Es. subst s.
  assert (U : forall a, In a ins -> pass a b = _) by (intros a Ha; exact (passage_unique _ _ _ _ _ _ PP (junction_passage _ _ _ _ _ _ _ _ _ _ Hf A P M R) a b Ha Hb)).
  split; intros L a Ha; rewrite (U a Ha); [now apply pass_all|now apply pass_none].
Qed.
Print Assumptions C93_junction_extremes.
(** The room may be exceeded, but by less than one vehicle per link into the junction. *)
Theorem C93_junction_excess : forall fs pcu ins outs shuf t w w' pass b s,
  (0 < fs)%Q -> (0 < pcu)%Q -> around_ok ins outs -> (forall b, shuffle (shuf b)) ->
  mjunction_evolve fs pcu ins outs shuf t w = Ok w' -> mpassage ins outs w w' pass ->
  In b outs -> mlink_supply (mw_link w b) = Ok s -> (0 <= s)%Q ->
  (sumQ (map (fun a => pce pcu (mw_cls w) (pass a b)) ins) <= s * fs + inject_Z (Zlen ins) * Qmax 1 pcu)%Q.
Proof.
  intros fs pcu ins outs shuf t w w' pass b s Hf Hp A Hs H PP Hb Es S0. assert (P : forall b, Permutation (shuf b ins) ins) by (intros b'; apply Hs).
  destruct (mjunction_ok _ _ _ _ _ _ _ _ Hf A P H) as (supply & w1 & Hsup & _ & M & R).
  rewrite (Hsup b Hb) in Es. apply Ok_inj in Es. subst s.
  pose proof (pass_total fs pcu ins shuf w supply Hf P Hp b S0) as X.
  match type of X with (?l <= _)%Q => match goal with |- (?l' <= _)%Q => assert (E : l' = l); [|rewrite E; exact X] end end.
  f_equal. apply map_ext_in. intros a Ha. f_equal. exact (passage_unique _ _ _ _ _ _ PP (junction_passage _ _ _ _ _ _ _ _ _ _ Hf A P M R) a b Ha Hb).
Qed.
Print Assumptions C93_junction_excess.

(** * C94 *)
(** The curves of each class count what crossed the junction. *)
Theorem C94_junction_curves : forall fs pcu ins outs shuf t w w',
  (0 < fs)%Q -> around_ok ins outs -> (forall b, shuffle (shuf b)) ->
  mjunction_evolve fs pcu ins outs shuf t w = Ok w' ->
  (forall k b new, In b outs -> ml_in (mw_link w' b) = ml_in (mw_link w b) ++ new ->
     counts (t + 1) (class_count (mw_cls w) k new / fs) (mk_Nin (mw_cc w) k b) (mk_Nin (mw_cc w') k b)) /\
  (forall k l, ~ In l outs -> mk_Nin (mw_cc w') k l = mk_Nin (mw_cc w) k l) /\
  (forall k a gone, In a ins -> Permutation (ml_fin (mw_link w a)) (gone ++ ml_fin (mw_link w' a)) ->
     counts (t + 1) (class_count (mw_cls w) k gone / fs) (mk_Nout (mw_cc w) k a) (mk_Nout (mw_cc w') k a)) /\
  (forall k l, ~ In l ins -> mk_Nout (mw_cc w') k l = mk_Nout (mw_cc w) k l).
Proof.
  intros fs pcu ins outs shuf t w w' Hf A Hs H. assert (P : forall b, Permutation (shuf b ins) ins) by (intros b'; apply Hs).
  destruct (mjunction_ok _ _ _ _ _ _ _ _ Hf A P H) as (supply & w1 & Hsup & _ & M & R). eapply junction_curves; eauto.
Qed.
Print Assumptions C94_junction_curves.
(** The counts by path and departure interval of each class grow by the vehicles of the
    class on that path that entered. *)
Theorem C94_junction_path_counts : forall fs pcu ins outs shuf t w w' k l tr,
  (0 < fs)%Q -> around_ok ins outs -> (forall b, shuffle (shuf b)) ->
  mjunction_evolve fs pcu ins outs shuf t w = Ok w' -> mk_Tin (mw_cc w) k l = Some tr ->
  exists tr', mk_Tin (mw_cc w') k l = Some tr' /\ forall p d new, ml_in (mw_link w' l) = ml_in (mw_link w l) ++ new ->
    (tree_total tr' p d == tree_total tr p d + inject_Z (Zlen (on_path w p d (of_class (mw_cls w) k new))) / fs)%Q /\
    (on_path w p d (of_class (mw_cls w) k new) <> [] -> exists c, tree_find tr' (p, d) = Some c /\ ends_at (t + 1) c).
Proof.
  intros fs pcu ins outs shuf t w w' k l tr Hf A Hs H E. assert (P : forall b, Permutation (shuf b ins) ins) by (intros b'; apply Hs).
  destruct (mjunction_ok _ _ _ _ _ _ _ _ Hf A P H) as (supply & w1 & Hsup & _ & M & R).
  assert (X : forall p d, _) by (intros p d; exact (junction_trees _ _ _ _ _ _ _ _ _ _ Hf A M R k l p d (ex_intro _ tr E))).
  destruct (X 0 0) as (tr0 & tr' & E1 & E2 & _). exists tr'. split; [exact E2|]. intros p d new En. destruct (X p d) as (tr1 & tr1' & F1 & F2 & F3).
  assert (tr1 = tr) by congruence. assert (tr1' = tr') by congruence. subst. now apply F3.
Qed.
Print Assumptions C94_junction_path_counts.
(** An origin node counts what it sends into each link, by class. *)
Theorem C94_origin_curves : forall fs outs r t n w w',
  (0 < fs)%Q -> (forall b, unit_draw (r b)) -> NoDup outs -> msupplies_ok w outs ->
  morigin_evolve fs outs r t n w = Ok w' ->
  (forall k b new, In b outs -> ml_in (mw_link w' b) = ml_in (mw_link w b) ++ new ->
     counts (t + 1) (class_count (mw_cls w) k new / fs) (mk_Nin (mw_cc w) k b) (mk_Nin (mw_cc w') k b)) /\
  (forall k l, ~ In l outs -> mk_Nin (mw_cc w') k l = mk_Nin (mw_cc w) k l) /\
  mk_Nout (mw_cc w') = mk_Nout (mw_cc w).
Proof.
  intros fs outs r t n w w' Hf Hr NO HS H. destruct (morigin_effect _ _ _ _ _ _ _ Hf Hr NO HS H) as (send & [_ _ _ En _ _] & _ & _ & _ & _ & N1 & _ & C & O & _).
  split; [|split; [exact O|exact N1]]. intros k b new Hb E. rewrite (En b Hb) in E. cbn in E. apply app_inv_head in E. subst new. now apply C.
Qed.
Print Assumptions C94_origin_curves.
(** A destination node counts what it takes from each link, by class. *)
Theorem C94_destination_curves : forall fs ins t n w w', (0 < fs)%Q -> NoDup ins -> mdest_evolve fs ins t n w = Ok w' ->
  (forall k a, In a ins -> counts (t + 1) (class_count (mw_cls w) k (ml_fin (mw_link w a)) / fs) (mk_Nout (mw_cc w) k a) (mk_Nout (mw_cc w') k a)) /\
  (forall k l, ~ In l ins -> mk_Nout (mw_cc w') k l = mk_Nout (mw_cc w) k l) /\
  mk_Nin (mw_cc w') = mk_Nin (mw_cc w) /\ mk_Tin (mw_cc w') = mk_Tin (mw_cc w).
Proof. intros fs ins t n w w' Hf ND H. apply (mdest_ok fs t n Hf) in H as []; auto. Qed.
Print Assumptions C94_destination_curves.

(** * C95 *)
(** An origin node sends each link the head of the line waiting for it, as many
    vehicles as it has room for, rounded up or down; cars and trucks count alike. *)
Theorem C95_origin_sends : forall fs outs r t n w w',
  (0 < fs)%Q -> (forall b, unit_draw (r b)) -> NoDup outs -> msupplies_ok w outs ->
  morigin_evolve fs outs r t n w = Ok w' ->
  exists send, morigin_sends outs n w w' send /\ same_plans w w' /\
    (forall b v, In b outs -> In v (send b) -> v_cur (mw_veh w' v) = Some b) /\
    (forall v, (forall b, In b outs -> ~ In v (send b)) -> v_cur (mw_veh w' v) = v_cur (mw_veh w v)) /\
    (forall b s, In b outs -> mlink_supply (mw_link w b) = Ok s ->
      (inject_Z (Zlen (send b)) < s * fs + 1)%Q /\
      ((inject_Z (Zlen (mline w b (mw_oq w n))) <= s * fs)%Q -> send b = mline w b (mw_oq w n)) /\
      ((s * fs < inject_Z (Zlen (mline w b (mw_oq w n))))%Q -> (s * fs < inject_Z (Zlen (send b)) + 1)%Q)).
Proof.
  intros fs outs r t n w w' Hf Hr NO HS H. destruct (morigin_effect _ _ _ _ _ _ _ Hf Hr NO HS H) as (send & M & PL & CU & _ & V & _).
  exists send. split; [exact M|]. split; [exact PL|]. split; [|split; [|exact V]].
  - intros b v Hb Hv. rewrite CU. assert (X : memb v (concat (map send outs)) = true).
    { apply memb_In, in_concat. exists (send b). split; [now apply in_map|exact Hv]. }
    rewrite X. destruct M as [F _ _ _ _ _]. specialize (F b Hb). assert (I : In v (mline w b (mw_oq w n))) by (rewrite F; apply in_or_app; now left).
    apply filter_In in I as [_ I]. now apply mgoes_next.
  - intros v N. rewrite CU. assert (X : memb v (concat (map send outs)) = false); [|now rewrite X].
    apply memb_false. intros I. apply in_concat in I as (c & Hc & Hv). apply in_map_iff in Hc as (b & <- & Hb). exact (N b Hb Hv).
Qed.
Print Assumptions C95_origin_sends.
Theorem C95_origin_total : forall fs outs r t n w, morigin_ready fs outs r t n w ->
  exists w', morigin_evolve fs outs r t n w = Ok w' /\ mtimely (t + 1) (mw_cc w').
Proof. exact morigin_total. Qed.
Print Assumptions C95_origin_total.
(** A destination node takes everybody who reached the end of its links. *)
Theorem C95_destination_takes : forall fs ins t n w w', (0 < fs)%Q -> NoDup ins -> mdest_evolve fs ins t n w = Ok w' ->
  mw_dq w' n = mw_dq w n ++ concat (map (fun a => ml_fin (mw_link w a)) ins) /\ (forall n', n' <> n -> mw_dq w' n' = mw_dq w n') /\
  (forall a, In a ins -> mw_link w' a = ml_set_fin (mw_link w a) []) /\ (forall l, ~ In l ins -> mw_link w' l = mw_link w l) /\
  mw_oq w' = mw_oq w /\ same_plans w w' /\
  (forall a v, In a ins -> In v (ml_fin (mw_link w a)) -> v_next (mw_veh w v) = None /\ v_cur (mw_veh w' v) = None).
Proof.
  intros fs ins t n w w' Hf ND H. apply (mdest_ok fs t n Hf) in H as []; auto. repeat (split; [assumption|]).
  intros a v Ha Hv. split; [now apply (md_next a)|]. rewrite md_cur.
  assert (X : memb v (concat (map (fun a => ml_fin (mw_link w a)) ins)) = true); [|now rewrite X].
  apply memb_In, in_concat. exists (ml_fin (mw_link w a)). split; [apply in_map_iff; eauto|exact Hv].
Qed.
Print Assumptions C95_destination_takes.
Theorem C95_destination_total : forall fs ins t n w, mtimely (t + 1) (mw_cc w) -> (forall a, In a ins -> is_point_queue (mw_link w a)) -> NoDup ins ->
  (forall a v, In a ins -> In v (ml_fin (mw_link w a)) -> v_next (mw_veh w v) = None) ->
  exists w', mdest_evolve fs ins t n w = Ok w' /\ mtimely (t + 1) (mw_cc w').
Proof. exact mdest_total. Qed.
Print Assumptions C95_destination_total.

(** * C96 *)
(** A vehicle that passes a junction has the length of the link it left added to its
    miles, a mile being 1600 m, whatever the type of the link; the others keep theirs. *)
Theorem C96_junction_miles : forall fs pcu ins outs shuf t w w' pass,
  (0 < fs)%Q -> around_ok ins outs -> (forall b, shuffle (shuf b)) -> NoDup (concat (map (fun a => ml_fin (mw_link w a)) ins)) ->
  mjunction_evolve fs pcu ins outs shuf t w = Ok w' -> mpassage ins outs w w' pass ->
  (forall a b v, In a ins -> In b outs -> In v (pass a b) ->
     (v_miles (mw_veh w' v) == v_miles (mw_veh w v) + mp_len (ml_par (mw_link w a)) / 1600)%Q) /\
  (forall v, (forall a b, In a ins -> In b outs -> ~ In v (pass a b)) -> (v_miles (mw_veh w' v) == v_miles (mw_veh w v))%Q).
Proof.
  intros fs pcu ins outs shuf t w w' pass Hf A Hs ND H PP. assert (P : forall b, Permutation (shuf b ins) ins) by (intros b'; apply Hs).
  destruct (mjunction_ok _ _ _ _ _ _ _ _ Hf A P H) as (supply & w1 & Hsup & _ & M & R).
  assert (U : forall a b, In a ins -> In b outs -> pass a b = _) by (intros a b Ha Hb; exact (passage_unique _ _ _ _ _ _ PP (junction_passage _ _ _ _ _ _ _ _ _ _ Hf A P M R) a b Ha Hb)).
  split.
  - intros a b v Ha Hb Hv. rewrite (U a b Ha Hb) in Hv. eapply junction_miles; eauto.
  - intros v N. eapply junction_miles_stay; eauto. intros a b Ha Hb. rewrite <- (U a b Ha Hb). now apply N.
Qed.
Print Assumptions C96_junction_miles.
(** The other nodes leave the miles alone, so the link before a destination never counts. *)
Theorem C96_origin_destination_miles : forall fs r t n w w' ls, (0 < fs)%Q -> (forall b, unit_draw (r b)) -> NoDup ls ->
  (msupplies_ok w ls /\ morigin_evolve fs ls r t n w = Ok w') \/ mdest_evolve fs ls t n w = Ok w' ->
  forall v, v_miles (mw_veh w' v) = v_miles (mw_veh w v).
Proof.
  intros fs r t n w w' ls Hf Hr ND [[HS H]|H].
  - destruct (morigin_effect _ _ _ _ _ _ _ Hf Hr ND HS H) as (send & _ & _ & _ & I & _). exact I.
  - apply (mdest_ok fs t n Hf) in H as []; auto.
Qed.
Print Assumptions C96_origin_destination_miles.

(** * Concrete cases *)
(** Junction between links 1, 2 and links 3, 4: vehicles 1-4 wait at the end of 1 and
    5, 6 at the end of 2; 3 and 6 head for 4, the others for 3.  Odd vehicles are
    trucks worth two cars.  Link 3 has room for one car per interval. *)
Definition jex_room : mparam :=
  {| mp_kind := MKPq; mp_lanes := 1; mp_len := 600; mp_hold_c := 1 # 8; mp_hold_t := 1 # 16; mp_flow_c := 1 # 10; mp_flow_t := 1 # 4;
     mp_ffs_c := 15; mp_ffs_t := 10; mp_ut := 10; mp_pcu := 2; mp_fs := 1 |}.
Definition jex_veh (v : Z) : veh :=
  {| v_org := 0; v_dst := 9; v_adapt := false; v_start := 0; v_fin := 0; v_assign := 0; v_cur := Some (if v <=? 4 then 1 else 2);
     v_next := Some (if (v mod 3 =? 0) then 4 else 3); v_path := None; v_miles := 0 |}.
Definition jex_link (l : Z) : mlink :=
  if l =? 1 then ml_set_fin (mex_link MKPq) [1; 2; 3; 4] else if l =? 2 then ml_set_fin (mex_link MKCtm) [5; 6]
  else if l =? 3 then mex_new jex_room else mex_link MKCtm.
Definition jex_w : mworld :=
  {| mw_veh := jex_veh; mw_cls := Z.odd; mw_lab := fun _ => -1; mw_link := jex_link; mw_oq := fun _ => []; mw_dq := fun _ => [];
     mw_cc := {| mk_Nin := fun _ _ => Some [(0, 0)%Q]; mk_Nout := fun _ _ => Some [(0, 0)%Q]; mk_Tin := fun _ _ => Some [] |};
     mw_fac := {| f_live := [1; 2; 3; 4; 5; 6]; f_num := 6; f_enroute := 6; f_finished := 0; f_tt := 0; f_done := [] |};
     mw_cf := fun _ => {| cf_num := 3; cf_enroute := 3; cf_finished := 0; cf_tt := 0 |}; mw_trk := fun _ => None; mw_pt := [] |}.
Definition jex_run : res mworld := mjunction_evolve 1 2 [1; 2] [3; 4] (fun _ l => rev l) 0 jex_w.
Definition jex_w' : mworld := match jex_run with Ok w => w | Err _ => jex_w end.

Lemma jex_timely : mtimely 1 (mw_cc jex_w).
Proof.
  split; [|split].
  - intros k l c E. injection E as <-. intros x Ex. injection Ex as <-. vm_compute. discriminate.
  - intros k l c E. injection E as <-. intros x Ex. injection Ex as <-. vm_compute. discriminate.
  - intros k l tr E. injection E as <-. constructor.
Qed.
Lemma jex_around : around_ok [1; 2] [3; 4].
Proof. split; [|split]; [repeat constructor; cbn; intuition lia|repeat constructor; cbn; intuition lia|]. cbn. intuition lia. Qed.
Lemma jex_shuf : forall b : Z, shuffle ((fun _ l => rev l) b).
Proof. intros b l. symmetry. apply Permutation_rev. Qed.
Lemma jex_ready : mjunction_ready 1 2 [1; 2] [3; 4] (fun _ l => rev l) 0 jex_w.
Proof.
  constructor; try reflexivity; try lia.
  - exact jex_around.
  - exact jex_shuf.
  - exact jex_timely.
  - intros b [<-|[<-|[]]]; eexists; (split; [vm_compute; reflexivity|vm_compute; discriminate]).
  - intros a [<-|[<-|[]]] v Hv; vm_compute in Hv; decompose [or] Hv; try contradiction; subst v; vm_compute; eauto.
Qed.
Lemma jex_ok : mjunction_evolve 1 2 [1; 2] [3; 4] (fun _ l => rev l) 0 jex_w = Ok jex_w'.
Proof. destruct (junction_total _ _ _ _ _ _ _ jex_ready) as (w' & E & _). unfold jex_w', jex_run. rewrite E. reflexivity. Qed.
Example C92_case : mjunction_ready 1 2 [1; 2] [3; 4] (fun _ l => rev l) 0 jex_w /\ mjunction_evolve 1 2 [1; 2] [3; 4] (fun _ l => rev l) 0 jex_w = Ok jex_w' /\
  ml_fin (mw_link jex_w' 1) = [2; 4] /\ ml_fin (mw_link jex_w' 2) = [] /\ ml_in (mw_link jex_w' 3) = [5; 1] /\ ml_in (mw_link jex_w' 4) = [6; 3] /\
  v_cur (mw_veh jex_w' 1) = Some 3 /\ v_cur (mw_veh jex_w' 2) = Some 1.
Proof. split; [exact jex_ready|]. split; [exact jex_ok|]. repeat split; vm_compute; reflexivity. Qed.
(** link 3 has room for one equivalent: the shares are 4/6 and 2/6, and one truck of
    each in link passes, four equivalents in all *)
Example C93_case : mlink_supply (mw_link jex_w 3) = Ok (mpq_supply jex_room) /\ (mpq_supply jex_room == 1)%Q /\
  (waiting_pce 2 jex_w 1 3 == 4)%Q /\ (waiting_pce 2 jex_w 2 3 == 2)%Q /\
  (fair_share 2 [1; 2]%Z jex_w (mpq_supply jex_room * 1) 1 3 == 2 # 3)%Q /\ (fair_share 2 [1; 2]%Z jex_w (mpq_supply jex_room * 1) 2 3 == 1 # 3)%Q.
Proof. repeat split; vm_compute; reflexivity. Qed.
Theorem C93_within_supply_refuted : exists fs pcu ins outs shuf t w w' pass b s,
  mjunction_ready fs pcu ins outs shuf t w /\ mjunction_evolve fs pcu ins outs shuf t w = Ok w' /\ mpassage ins outs w w' pass /\
  In b outs /\ mlink_supply (mw_link w b) = Ok s /\ (s * fs < sumQ (map (fun a => pce pcu (mw_cls w) (pass a b)) ins))%Q.
Proof.
  destruct (C92_junction_passage 1 2 [1; 2] [3; 4] (fun _ l => rev l) 0 jex_w jex_w' ltac:(reflexivity) jex_around jex_shuf jex_ok) as (pass & PP & _).
  exists 1%Q, 2%Q, [1; 2], [3; 4], (fun _ l => rev l), 0, jex_w, jex_w', pass, 3, (mpq_supply jex_room).
  split; [exact jex_ready|]. split; [exact jex_ok|]. split; [exact PP|]. split; [now left|]. split; [reflexivity|].
  pose proof (mp_first _ _ _ _ _ PP 1 3 (or_introl eq_refl) (or_introl eq_refl)) as F1.
  pose proof (mp_first _ _ _ _ _ PP 2 3 (or_intror (or_introl eq_refl)) (or_introl eq_refl)) as F2.
  assert (E1 : pass 1 3 = [1]).
  { assert (L : mline jex_w 3 (ml_fin (mw_link jex_w 1)) = [1] ++ [2; 4]) by (vm_compute; reflexivity).
    assert (L' : mline jex_w 3 (ml_fin (mw_link jex_w' 1)) = [2; 4]) by (vm_compute; reflexivity). rewrite L, L' in F1. now apply app_inv_tail in F1. }
  assert (E2 : pass 2 3 = [5]).
  { assert (L : mline jex_w 3 (ml_fin (mw_link jex_w 2)) = [5] ++ []) by (vm_compute; reflexivity).
    assert (L' : mline jex_w 3 (ml_fin (mw_link jex_w' 2)) = []) by (vm_compute; reflexivity). rewrite L, L' in F2. now apply app_inv_tail in F2. }
  cbn [map]. rewrite E1, E2. vm_compute. reflexivity.
Qed.
Print Assumptions C93_within_supply_refuted.
Example C94_case : mk_Nin (mw_cc jex_w') true 3 = Some [(0, 0)%Q; (1, 2)%Q] /\ mk_Nin (mw_cc jex_w') false 3 = Some [(0, 0)%Q] /\
  mk_Nout (mw_cc jex_w') true 1 = Some [(0, 0)%Q; (1, 2)%Q] /\ mk_Nout (mw_cc jex_w') false 2 = Some [(0, 0)%Q; (1, 1)%Q] /\
  (exists tr, mk_Tin (mw_cc jex_w') true 3 = Some tr /\ (tree_total tr (-1) 0 == 2)%Q).
Proof. repeat split; try (vm_compute; reflexivity). eexists. split; [vm_compute; reflexivity|]. vm_compute. reflexivity. Qed.
(** Link 1 is a point queue, which stands for a connector, and its length counts. *)
Theorem C96_connectors_do_not_count_refuted : exists fs pcu ins outs shuf t w w' a v,
  mjunction_ready fs pcu ins outs shuf t w /\ NoDup (concat (map (fun a => ml_fin (mw_link w a)) ins)) /\
  mjunction_evolve fs pcu ins outs shuf t w = Ok w' /\ In a ins /\ is_point_queue (mw_link w a) /\
  In v (ml_fin (mw_link w a)) /\ ~ In v (ml_fin (mw_link w' a)) /\ (v_miles (mw_veh w v) < v_miles (mw_veh w' v))%Q.
Proof.
  exists 1%Q, 2%Q, [1; 2], [3; 4], (fun _ l => rev l), 0, jex_w, jex_w', 1, 1. split; [exact jex_ready|].
  split; [vm_compute; repeat constructor; cbn; intuition lia|]. split; [exact jex_ok|]. split; [now left|].
  split; [repeat eexists; vm_compute; reflexivity|]. split; [vm_compute; auto|].
  split; [|vm_compute; reflexivity]. intros I. assert (E : ml_fin (mw_link jex_w' 1) = [2; 4]) by (vm_compute; reflexivity). rewrite E in I. cbn in I. intuition lia.
Qed.
Print Assumptions C96_connectors_do_not_count_refuted.

(** Origin 7 with out links 1 (room 10) and 3 (room 1), destination 8 with in link 1. *)
Definition oex_w (k : mkind) : mworld :=
  {| mw_veh := jex_veh; mw_cls := Z.odd; mw_lab := fun _ => -1;
     mw_link := fun l => if l =? 3 then mex_new jex_room else mex_link k;
     mw_oq := fun n => if n =? 7 then [1; 2; 3; 4; 5; 6] else []; mw_dq := fun _ => [];
     mw_cc := mw_cc jex_w; mw_fac := mw_fac jex_w; mw_cf := mw_cf jex_w; mw_trk := fun _ => None; mw_pt := [] |}.
Lemma oex_ready : morigin_ready 1 [3; 4] (fun _ => 0%Q) 0 7 (oex_w MKPq).
Proof.
  constructor; try reflexivity; try lia.
  - repeat constructor; cbn; intuition lia.
  - intros b. split; vm_compute; discriminate.
  - exact jex_timely.
  - intros b [<-|[<-|[]]]; eexists; (split; [vm_compute; reflexivity|vm_compute; discriminate]).
  - intros b [<-|[<-|[]]]; repeat eexists; vm_compute; reflexivity.
Qed.
Example C95_case : morigin_ready 1 [3; 4] (fun _ => 0%Q) 0 7 (oex_w MKPq) /\
  exists w', morigin_evolve 1 [3; 4] (fun _ => 0%Q) 0 7 (oex_w MKPq) = Ok w' /\ mw_oq w' 7 = [2; 4; 5] /\ ml_in (mw_link w' 3) = [1] /\ ml_in (mw_link w' 4) = [3; 6].
Proof.
  split; [exact oex_ready|]. destruct (morigin_total _ _ _ _ _ _ oex_ready) as (w' & E & _). exists w'. split; [exact E|].
  assert (X : w' = match morigin_evolve 1 [3; 4] (fun _ => 0%Q) 0 7 (oex_w MKPq) with Ok w => w | Err _ => w' end) by now rewrite E.
  rewrite X. repeat split; vm_compute; reflexivity.
Qed.
(** A truck counts one at an origin: it takes two equivalents of room, the link has one. *)
Theorem C95_origin_within_room_refuted : exists fs pcu outs r t n w w' send b s, morigin_ready fs outs r t n w /\
  morigin_evolve fs outs r t n w = Ok w' /\ morigin_sends outs n w w' send /\ In b outs /\ mlink_supply (mw_link w b) = Ok s /\
  mp_pcu (ml_par (mw_link w b)) = pcu /\ (inject_Z (Zlen (send b)) <= s * fs)%Q /\ (s * fs < pce pcu (mw_cls w) (send b))%Q.
Proof.
  destruct (morigin_total _ _ _ _ _ _ oex_ready) as (w' & E & _).
  destruct (C95_origin_sends 1 [3; 4] (fun _ => 0%Q) 0 7 (oex_w MKPq) w') as (send & PP & _); try reflexivity; try apply oex_ready; auto.
  assert (X : w' = match morigin_evolve 1 [3; 4] (fun _ => 0%Q) 0 7 (oex_w MKPq) with Ok w => w | Err _ => w' end) by now rewrite E.
  assert (S3 : send 3 = [1]).
  { pose proof (ms_first _ _ _ _ _ PP 3 (or_introl eq_refl)) as F.
    assert (L : mline (oex_w MKPq) 3 (mw_oq (oex_w MKPq) 7) = [1] ++ [2; 4; 5]) by (vm_compute; reflexivity).
    assert (L' : mline (oex_w MKPq) 3 (mw_oq w' 7) = [2; 4; 5]) by (rewrite X; vm_compute; reflexivity).
    rewrite L, L' in F. now apply app_inv_tail in F. }
  exists 1%Q, 2%Q, [3; 4], (fun _ => 0%Q), 0, 7, (oex_w MKPq), w', send, 3, (mpq_supply jex_room).
  split; [exact oex_ready|]. split; [exact E|]. split; [exact PP|]. split; [now left|]. split; [reflexivity|]. split; [reflexivity|].
  rewrite S3. split; vm_compute; [discriminate|reflexivity].
Qed.
Print Assumptions C95_origin_within_room_refuted.
(** With a cell link out of the origin or into the destination the update is undefined
    behaviour, even with nobody waiting. *)
Theorem C95_any_connector_refuted :
  (exists fs outs r t n w, (0 < fs)%Q /\ NoDup outs /\ (forall b, unit_draw (r b)) /\ mtimely (t + 1) (mw_cc w) /\ msupplies_ok w outs /\
     mw_oq w n = [] /\ morigin_evolve fs outs r t n w = Err EUB) /\
  (exists fs ins t n w, (0 < fs)%Q /\ NoDup ins /\ mtimely (t + 1) (mw_cc w) /\ (forall a, In a ins -> ml_fin (mw_link w a) = []) /\
     mdest_evolve fs ins t n w = Err EUB).
Proof.
  split.
  - exists 1%Q, [4], (fun _ => 0%Q), 0, 5, (oex_w MKCtm). split; [reflexivity|]. split; [repeat constructor; cbn; tauto|].
    split; [intros b; split; vm_compute; discriminate|]. split; [exact jex_timely|].
    split; [intros b [<-|[]]; eexists; (split; [vm_compute; reflexivity|vm_compute; discriminate])|]. split; [reflexivity|]. vm_compute. reflexivity.
  - exists 1%Q, [4], 0, 8, (oex_w MKCtm). split; [reflexivity|]. split; [repeat constructor; cbn; tauto|]. split; [exact jex_timely|].
    split; [intros a [<-|[]]; vm_compute; reflexivity|]. vm_compute. reflexivity.
Qed.
Print Assumptions C95_any_connector_refuted.
(** More generally an origin only gets through with point queues behind it. *)
Theorem C95_origin_needs_point_queues : forall fs outs r t n w w', (0 < fs)%Q -> (forall b, unit_draw (r b)) -> NoDup outs ->
  morigin_evolve fs outs r t n w = Ok w' -> forall b, In b outs -> is_point_queue (mw_link w b).
Proof. exact morigin_connector. Qed.
Print Assumptions C95_origin_needs_point_queues.
(** Destination 8 with in links 1 and 2, a car and a truck at the end of each. *)
Definition dex_w : mworld :=
  {| mw_veh := fun v => set_next None (jex_veh v); mw_cls := Z.odd; mw_lab := fun _ => -1;
     mw_link := fun l => if l =? 1 then ml_set_fin (mex_link MKPq) [1; 2] else if l =? 2 then ml_set_fin (mex_link MKPq) [4; 3] else mex_link MKPq;
     mw_oq := fun _ => []; mw_dq := fun n => if n =? 8 then [6] else [];
     mw_cc := mw_cc jex_w; mw_fac := mw_fac jex_w; mw_cf := mw_cf jex_w; mw_trk := fun _ => None; mw_pt := [] |}.
Example C95_destination_case : mtimely (0 + 1) (mw_cc dex_w) /\ (forall a, In a [1; 2] -> is_point_queue (mw_link dex_w a)) /\
  (forall a v, In a [1; 2] -> In v (ml_fin (mw_link dex_w a)) -> v_next (mw_veh dex_w v) = None) /\
  exists w', mdest_evolve 1 [1; 2] 0 8 dex_w = Ok w' /\ mw_dq w' 8 = [6; 1; 2; 4; 3] /\ mk_Nout (mw_cc w') true 2 = Some [(0, 0)%Q; (1, 1)%Q].
Proof.
  assert (PQ : forall a, In a [1; 2] -> is_point_queue (mw_link dex_w a)) by (intros a [<-|[<-|[]]]; repeat eexists; vm_compute; reflexivity).
  split; [exact jex_timely|]. split; [exact PQ|]. split; [intros; reflexivity|].
  destruct (mdest_total 1 [1; 2] 0 8 dex_w) as (w' & E & _); [exact jex_timely|exact PQ|repeat constructor; cbn; intuition lia|intros; reflexivity|].
  exists w'. split; [exact E|]. assert (X : w' = match mdest_evolve 1 [1; 2] 0 8 dex_w with Ok w => w | Err _ => w' end) by now rewrite E.
  rewrite X. split; vm_compute; reflexivity.
Qed.
