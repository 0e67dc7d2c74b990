(** Tours through a loading. *)
From Verif Require Import Base Base_lemmas Model_Num Proof_Num Spec_Path Proof_Path Model_CC Spec_CC Proof_CC Model_Path Model_Link Spec_Link Spec_Node
  Proof_Link Proof_Link3 Proof_Link4 Proof_Link5 Model_World Model_Node Proof_Node Proof_Node2 Proof_Node3 Proof_Node4 Proof_Node5 Model_Sim Spec_Sim Proof_Sim1 Proof_Sim2 Proof_Sim3 Proof_Sim4
  Model_Deliver Spec_Deliver Proof_Deliver1.
Local Open Scope Z_scope.

Definition goal_of (sq : list (Z * Z)) : Z := snd (last sq (0, 0)).
Definition fac_of (d : dworld) : factory := w_fac (dw_w d).
Record tin (DN : dnet) (d : dworld) (v : Z) (tr : tour) : Prop := {
  ti_id : 1 <= v <= f_num (fac_of d);
  ti_src : exists o dem, In o (map o_node (n_origins (dn_net DN))) /\ In (tr_seq tr, dem) (dn_tours DN o);
  ti_len : (1 < length (tr_seq tr))%nat;
  ti_od : nth_error (tr_seq tr) (tr_at tr) = Some (v_org (w_veh (dw_w d) v), v_dst (w_veh (dw_w d) v));
  ti_before : forall i od, (i < tr_at tr)%nat -> nth_error (tr_seq tr) i = Some od -> snd od <> goal_of (tr_seq tr);
  ti_diff : forall i a b, (i < tr_at tr)%nat -> nth_error (tr_seq tr) i = Some a -> nth_error (tr_seq tr) (S i) = Some b -> snd a <> snd b;
  ti_arr : In v (arrived (dw_w d)) -> v_dst (w_veh (dw_w d) v) = goal_of (tr_seq tr);
  ti_places : places d v = firstn (tr_at tr + if memb v (arrived (dw_w d)) then 1 else 0) (route_of (tr_seq tr)) }.
Record dinv (DN : dnet) (d : dworld) : Prop := {
  dv_s : sinv (dn_net DN) (dw_w d);
  dv_t : forall v tr, dw_tour d v = Some tr -> tin DN d v tr;
  dv_plain : forall v, dw_tour d v = None -> places d v = if memb v (arrived (dw_w d)) then [v_dst (w_veh (dw_w d) v)] else [];
  dv_log : forall e, In e (dw_log d) -> 1 <= fst e <= f_num (fac_of d);
  dv_made : dw_made d = Zlen (deliveries d) }.

(** ** steps that leave the tours alone *)
Record tsame (d d' : dworld) : Prop := {
  ts_fac : fac_of d' = fac_of d; ts_log : dw_log d' = dw_log d; ts_made : dw_made d' = dw_made d;
  ts_stat : forall v, stat (w_veh (dw_w d') v) = stat (w_veh (dw_w d) v);
  ts_tour : forall v, match dw_tour d v, dw_tour d' v with
                      | Some a, Some b => tr_seq b = tr_seq a /\ tr_at b = tr_at a
                      | None, None => True | _, _ => False end }.
Lemma deliveries_same d d' : fac_of d' = fac_of d -> (forall v, 1 <= v <= f_num (fac_of d) -> (dw_tour d' v = None <-> dw_tour d v = None)) -> 0 <= f_num (fac_of d) ->
  deliveries d' = deliveries d.
Proof.
  unfold deliveries, fac_of. intros -> H N0. apply filter_ext_in. intros v Hv. unfold ids in Hv. apply in_map_iff in Hv as (i & <- & Hi). apply in_seq in Hi.
  specialize (H (Z.of_nat i) ltac:(lia)). destruct (dw_tour d' _), (dw_tour d _); auto; exfalso; destruct H as [A B]; [discriminate B|discriminate A]; reflexivity.
Qed.
Lemma tsame_tin DN d d' v a b : tsame d d' -> tr_seq b = tr_seq a -> tr_at b = tr_at a -> tin DN d v a -> tin DN d' v b.
Proof.
  intros [F L M S T] E1 E2 [H1 H2 H3 H4 H5 HD H6 H7]. unfold fac_of in *. specialize (S v). unfold stat in S.
  assert (EO : v_org (w_veh (dw_w d') v) = v_org (w_veh (dw_w d) v)) by congruence. assert (ED : v_dst (w_veh (dw_w d') v) = v_dst (w_veh (dw_w d) v)) by congruence.
  constructor; unfold fac_of, arrived, places, stops; rewrite ?F, ?L, ?E1, ?E2, ?EO, ?ED; auto.
Qed.
Lemma tsame_dinv DN d d' : tsame d d' -> sinv (dn_net DN) (dw_w d') -> dinv DN d -> dinv DN d'.
Proof.
  intros TS S [H1 H2 HP H3 H4]. pose proof TS as [F L M ST T]. constructor; auto.
  - intros v b Hb. specialize (T v). rewrite Hb in T. destruct (dw_tour d v) as [a|] eqn:Ea; [|contradiction]. destruct T. eapply tsame_tin; eauto.
  - intros v Hv. specialize (T v). rewrite Hv in T. destruct (dw_tour d v) as [a|] eqn:Ea; [contradiction|]. specialize (HP v Ea). specialize (ST v). unfold stat in ST.
    assert (ED : v_dst (w_veh (dw_w d') v) = v_dst (w_veh (dw_w d) v)) by congruence. unfold fac_of in F. unfold arrived, places, stops in *. rewrite L, F, ED. exact HP.
  - rewrite L, F. exact H3.
  - rewrite M, H4. f_equal. symmetry. apply deliveries_same; auto.
    + intros v _. specialize (T v). destruct (dw_tour d v), (dw_tour d' v); try contradiction; split; auto; discriminate.
    + apply H1.
Qed.
Lemma tsame_refl d : tsame d d.
Proof. constructor; auto. intros v. destruct (dw_tour d v); auto. Qed.
Lemma tsame_trans a b c : tsame a b -> tsame b c -> tsame a c.
Proof.
  intros [F L M S T] [F' L' M' S' T']. constructor; try congruence. intros v. specialize (T v). specialize (T' v).
  destruct (dw_tour a v), (dw_tour b v), (dw_tour c v); try contradiction; auto. destruct T, T'. split; congruence.
Qed.
Lemma tsame_w d w : w_fac w = w_fac (dw_w d) -> (forall v, stat (w_veh w v) = stat (w_veh (dw_w d) v)) -> tsame d (dset_w d w).
Proof. intros F S. constructor; auto. intros v. cbn [dset_w dw_tour]. destruct (dw_tour d v); auto. Qed.
Lemma set_wait_same f d v : tsame d (set_wait f d v).
Proof.
  unfold set_wait. destruct (dw_tour d v) as [tr|] eqn:E; [|apply tsame_refl]. constructor; auto. intros x. cbn [dset_tour dw_tour].
  destruct (Z.eq_dec x v) as [->|Ne]; [rewrite upd_same, E; auto|rewrite upd_other by exact Ne; destruct (dw_tour d x); auto].
Qed.
Lemma fold_wait_same f : forall vs d, tsame d (fold_left (set_wait f) vs d).
Proof. induction vs as [|v vs IH]; intros d; [apply tsame_refl|]. cbn [fold_left]. eapply tsame_trans; [apply set_wait_same|apply IH]. Qed.
Lemma dlink_step_same DN D d l d' : dlink_step DN D d l = Ok d' -> tsame d d'.
Proof.
  unfold dlink_step. intros H. apply bind_ok in H as (d1 & H1 & H). apply bind_ok in H as (y & Hy & H). apply Ok_inj in H as <-.
  eapply tsame_trans; [|apply tsame_w; reflexivity]. unfold delay_clear in H1. cbv zeta in H1. destruct (l_body _).
  2:{ apply Ok_inj in H1 as <-. eapply tsame_trans; [|apply tsame_w; reflexivity]. destruct (from_origin _ _).
      - eapply tsame_trans; apply fold_wait_same.
      - apply fold_wait_same. }
  all: apply bind_ok in H1 as (z & _ & H1); apply Ok_inj in H1 as <-; apply tsame_w; reflexivity.
Qed.

(** ** release *)
Lemma ids_S n : 0 <= n -> ids (n + 1) = ids n ++ [n + 1].
Proof.
  intros H. unfold ids. replace (Z.to_nat (n + 1)) with (S (Z.to_nat n)) by lia. rewrite seq_S, map_app. cbn [map]. do 2 f_equal. lia.
Qed.
Lemma places_none DN d v : dinv DN d -> f_num (fac_of d) < v -> places d v = [].
Proof.
  intros I Hv. unfold places, stops. rewrite filter_all_false; [reflexivity|]. intros e He. apply Z.eqb_neq. pose proof (dv_log _ _ I e He). lia.
Qed.
Lemma new_not_arrived DN d : dinv DN d -> ~ In (f_num (fac_of d) + 1) (arrived (dw_w d)).
Proof.
  intros I H. apply zc_In in H. pose proof (i_count _ _ (dv_s _ _ I) (f_num (fac_of d) + 1)) as C. unfold fac_of in *.
  assert (0 <= zcount (dn_net DN) (dw_w d) (f_num (w_fac (dw_w d)) + 1)) by (rewrite zcount_places; apply zc_nonneg).
  destruct (Z.leb_spec (f_num (w_fac (dw_w d)) + 1) (f_num (w_fac (dw_w d)))); [lia|]. rewrite andb_false_r in C. cbn [one_if] in C. lia.
Qed.
(** one new vehicle, with tour [x] *)
Lemma new_veh_dinv DN d d' o dst start ad a x : dnet_ok DN -> In o (map o_node (n_origins (dn_net DN))) -> dinv DN d ->
  dw_w d' = set_oq (make_veh (dw_w d) start ad o dst a) o (w_oq (make_veh (dw_w d) start ad o dst a) o ++ [f_num (fac_of d) + 1]) ->
  dw_tour d' = upd (dw_tour d) (f_num (fac_of d) + 1) x -> dw_log d' = dw_log d ->
  dw_made d' = dw_made d + match x with Some _ => 1 | None => 0 end ->
  match x with None => True | Some tr => tr_at tr = 0%nat /\ nth_error (tr_seq tr) 0 = Some (o, dst) /\ (1 < length (tr_seq tr))%nat /\
                                          exists dem, In (tr_seq tr, dem) (dn_tours DN o) end ->
  dinv DN d'.
Proof.
  intros [K _ KT] Ho I W T L M X. set (id := f_num (fac_of d) + 1) in *.
  assert (N0 : 0 <= f_num (fac_of d)) by apply (dv_s _ _ I).
  assert (FN : f_num (fac_of d') = id) by (unfold fac_of; rewrite W; reflexivity).
  assert (FD : arrived (dw_w d') = arrived (dw_w d)) by (unfold arrived; rewrite W; reflexivity).
  assert (V : forall v, w_veh (dw_w d') v = if v =? id then {| v_org := o; v_dst := dst; v_adapt := ad; v_start := start; v_fin := -1; v_assign := a;
              v_cur := None; v_next := None; v_path := None; v_miles := 0%Q |} else w_veh (dw_w d) v).
  { intros v. rewrite W. cbn [set_oq make_veh set_fac set_vehs w_veh]. fold (fac_of d) id. destruct (Z.eqb_spec v id) as [->|Ne]; [now rewrite upd_same|now rewrite upd_other]. }
  constructor.
  - rewrite W. eapply release_one_sinv; [exact K|exact Ho|apply I|reflexivity|reflexivity].
  - intros v tr Hv. rewrite T in Hv. destruct (Z.eq_dec v id) as [->|Ne].
    + rewrite upd_same in Hv. subst x. destruct X as (A & B & C & dem & E).
      constructor.
      * rewrite FN. lia.
      * exists o, dem. auto.
      * exact C.
      * rewrite V, Z.eqb_refl. cbn [v_org v_dst]. rewrite A. exact B.
      * intros i od Hi. rewrite A in Hi. lia.
      * intros i p1 p2 Hi. rewrite A in Hi. lia.
      * rewrite FD. intros H. exfalso. eapply new_not_arrived; eauto.
      * unfold places, stops. rewrite L. fold (stops d id) (places d id). rewrite (places_none DN d id I) by (unfold id; lia).
        rewrite FD. assert (MB : memb id (arrived (dw_w d)) = false) by (apply memb_false; apply (new_not_arrived DN d I)). rewrite MB, A. reflexivity.
    + rewrite upd_other in Hv by exact Ne. pose proof (dv_t _ _ I v tr Hv) as [H1 H2 H3 H4 H5 HD H6 H7]. constructor; auto.
      * rewrite FN. unfold id. lia.
      * rewrite V. destruct (Z.eqb_spec v id); [contradiction|exact H4].
      * rewrite V, FD. destruct (Z.eqb_spec v id); [contradiction|exact H6].
      * rewrite FD. unfold places, stops. rewrite L. exact H7.
  - intros v Hv. rewrite V, FD. unfold places, stops. rewrite L. fold (stops d v) (places d v). rewrite T in Hv. destruct (Z.eq_dec v id) as [->|Ne].
    + assert (MB : memb id (arrived (dw_w d)) = false) by (apply memb_false; apply (new_not_arrived DN d I)). rewrite MB. apply (places_none DN); [exact I|unfold id; lia].
    + rewrite upd_other in Hv by exact Ne. destruct (Z.eqb_spec v id); [contradiction|]. apply (dv_plain _ _ I v Hv).
  - rewrite L, FN. intros e He. pose proof (dv_log _ _ I e He). unfold id. lia.
  - rewrite M, (dv_made _ _ I). unfold deliveries. fold (fac_of d) (fac_of d'). rewrite FN. unfold id at 1. rewrite ids_S by exact N0. rewrite filter_app.
    assert (E : filter (fun v => match dw_tour d' v with Some _ => true | None => false end) (ids (f_num (fac_of d))) =
                filter (fun v => match dw_tour d v with Some _ => true | None => false end) (ids (f_num (fac_of d)))).
    { apply filter_ext_in. intros v Hv. unfold ids in Hv. apply in_map_iff in Hv as (i & <- & Hi). apply in_seq in Hi. rewrite T, upd_other by (unfold id; lia). reflexivity. }
    rewrite E, Zlen_app. f_equal. cbn [filter]. fold id. rewrite T, upd_same. destruct x; reflexivity.
Qed.
(** the steps a release is made of *)
Record newv (DN : dnet) (d d' : dworld) : Prop := {
  nv_ex : exists o dst start ad a x, In o (map o_node (n_origins (dn_net DN))) /\
  dw_w d' = set_oq (make_veh (dw_w d) start ad o dst a) o (w_oq (make_veh (dw_w d) start ad o dst a) o ++ [f_num (fac_of d) + 1]) /\
  dw_tour d' = upd (dw_tour d) (f_num (fac_of d) + 1) x /\ dw_log d' = dw_log d /\
  dw_made d' = dw_made d + match x with Some _ => 1 | None => 0 end /\
  match x with None => True | Some tr => tr_at tr = 0%nat /\ nth_error (tr_seq tr) 0 = Some (o, dst) /\ (1 < length (tr_seq tr))%nat /\
                                          exists dem, In (tr_seq tr, dem) (dn_tours DN o) end }.
Record shufv (DN : dnet) (d d' : dworld) : Prop := {
  sv_ex : exists o f, In o (map o_node (n_origins (dn_net DN))) /\ (forall q : list Z, Permutation (f q) q) /\
    d' = dset_w d (set_oq (dw_w d) o (f (w_oq (dw_w d) o))) }.
Section Release.
Context (DN : dnet) (K : dnet_ok DN) (P : dworld -> Prop) (PN : forall d d', newv DN d d' -> P d -> P d') (PS : forall d d', shufv DN d d' -> P d -> P d').
Lemma drelease_n_ind D cur assign o d ratio : In o (map o_node (n_origins (dn_net DN))) ->
  forall k w, P w -> P (drelease_n k D cur assign o d ratio w).
Proof.
  intros Ho. induction k as [|k IH]; intros w I; [exact I|]. cbn [drelease_n]. apply IH. refine (PN _ _ _ I). constructor.
  exists o, d, cur, (Qle_bool (d_adapt (dd_base D) (f_num (w_fac (dw_w w)) + 1)) ratio), assign, None. repeat split; auto. cbn [dset_tour dset_w dw_made]. lia.
Qed.
Lemma drelease_dests_ind D cur assign o : In o (map o_node (n_origins (dn_net DN))) ->
  forall ds ratio w, P w -> P (drelease_dests (dn_net DN) D cur assign o ratio ds w).
Proof.
  intros Ho. induction ds as [|[d dem] ds IH]; intros ratio w I; [exact I|]. cbn [drelease_dests]. apply IH. apply drelease_n_ind; auto.
Qed.
Lemma drelease_tour_ind D cur assign o ratio sq dem : In o (map o_node (n_origins (dn_net DN))) -> In (sq, dem) (dn_tours DN o) ->
  forall k w w', drelease_tour k D cur assign o ratio sq w = Ok w' -> P w -> P w'.
Proof.
  intros Ho Hs. induction k as [|k IH]; intros w w' H I; cbn [drelease_tour] in H; [apply Ok_inj in H as <-; exact I|].
  apply bind_ok in H as (u & G & H). apply guard_ok in G. apply Nat.ltb_lt in G. eapply IH; [exact H|]. refine (PN _ _ _ I). constructor.
  exists o, (snd (hd (0, 0) sq)), cur, (Qle_bool (d_adapt (dd_base D) (f_num (w_fac (dw_w w)) + 1)) ratio), assign, (Some {| tr_seq := sq; tr_at := 0; tr_wait := 0 |}).
  split; [exact Ho|]. do 4 (split; [reflexivity|]). cbn [tr_at tr_seq]. repeat split; eauto.
  destruct sq as [|[o1 d1] sq]; [cbn in G; lia|]. cbn [hd snd nth_error]. destruct (dk_tours _ K o _ _ Ho Hs) as [E _]; [discriminate|]. cbn [hd fst] in E. congruence.
Qed.
Lemma drelease_tours_ind D cur assign o ratio : In o (map o_node (n_origins (dn_net DN))) ->
  forall ts i w w', (forall x, In x ts -> In x (dn_tours DN o)) -> drelease_tours (dn_net DN) D cur assign o ratio i ts w = Ok w' -> P w -> P w'.
Proof.
  intros Ho. induction ts as [|[sq dem] ts IH]; intros i w w' Hx H I; cbn [drelease_tours] in H; [apply Ok_inj in H as <-; exact I|].
  apply bind_ok in H as (w1 & H1 & H). eapply IH; [intros x X; apply Hx; now right|exact H|]. eapply drelease_tour_ind; eauto. apply Hx. now left.
Qed.
Lemma drelease_all_ind D cur assign w w' : draws_valid (dd_base D) -> drelease_all DN D cur assign w = Ok w' -> P w -> P w'.
Proof.
  intros (_ & _ & Hs & _) H I. unfold drelease_all in H. apply bind_ok in H as (u & _ & H).
  destruct (_ =? 0); [|apply Ok_inj in H as <-; exact I].
  eapply (foldM_inv _ P); [|exact I|exact H].
  intros o s s' Ho Is E. apply (in_map o_node) in Ho. unfold drelease_one in E. destruct (_ <? 0); [apply Ok_inj in E as <-; exact Is|].
  apply bind_ok in E as (w2 & E2 & E). apply Ok_inj in E as <-.
  assert (I2 : P w2) by (eapply drelease_tours_ind; eauto; now apply drelease_dests_ind).
  refine (PS _ _ _ I2). constructor. exists (o_node o), (d_oshuf (dd_base D) (o_node o)). split; [exact Ho|]. split; [intros q; apply Hs|reflexivity].
Qed.
End Release.
Lemma newv_dinv DN d d' : dnet_ok DN -> newv DN d d' -> dinv DN d -> dinv DN d'.
Proof. intros K [(o & dst & start & ad & a & x & H1 & H2 & H3 & H4 & H5 & H6)] I. eapply (new_veh_dinv DN d d' o dst start ad a x); eauto. Qed.
Lemma shufv_dinv DN d d' : dnet_ok DN -> shufv DN d d' -> dinv DN d -> dinv DN d'.
Proof.
  intros K [(o & f & Ho & Hf & ->)] I. eapply tsame_dinv; [apply tsame_w; reflexivity| |exact I]. cbn [dset_w dw_w]. apply shuffle_sinv; auto; [apply K|apply I].
Qed.
Lemma drelease_all_dinv DN D cur assign w w' : dnet_ok DN -> draws_valid (dd_base D) -> drelease_all DN D cur assign w = Ok w' -> dinv DN w -> dinv DN w'.
Proof.
  intros K DV H I. eapply (drelease_all_ind DN K (dinv DN)); eauto; intros x y A B; [eapply newv_dinv; eauto|eapply shufv_dinv; eauto].
Qed.

(** ** arrivals *)
Definition dq_to (n : Z) (q : list Z) (d : dworld) : dworld := dset_w d (set_dq (dw_w d) n q).
Lemma in_dq_id DN n v q d : dnet_ok DN -> In n (n_dests (dn_net DN)) -> dinv DN (dq_to n (v :: q) d) ->
  1 <= v <= f_num (fac_of d) /\ ~ In v (arrived (dw_w d)).
Proof.
  intros [K _ _] Hn I. pose proof (i_count _ _ (dv_s _ _ I) v) as C. cbn [dq_to dset_w dw_w] in C. rewrite zcount_dq in C by assumption.
  change (v :: q) with ([v] ++ q) in C. rewrite zc_app, zc_one, Z.eqb_refl in C. cbn [one_if] in C.
  pose proof (zc_nonneg v q). pose proof (zc_nonneg v (arrived (dw_w d))). unfold arrived in *. cbn [set_dq w_fac] in C.
  assert (Z0 : 0 <= zcount (dn_net DN) (dw_w d) v - zc v (w_dq (dw_w d) n)).
  { pose proof (zcount_dq (dn_net DN) (dw_w d) n [] v K Hn) as E. rewrite zc_nil in E.
    assert (0 <= zcount (dn_net DN) (set_dq (dw_w d) n []) v) by (rewrite zcount_places; apply zc_nonneg). lia. }
  unfold fac_of. destruct (Z.leb_spec 1 v), (Z.leb_spec v (f_num (w_fac (dw_w d)))); cbn [andb one_if] in C; try lia.
  split; [lia|]. intros A. apply zc_In in A. lia.
Qed.
Lemma firstn_S_nth {A} (l : list A) i x : nth_error l i = Some x -> firstn (S i) l = firstn i l ++ [x].
Proof. revert i. induction l as [|a l IH]; intros [|i] H; cbn in *; try discriminate; [congruence|]. f_equal. auto. Qed.
Lemma places_app d d' v e : dw_log d' = dw_log d ++ [e] -> places d' v = places d v ++ (if fst e =? v then [snd (snd e)] else []).
Proof. intros E. unfold places, stops. rewrite E, filter_app, !map_app. f_equal. cbn [filter]. destruct (fst e =? v); reflexivity. Qed.
Lemma recv_dinv DN t n v q d d' : dnet_ok DN -> In n (n_dests (dn_net DN)) -> dreceive_veh DN t n d v = Ok d' ->
  dinv DN (dq_to n (v :: q) d) -> dinv DN (dq_to n q d').
Proof.
  intros K Hn H I. pose proof (dk_net _ K) as KN. destruct (in_dq_id DN n v q d K Hn I) as [Hid NA]. apply dreceive_veh_eff in H as (HD & R & EL & EM).
  pose proof I as [I1 I2 IP I3 I4]. cbn [dq_to dset_w dw_w dw_tour dw_log dw_made] in I1, I2, IP, I3, I4. unfold fac_of in *. cbn [dq_to dset_w dw_w set_dq w_fac] in I3.
  assert (P0 : forall x, places (dq_to n q d') x = places d x ++ (if v =? x then [n] else [])).
  { intros x. change (places (dq_to n q d') x) with (places d' x). rewrite (places_app d d' x _ EL). reflexivity. }
  assert (FIN : reff t n [v] (dw_w d) (dw_w d') -> dw_tour d' = dw_tour d ->
     (forall tr, dw_tour d v = Some tr -> exists o, nth_error (tr_seq tr) (tr_at tr) = Some (o, goal_of (tr_seq tr))) -> dinv DN (dq_to n q d')).
  { intros RE ET HG. pose proof RE as [A1 A2 A3 A4 A5 A6 A7 A8 A9 A10 A11 A12 A13 A14 A15].
    assert (AR : arrived (dw_w d') = arrived (dw_w d) ++ [v]) by (unfold arrived; rewrite A7, map_app; reflexivity).
    assert (VE : forall x, stat (w_veh (dw_w d') x) = stat (w_veh (dw_w d) x)) by (intros x; rewrite A13; destruct (memb x [v]); reflexivity).
    constructor.
    - cbn [dq_to dset_w dw_w]. eapply finish_sinv; eauto.
    - intros x tr Hx. cbn [dq_to dset_w dw_tour] in Hx. rewrite ET in Hx. destruct (I2 x tr Hx) as [H1 H2 H3 H4 H5 HDf H6 H7].
      cbn [dq_to dset_w dw_w set_dq w_veh w_fac] in H1, H4, H6, H7. unfold fac_of in H1. cbn [dset_w dw_w set_dq w_fac] in H1.
      change (arrived (set_dq (dw_w d) n (v :: q))) with (arrived (dw_w d)) in H6, H7. change (places (dq_to n (v :: q) d) x) with (places d x) in H7.
      specialize (VE x). unfold stat in VE. assert (EO : v_org (w_veh (dw_w d') x) = v_org (w_veh (dw_w d) x)) by congruence.
      assert (ED : v_dst (w_veh (dw_w d') x) = v_dst (w_veh (dw_w d) x)) by congruence.
      constructor; unfold fac_of; cbn [dq_to dset_w dw_w set_dq w_veh w_fac]; change (arrived (set_dq (dw_w d') n q)) with (arrived (dw_w d')); rewrite ?EO, ?ED, ?A6, ?AR; auto.
      + intros Hx'. apply in_app_or in Hx' as [Hx'|[<-|[]]]; [auto|]. destruct (HG tr Hx) as (o & E). rewrite E in H4. congruence.
      + rewrite P0, H7, memb_app. destruct (Z.eqb_spec v x) as [<-|Ne].
        * assert (MB : memb v [v] = true) by (apply memb_In; now left). rewrite (proj2 (memb_false _ _) NA), MB. cbn [orb].
          rewrite Nat.add_0_r, Nat.add_1_r. symmetry. apply firstn_S_nth. unfold route_of. rewrite nth_error_map, H4. cbn [option_map snd]. congruence.
        * assert (MB : memb x [v] = false) by (apply memb_false; intros [E|[]]; congruence). rewrite app_nil_r, MB, orb_false_r. reflexivity.
    - intros x Hx. cbn [dq_to dset_w dw_tour] in Hx. rewrite ET in Hx. rewrite P0. cbn [dq_to dset_w dw_w set_dq w_veh]. change (arrived (set_dq (dw_w d') n q)) with (arrived (dw_w d')). rewrite AR.
      specialize (IP x Hx). change (places (dq_to n (v :: q) d) x) with (places d x) in IP. cbn [set_dq w_veh] in IP. change (arrived (set_dq (dw_w d) n (v :: q))) with (arrived (dw_w d)) in IP.
      specialize (VE x). unfold stat in VE. assert (ED : v_dst (w_veh (dw_w d') x) = v_dst (w_veh (dw_w d) x)) by congruence. rewrite IP, ED, memb_app.
      destruct (Z.eqb_spec v x) as [<-|Ne].
      + assert (MB : memb v [v] = true) by (apply memb_In; now left). rewrite (proj2 (memb_false _ _) NA), MB, HD. reflexivity.
      + assert (MB : memb x [v] = false) by (apply memb_false; intros [E|[]]; congruence). rewrite app_nil_r, MB, orb_false_r. reflexivity.
    - intros e He. cbn [dq_to dset_w dw_log] in He. rewrite EL in He. unfold fac_of. cbn [dq_to dset_w dw_w set_dq w_fac]. rewrite A6.
      apply in_app_or in He as [He|[<-|[]]]; [apply (I3 e He)|exact Hid].
    - cbn [dq_to dset_w dw_made]. rewrite EM, I4. f_equal. unfold deliveries. cbn [dq_to dset_w dw_w dw_tour set_dq w_fac]. rewrite A6, ET. reflexivity. }
  destruct R as [TN RE ET|tr o TS EN RE ET|tr o o' e' TS EN NL E2 NE ET F1 F2 F3 F4 F5 FV FT].
  - apply FIN; auto. intros tr E. congruence.
  - apply FIN; auto. intros tr' E. exists o. assert (tr' = tr) by congruence. subst tr'. exact EN.
  - destruct (I2 v tr TS) as [H1 H2 H3 H4 H5 HDf H6 H7]. change (arrived (dw_w (dq_to n (v :: q) d))) with (arrived (dw_w d)) in H6, H7. change (places (dq_to n (v :: q) d) v) with (places d v) in H7.
    assert (HO : In o' (map o_node (n_origins (dn_net DN)))).
    { destruct H2 as (oo & dem & Hoo & Hin). destruct (dk_tours _ K oo _ _ Hoo Hin) as [_ FA]; [intros E; rewrite E in H3; cbn in H3; lia|].
      rewrite Forall_forall in FA. apply (FA (o', e')). eapply nth_error_In; eauto. }
    constructor.
    + cbn [dq_to dset_w dw_w]. eapply forward_sinv; eauto.
    + intros x tx Hx. cbn [dq_to dset_w dw_tour] in Hx. rewrite ET in Hx. destruct (Z.eq_dec x v) as [->|Ne].
      * rewrite upd_same in Hx. injection Hx as <-. constructor; unfold fac_of; cbn [dq_to dset_w dw_w set_dq w_veh w_fac tr_seq tr_at];
          change (arrived (set_dq (dw_w d') n q)) with (arrived (dw_w d')); unfold arrived; rewrite ?F4; auto.
        -- rewrite FV, Z.eqb_refl. cbn [set_path set_od v_org v_dst]. exact E2.
        -- intros i od Hi Eo. destruct (Nat.eq_dec i (tr_at tr)) as [->|Ni]; [|apply (H5 i od); [lia|exact Eo]].
           rewrite EN in Eo. injection Eo as <-. exact NL.
        -- intros i p1 p2 Hi X1 X2. destruct (Nat.eq_dec i (tr_at tr)) as [->|Ni]; [|apply (HDf i p1 p2); [lia|exact X1|exact X2]].
           rewrite EN in X1. rewrite E2 in X2. injection X1 as <-. injection X2 as <-. cbn [snd]. congruence.
        -- intros A. exfalso. apply NA. exact A.
        -- fold (arrived (dw_w d)). rewrite (proj2 (memb_false _ _) NA) in *. rewrite P0, H7, Z.eqb_refl, !Nat.add_0_r. symmetry. apply firstn_S_nth.
           unfold route_of. rewrite nth_error_map, EN. reflexivity.
      * rewrite upd_other in Hx by exact Ne. destruct (I2 x tx Hx) as [G1 G2 G3 G4 G5 GDf G6 G7].
        change (arrived (dw_w (dq_to n (v :: q) d))) with (arrived (dw_w d)) in G6, G7. change (places (dq_to n (v :: q) d) x) with (places d x) in G7.
        constructor; unfold fac_of; cbn [dq_to dset_w dw_w set_dq w_veh w_fac]; change (arrived (set_dq (dw_w d') n q)) with (arrived (dw_w d')); unfold arrived; rewrite ?F4, ?FV; auto.
        -- destruct (Z.eqb_spec x v); [contradiction|exact G4].
        -- destruct (Z.eqb_spec x v); [contradiction|exact G6].
        -- fold (arrived (dw_w d)). rewrite P0, G7. destruct (Z.eqb_spec v x); [congruence|apply app_nil_r].
    + intros x Hx. cbn [dq_to dset_w dw_tour] in Hx. rewrite ET in Hx. destruct (Z.eq_dec x v) as [->|Ne]; [rewrite upd_same in Hx; discriminate|]. rewrite upd_other in Hx by exact Ne.
      rewrite P0. cbn [dq_to dset_w dw_w set_dq w_veh]. change (arrived (set_dq (dw_w d') n q)) with (arrived (dw_w d')). unfold arrived. rewrite F4. fold (arrived (dw_w d)).
      specialize (IP x Hx). change (places (dq_to n (v :: q) d) x) with (places d x) in IP. cbn [set_dq w_veh] in IP. change (arrived (set_dq (dw_w d) n (v :: q))) with (arrived (dw_w d)) in IP.
      rewrite IP, FV. destruct (Z.eqb_spec v x); [congruence|]. destruct (Z.eqb_spec x v); [congruence|]. apply app_nil_r.
    + intros e He. cbn [dq_to dset_w dw_log] in He. rewrite EL in He. unfold fac_of. cbn [dq_to dset_w dw_w set_dq w_fac]. rewrite F4.
      apply in_app_or in He as [He|[<-|[]]]; [apply (I3 e He)|exact Hid].
    + cbn [dq_to dset_w dw_made]. rewrite EM, I4. f_equal. symmetry. apply deliveries_same.
      * unfold fac_of. cbn [dq_to dset_w dw_w set_dq w_fac]. exact F4.
      * intros x _. cbn [dq_to dset_w dw_tour]. rewrite ET. destruct (Z.eq_dec x v) as [->|Ne]; [rewrite upd_same, TS; split; discriminate|rewrite upd_other by exact Ne; tauto].
      * unfold fac_of. apply I1.
Qed.
Lemma dreceive_dinv DN t n d d' : dnet_ok DN -> In n (n_dests (dn_net DN)) -> dreceive DN t d n = Ok d' -> dinv DN d -> dinv DN d'.
Proof.
  intros K Hn H I. unfold dreceive in H. apply bind_ok in H as (d1 & H1 & H). apply Ok_inj in H as <-. fold (dq_to n [] d1).
  assert (I0 : dinv DN (dq_to n (w_dq (dw_w d) n) d)).
  { eapply tsame_dinv; [apply tsame_w; reflexivity| |exact I]. cbn [dset_w dw_w]. pose proof (dv_s _ _ I) as [G1 G2 G3 G4 G5 G6 G7 G8 G9 G10].
    assert (Z0 : forall v, zcount (dn_net DN) (set_dq (dw_w d) n (w_dq (dw_w d) n)) v = zcount (dn_net DN) (dw_w d) v).
    { intros v. rewrite (zcount_dq _ _ _ _ _ (dk_net _ K) Hn). lia. }
    constructor; auto; intros v; rewrite Z0; [apply G3|apply G4]. }
  clear I. revert I0 H1. generalize (w_dq (dw_w d) n). intros vs. revert d. induction vs as [|v vs IH]; intros d0 I0 H1; cbn [foldM] in H1.
  - apply Ok_inj in H1 as <-. exact I0.
  - apply bind_ok in H1 as (d2 & H2 & H1). eapply IH; [|exact H1]. eapply recv_dinv; eauto.
Qed.

(** ** interval and run *)
Lemma nodes_stat N D t w w' : net_ok N -> draws_valid D -> sinv N w -> foldM (node_evolve N D t) w (n_nodes N) = Ok w' ->
  w_fac w' = w_fac w /\ forall v, stat (w_veh w' v) = stat (w_veh w v).
Proof.
  intros K DV I H. enough (X : sinv N w' /\ w_fac w' = w_fac w /\ forall v, stat (w_veh w' v) = stat (w_veh w v)) by apply X.
  eapply (foldM_inv (node_evolve N D t) (fun x => sinv N x /\ w_fac x = w_fac w /\ forall v, stat (w_veh x v) = stat (w_veh w v))); [|repeat split; auto; apply I|exact H].
  intros nk s s' Hin (Hs & Rf & R) E. destruct (node_neff N D t s s' nk K DV (i_paired N s Hs) Hin E) as (e & lv & o & d & J).
  split; [eapply neff_sinv; eauto|]. destruct (ne_keep _ _ _ _ _ _ _ _ J) as (Ef & _ & _ & V). split; [congruence|].
  intros v. rewrite <- R. symmetry. apply vkeep_stat. destruct (V v) as (? & ? & ? & ? & ? & ? & ?). unfold vkeep. intuition congruence.
Qed.
Lemma dload_once_dinv DN D t a d d' : dnet_ok DN -> draws_valid (dd_base D) -> dload_once DN D t a d = Ok d' -> dinv DN d -> dinv DN d'.
Proof.
  intros K DV H I. pose proof (dk_net _ K) as KN. unfold dload_once in H. cbv zeta in H.
  apply bind_ok in H as (d1 & H1 & H). apply bind_ok in H as (d2 & H2 & H). apply bind_ok in H as (d3 & H3 & H). apply bind_ok in H as (d4 & H4 & H).
  assert (I1 : dinv DN d1) by (eapply drelease_all_dinv; eauto).
  assert (I2 : dinv DN d2).
  { unfold on_world in H2. apply bind_ok in H2 as (w & Hw & H2). apply Ok_inj in H2 as <-. apply update_routing_r in Hw as [Q S].
    eapply tsame_dinv; [apply tsame_w; [apply Q|intros v; apply S]| |exact I1]. cbn [dset_w dw_w]. eapply sinv_q; [exact Q|apply I1]. }
  assert (I3 : dinv DN d3).
  { unfold on_world in H3. apply bind_ok in H3 as (w & Hw & H3). apply Ok_inj in H3 as <-. destruct (nodes_stat _ _ _ _ _ KN DV (dv_s _ _ I2) Hw) as [Fc S].
    eapply tsame_dinv; [apply tsame_w; [exact Fc|exact S]| |exact I2]. cbn [dset_w dw_w]. eapply nodes_sinv; eauto. apply I2. }
  assert (I4 : dinv DN d4).
  { eapply (foldM_inv _ (dinv DN)); [|exact I3|exact H4]. intros l s s' Hl Is E. eapply tsame_dinv; [eapply dlink_step_same; eauto| |exact Is].
    eapply ceff_sinv; [exact KN|exact Hl|eapply dlink_step_eff; eauto|apply Is]. }
  eapply (foldM_inv _ (dinv DN)); [|exact I4|exact H]. intros n s s' Hn Is E. eapply dreceive_dinv; eauto.
Qed.
Lemma drun_S DN D k s s' : drun DN D (S k) s = Ok s' -> exists s1, drun DN D k s = Ok s1 /\ dloop_body DN D s1 = Ok s'.
Proof. simpl. intros H. apply bind_ok in H as (s1 & H1 & H2). eauto. Qed.
Lemma dloop_body_inv DN D s s' : dloop_body DN D s = Ok s' ->
  dload_once DN (D (ds_cur s)) (ds_cur s) (ds_assign s) (ds_d s) = Ok (ds_d s') /\ ds_cur s' = ds_cur s + 1.
Proof.
  unfold dloop_body. intros H. apply bind_ok in H as (w & H1 & H). cbv zeta in H. apply Ok_inj in H as <-. split; [exact H1|reflexivity].
Qed.
Lemma dreached_dinv DN D k s : dnet_ok DN -> dreached DN D k s -> dinv DN (ds_d s) /\ ds_cur s = Z.of_nat k.
Proof.
  intros K (w0 & F & DV & H). revert s H. induction k as [|k IH]; intros s H.
  - simpl in H. apply Ok_inj in H as <-. split; [|reflexivity]. cbn [dinit ds_d]. constructor; cbn [dw_w dw_tour dw_log dw_made].
    + apply fresh_sinv; [apply K|exact F].
    + discriminate.
    + intros v _. unfold arrived. rewrite (fw_fac _ _ F). reflexivity.
    + intros e [].
    + unfold deliveries. cbn [dw_w dw_tour]. rewrite filter_all_false; reflexivity.
  - apply drun_S in H as (s1 & H1 & H2). apply dloop_body_inv in H2 as (H2 & ->). destruct (IH s1 H1) as [I ->]. split; [|lia].
    eapply dload_once_dinv; [exact K|apply DV|exact H2|exact I].
Qed.
