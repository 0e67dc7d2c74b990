(** C153-C160: parking lots, accounts of passengers, end of loading, lengths, waiting times,
    volumes. *)
From Verif Require Import Base Base_lemmas Model_Num Proof_Num Model_Bus Model_Bus2 Spec_Bus Spec_Bus2 Proof_Bus5.

(** ** C153: parked cars and their passengers *)
Theorem C153_cars_parked_once k t q l ps rest l' :
  lot_release k t q l = Ok (ps, rest, l') ->
  ps = map a_dest (filter (fun a => (a_class a =? 0) && a_pnr a) q) /\
  rest = filter (fun a => negb (a_class a =? 0)) q /\
  l_parked l' = l_parked l + Z.of_nat (length (filter (fun a => a_class a =? 0) q)) /\
  cruise_time l' (t + 1) = Ok (cruise (l_cap l) (l_avg l) (inject_Z (l_parked l'))).
Proof.
  unfold lot_release. destruct (park k q) as [[[c ps'] rest']|] eqn:E; cbn [bind]; [|discriminate]. intros [= <- <- <-].
  destruct (park_spec _ _ _ _ _ E) as (-> & -> & ->). do 3 (split; [reflexivity|]).
  unfold cruise_time, rec_at. cbn [l_rec find fst]. rewrite Z.eqb_refl. reflexivity.
Qed.
Print Assumptions C153_cars_parked_once.
Example C153_example :
  exists l', lot_release 5 10 [{| a_class := 0; a_pnr := true; a_dest := 20 |}; {| a_class := 1; a_pnr := false; a_dest := 5 |};
                               {| a_class := 0; a_pnr := false; a_dest := 5 |}] (new_lot 100 2)
  = Ok ([20], [{| a_class := 1; a_pnr := false; a_dest := 5 |}], l').
Proof. eexists. reflexivity. Qed.

(** ** C154: no more cars than places *)
Theorem C154_lot_capacity_refuted cap avg k t :
  exists q ps rest l', lot_release k t q (new_lot cap avg) = Ok (ps, rest, l') /\ rest = [] /\ (cap < inject_Z (l_parked l'))%Q.
Proof.
  exists (repeat {| a_class := 0; a_pnr := false; a_dest := k |} (Z.to_nat (Qfloor cap + 1))).
  unfold lot_release. rewrite park_cars. cbn [bind]. eexists _, _, _. split; [reflexivity|]. split; [reflexivity|].
  cbn [l_parked new_lot]. eapply Qlt_le_trans; [apply Qlt_floor|]. rewrite <- Zle_Qle. lia.
Qed.
Print Assumptions C154_lot_capacity_refuted.
(** cars of the simulation count as whole cars: a lot with 100 places has no place left for
    30 cars of the demand when a car of the demand is 10 cars of the simulation *)
Theorem C154_flow_scalar_refuted :
  exists (cars : nat) (fs cap : Q) l',
    lot_release 5 0 (repeat {| a_class := 0; a_pnr := false; a_dest := 5 |} cars) (new_lot cap 1) = Ok ([], [], l') /\
    (inject_Z (Z.of_nat cars) / fs < cap / 3)%Q /\ cruise_time l' 1 = Ok (10 * 1)%Q.
Proof.
  exists 300%nat, 10%Q, 100%Q. unfold lot_release. rewrite park_cars. cbn [bind]. eexists. split; [reflexivity|]. split; reflexivity.
Qed.
Print Assumptions C154_flow_scalar_refuted.

(** ** C155: the fuller the lot, the longer the search *)
Theorem C155_cruising_monotone_partial cap avg a b :
  (0 < avg)%Q -> (0 <= a)%Q -> (a <= b)%Q -> (b < cap)%Q -> (cruise cap avg a <= cruise cap avg b)%Q.
Proof.
  intros P A B C. unfold cruise.
  destruct (Qleb_spec cap a); [lra|]. destruct (Qleb_spec cap b); [lra|].
  assert (0 < cap)%Q by lra.
  assert (X : (b / cap < 1)%Q) by (apply Qlt_shift_div_r; lra).
  assert (Y : (a / cap <= b / cap)%Q).
  { unfold Qdiv. apply Qmult_le_compat_r; [auto|]. apply Qlt_le_weak, Qinv_lt_0_compat. auto. }
  apply Qle_shift_div_l; [lra|].
  setoid_replace (avg / (1 - a / cap) * (1 - b / cap))%Q with (avg * ((1 - b / cap) / (1 - a / cap)))%Q by (field; split; lra).
  assert ((1 - b / cap) / (1 - a / cap) <= 1)%Q by (apply Qle_shift_div_r; lra). nra.
Qed.
Print Assumptions C155_cruising_monotone_partial.
Theorem C155_cruising_refuted :
  exists cap avg a b, (0 < avg)%Q /\ (0 <= a)%Q /\ (a < b)%Q /\ (cruise cap avg b < cruise cap avg a)%Q /\ (10 * avg < cruise cap avg a)%Q.
Proof. exists 100%Q, 1%Q, 99%Q, 100%Q. repeat split; reflexivity || (vm_compute; discriminate). Qed.
Print Assumptions C155_cruising_refuted.
Example C155_example : (cruise 100 1 50 == 2)%Q. Proof. reflexivity. Qed.

(** ** C156: accounts of passengers *)
Theorem C156_accounts os f :
  foldM frun new_factory os = Ok f ->
  f_num f = makes os /\ f_fin f = removes os /\ f_enr f = makes os - removes os /\ f_pnr f = makes_pnr os /\
  f_fin_pnr f = removes_pnr os /\ f_enr_pnr f = makes_pnr os - removes_pnr os /\ f_time f = times os.
Proof. intros H. apply frun_spec in H. exact H. Qed.
Print Assumptions C156_accounts.
(** removing a finished passenger with deletion, as the simulation does, reads the deleted
    passenger *)
Theorem C156_deleted_passenger_refuted p r f :
  In p (f_alive f) -> p_start r < p_finish r -> remove_passenger true p r f = Err EUB.
Proof.
  intros I T. unfold remove_passenger. replace (memb p (f_alive f)) with true by (symmetry; now apply memb_In). cbn [guard bind].
  replace (p_start r <? p_finish r) with true by lia. reflexivity.
Qed.
Print Assumptions C156_deleted_passenger_refuted.
Example C156_example :
  (exists f, foldM frun new_factory [FMake true; FMake false; FRemove 2 (set_finish 7 (new_pas 3 false 20))] = Ok f /\
     f_enr f = 1 /\ f_enr_pnr f = 1 /\ f_time f = 4 /\ In 1 (f_alive f)).
Proof. eexists. split; [reflexivity|]. repeat split. cbn. auto. Qed.

(** ** C157: the end of loading *)
Theorem C157_end_of_loading total cur running walking :
  (0 < total -> (mm_finished total cur running walking = true <-> total <= cur)) /\
  (total <= 0 -> (mm_finished total cur running walking = true <-> running = 0 /\ cur <> 0)).
Proof. unfold mm_finished. destruct (0 <? total) eqn:E; split; intros H; try lia. Qed.
Print Assumptions C157_end_of_loading.
Theorem C157_passengers_refuted cur walking :
  cur <> 0 -> 0 < walking -> mm_finished 0 cur 0 walking = true.
Proof. intros H _. unfold mm_finished. cbn. destruct (Z.eqb_spec cur 0); [contradiction|]. reflexivity. Qed.
Print Assumptions C157_passengers_refuted.
Example C157_example : mm_finished 100 99 5 5 = false /\ mm_finished 100 100 5 5 = true /\ mm_finished 0 50 1 0 = false.
Proof. repeat split. Qed.

(** ** C158: the length of a bus link *)
Theorem C158_portions_add_up from to lf lt len0 mid len1 :
  from <> to -> (forall x, In x mid -> fst x <> from /\ fst x <> to) -> (0 < len0)%Q -> (0 < len1)%Q ->
  exists ps, length_portions from to lf lt ((from, len0) :: mid ++ [(to, len1)]) = Ok ps /\
    (covered ps ((from, len0) :: mid ++ [(to, len1)]) == (len0 - lf) + sumQ (map snd mid) + lt)%Q.
Proof. apply portions_total. Qed.
Print Assumptions C158_portions_add_up.
Theorem C158_one_link from lf lt len :
  (0 < len)%Q -> (lf < lt)%Q -> exists ps, length_portions from from lf lt [(from, len)] = Ok ps /\ (covered ps [(from, len)] == lt - lf)%Q.
Proof.
  intros L H. exists [((lt - lf) / len)%Q]. unfold length_portions. rewrite Z.eqb_refl. cbn [andb guard bind].
  destruct (Qltb_spec lf lt); [|lra]. split; [reflexivity|]. unfold covered. cbn. field. lra.
Qed.
Print Assumptions C158_one_link.
(** a route that comes back to the link it starts on *)
Theorem C158_loop_refuted :
  exists from lf lt ls ps, length_portions from from lf lt ls = Ok ps /\
    ls = [(from, 100%Q); (2, 100%Q); (from, 100%Q)] /\ ~ (covered ps ls == (100 - lf) + 100 + lt)%Q.
Proof. exists 1, 80%Q, 10%Q. eexists _, _. split; [|split; [reflexivity|]]; [reflexivity|]. intros H. vm_compute in H. discriminate. Qed.
Print Assumptions C158_loop_refuted.
Example C158_example : exists ps, length_portions 1 3 20 30 [(1, 100%Q); (2, 50%Q); (3, 200%Q)] = Ok ps /\ (covered ps [(1%Z, 100); (2%Z, 50); (3%Z, 200)] == 160)%Q.
Proof. eexists. split; [reflexivity|]. reflexivity. Qed.

(** ** C159: waiting for the next bus *)
(** at the first stop the time is that until the first minute by which enough buses leave *)
Theorem C159_first_stop_wait cc total fs demand freq max t i :
  approx_lt cc total tol = true -> 0 <= t -> t / 12 < i < max * (freq / 12) -> 0 <= freq ->
  (forall j, t / 12 <= j < i -> approx_lt (released_upto fs demand (Z.to_nat (j + 1))) (threshold cc) tol = true) ->
  approx_lt (released_upto fs demand (Z.to_nat (i + 1))) (threshold cc) tol = false ->
  (waiting_time cc total [] fs demand freq max t == inject_Z ((i - t / 12) * 60))%Q.
Proof.
  intros C T I F Before At. unfold waiting_time. rewrite C. cbn [negb upstream].
  change (60 / 5) with 12. rewrite !Z.quot_div_nonneg by lia. set (cur := t / 12) in *.
  assert (0 <= cur) by (apply Z.div_pos; lia).
  rewrite (Before cur ltac:(lia)).
  rewrite (search_first fs demand (threshold cc) cur (Z.to_nat (i - cur - 1)) (cur + 1)); [|lia|reflexivity|lia| |].
  - replace (cur + 1 + Z.of_nat (Z.to_nat (i - cur - 1)) - cur) with (i - cur) by lia. rewrite Qplus_0_l. reflexivity.
  - intros j J. apply Before. lia.
  - replace (cur + 1 + Z.of_nat (Z.to_nat (i - cur - 1)) + 1) with (i + 1) by lia. exact At.
Qed.
Print Assumptions C159_first_stop_wait.
(** when no bus comes any more the time reported can be less than for a bus that comes *)
Theorem C159_no_more_buses_refuted :
  exists fs demand freq max t, (waiting_time 1 1 [] fs demand freq max t < waiting_time 0 1 [] fs demand freq max t)%Q.
Proof. exists 1%Q, (fun i => if i =? 100 then 1%Q else 0%Q), 180, 10, 0. vm_compute. reflexivity. Qed.
Print Assumptions C159_no_more_buses_refuted.
(** with an interval of 10 seconds the time is not that until the bus leaves: in minute 10,
    asked for in the middle of minute 5 *)
Theorem C159_unit_time_refuted :
  exists unit t minute, (t * unit < minute * 60)%Z /\
    ~ (waiting_time 0 1 [] 1 (fun i => if i =? minute then 1%Q else 0%Q) 90 10 t <= inject_Z (minute * 60 - t * unit) + 60)%Q.
Proof. exists 10, 30, 10. split; [lia|]. intros H. vm_compute in H. apply H. reflexivity. Qed.
Print Assumptions C159_unit_time_refuted.
Example C159_example :
  (waiting_time 0 1 [] 1 (fun i => if (i =? 10)%Z then 1%Q else 0%Q) 180 10 60 == 300)%Q.
Proof. vm_compute. reflexivity. Qed.

(** ** C160: volume of a point queue with buses *)
Theorem C160_admitted_in_order sup inc queue fin i q c t :
  mm_clear sup inc queue [] fin = (i, q, c, t) ->
  queue ++ inc = q ++ i /\ c = of_class 0 fin /\ t = of_class 1 fin.
Proof.
  unfold mm_clear. destruct (mm_admit sup inc) as [i' q'] eqn:E. intros [= <- <- <- <-]. apply mm_admit_app in E. subst inc.
  split; [now rewrite app_assoc|]. split; unfold of_class; cbn [filter length]; lia.
Qed.
Print Assumptions C160_admitted_in_order.
(** a link full of vehicles on their way reports no vehicle *)
Theorem C160_volume_refuted m :
  exists sup inc i q c t, mm_clear sup inc [] [] [] = (i, q, c, t) /\ length q = m /\ c = 0 /\ t = 0.
Proof.
  exists (inject_Z (Z.of_nat m)), (repeat (1, 0) m). assert (X : mm_admit (inject_Z (Z.of_nat m)) (repeat (1, 0) m) = ([], repeat (1, 0) m)).
  { assert (H : forall k s, (inject_Z (Z.of_nat k) <= s)%Q -> mm_admit s (repeat (1, 0) k) = ([], repeat (1, 0) k)).
    { induction k; intros s H; [reflexivity|]. cbn [repeat mm_admit].
      assert (L : (inject_Z (Z.of_nat k) + 1 <= s)%Q).
      { eapply Qle_trans; [|exact H]. rewrite <- (inject_Z_plus _ 1). rewrite <- Zle_Qle. lia. }
      assert (0 <= inject_Z (Z.of_nat k))%Q by (apply injZ_nonneg; lia).
      destruct (Qltb_spec 0 s); [|lra]. rewrite IHk by lra. reflexivity. }
    apply H. lra. }
  unfold mm_clear. rewrite X. eexists _, _, _, _. split; [reflexivity|]. split; [cbn; apply repeat_length|]. auto.
Qed.
Print Assumptions C160_volume_refuted.
Example C160_example : mm_clear 2 [(1, 0); (2, 1); (3, 0)] [(9, 0)] [] [(8, 1)] = ([(3, 0)], [(9, 0); (1, 0); (2, 1)], 0, 1).
Proof. reflexivity. Qed.
