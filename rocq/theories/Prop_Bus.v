(** C145-C152, C161, C162: passengers, buses and stops. *)
From Verif Require Import Base Base_lemmas Model_Num Proof_Num Model_Bus Spec_Bus Proof_Bus Proof_Bus2 Proof_Bus3 Proof_Bus4 Proof_Bus5.

(** ** A small network used below: walking links 1 and 5, boarding link 2, bus link 3 of
    route 7, alighting link 4; stops 10 and 11 at positions 1 and 2; bus 100 *)
Definition ex_net : tnet :=
  {| k_kind := fun l => if l =? 2 then Boarding else if l =? 3 then Riding 7 else if l =? 4 then Alighting else Normal;
     k_fs := 1; k_mal := 1; k_mbd := 1 |}.
Definition ex_stop (i o bd al : option Z) : vstop :=
  {| s_route := 7; s_in := i; s_out := o; s_board := bd; s_alight := al; s_count := 0; s_queue := [] |}.
Definition ex_bus (mbd : Z) : bus := {| b_cap := 2; b_route := 7; b_dwell := 1; b_lost := 0; b_mal := 1; b_mbd := mbd; b_stopped := 0 |}.
Definition ex_w : tw :=
  {| w_at := fun _ => []; w_age := fun _ => 0; w_pas := fun _ => new_pas 0 false 0; w_bus := fun _ => ex_bus 1;
     w_stop := fun s => if s =? 10 then ex_stop None (Some 3) (Some 2) None else ex_stop (Some 3) None None (Some 4);
     w_nin := fun _ => 0; w_nout := fun _ => 0 |}.
Definition ex_sys : sys := {| y_w := ex_w; y_num := 0; y_gone := [] |}.
Definition ex_go (x : Z) : event := EDrive 1 (fun l => l) (fun _ => Some 4) [(10, 1); (11, 2)] x 100.
(** from a parking lot on foot to the stop, by bus, on foot to the destination *)
Definition ex_trip : list event :=
  [ENew (PLot 9) 0 true 20; ENext 1 (Some 1); ELot [1] 9 0; EClearWalk 1; EEvolve 1 1 (fun l => l); ENext 1 (Some 2);
   EPhysical [1] [] [2]; ENext 1 (Some 3); ex_go 0; ex_go 1; ex_go 1; ex_go 2; ex_go 2; ENext 1 (Some 5);
   EPhysical [] [4] [5]; EClearWalk 5; EEvolve 5 1 (fun l => l); ENext 1 None; EDest [5] [] 20; EReceive 20 9].
Lemma ex_fair : Forall fair ex_trip.
Proof. unfold ex_trip. repeat (constructor; [first [exact I | intros l; apply Permutation_refl]|]). constructor. Qed.

(** ** C145: passengers are conserved *)
Theorem C145_passengers_conserved n y es y' :
  accounted y -> Forall fair es -> run_events n y es = Ok y' -> accounted y'.
Proof. intros A F H. eapply run_accounted; eauto. Qed.
Print Assumptions C145_passengers_conserved.
Lemma ex_accounted : accounted ex_sys.
Proof. split; [cbn; lia|]. intros p. split; [cbn; lia|]. intros _. split; [intros x []|intros []]. Qed.
(** the trip runs, and after it the passenger has been received; in between they are on the bus *)
Example C145_example :
  (exists y, run_events ex_net ex_sys ex_trip = Ok y /\ y_gone y = [1] /\ y_num y = 1) /\
  (exists y, run_events ex_net ex_sys (firstn 11 ex_trip) = Ok y /\ w_at (y_w y) (PBus 100) = [1] /\ y_gone y = []).
Proof. split; (eexists; split; [vm_compute; reflexivity|split; vm_compute; reflexivity]). Qed.

(** ** C146: no bus is overfull *)
Theorem C146_bus_capacity n y es y' :
  within_capacity n (y_w y) -> Forall fair es -> run_events n y es = Ok y' ->
  within_capacity n (y_w y') /\ forall b, b_cap (w_bus (y_w y') b) = b_cap (w_bus (y_w y) b).
Proof.
  intros W F H. assert (C := run_capped n es y y' F H). split; [eapply capped_within; eauto|]. intros b. apply C.
Qed.
Print Assumptions C146_bus_capacity.
Example C146_example : within_capacity ex_net ex_w /\ exists y, run_events ex_net ex_sys ex_trip = Ok y.
Proof. split; [intros b; vm_compute; discriminate|]. eexists. vm_compute. reflexivity. Qed.

(** ** C147: first come, first served *)
Theorem C147_first_come_first_served n sh b s w w' bl ol :
  shuffle sh -> s_board (w_stop w s) = Some bl -> s_out (w_stop w s) = Some ol -> s_alight (w_stop w s) <> Some bl ->
  board_and_alight n sh b s w = Ok w' ->
  exists stay off on rest,
    w_at w (PDone bl) = on ++ rest /\ w_at w' (PDone bl) = rest /\
    interleaved (w_at w (PBus b)) stay off /\ Permutation (w_at w' (PBus b)) (stay ++ on) /\
    (forall x, s_alight (w_stop w s) = Some x -> w_at w' (PDone x) = w_at w (PDone x) ++ off) /\
    (rest <> [] -> (Z.of_nat (length (w_at w' (PBus b))) >= trunc (inject_Z (b_cap (w_bus w b)) * k_fs n) \/
                    Z.of_nat (length on) >= trunc (inject_Z (b_mbd (w_bus w b)) * k_fs n))) /\
    Z.of_nat (length on) <= Z.max 0 (trunc (inject_Z (b_mbd (w_bus w b)) * k_fs n)) /\
    (forall p, In p off -> exists x, s_alight (w_stop w s) = Some x /\ p_next (w_pas w p) = Some x) /\
    Z.of_nat (length off) <= Z.max 0 (b_mal (w_bus w b) * trunc (k_fs n)) /\
    (forall p, In p stay -> gets_off n w s p -> Z.of_nat (length off) = Z.max 0 (b_mal (w_bus w b) * trunc (k_fs n))).
Proof.
  intros P Hb Ho Ha H. destruct (exchange n sh b s w w' bl ol P Hb Ho Ha H)
    as (stay & off & on & rest & A1 & A2 & A3 & A4 & A5 & A6 & A7 & A8 & A9 & B1 & B2 & _).
  exists stay, off, on, rest. split; [exact A2|]. split; [exact A3|]. split; [exact A1|]. split; [exact A4|]. split; [exact B2|].
  split.
  { intros R. specialize (A9 R). rewrite (Permutation_length A4), app_length. unfold room in A9. lia. }
  split; [unfold room in A8; lia|]. split.
  { intros p I. specialize (A5 p I). unfold off_here in A5. destruct (p_next (w_pas w p)) as [x|]; [|discriminate].
    apply andb_prop in A5 as [_ A5]. apply is_link_true in A5. eauto. }
  split; [exact A6|].
  intros p I (x & N & Al & K). apply A7 with p; [exact I|]. unfold off_here. rewrite N, K. apply is_link_true. exact Al.
Qed.
Print Assumptions C147_first_come_first_served.
(** two waiting, room for one: the first boards *)
Definition ex_line (mbd : Z) : tw :=
  let w0 := set_bus 100 (ex_bus mbd) ex_w in
  let w1 := set_at (PDone 2) [1; 2] (set_at (PBus 100) [3] w0) in
  let nx x := set_nxt (Some x) (new_pas 0 false 20) in
  let w2 := set_stop 10 {| s_route := 7; s_in := Some 6; s_out := Some 3; s_board := Some 2; s_alight := Some 4; s_count := 0; s_queue := [100] |} w1 in
  set_pas 3 (set_cur (Some 6) (nx 3)) (set_pas 1 (nx 3) (set_pas 2 (nx 3) w2)).
Example C147_example :
  exists w', board_and_alight ex_net (fun l => l) 100 10 (ex_line 5) = Ok w' /\ w_at w' (PDone 2) = [2] /\ w_at w' (PBus 100) = [3; 1].
Proof. eexists. split; [vm_compute; reflexivity|]. split; vm_compute; reflexivity. Qed.

(** ** C148: when a bus leaves *)
Theorem C148_bus_leaves_only_when_done n f b s w w' :
  hold_bus n f b s w = Ok (false, w') ->
  (b_stopped (w_bus w b) = 0 /\ s_count (w_stop w s) < f - 1) \/
  ((forall p, In p (w_at w (PBus b)) -> ~ gets_off n w s p) /\
   (b_cap (w_bus w b) * f <= Z.of_nat (length (w_at w (PBus b))) \/
    forall bl p, s_board (w_stop w s) = Some bl -> In p (w_at w (PDone bl)) -> ~ waits_for n w (b_route (w_bus w b)) p) /\
   (b_dwell (w_bus w b) <= b_stopped (w_bus w b) \/
    (b_stopped (w_bus w b) = 0 /\ b_cap (w_bus w b) * f = Z.of_nat (length (w_at w (PBus b)))))).
Proof. apply hold_leaves. Qed.
Print Assumptions C148_bus_leaves_only_when_done.
(** without scaling nobody who wants to get off or on is left unless the bus is full *)
Theorem C148_unscaled n b s w w' bl p :
  hold_bus n 1 b s w = Ok (false, w') -> 0 <= s_count (w_stop w s) -> s_board (w_stop w s) = Some bl ->
  (In p (w_at w (PBus b)) -> ~ gets_off n w s p) /\
  (In p (w_at w (PDone bl)) -> waits_for n w (b_route (w_bus w b)) p -> b_cap (w_bus w b) <= Z.of_nat (length (w_at w (PBus b)))).
Proof.
  intros H C B. destruct (hold_leaves n 1 b s w w' H) as [[_ X]|(A1 & [A2|A2] & _)]; [lia| |]; (split; [apply A1|]).
  - intros _ _. lia.
  - intros I W. exfalso. eapply A2; eauto.
Qed.
Print Assumptions C148_unscaled.
Example C148_example :
  exists w', hold_bus ex_net 1 100 10 (set_at (PDone 2) [] (set_bus 100 (set_stopped 1 (ex_bus 1)) (set_stop 10 (set_count 1 (w_stop (ex_line 1) 10)) (ex_line 1))))
    = Ok (false, w').
Proof. eexists. vm_compute. reflexivity. Qed.

(** ** C149: how long a bus stays *)
Theorem C149_stays_bounded n f sh b s w bl :
  shuffle sh -> (k_fs n == inject_Z f)%Q -> 1 <= f -> orderly n f b s w -> s_board (w_stop w s) = Some bl ->
  1 <= b_mal (w_bus w b) -> 1 <= b_mbd (w_bus w b) ->
  exists k w1 w2, stays n f sh b s k w w1 /\ at_stop n f sh b s w1 = Ok (false, w2) /\
    Z.of_nat k <= Z.max (b_dwell (w_bus w b)) (Z.max (b_lost (w_bus w b)) 0) +
                  Z.of_nat (length (w_at w (PBus b))) + Z.of_nat (length (w_at w (PDone bl))).
Proof.
  intros Sh Sc F O Hb M1 M2.
  assert (0 <= b_stopped (w_bus w b)) as S0 by apply O.
  assert (Of : offs n w b s <= Z.of_nat (length (w_at w (PBus b)))).
  { unfold offs. apply Nat2Z.inj_le. clear. induction (w_at w (PBus b)); cbn; [lia|]. destruct (gets_offb _ _ _ _); cbn; lia. }
  destruct (leaves_in n f sh b s bl Sh Sc F (Z.to_nat (measure n w b s bl)) w O Hb M1 M2) as (k & w1 & w2 & K & St & A).
  - unfold measure, offs. lia.
  - exists k, w1, w2. split; [exact St|]. split; [exact A|]. unfold measure, offs in *. lia.
Qed.
Print Assumptions C149_stays_bounded.
Theorem C149_slow_boarding_refuted n f sh b s w bl unit seconds :
  shuffle sh -> (k_fs n == inject_Z f)%Q -> 1 <= f -> orderly n f b s w -> s_board (w_stop w s) = Some bl ->
  0 <= unit -> 2 * unit < seconds -> b_mbd (w_bus w b) = per_interval unit seconds ->
  (forall p, In p (w_at w (PBus b)) -> ~ gets_off n w s p) -> w_at w (PDone bl) <> [] ->
  Z.of_nat (length (w_at w (PBus b))) < b_cap (w_bus w b) * f ->
  forall k, exists w', stays n f sh b s k w w' /\ w_at w' (PDone bl) = w_at w (PDone bl).
Proof.
  intros Sh Sc F O Hb U1 U2 M Off Ne Cap k. rewrite (per_interval_zero unit seconds U1 U2) in M.
  apply (held_for_ever n f sh b s bl Sh Sc F k w O Hb); auto; [lia|].
  unfold offs. replace (filter (gets_offb n w (w_stop w s)) (w_at w (PBus b))) with (@nil Z); [reflexivity|].
  clear -Off. induction (w_at w (PBus b)) as [|p l IH]; [reflexivity|]. cbn [filter].
  destruct (gets_offb n w (w_stop w s) p) eqn:E.
  - exfalso. apply (Off p); [now left|]. now apply gets_offb_spec.
  - apply IH. intros q I. apply Off. now right.
Qed.
Print Assumptions C149_slow_boarding_refuted.
Lemma ex_orderly mbd : orderly ex_net 1 100 10 (ex_line mbd).
Proof.
  unfold orderly. repeat (split; [cbn; try lia; auto; try discriminate|]).
  exists 6, 3, 2, 4. repeat (split; [reflexivity || discriminate|]). split.
  - intros p [<-|[]]. right. reflexivity.
  - intros p [<-|[<-|[]]]; reflexivity.
Qed.
Example C149_example :
  orderly ex_net 1 100 10 (ex_line 1) /\ per_interval 5 20 = 0 /\ orderly ex_net 1 100 10 (ex_line (per_interval 5 20)) /\
  (forall p, In p (w_at (ex_line 0) (PBus 100)) -> ~ gets_off ex_net (ex_line 0) 10 p).
Proof.
  split; [apply ex_orderly|]. split; [reflexivity|]. split; [apply ex_orderly|].
  intros p [<-|[]] (x & N & A & _). cbn in N, A. congruence.
Qed.

(** ** C150: how long a walk takes *)
Theorem C150_walking_time l stamp p v k w w' :
  0 <= v -> (forall q, once (w_at w) q \/ nowhere (w_at w) q) -> In p (w_at w (PIn l)) -> p_wait (w_pas w p) = Some v ->
  walks l stamp p k w w' ->
  (Z.of_nat k < v + Z.max 1 stamp -> ~ In p (w_at w' (PDone l)) /\ (In p (w_at w' (PIn l)) \/ In p (w_at w' (PWay l)))) /\
  (Z.of_nat k = v + Z.max 1 stamp -> In p (w_at w' (PDone l))).
Proof.
  intros V S I W H. split; intros K; assert (X := walks_inv l stamp p v k w w' V S I W H ltac:(lia)).
  - destruct (Z.of_nat k <=? v).
    + destruct X as (A & B & C & _). split; [now apply cnt_none|]. left. apply cnt_pos. lia.
    + replace (Z.of_nat k <? v + Z.max 1 stamp) with true in X by lia. destruct X as (A & B & C & _).
      split; [now apply cnt_none|]. right. apply cnt_pos. lia.
  - replace (Z.of_nat k <=? v) with false in X by lia. replace (Z.of_nat k <? v + Z.max 1 stamp) with false in X by lia.
    destruct X as (A & B & C). apply cnt_pos. lia.
Qed.
Print Assumptions C150_walking_time.
(** the waiting time of a passenger who starts at an origin is never set *)
Theorem C150_first_walk_refuted n y o l t d outs :
  w_at (y_w y) (POrg o) = [] -> w_at (y_w y) (PIn l) = [] -> is_walk (k_kind n l) = true -> In l outs ->
  run_events n y [ENew (POrg o) t false d; ENext (y_num y + 1) (Some l); EOrigin outs o; EClearWalk l] = Err EUB.
Proof.
  intros E1 E2 K I. apply memb_In in I. unfold run_events. cbn [foldM step guard bind lift y_w y_num y_gone].
  set (p := y_num y + 1). set (w1 := set_pas p _ (push _ _ _)).
  assert (Ao : w_at w1 (POrg o) = [p]) by (unfold w1, push; rewrite pas_at, at_same, pas_at, E1; reflexivity).
  assert (Ai : w_at w1 (PIn l) = []) by (unfold w1, push; rewrite pas_at, at_other, pas_at by discriminate; exact E2).
  assert (Ap : p_next (w_pas w1 p) = Some l /\ p_wait (w_pas w1 p) = None).
  { unfold w1. cbn [w_pas set_pas push set_at set_places]. rewrite !upd_same. auto. }
  clearbody w1. destruct Ap as [An Aw].
  unfold origin_evolve. rewrite Ao. cbn [foldM]. unfold leave_origin. rewrite An, K, I. cbn [andb guard bind lift y_w].
  set (w2 := count_in l _).
  assert (Bi : w_at w2 (PIn l) = [p]).
  { unfold w2, push. rewrite cin_at, at_same, onto_at. unfold pop. rewrite at_other by discriminate. rewrite Ai. reflexivity. }
  assert (Bp : p_cur (w_pas w2 p) = Some l /\ p_wait (w_pas w2 p) = None).
  { unfold w2, onto. cbn [w_pas count_in set_pas push pop set_at set_places]. rewrite upd_same. auto. }
  clearbody w2. destruct Bp as [Bc Bw].
  unfold clear_walk. rewrite Bi. cbn [foldM]. unfold enter_walk. rewrite Bc, Bw. cbn [is_link]. rewrite Z.eqb_refl. reflexivity.
Qed.
Print Assumptions C150_first_walk_refuted.
Definition ex_walker : tw := set_at (PIn 1) [1] (set_pas 1 (set_wait 0 (set_cur (Some 1) (new_pas 0 true 20))) ex_w).
Example C150_example :
  (exists w', walks 1 2 1 1 ex_walker w' /\ w_at w' (PWay 1) = [1]) /\
  run_events ex_net ex_sys [ENew (POrg 8) 0 false 20; ENext 1 (Some 1); EOrigin [1] 8; EClearWalk 1] = Err EUB.
Proof.
  split; [|vm_compute; reflexivity].
  assert (exists w3, clear_walk 1 ex_walker = Ok w3 /\ w_at (evolve_link 1 2 (fun l => l) w3) (PWay 1) = [1]) as (w3 & C & E).
  { eexists. split; vm_compute; reflexivity. }
  exists (evolve_link 1 2 (fun l => l) w3). split; [|exact E].
  apply (walks_S 1 2 1 0 ex_walker ex_walker ex_walker w3 (fun l => l)); [constructor| |exact C|intros l; apply Permutation_refl].
  split; [|repeat split]. intros q. unfold ex_walker. destruct (Z.eq_dec q 1) as [->|Nq].
  - left. exists (PIn 1). split; [reflexivity|]. intros y Hy. rewrite at_other by auto. intros [].
  - right. intros x. rewrite at_set. destruct (place_eqb x (PIn 1)); [|intros []]. intros [?|[]]. auto.
Qed.

(** ** C151: waiting times of implicit buses *)
(** a passenger who comes to a stop with any historical waiting time is on the bus link in
    the same interval, while the time reported for boarding contains that waiting time *)
Definition ex_wait : sys :=
  {| y_w := set_at (PDone 1) [1] (set_pas 1 (set_nxt (Some 2) (set_cur (Some 1) (new_pas 0 true 20))) ex_w); y_num := 1; y_gone := [] |}.
Theorem C151_implicit_waiting_refuted max hist fftt unit :
  (0 < hist)%Z -> (0 < unit)%Q -> (0 <= fftt)%Q ->
  (exists y, run_events ex_net ex_wait
     [EPhysical [1] [] [2]; EClearWalk 2; EEvolve 2 (walk_stamp Boarding max hist) (fun l => l); ENext 1 (Some 3); EVirtual 10] = Ok y /\
     w_at (y_w y) (PIn 3) = [1] /\ w_at (y_w y) (PDone 2) = []) /\
  (inject_Z hist * unit <= walk_tt Boarding fftt (inject_Z hist) unit)%Q /\ (0 < walk_tt Boarding fftt (inject_Z hist) unit)%Q.
Proof.
  intros H1 H2 H3. split.
  - eexists. split; [vm_compute; reflexivity|]. split; vm_compute; reflexivity.
  - assert (0 < inject_Z hist)%Q by (change 0%Q with (inject_Z 0); rewrite <- Zlt_Qlt; exact H1).
    assert (0 < inject_Z hist * unit)%Q by (apply Qmult_lt_0_compat; auto). cbn [walk_tt is_boarding]. split; lra.
Qed.
Print Assumptions C151_implicit_waiting_refuted.

(** ** C152: riders who stay aboard *)
Theorem C152_riders_not_delayed_partial n st il w w' :
  implicit_off n st il 0 (w_at w (PDone il)) w = Ok w' ->
  Z.of_nat (length (filter (fun p => match p_next (w_pas w p) with Some x => is_walk (k_kind n x) | None => false end) (w_at w (PDone il))))
    <= k_mal n * trunc (k_fs n) ->
  w_at w' (PDone il) = [].
Proof. intros H L. apply (implicit_off_all n st il (w_at w (PDone il)) 0 w w' eq_refl H). rewrite Z.add_0_l. exact L. Qed.
Print Assumptions C152_riders_not_delayed_partial.
(** two get off where one may per interval: passenger 3, who stays aboard, is kept back *)
Definition ex_riders : tw :=
  let nx x := set_nxt (Some x) (set_cur (Some 6) (new_pas 0 true 20)) in
  let w0 := set_stop 11 {| s_route := 7; s_in := Some 6; s_out := Some 3; s_board := None; s_alight := Some 4; s_count := 0; s_queue := [] |} ex_w in
  set_at (PDone 6) [1; 2; 3] (set_pas 1 (nx 4) (set_pas 2 (nx 4) (set_pas 3 (nx 3) w0))).
Theorem C152_riders_refuted :
  exists n s w w' p x, In p (w_at w (PDone x)) /\ s_in (w_stop w s) = Some x /\ p_next (w_pas w p) = s_out (w_stop w s) /\
    virtual_evolve n s w = Ok w' /\ In p (w_at w' (PDone x)).
Proof.
  assert (H : match virtual_evolve ex_net 11 ex_riders with Ok w' => In 3 (w_at w' (PDone 6)) | Err _ => False end) by (vm_compute; auto).
  destruct (virtual_evolve ex_net 11 ex_riders) as [w'|] eqn:E; [|contradiction].
  exists ex_net, 11, ex_riders, w', 3, 6. split; [cbn; auto|]. split; [reflexivity|]. split; [reflexivity|]. split; [exact E|exact H].
Qed.
Print Assumptions C152_riders_refuted.
Example C152_example :
  match implicit_off ex_net (w_stop ex_riders 11) 6 0 [2; 3] (set_at (PDone 6) [2; 3] ex_riders) with
  | Ok w' => w_at w' (PDone 6) = [] /\ w_at w' (PIn 3) = [3] /\ w_at w' (PDone 4) = [2]
  | Err _ => False
  end.
Proof. vm_compute. auto. Qed.

(** ** C161: order in the cells of a link with stops *)
Theorem C161_cell_order n f sh rt stops c from num w q moved w' :
  cell_drive n f sh rt stops c num from w = Ok (q, moved, w') ->
  interleaved from q moved /\ Z.of_nat (length moved) <= Z.max 0 num.
Proof. apply cell_drive_order. Qed.
Print Assumptions C161_cell_order.
(** a bus at its stop is passed by a car *)
Definition ex_cell : tw := set_bus 200 {| b_cap := 0; b_route := -1; b_dwell := 0; b_lost := 0; b_mal := 0; b_mbd := 0; b_stopped := 0 |} (ex_line 1).
Example C161_example :
  match cell_drive ex_net 1 (fun l => l) (fun _ => None) [(10, 1)] 1 1 [100; 200] ex_cell with
  | Ok (q, moved, _) => q = [100] /\ moved = [200] | Err _ => False
  end.
Proof. vm_compute. auto. Qed.

(** ** C162: stops in a jam *)
(** in a cell that lets no vehicle out nobody boards, for however long; with room for one
    vehicle a passenger boards at once *)
Fixpoint jammed (k : nat) (from : list Z) (w : tw) : res (list Z * tw) :=
  match k with
  | O => Ok (from, w)
  | S k' => do (q, _, w1) <- cell_drive ex_net 1 (fun l => l) (fun _ => None) [(10, 1)] 1 0 from w; jammed k' q w1
  end.
Theorem C162_service_in_jam_refuted :
  (forall k, exists w', jammed k [100] (ex_line 1) = Ok ([100], w') /\ w_at w' (PDone 2) = [1; 2] /\ b_stopped (w_bus w' 100) = 0) /\
  (exists w', cell_drive ex_net 1 (fun l => l) (fun _ => None) [(10, 1)] 1 1 [100] (ex_line 1) = Ok ([100], [], w') /\ w_at w' (PDone 2) = [2]).
Proof.
  split.
  - intros k. exists (ex_line 1). split; [|split; reflexivity]. induction k; [reflexivity|]. cbn [jammed]. exact IHk.
  - assert (H : match cell_drive ex_net 1 (fun l => l) (fun _ => None) [(10, 1)] 1 1 [100] (ex_line 1) with
                | Ok (q, moved, w') => q = [100] /\ moved = [] /\ w_at w' (PDone 2) = [2] | Err _ => False end) by (vm_compute; auto).
    destruct (cell_drive _ _ _ _ _ _ _ _ _) as [[[q moved] w']|]; [|contradiction]. destruct H as (-> & -> & H).
    exists w'. split; [reflexivity|exact H].
Qed.
Print Assumptions C162_service_in_jam_refuted.
