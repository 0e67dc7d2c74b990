(** C184-C195: modes of travel in the multimodal equilibrium. *)
From Verif Require Import Base Base_lemmas Model_Num Model_SP Model_Node Model_Split Spec_Split Proof_Split Proof_Split2 Proof_Split3 Proof_Split4.
Local Open Scope Q_scope.

(** C184: the shares computed for a table of costs are one for each mode, not negative, add
    up to one; a mode of infinite cost gets nothing; of two modes the one with the smaller
    alpha + beta * cost does not get less.  With an exp that stays positive there is an
    answer as soon as one cost is finite. *)
Theorem C184_shares : forall ex cost alpha beta l, exp_like ex -> NoDup (map fst cost) -> logit_fn ex cost alpha beta = Ok l ->
  map fst l = map fst cost /\ (forall m s, gets l m s -> 0 <= s) /\ sumQ (map snd l) == 1 /\
  (forall m s, In (m, None) cost -> gets l m s -> s == 0) /\
  (forall m1 m2 c1 c2 s1 s2, In (m1, Some c1) cost -> In (m2, Some c2) cost -> gets l m1 s1 -> gets l m2 s2 ->
     alpha m1 + beta * c1 <= alpha m2 + beta * c2 -> s2 <= s1).
Proof.
  intros ex cost alpha beta l P N H. destruct (logit_facts _ _ _ _ _ P H) as (A & B & C). split; [exact A|]. split; [exact B|]. split; [exact C|]. split.
  - intros m s I G. eapply logit_infinite; eassumption.
  - intros m1 m2 c1 c2 s1 s2. intros. eapply (logit_order ex cost alpha beta l m1 m2 c1 c2); eassumption.
Qed.
Print Assumptions C184_shares.
Theorem C184_answers : forall ex cost alpha beta m c, (forall x, 0 < ex x) -> In (m, Some c) cost -> exists l, logit_fn ex cost alpha beta = Ok l.
Proof. exact logit_answers. Qed.
Print Assumptions C184_answers.
Definition ex_exp (x : Q) : Q := if Qle_bool (-2) x then 4 else if Qle_bool (-5) x then 1 else 0.
Lemma qle_comp a x y : x <= y -> Qle_bool a x = true -> Qle_bool a y = true.
Proof. intros L H. apply Qle_bool_iff in H. apply Qle_bool_iff. lra. Qed.
Example ex_exp_like : exp_like ex_exp.
Proof.
  assert (M : forall x y, x <= y -> ex_exp x <= ex_exp y).
  { intros x y L. unfold ex_exp. destruct (Qle_bool (-2) x) eqn:A; [rewrite (qle_comp _ _ _ L A); lra|]. destruct (Qle_bool (-5) x) eqn:B; [rewrite (qle_comp _ _ _ L B); destruct (Qle_bool (-2) y); lra|]. destruct (Qle_bool (-2) y); [lra|]. destruct (Qle_bool (-5) y); lra. }
  split; [|split].
  - intros x. unfold ex_exp. destruct (Qle_bool (-2) x); [lra|]. destruct (Qle_bool (-5) x); lra.
  - exact M.
  - intros x y E. apply Qle_antisym; apply M; lra.
Qed.
Example C184_case : logit_fn ex_exp [(Driving, Some 1); (Transit, None); (Pnr, Some 3)] (fun _ => 1) 1 = Ok [(Driving, 4 / 5); (Transit, 0 / 5); (Pnr, 1 / 5)] /\
  NoDup (map fst [(Driving, Some 1); (Transit, None); (Pnr, Some 3)]).
Proof. split; [reflexivity|]. repeat constructor; cbn; intuition congruence. Qed.

(** C185 (refuted): "there are shares whenever a mode has a finite cost".  exp underflows:
    whatever the threshold below which it gives 0, for all alphas and all positive beta
    there are finite costs at which the assertion fails; the same with no mode or no
    finite cost. *)
Theorem C185_refuted : forall ex T alpha beta modes, (forall x, x < T -> ex x == 0) -> 0 < beta ->
  (exists cost : list (mode * ext), map fst cost = modes /\ (forall m c, In (m, c) cost -> exists x, c = Some x) /\ logit_fn ex cost alpha beta = Err EAssert) /\
  logit_fn ex (map (fun m => (m, None)) modes) alpha beta = Err EAssert.
Proof.
  intros ex T alpha beta modes U B. split.
  - exists (map (fun m => (m, Some ((1 - T - alpha m) / beta))) modes). split; [rewrite map_map; apply map_id|]. split.
    + intros m c I. apply in_map_iff in I. destruct I as (m' & E & _). injection E as _ <-. eauto.
    + apply logit_zero. intros m c I. apply in_map_iff in I. destruct I as (m' & E & _). injection E as -> <-. apply U.
      setoid_replace (- (alpha m + beta * ((1 - T - alpha m) / beta))) with (T - 1) by (field; lra). lra.
  - apply logit_zero. intros m c I. apply in_map_iff in I. destruct I as (m' & E & _). discriminate.
Qed.
Print Assumptions C185_refuted.
Example C185_case : (forall x, x < -5 -> ex_exp x == 0) /\ logit_fn ex_exp [(Driving, Some 9); (Transit, Some 8)] (fun _ => 1) 1 = Err EAssert.
Proof.
  split; [|reflexivity]. intros x H. unfold ex_exp. destruct (Qle_bool (-2) x) eqn:A; [apply Qle_bool_iff in A; lra|]. destruct (Qle_bool (-5) x) eqn:B; [apply Qle_bool_iff in B; lra|]. reflexivity.
Qed.

(** C186: the demand of an assignment interval is divided over its minutes without loss:
    in one lump in the first minute (setting 0), or evenly over the first [k] minutes
    (setting 1), where [k] is the largest number of minutes for which every minute still
    releases a whole unit; all minutes if there is no such number. *)
Theorem C186_minutes : forall cf d, (0 < sc_minutes cf)%nat -> (sc_split cf = 0 \/ sc_split cf = 1)%Z ->
  exists slots left, spread cf d = Ok (slots, left) /\ length slots = sc_minutes cf /\ sumQ slots == d /\ (0 <= d -> forall x, In x slots -> 0 <= x) /\
  (sc_split cf = 0%Z -> slots = d :: repeat 0 (sc_minutes cf - 1)) /\
  (sc_split cf = 1%Z -> exists k e, (1 <= k <= sc_minutes cf)%nat /\ slots = repeat e k ++ repeat 0 (sc_minutes cf - k) /\
     (0 < sc_scalar cf -> 0 <= d ->
        (1 <= d * sc_scalar cf -> 1 <= e * sc_scalar cf /\ forall j, (k < j <= sc_minutes cf)%nat -> d / inject_Z (Z.of_nat j) * sc_scalar cf < 1) /\
        (d * sc_scalar cf < 1 -> k = sc_minutes cf))).
Proof.
  intros cf d N S0. destruct (spread_ok cf d N S0) as (slots & left & E & L & S1 & P). exists slots, left. split; [exact E|]. split; [exact L|]. split; [exact S1|]. split; [intros D; now apply P|]. split.
  - intros Z0. unfold spread in E. rewrite Z0 in E. cbn in E. now injection E as <- <-.
  - intros Z1. destruct (spread_one cf d slots left N Z1 E) as (k & K & Es & El & Ek). exists k, left. split; [exact K|]. split; [exact Es|]. intros SP D. split.
    + intros F. destruct (most_best (sc_scalar cf) d (sc_minutes cf) (sc_minutes cf)) as (A & _ & B).
      { exists 1%nat. split; [lia|]. unfold fits. change (inject_Z (Z.of_nat 1)) with 1. setoid_replace (d / 1) with d by field. exact F. }
      rewrite <- Ek in A, B. split; [rewrite El; exact A|]. intros j J. apply Qnot_le_lt. intros C. now apply (B j J).
    + intros F. rewrite Ek. apply most_none. intros j J C. unfold fits in C. assert (PJ : 1 <= inject_Z (Z.of_nat j)) by (change 1 with (inject_Z 1); rewrite <- Zle_Qle; lia).
      assert (d / inject_Z (Z.of_nat j) <= d) by (apply Qle_shift_div_r; [lra|nra]). nra.
Qed.
Print Assumptions C186_minutes.
(** C186: any other way to split stops with an exception. *)
Theorem C186_other_splits_stop : forall cf d, sc_split cf <> 0%Z -> sc_split cf <> 1%Z -> spread cf d = Err EThrow.
Proof. intros cf d A B. unfold spread. now rewrite (proj2 (Z.eqb_neq _ _) A), (proj2 (Z.eqb_neq _ _) B). Qed.
Print Assumptions C186_other_splits_stop.
Definition ex_conf (split : Z) (ms : mode -> bool) : sconf := SC ms split 2 15 2 ex_exp (fun _ => 1) 1.
Example C186_case : (exists s, spread (ex_conf 1 (fun _ => true)) 3 = Ok s /\ fst s = repeat (3 / 6) 6 ++ repeat 0 9) /\ (exists s, spread (ex_conf 0 (fun _ => true)) 3 = Ok s /\ fst s = 3 :: repeat 0 14) /\
  (exists s, spread (ex_conf 1 (fun _ => true)) (1 # 4) = Ok s /\ fst s = repeat ((1 # 4) / 15) 15).
Proof. split; [|split]; eexists; split; reflexivity. Qed.

Lemma forall2_impl {A B} (P P' : A -> B -> Prop) l l' : (forall a b, P a b -> P' a b) -> Forall2 P l l' -> Forall2 P' l l'.
Proof. intros H F. induction F; constructor; auto. Qed.

(** C187 (refuted): "the travellers released for an OD pair in an interval are its passenger
    demand".  Where transit is not usable but the pair has a transit demand from the input
    file, the minutes of transit are not cleared: they get the demand per minute of the mode
    treated before. *)
Definition ex_pair : opair := OP (fun _ => 30) (fun m => Some (match m with Driving => true | _ => false end)) (fun _ => Some 1) (fun m => match m with Transit => Some (fun _ => 5) | _ => None end).
Theorem C187_refuted : exists cf p p' tot', exp_like (sc_exp cf) /\ usable cf p Driving /\ ~ usable cf p Transit /\
  logit_demand cf 0 (fun _ => 0) [p] = Ok ([p'], tot') /\ op_total p 0%nat == 30 /\ released 15 0 p' == 60.
Proof.
  exists (ex_conf 1 (fun _ => true)), ex_pair. do 2 eexists. split; [exact ex_exp_like|]. split; [split; reflexivity|]. split; [intros [_ C]; discriminate|]. split; [vm_compute; reflexivity|]. split; [reflexivity|]. vm_compute. reflexivity.
Qed.
Print Assumptions C187_refuted.
(** what holds: pairs where transit is usable, or that have no transit demand, release exactly
    their passengers, nothing negative; other intervals keep their demand; the reported totals
    of the modes grow by the demand of all pairs. *)
Theorem C187_partial : forall cf inter tot ps ps' tot', exp_like (sc_exp cf) -> (sc_split cf = 0 \/ sc_split cf = 1)%Z ->
  logit_demand cf inter tot ps = Ok (ps', tot') ->
  Forall2 (fun p p' =>
    (usable cf p Transit \/ op_dem p Transit = None ->
       released (sc_minutes cf) inter p' == op_total p inter /\
       (forall m, ~ usable cf p m -> in_interval (sc_minutes cf) inter p' m == 0) /\
       (0 <= op_total p inter -> forall m i, minute_of (sc_minutes cf) inter i -> 0 <= in_minute p' m i)) /\
    (forall m i, ~ minute_of (sc_minutes cf) inter i -> in_minute p' m i = in_minute p m i)) ps ps' /\
  tot' Driving + tot' Transit + tot' Pnr == tot Driving + tot Transit + tot Pnr + sumQ (map (fun p => op_total p inter) ps).
Proof.
  intros cf inter tot ps ps' tot' P S0 H. apply logit_demand_ok in H; try assumption. destruct H as (_ & F & T). split; [|exact T].
  eapply forall2_impl; [|exact F]. intros p p' (t & t' & D). split; [|exact (pd_frame _ _ _ _ _ _ D)].
  intros HT. destruct (pd_share _ _ _ _ _ _ D) as (sh & _ & SN & S1 & I & _). split; [|split].
  - unfold released. rewrite !(fun m => proj1 (I m (or_intror HT))).
    setoid_replace (sh Driving * op_total p inter + sh Transit * op_total p inter + sh Pnr * op_total p inter) with ((sh Driving + sh Transit + sh Pnr) * op_total p inter) by ring. rewrite S1. ring.
  - intros m Hm. rewrite (proj1 (I m (or_intror HT))), (SN m Hm). ring.
  - intros D0 m. exact (proj2 (I m (or_intror HT)) D0).
Qed.
Print Assumptions C187_partial.
(** and the excess otherwise: at least the demand once more where only driving is usable *)
Theorem C187_excess_partial : forall cf inter tot ps ps' tot', exp_like (sc_exp cf) -> (sc_split cf = 0 \/ sc_split cf = 1)%Z ->
  logit_demand cf inter tot ps = Ok (ps', tot') ->
  Forall2 (fun p p' => ~ usable cf p Transit -> op_dem p Transit <> None -> 0 <= op_total p inter ->
    in_interval (sc_minutes cf) inter p' Driving + in_interval (sc_minutes cf) inter p' Pnr == op_total p inter /\
    (~ usable cf p Pnr -> op_total p inter <= in_interval (sc_minutes cf) inter p' Transit) /\
    (usable cf p Pnr -> in_interval (sc_minutes cf) inter p' Pnr <= in_interval (sc_minutes cf) inter p' Transit)) ps ps'.
Proof.
  intros cf inter tot ps ps' tot' P S0 H. apply logit_demand_ok in H; try assumption. destruct H as (_ & F & T).
  eapply forall2_impl; [|exact F]. intros p p' (t & t' & D) NT V D0. destruct (pd_share _ _ _ _ _ _ D) as (sh & _ & SN & S1 & I & _ & X).
  destruct (X NT V) as (q & Iq & X1 & X2). assert (N1 : Driving <> Transit) by discriminate. assert (N2 : Pnr <> Transit) by discriminate. assert (ID := proj1 (I Driving (or_introl N1))). assert (IP := proj1 (I Pnr (or_introl N2))).
  split; [|split].
  - rewrite ID, IP. rewrite (SN _ NT) in S1. setoid_replace (sh Driving * op_total p inter + sh Pnr * op_total p inter) with ((sh Driving + 0 + sh Pnr) * op_total p inter) by ring. rewrite S1. ring.
  - intros NP. rewrite Iq. now apply X1.
  - intros UP. rewrite IP, Iq. now apply X2.
Qed.
Print Assumptions C187_excess_partial.
(** C187: an interval after the last one is never updated. *)
Theorem C187_last_interval_partial : forall cf inter tot ps, (sc_total cf <= inter)%nat -> forall r, logit_demand cf inter tot ps <> Ok r.
Proof.
  intros cf inter tot ps L r H. unfold logit_demand in H. apply bind_ok in H as (u & _ & H). apply bind_ok in H as (v & H & _).
  destruct (Nat.ltb_spec inter (sc_total cf)); [lia|discriminate].
Qed.
Print Assumptions C187_last_interval_partial.
Definition ex_pair2 : opair := OP (fun c => match c with O => 40 | _ => 7 end) (fun m => Some (match m with Pnr => false | _ => true end)) (fun m => match m with Driving => Some 1 | _ => Some 3 end) (fun m => match m with Driving => Some (fun _ => 5) | _ => None end).
Example C187_case : match logit_demand (ex_conf 1 (fun _ => true)) 0 (fun _ => 0) [ex_pair2; ex_pair] with
  | Ok ([p; q], t) => in_interval 15 0 p Driving == 32 /\ in_interval 15 0 p Transit == 8 /\ in_interval 15 1 p Driving == 75 /\ t Driving == 62 /\ t Transit == 8 /\ in_interval 15 0 q Transit == 30
  | _ => False end.
Proof. vm_compute. repeat split; reflexivity. Qed.

(** C188: the first path flows of an OD pair add up to its demand in every interval: each mode
    gets the same part, all of it on its first path; the built-in check passes. *)
Theorem C188_first_flows : forall total demand modes, modes <> [] -> (forall ps, In ps modes -> ps <> []) ->
  exists out, init_flow total demand modes = Ok out /\ length out = length modes /\
    (forall c, (c < total)%nat -> flow (concat out) c == demand c) /\
    (forall i ps ps' c, nth_error modes i = Some ps -> nth_error out i = Some ps' -> (c < total)%nat ->
       length ps' = length ps /\ flow ps' c == demand c / inject_Z (Z.of_nat (length modes)) /\ forall p, In p (tl ps') -> mp_flow p c = 0).
Proof. exact init_flow_ok. Qed.
Print Assumptions C188_first_flows.
Theorem C188_nothing : forall total demand modes, modes = [] \/ In [] modes -> init_flow total demand modes = Err EThrow.
Proof.
  intros total demand modes [->|I]; [reflexivity|]. unfold init_flow. destruct modes as [|x modes]; [destruct I|]. cbn [length Nat.eqb negb guard bind].
  set (f := fun ps : list mpath => _). replace (mapM f (x :: modes)) with (Err EThrow : res (list (list mpath))); [reflexivity|]. symmetry. revert I. generalize (x :: modes). unfold f. clear.
  induction l as [|a l IH]; intros I; [destruct I|]. cbn [mapM]. destruct a as [|p a]; [reflexivity|]. cbn [length Nat.eqb negb guard bind]. destruct I as [E|I]; [discriminate|]. now rewrite (IH I).
Qed.
Print Assumptions C188_nothing.
Definition ex_path (q : Q) (ds : list Q) : mpath := MP (fun _ => q) ds 1.
Example C188_case : match init_flow 1 (fun _ => 8) [[ex_path 1 []; ex_path 1 []]; [ex_path 1 []]] with
  | Ok [[a; b]; [c]] => mp_flow a 0 == 4 /\ mp_flow b 0 == 0 /\ mp_flow c 0 == 4 | _ => False end.
Proof. vm_compute. repeat split; reflexivity. Qed.

(** C189: after the demand has been set from the path flows, the minutes of every interval of
    every usable mode add up to the travellers of its paths divided by the people in a car. *)
Theorem C189_from_flows : forall cf paths p, sc_minutes cf = 15%nat -> (sc_split cf = 0 \/ sc_split cf = 1)%Z ->
  (forall m, sc_modes cf m = true -> op_conn p m <> None) -> (forall m, usable cf p m -> paths m <> None) ->
  exists p', table_demand cf paths p = Ok p' /\
    forall m ps c, usable cf p m -> paths m = Some ps -> (c < sc_total cf)%nat ->
      in_interval 15 c p' m == sumQ (map (fun q => mp_flow q c / inject_Z (mp_people q)) ps) /\
      ((forall q, In q ps -> 0 <= mp_flow q c /\ (1 <= mp_people q)%Z) -> forall i, minute_of 15 c i -> 0 <= in_minute p' m i).
Proof.
  intros cf paths p N S0 HC HP. destruct (table_demand_ok cf paths p N S0 HC HP) as (p' & E & _ & _ & _ & H). exists p'. split; [exact E|].
  intros m ps c U Ep C. destruct (H m U ps c Ep C) as (A & B). rewrite N in A, B. split; [exact A|]. intros Q0. apply B. unfold vehicles. apply sum_nonneg. intros x I. apply in_map_iff in I. destruct I as (q & <- & I).
  destruct (Q0 q I) as (Q1 & Q2). assert (0 < inject_Z (mp_people q)) by (change 0 with (inject_Z 0); rewrite <- Zlt_Qlt; lia). apply Qle_shift_div_l; [assumption|lra].
Qed.
Print Assumptions C189_from_flows.
Definition ex_paths (m : mode) : option (list mpath) := match m with Driving => Some [MP (fun c => match c with O => 6 | _ => 4 end) [] 2; ex_path 1 []] | Transit => Some [] | Pnr => Some [ex_path 2 []] end.
Example C189_case : match table_demand (ex_conf 0 (fun _ => true)) ex_paths ex_pair2 with
  | Ok p => in_interval 15 0 p Driving == 4 /\ in_interval 15 1 p Driving == 3 /\ in_interval 15 0 p Transit == 0 /\ in_interval 15 0 p Pnr == 0 | _ => False end.
Proof. vm_compute. repeat split; reflexivity. Qed.
(** C190 (refuted): "and modes that are not usable have no demand".  Their demand of the input
    file stays: with driving switched off in the settings the cars of the file are released. *)
Theorem C190_refuted : exists cf paths p p', sc_modes cf Driving = false /\ ~ usable cf p Driving /\ table_demand cf paths p = Ok p' /\ in_interval 15 0 p' Driving == 75.
Proof.
  exists (ex_conf 0 (fun m => match m with Driving => false | _ => true end)), ex_paths, ex_pair2. eexists. split; [reflexivity|]. split; [intros [C _]; discriminate|]. split; [reflexivity|]. vm_compute. reflexivity.
Qed.
Print Assumptions C190_refuted.
Theorem C190_partial : forall cf paths p p', sc_minutes cf = 15%nat -> (sc_split cf = 0 \/ sc_split cf = 1)%Z ->
  (forall m, sc_modes cf m = true -> op_conn p m <> None) -> (forall m, usable cf p m -> paths m <> None) -> table_demand cf paths p = Ok p' ->
  forall m i, ~ usable cf p m -> in_minute p' m i = in_minute p m i.
Proof.
  intros cf paths p p' N S0 HC HP E m i U. destruct (table_demand_ok cf paths p N S0 HC HP) as (q & Eq & _ & _ & H & _). rewrite E in Eq. injection Eq as <-. apply in_minute_same. now apply H.
Qed.
Print Assumptions C190_partial.

(** C191: both gap measures are never negative, and zero exactly when, for every OD pair, all
    used paths and intervals (all used paths of the same interval) are equally good. *)
Theorem C191_gap : forall total pairs, costs_known total pairs ->
  (exists r, merit total pairs = Ok r /\ 0 <= r /\ (r == 0 <-> forall ps, In ps pairs -> balanced total ps)) /\
  (exists r, merit_fixed total pairs = Ok r /\ 0 <= r /\ (r == 0 <-> forall ps, In ps pairs -> balanced_per_interval total ps)).
Proof. intros total pairs K. split; [now apply merit_ok|now apply merit_fixed_ok]. Qed.
Print Assumptions C191_gap.
Example C191_case : merit 1 [[ex_path 2 [4]; ex_path 1 [7]; ex_path 0 [1]]] = Ok (merit_of (0 + Qabs 0 * 2 + Qabs 3 * 1, 0 + Qabs 4 * 2 + Qabs 4 * 1)) /\
  costs_known 1 [[ex_path 2 [4]; ex_path 1 [7]; ex_path 0 [1]]].
Proof.
  split; [reflexivity|]. intros ps p c [<-|[]] I C _. assert (c = 0%nat) as -> by lia. destruct I as [<-|[<-|[<-|[]]]]; eexists; reflexivity.
Qed.
(** C192 (refuted): "at gap zero nobody can do better".  Paths without flow are left out of
    the comparison. *)
Theorem C192_refuted : exists total ps r, costs_known total [ps] /\ (forall p c, In p ps -> (c < total)%nat -> exists x, dis_at p c x) /\
  merit total [ps] = Ok r /\ r == 0 /\ (exists r', merit_fixed total [ps] = Ok r' /\ r' == 0) /\ ~ no_better total ps.
Proof.
  exists 1%nat, [ex_path 2 [4]; ex_path 0 [1]].
  assert (K : forall p c, In p [ex_path 2 [4]; ex_path 0 [1]] -> (c < 1)%nat -> exists x, dis_at p c x).
  { intros p c I C. assert (c = 0%nat) as -> by lia. destruct I as [<-|[<-|[]]]; eexists; reflexivity. }
  eexists. split; [intros ps p c [<-|[]] I C _; now apply K|]. split; [exact K|]. split; [reflexivity|]. split; [reflexivity|]. split; [eexists; split; reflexivity|].
  intros H. specialize (H (ex_path 2 [4]) 0%nat (ex_path 0 [1]) 0%nat 4 1). assert (C : 4 <= 1) by (apply H; [now left|right; now left|lia|lia|unfold used; cbn; lra|reflexivity|reflexivity]). lra.
Qed.
Print Assumptions C192_refuted.

(** C193: the table of usable modes written to a file is read back the same. *)
Theorem C193_file : forall ms t f, save_conn t = Ok f -> NoDup (map fst t) -> (forall k m, says t k m true -> ms m = true) ->
  exists t', load_conn ms (length t) f = Ok t' /\ forall k m b, ms m = true -> (says t' k m b <-> says t k m b).
Proof.
  intros ms t f H N HM. destruct (load_saved ms t f H N) as (t' & E & F). { intros k c m I Ec. apply (HM k). now exists c. }
  exists t'. split; [exact E|]. intros k m b M. apply forall2_in in F. destruct F as (F1 & F2). split.
  - intros (c & I & Ec). destruct (F2 _ I) as ((k0 & c0) & J & Ek & Em). cbn in Ek, Em. subst k0. exists c0. split; [exact J|]. rewrite <- Ec, Em, M. reflexivity.
  - intros (c & I & Ec). destruct (F1 _ I) as ((k0 & c0) & J & Ek & Em). cbn in Ek, Em. subst k0. exists c0. split; [exact J|]. now rewrite Em, M.
Qed.
Print Assumptions C193_file.
Definition ex_reach (k : Z * Z) (m : mode) : bool := match m with Driving => true | Transit => Z.eqb (fst k) 1 | Pnr => false end.
Example C193_case : match check_conn (fun _ => true) ex_reach [(1, 2); (3, 2)]%Z 2 None with
  | Ok (t, Some f) => f = [[1; 2; 1; 1; 0]; [3; 2; 1; 0; 0]]%Z /\ save_conn t = Ok f /\ NoDup (map fst t) | _ => False end.
Proof. vm_compute. split; [reflexivity|]. split; [reflexivity|]. repeat constructor; cbn; intuition congruence. Qed.

(** C194 (refuted): "each of the three modes can be switched off".  Without a file of usable
    modes, writing that file dereferences the missing entry of the mode, for every list of OD
    pairs; with a file from a run with the mode on, reading does so where the mode was usable. *)
Theorem C194_refuted : forall ms reach pairs count m, ms m = false -> pairs <> [] -> NoDup pairs ->
  (forall k, In k pairs -> exists m', ms m' = true /\ reach k m' = true) -> check_conn ms reach pairs count None = Err EUB.
Proof.
  intros ms reach pairs count m M NE N HR. unfold check_conn. cbn [bind]. destruct (compute_ok ms reach pairs [] HR N) as (t & E & F). rewrite E. cbn [app bind].
  destruct pairs as [|k pairs]; [congruence|]. inversion F as [|? e ? t' (Ek & Em) F']; subst. rewrite (save_conn_ub (e :: t') (fst e) (snd e) m); [reflexivity|left; now destruct e|]. now rewrite Em, M.
Qed.
Print Assumptions C194_refuted.
Theorem C194_file_refuted : forall ms t f reach pairs k m, save_conn t = Ok f -> NoDup (map fst t) -> says t k m true -> ms m = false ->
  check_conn ms reach pairs (length t) (Some f) = Err EUB.
Proof. intros ms t f reach pairs k m H N (c & I & E) M. unfold check_conn. now rewrite (load_saved_ub ms t f k c m). Qed.
Print Assumptions C194_file_refuted.
Example C194_case : check_conn (fun m => match m with Pnr => false | _ => true end) ex_reach [(1, 2); (3, 2)]%Z 2 None = Err EUB /\
  check_conn (fun m => match m with Transit => false | _ => true end) ex_reach [(1, 2); (3, 2)]%Z 2 (Some [[1; 2; 1; 1; 0]; [3; 2; 1; 0; 0]]%Z) = Err EUB.
Proof. split; reflexivity. Qed.

(** C195: with all modes on and no file, the table tells exactly which modes the network
    offers to each OD pair. *)
Definition all_on : mode -> bool := fun _ => true.
Theorem C195_fresh_partial : forall reach pairs count, NoDup pairs ->
  ((forall k, In k pairs -> exists m, reach k m = true) ->
   exists t f, check_conn all_on reach pairs count None = Ok (t, Some f) /\ save_conn t = Ok f /\ NoDup (map fst t) /\ length t = length pairs /\
     forall k m b, says t k m b <-> In k pairs /\ b = reach k m).
Proof.
  intros reach pairs count N HR. unfold check_conn. cbn [bind].
  destruct (compute_ok all_on reach pairs []) as (t & E & F). { intros k I. destruct (HR k I) as (m & R). now exists m. } { exact N. }
  rewrite E. cbn [app bind]. assert (KF : map fst t = pairs) by (rewrite (forall2_keys _ (fun k => k) _ _ (fun x e H => proj1 H) F); apply map_id).
  assert (F0 := F). apply forall2_in in F. destruct F as (F1 & F2).
  assert (SV : save_conn t = Ok (map line_of t)). { apply save_conn_ok. intros k c I m. destruct (F2 _ I) as (k0 & _ & _ & Em). cbn in Em. rewrite Em. discriminate. }
  rewrite SV. cbn [bind]. exists t, (map line_of t). split; [reflexivity|]. split; [exact SV|]. split; [now rewrite KF|]. split; [rewrite <- KF; now rewrite map_length|].
  intros k m b. split.
  - intros (c & I & Ec). destruct (F2 _ I) as (k0 & Ik & Ek & Em). cbn in Ek, Em. subst k0. split; [exact Ik|]. rewrite Em in Ec. now injection Ec as <-.
  - intros (I & ->). destruct (F1 _ I) as ((k0 & c) & J & Ek & Em). cbn in Ek, Em. subst k0. exists c. split; [exact J|]. now rewrite Em.
Qed.
Print Assumptions C195_fresh_partial.
(** an OD pair that no mode can serve is reported *)
Theorem C195_unserved_partial : forall reach pairs count k, In k pairs -> (forall m, reach k m = false) -> check_conn all_on reach pairs count None = Err EThrow.
Proof.
  intros reach pairs count k I R. unfold check_conn. cbn [bind]. generalize (@nil ((Z * Z) * conn)). revert I. induction pairs as [|a pairs IH]; intros I t; [destruct I|]. cbn [foldM].
  unfold compute_pair at 1. cbv zeta. generalize (match find_pair a t with Some c => c | None => fun _ => None end). intros c. unfold with_modes, raise, all_on, all_modes. cbn [foldM existsb andb].
  destruct I as [->|I]; [rewrite !R; reflexivity|].
  assert (A : exists c', foldM raise (with_modes all_on c) (three (fun m => true && reach a m)) = Ok c').
  { assert (W : forall m, with_modes all_on c m <> None) by (intros m; unfold with_modes, all_on; destruct (c m); discriminate).
    assert (ST : forall d m b, (forall m, d m <> None) -> exists d', raise d (m, b) = Ok d' /\ forall m, d' m <> None).
    { intros d m b F. destruct (raise_ok d m b (fun _ => F m)) as (d' & E & H). exists d'. split; [exact E|]. intros m'. rewrite H. destruct (b && mode_eqb m m')%bool; [discriminate|apply F]. }
    unfold three. cbn [foldM]. destruct (ST _ Driving (true && reach a Driving)%bool W) as (d1 & -> & W1). cbn [bind]. destruct (ST _ Transit (true && reach a Transit)%bool W1) as (d2 & -> & W2). cbn [bind]. destruct (ST _ Pnr (true && reach a Pnr)%bool W2) as (d3 & -> & W3). cbn [bind]. eauto. }
  destruct A as (c' & A). unfold three, with_modes, raise, all_on in A. cbn [foldM andb] in A. rewrite A. cbn [bind].
  destruct (reach a Driving || (reach a Transit || (reach a Pnr || false)))%bool; [cbn [guard bind]; now apply IH|reflexivity].
Qed.
Print Assumptions C195_unserved_partial.
(** C195 (refuted): "the table tells which modes the network offers".  The file of an earlier
    run is used without any comparison: whatever the network offers now, the answer is that of
    the earlier run. *)
Theorem C195_refuted : forall reach reach' pairs, NoDup pairs -> pairs <> [] -> (forall k, In k pairs -> exists m, reach k m = true) ->
  exists f t', (exists t, check_conn all_on reach pairs (length pairs) None = Ok (t, Some f)) /\
    check_conn all_on reach' pairs (length pairs) (Some f) = Ok (t', Some f) /\ forall k m b, says t' k m b <-> In k pairs /\ b = reach k m.
Proof.
  intros reach reach' pairs N NE HR. destruct (C195_fresh_partial reach pairs (length pairs) N HR) as (t & f & E & SV & ND & L & H).
  destruct (load_saved all_on t f SV ND) as (t' & E' & F'); [reflexivity|]. assert (F0 := F'). exists f, t'. split; [now exists t|]. split.
  - unfold check_conn. rewrite <- L, E'. cbn [bind]. destruct t' as [|e t']; [|reflexivity]. inversion F'; subst. destruct pairs; [congruence|discriminate].
  - intros k m b. rewrite <- H. apply forall2_in in F0. destruct F0 as (F1 & F2). split.
    + intros (c & I & Ec). destruct (F2 _ I) as ((k0 & c0) & J & Ek & Em). cbn in Ek, Em. subst k0. exists c0. split; [exact J|]. now rewrite <- Ec, Em.
    + intros (c & I & Ec). destruct (F1 _ I) as ((k0 & c0) & J & Ek & Em). cbn in Ek, Em. subst k0. exists c0. split; [exact J|]. now rewrite Em.
Qed.
Print Assumptions C195_refuted.
Example C195_case : match check_conn all_on (fun _ m => match m with Driving => false | _ => true end) [(1, 2); (3, 2)]%Z 2 (Some [[1; 2; 1; 1; 0]; [3; 2; 1; 0; 0]]%Z) with
  | Ok ([(k, c); _], _) => k = (1, 2)%Z /\ c Driving = Some true /\ c Pnr = Some false | _ => False end.
Proof. vm_compute. repeat split; reflexivity. Qed.
