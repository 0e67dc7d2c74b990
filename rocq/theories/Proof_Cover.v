(** Proofs about routes through observed links. *)
From Verif Require Import Base Base_lemmas Model_Num Proof_Num Model_Graph Spec_Graph Proof_Graph Proof_Graph2 Model_SP Spec_SP Proof_SP Proof_Link4 Model_Node Model_Pathset Spec_Pathset Proof_Pathset Model_Cover Spec_Cover.
Local Open Scope Z_scope.

Lemma visits_app g o ls1 ns1 a l b ls2 ns2 : visits g o ls1 ns1 -> route g o ls1 a -> get_endpoints g l = Ok (a, b) -> visits g b ls2 ns2 ->
  visits g o (ls1 ++ l :: ls2) (ns1 ++ ns2).
Proof.
  intros V. revert a. induction V as [u|u m w ls ns E V IH]; intros a R El V2.
  - inversion R; subst. cbn. econstructor; eauto.
  - inversion R as [|? ? w' ? ? E' R']; subst. rewrite E in E'. apply Ok_pair in E' as [_ ->]. cbn [app]. econstructor; [exact E|]. eapply IH; eauto.
Qed.
Lemma visits_rev g g' : (forall l f t, get_endpoints g l = Ok (f, t) -> get_endpoints g' l = Ok (t, f)) ->
  forall u ls ns, visits g u ls ns -> forall v, route g u ls v -> visits g' v (rev ls) (rev ns).
Proof.
  intros H u ls ns V. induction V as [u|u l w ls ns E V IH]; intros v R.
  - inversion R; subst. constructor.
  - inversion R as [|? ? w' ? ? E' R']; subst. rewrite E in E'. apply Ok_pair in E' as [_ ->]. cbn [rev].
    change (l :: nil) with ([l] ++ []). eapply visits_app; [apply IH; exact R'| |apply H; exact E|constructor].
    eapply route_rev; [exact H|exact R'].
Qed.
Lemma drive_rev P ls : (drive_time P (rev ls) == drive_time P ls)%Q.
Proof.
  unfold drive_time. rewrite map_rev. induction (map (pn_tt P) ls) as [|x xs IH]; [reflexivity|]. cbn [rev]. rewrite sumQ_app, IH. unfold sumQ. cbn [fold_right]. ring.
Qed.

Section Side.
Variable P : pnet.
Variable g : graph.
Variable a : agraph.
Hypothesis HR : Rep g a.
Hypothesis Hids : forall l e, get_endpoints g l = Ok e -> In l (pn_ids P).
Hypothesis Htt : forall l, (0 <= pn_tt P l)%Q.
Hypothesis Hm1 : ~ In (-1) (map fst (a_links a)).

Lemma tt_costs_ok : costs_ok g (tt_cost P).
Proof.
  intros l e E. exists (Some (pn_tt P l)). split; [|apply Htt]. unfold tt_cost. rewrite (proj2 (memb_In _ _) (Hids l e E)). reflexivity.
Qed.
Lemma tt_route_cost o ls d : route g o ls d -> exists c, total_cost (cost_of (tt_cost P)) ls = Some c /\ (c == drive_time P ls)%Q.
Proof.
  induction 1 as [u|u l w ls v E R (c & IH & Ec)]; [exists 0%Q; split; reflexivity|].
  exists (pn_tt P l + c)%Q. unfold total_cost in *. cbn [fold_right]. rewrite IH. unfold cost_of, tt_cost. rewrite (proj2 (memb_In _ _) (Hids l _ E)). split; [reflexivity|].
  rewrite Ec. unfold drive_time, sumQ. cbn [map fold_right]. reflexivity.
Qed.

(** what a finished tree towards [n] gives *)
Record good_side (n : Z) (t : Z -> option Z) : Prop := {
  gs_dec : forall o, In o (a_nodes a) -> o <> n -> (t o = Some (-1) /\ forall ls, ~ route g o ls n) \/ exists x ls, t o = Some x /\ x <> -1 /\ route g o ls n;
  gs_path : forall o ls0 k, In o (a_nodes a) -> route g o ls0 n -> (length (a_nodes a) <= k)%nat ->
    exists ns ls, extract_path k g n t o = Ok (Some (ns, ls)) /\ route g o ls n /\ visits g o ls ns /\
      forall ls', route g o ls' n -> (drive_time P ls <= drive_time P ls')%Q }.
Lemma side_ok n : In n (a_nodes a) -> exists N, forall fuel, (N <= fuel)%nat ->
  exists s, all_to_one_FIFO fuel g n (tt_cost P) (fun _ => None) = Ok s /\ good_side n (s_out s).
Proof.
  intros Hn. destruct (fifo_ok g a (tt_cost P) n (fun _ => None) HR tt_costs_ok Hn Hm1) as (N & H). exists N. intros fuel Hf.
  destruct (H fuel Hf) as (s & E & R). exists s. split; [exact E|]. constructor.
  - intros o Ho Ne. destruct (R o Ho) as [(_ & U & _ & X)|(d & ls & ns & _ & _ & F & _)].
    + left. split; [exact X|]. intros ls Rt. destruct (tt_route_cost _ _ _ Rt) as (c & C & _). rewrite (U _ Rt) in C. discriminate.
    + right. pose proof (follows_route _ _ _ _ _ F) as Rt. inversion F; subst; [contradiction|]. eauto.
  - intros o ls0 k Ho Rt Hk. destruct (extract_result _ _ _ _ _ _ o HR R Ho k Hk) as [[X U]|(ns & ls & dd & c & X & Rt' & V & ND & [_ L] & C & Cd)].
    + destruct (tt_route_cost _ _ _ Rt) as (c & C & _). rewrite (U _ Rt) in C. discriminate.
    + exists ns, ls. split; [exact X|]. split; [exact Rt'|]. split; [exact V|]. intros ls' R'. destruct (tt_route_cost _ _ _ R') as (c' & C' & E').
      destruct (tt_route_cost _ _ _ Rt') as (c2 & C2 & E2). rewrite C in C2. injection C2 as <-. rewrite <- E', <- E2, Cd. exact (L ls' c' R' C').
Qed.
End Side.

Section Cover.
Variable P : pnet.
Variables a ar : agraph.
Variable gr : graph.
Hypothesis HP : pnet_ok P.
Hypothesis HR : Rep (pn_g P) a.
Hypothesis HRr : Rep gr ar.
Hypothesis Hnr : Permutation (a_nodes ar) (a_nodes a).
Hypothesis Hlr : forall l f t, In (l, (f, t)) (a_links ar) <-> In (l, (t, f)) (a_links a).
Variables isO isD : Z -> bool.
Variable ods : list (Z * Z).
Hypothesis Hods : forall o d, In (o, d) ods -> In o (a_nodes a) /\ isO o = true /\ In d (a_nodes a) /\ isD d = true.

Lemma rev_end l f t : get_endpoints gr l = Ok (f, t) <-> get_endpoints (pn_g P) l = Ok (t, f).
Proof. rewrite (rep_endpoints_iff _ _ _ _ _ HRr), (rep_endpoints_iff _ _ _ _ _ HR). apply Hlr. Qed.
Lemma rev_ids l e : get_endpoints gr l = Ok e -> In l (pn_ids P).
Proof. destruct e as [f t]. rewrite rev_end. apply (po_ids _ HP). Qed.
Lemma rev_m1 : ~ In (-1) (map fst (a_links ar)).
Proof.
  intros H. apply in_map_iff in H as ((l & (f & t)) & E & H). cbn in E. subst. apply Hlr in H. apply (po_m1 _ HP). rewrite (rep_lids _ _ HR). apply in_map_iff. eexists. split; [|exact H]. reflexivity.
Qed.
Lemma rev_route u ls v : route gr u ls v -> route (pn_g P) v (rev ls) u.
Proof. apply route_rev. intros l f t. apply rev_end. Qed.
Lemma rev_route' u ls v : route (pn_g P) u ls v -> route gr v (rev ls) u.
Proof. apply route_rev. intros l f t. apply rev_end. Qed.

(** ends of a link that is not at an origin or destination node *)
Definition inner_link (l : Z) : Prop := exists x y, get_endpoints (pn_g P) l = Ok (x, y) /\ isO x = false /\ isD y = false.

(** the trees for the link [l] *)
Definition trees_ok (fuel : nat) (l : Z) : Prop := forall x y, get_endpoints (pn_g P) l = Ok (x, y) ->
  (exists s, all_to_one_FIFO fuel (pn_g P) x (tt_cost P) (fun _ => None) = Ok s /\ good_side P (pn_g P) a x (s_out s)) /\
  (exists s, all_to_one_FIFO fuel gr y (tt_cost P) (fun _ => None) = Ok s /\ good_side P gr ar y (s_out s)).
Lemma trees_all links : exists N, forall fuel, (N <= fuel)%nat -> forall l, In l links -> trees_ok fuel l.
Proof.
  induction links as [|l links (N & IH)]; [exists 0%nat; intros ? ? ? []|].
  destruct (get_endpoints (pn_g P) l) as [[x y]|] eqn:E.
  - apply (rep_endpoints_iff _ _ _ _ _ HR) in E as E'. destruct (rep_ends _ _ HR _ _ _ E') as (Ix & Iy & _).
    destruct (side_ok P (pn_g P) a HR (po_ids _ HP) (po_tt _ HP)) with (n := x) as (N1 & H1); [rewrite <- (rep_lids _ _ HR); apply (po_m1 _ HP)|exact Ix|].
    destruct (side_ok P gr ar HRr rev_ids (po_tt _ HP) rev_m1 y) as (N2 & H2); [eapply Permutation_in; [symmetry; exact Hnr|exact Iy]|].
    exists (Nat.max N (Nat.max N1 N2)). intros fuel Hf m [<-|Hm]; [|apply IH; [lia|exact Hm]].
    intros x' y' E2. rewrite E in E2. apply Ok_pair in E2 as [-> ->]. split; [apply H1; lia|apply H2; lia].
  - exists N. intros fuel Hf m [<-|Hm]; [|apply IH; [lia|exact Hm]]. intros x y E2. congruence.
Qed.

Lemma first_pair_ok t1 t2 x y pairs : good_side P (pn_g P) a x t1 -> good_side P gr ar y t2 -> isO x = false -> isD y = false -> (forall od, In od pairs -> In od ods) ->
  (first_pair t1 t2 pairs = Ok None /\ forall o d, In (o, d) pairs -> ~ (connected P o x /\ connected P y d)) \/
  exists o d, first_pair t1 t2 pairs = Ok (Some (o, d)) /\ In (o, d) pairs /\ connected P o x /\ connected P y d.
Proof.
  intros G1 G2 Ox Dy. induction pairs as [|[o d] r IH]; intros Hp; [left; split; [reflexivity|]; intros ? ? []|].
  destruct (Hods o d (Hp _ (or_introl eq_refl))) as (Io & Oo & Id & Dd). cbn [first_pair].
  assert (No : o <> x) by congruence. assert (Nd : d <> y) by congruence.
  assert (Id' : In d (a_nodes ar)) by (eapply Permutation_in; [symmetry; exact Hnr|exact Id]).
  assert (IH' := IH (fun od H => Hp od (or_intror H))). clear IH.
  assert (Skip : ~ (connected P o x /\ connected P y d) -> 
    (first_pair t1 t2 r = Ok None /\ forall o' d', In (o', d') ((o, d) :: r) -> ~ (connected P o' x /\ connected P y d')) \/
    exists o' d', first_pair t1 t2 r = Ok (Some (o', d')) /\ In (o', d') ((o, d) :: r) /\ connected P o' x /\ connected P y d').
  { intros N. destruct IH' as [[E A]|(o' & d' & E & I & C)].
    - left. split; [exact E|]. intros o' d' [Eq|I]; [injection Eq as <- <-; exact N|apply A, I].
    - right. exists o', d'. split; [exact E|]. split; [now right|exact C]. }
  unfold tree_at. destruct (gs_dec _ _ _ _ _ G1 o Io No) as [[E1 N1]|(z & ls1 & E1 & Nz & R1)]; rewrite E1; cbn [bind].
  - change (-1 =? -1) with true. cbv iota. apply Skip. intros [(ls & C) _]. exact (N1 ls C).
  - destruct (Z.eqb_spec z (-1)); [contradiction|]. destruct (gs_dec _ _ _ _ _ G2 d Id' Nd) as [[E2 N2]|(w & ls2 & E2 & Nw & R2)]; rewrite E2; cbn [bind].
    + change (-1 =? -1) with true. cbv iota. apply Skip. intros [_ (ls & C)]. exact (N2 _ (rev_route' _ _ _ C)).
    + destruct (Z.eqb_spec w (-1)); [contradiction|]. right. exists o, d. split; [reflexivity|]. split; [now left|]. split; [exists ls1; exact R1|exists (rev ls2); apply rev_route, R2].
Qed.

Lemma cover_link_ok fuel pairs l : inner_link l -> trees_ok fuel l -> (forall od, In od pairs -> In od ods) ->
  (cover_link fuel P gr isO isD pairs l = Ok None /\ ~ coverable P pairs l) \/
  exists o d p, cover_link fuel P gr isO isD pairs l = Ok (Some ((o, d), p)) /\ In (o, d) pairs /\ route_through P l o d p.
Proof.
  intros (x & y & E & Ox & Dy) TR Hp. destruct (TR x y E) as [(s1 & A1 & G1) (s2 & A2 & G2)]. unfold cover_link. rewrite E. cbn [bind fst snd].
  unfold side_tree. rewrite Ox, Dy, A1, A2. cbn [bind]. destruct (first_pair_ok _ _ x y pairs G1 G2 Ox Dy Hp) as [[F N]|(o & d & F & I & (c1 & R1) & (c2 & R2))]; rewrite F; cbn [bind].
  - left. split; [reflexivity|]. intros (o & d & x' & y' & I & E' & C). rewrite E in E'. apply Ok_pair in E' as [-> ->]. exact (N o d I C).
  - right. destruct (Hods o d (Hp _ I)) as (Io & _ & Id & _). apply rev_route' in R2.
    destruct (gs_path _ _ _ _ _ G1 o c1 (length (g_nids (pn_g P))) Io R1) as (ns1 & ls1 & P1 & Q1 & V1 & L1); [rewrite (rep_nids _ _ HR); lia|].
    destruct (gs_path _ _ _ _ _ G2 d (rev c2) (length (g_nids (pn_g P)))) as (ns2 & ls2 & P2 & Q2 & V2 & L2); [eapply Permutation_in; [symmetry; exact Hnr|exact Id]|exact R2|rewrite (rep_nids _ _ HR), (Permutation_length Hnr); lia|].
    unfold side_path. cbn [fst snd]. rewrite Ox, Dy, P1, P2. cbn [bind fst snd]. exists o, d. eexists. split; [reflexivity|]. split; [exact I|].
    exists x, y, ls1, (rev ls2). cbn [fst snd]. split; [exact E|]. split; [reflexivity|]. split; [split; [exact Q1|exact L1]|]. split.
    + split; [apply rev_route, Q2|]. intros ls' R'. rewrite drive_rev. rewrite <- (drive_rev P ls'). apply L2, rev_route', R'.
    + eapply visits_app; [exact V1|exact Q1|exact E|]. eapply visits_rev; [|exact V2|exact Q2]. intros m f t. apply rev_end.
Qed.
Lemma coverable_perm_r xs ys l : Permutation xs ys -> coverable P ys l -> coverable P xs l.
Proof. intros Pm (o & d & x & y & I & R). exists o, d, x, y. split; [|exact R]. eapply Permutation_in; [symmetry; exact Pm|exact I]. Qed.

(** ** marks *)
Definition marks (ps : list path) (links : list Z) (cov : list bool) : Prop := Forall2 (fun l b => b = true <-> covered ps l) links cov.
Lemma marks_len ps links cov : marks ps links cov -> length cov = length links.
Proof. intros H. induction H; cbn [length]; congruence. Qed.
Lemma covered_snoc ps p l : covered (ps ++ [p]) l <-> covered ps l \/ In l (snd p).
Proof.
  unfold covered. split.
  - intros (q & I & L). apply in_app_iff in I as [I|[<-|[]]]; [left; eauto|now right].
  - intros [(q & I & L)|L]; [exists q|exists p]; (split; [apply in_app_iff|exact L]); [now left|right; now left].
Qed.
Lemma mark_ok p ps links cov : snd p <> [] -> marks ps links cov -> exists c, mark p links cov = Ok c /\ marks (ps ++ [p]) links c.
Proof.
  intros Hp H. unfold mark. induction H as [|l b links cov Hb H (c & E & M)]; [exists []; split; [reflexivity|constructor]|].
  cbn [combine mapM fst snd]. destruct b.
  - cbn [bind]. rewrite E. cbn [bind]. exists (true :: c). split; [reflexivity|]. constructor; [|exact M]. rewrite covered_snoc. tauto.
  - unfold on_path at 1. destruct (Nat.eqb_spec (length (snd p)) 0) as [Z|]; [destruct (snd p); [contradiction|discriminate]|]. cbn [negb guard bind]. rewrite E. cbn [bind].
    eexists. split; [reflexivity|]. constructor; [|exact M]. rewrite covered_snoc, memb_In. intuition congruence.
Qed.
Lemma all_true_marks ps links cov : marks ps links cov -> (all_true cov = true <-> forall l, In l links -> covered ps l).
Proof.
  intros H. unfold all_true. induction H as [|l b links cov Hb H IH]; [split; [intros _ ? []|reflexivity]|]. cbn [forallb]. rewrite Bool.andb_true_iff, IH, Hb. split.
  - intros [A B] m [<-|Hm]; auto.
  - intros A. split; [apply A; now left|]. intros m Hm. apply A. now right.
Qed.
Lemma covered_mono ps qs l : covered ps l -> covered (ps ++ qs) l.
Proof. intros (p & I & L). exists p. split; [apply in_app_iff; now left|exact L]. Qed.
(** stopping early does not matter: the marks are those of all paths *)
Lemma mark_all_ok ps links : (forall p, In p ps -> snd p <> []) -> forall done cov, marks done links cov ->
  exists c, mark_all ps links cov = Ok c /\ marks (done ++ ps) links c.
Proof.
  induction ps as [|p ps IH]; intros Hp done cov M; cbn [mark_all]; [exists cov; split; [reflexivity|now rewrite app_nil_r]|].
  destruct (mark_ok p done links cov (Hp p (or_introl eq_refl)) M) as (c & E & M'). rewrite E. cbn [bind]. destruct (all_true c) eqn:A.
  - exists c. split; [reflexivity|]. pose proof (proj1 (all_true_marks _ _ _ M') A) as A'. clear - A A' M'. replace (done ++ p :: ps) with ((done ++ [p]) ++ ps) by (rewrite <- app_assoc; reflexivity).
    revert A A'. induction M' as [|l b ls bs Hb M' IH]; intros A A'; [constructor|]. unfold all_true in A. cbn [forallb] in A. apply Bool.andb_true_iff in A as [-> A]. constructor.
    + split; [intros _|reflexivity]. apply covered_mono, A'. now left.
    + apply IH; [exact A|]. intros m Hm. apply A'. now right.
  - destruct (IH (fun q H => Hp q (or_intror H)) _ _ M') as (c' & E' & M2). exists c'. split; [exact E'|]. rewrite <- app_assoc in M2. exact M2.
Qed.
Lemma check_ok ps links : (forall p, In p ps -> snd p <> []) -> exists c, check_covered ps links = Ok c /\ marks ps links c.
Proof.
  intros Hp. unfold check_covered. apply (mark_all_ok ps links Hp []). induction links as [|l links IH]; [constructor|]. cbn [length repeat]. constructor; [|exact IH].
  split; [discriminate|]. intros (q & [] & _).
Qed.

(** ** the loop over the links *)
Definition same_od (x y : Z * Z) : bool := (fst x =? fst y) && (snd x =? snd y).
Definition added (new : list ((Z * Z) * path)) (od : Z * Z) : list path := map snd (filter (fun e => same_od od (fst e)) new).
Definition table_of (T : table) (new : list ((Z * Z) * path)) (T' : table) : Prop :=
  forall o d, T' o d = match T o d with Some qs => Some (qs ++ added new (o, d)) | None => None end.
Definition od_ordered (pairs : nat -> list (Z * Z)) : Prop := forall i, Permutation (pairs i) ods.

Record cinv (links : list Z) (ps : list path) (T : table) (i : nat) (st : cstate) (new : list ((Z * Z) * path)) : Prop := {
  ci_ps : fst (snd st) = ps ++ map snd new;
  ci_marks : marks (ps ++ map snd new) links (snd (snd st));
  ci_table : table_of T new (fst st);
  ci_new : forall od p, In (od, p) new -> In od ods /\ exists l, In l links /\ ~ covered ps l /\ route_through P l (fst od) (snd od) p;
  ci_done : forall j l, (j < i)%nat -> nth_error links j = Some l -> covered (ps ++ map snd new) l \/ ~ coverable P ods l;
  (** a path is only added for a link that none of the earlier paths contains *)
  ci_min : forall before od p after, new = before ++ (od, p) :: after -> exists l, In l links /\ In l (snd p) /\ ~ covered (ps ++ map snd before) l }.

Lemma through_in l o d p : route_through P l o d p -> In l (snd p).
Proof. intros (x & y & pre & post & _ & -> & _). apply in_app_iff. right. now left. Qed.
Lemma added_snoc new od p od' : added (new ++ [(od, p)]) od' = added new od' ++ (if same_od od' od then [p] else []).
Proof. unfold added. rewrite filter_app, map_app. cbn [filter fst]. destruct (same_od od' od); reflexivity. Qed.

Lemma step_ok fuel pairs links ps T i st new l : od_ordered pairs -> (forall o d, In (o, d) ods -> T o d <> None) ->
  nth_error links i = Some l -> inner_link l -> trees_ok fuel l -> cinv links ps T i st new ->
  exists st' new', cover_step fuel P gr isO isD pairs links st i = Ok st' /\ cinv links ps T (S i) st' new'.
Proof.
  intros Ho HT Nl Il Tl [C1 C2 C3 C4 C5 C6]. destruct st as [T1 [ps1 cov]]. cbn [fst snd] in *. subst ps1. unfold cover_step.
  assert (Hc : exists b, nth_error cov i = Some b /\ (b = true <-> covered (ps ++ map snd new) l)).
  { clear - C2 Nl. revert i Nl. induction C2 as [|m b ls bs Hb C2 IH]; intros [|i] Nl; try discriminate; [injection Nl as ->; exists b; split; [reflexivity|exact Hb]|]. apply IH, Nl. }
  destruct Hc as (b & Nb & Hb). rewrite Nl, Nb. destruct b.
  { exists (T1, (ps ++ map snd new, cov)), new. split; [reflexivity|]. constructor; cbn [fst snd]; auto.
    intros j m Hj Nm. destruct (Nat.eq_dec j i) as [->|]; [|apply (C5 j); [lia|exact Nm]]. rewrite Nl in Nm. injection Nm as <-. left. now apply Hb. }
  assert (Hin : forall od, In od (pairs i) -> In od ods) by (intros od H; eapply Permutation_in; [apply Ho|exact H]).
  destruct (cover_link_ok fuel (pairs i) l Il Tl Hin) as [[E N]|(o & d & p & E & I & RT)]; rewrite E; cbn [bind].
  { exists (T1, (ps ++ map snd new, cov)), new. split; [reflexivity|]. constructor; cbn [fst snd]; auto.
    intros j m Hj Nm. destruct (Nat.eq_dec j i) as [->|]; [|apply (C5 j); [lia|exact Nm]]. rewrite Nl in Nm. injection Nm as <-. right. intros C. apply N. eapply coverable_perm_r; [apply Ho|exact C]. }
  cbn [fst snd]. unfold add_path. rewrite (C3 o d). destruct (T o d) as [qs|] eqn:ET; [|destruct (HT o d (Hin _ I) ET)]. cbn [bind].
  pose proof (through_in _ _ _ _ RT) as Lp. destruct (mark_ok p (ps ++ map snd new) links cov) as (c & Ec & Mc); [intros Z; rewrite Z in Lp; destruct Lp|exact C2|]. rewrite Ec. cbn [bind].
  assert (NC : ~ covered (ps ++ map snd new) l) by (intros C; apply Hb in C; discriminate).
  eexists. exists (new ++ [((o, d), p)]). split; [reflexivity|]. constructor; cbn [fst snd].
  - rewrite map_app, app_assoc. reflexivity.
  - rewrite map_app, app_assoc. exact Mc.
  - intros o' d'. rewrite added_snoc. unfold same_od. cbn [fst snd]. destruct ((o' =? o) && (d' =? d)) eqn:Eo.
    + apply Bool.andb_true_iff in Eo as [E1 E2]. apply Z.eqb_eq in E1, E2. subst. rewrite ET, app_assoc. reflexivity.
    + rewrite app_nil_r. apply C3.
  - intros od q Hq. apply in_app_iff in Hq as [Hq|[Hq|[]]]; [apply C4, Hq|]. injection Hq as <- <-. split; [apply Hin, I|]. exists l. split; [eapply nth_error_In; exact Nl|]. split; [|exact RT].
    intros C. apply NC. apply covered_mono, C.
  - intros j m Hj Nm. rewrite map_app, app_assoc. cbn [map snd]. rewrite covered_snoc. destruct (Nat.eq_dec j i) as [->|]; [rewrite Nl in Nm; injection Nm as <-; tauto|].
    destruct (C5 j m ltac:(lia) Nm); tauto.
  - intros before od q after En. destruct after as [|z after] using rev_ind.
    + apply app_inj_tail in En as [<- En]. injection En as <- <-. exists l. split; [eapply nth_error_In; exact Nl|]. split; [exact Lp|exact NC].
    + clear IHafter. rewrite app_comm_cons, app_assoc in En. apply app_inj_tail in En as [-> _]. eapply C6. reflexivity.
Qed.
End Cover.
