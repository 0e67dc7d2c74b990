(** The routing of buses, park-and-ride cars and passengers is a sequence of such steps. *)
From Verif Require Import Base Base_lemmas Model_Num Model_Node Model_Path Model_Proute Spec_Path Spec_Proute Proof_Path Proof_Link4 Proof_Node4 Proof_Proute.
Local Open Scope Z_scope.

Section T.
Context {A : Type}.
Implicit Types s : trip A.
Lemma take_ok known s v s' : take_next known s v = Ok s' -> exists l q, k_que s v = Some (l :: q) /\ known l = true /\
  (forall u, k_que s' u = upd (k_que s) v (Some q) u) /\ (forall u, k_cur s' u = k_cur s u) /\
  (forall u, k_nxt s' u = upd (k_nxt s) v (Some l) u) /\ (forall u, k_path s' u = k_path s u).
Proof.
  unfold take_next. destruct (k_que s v) as [[|l q]|] eqn:Eq; try discriminate. intros H. apply bind_ok in H as (x & G & H). apply guard_ok in G.
  apply Ok_inj in H. subst s'. exists l, q. cbn [k_que k_cur k_nxt k_path]. repeat split; auto.
Qed.
Lemma take_total known s v l q : k_que s v = Some (l :: q) -> known l = true -> exists s', take_next known s v = Ok s'.
Proof. intros H K. unfold take_next. rewrite H, K. cbn [guard bind]. eauto. Qed.
Lemma checked_ok known s v s' : take_checked known s v = Ok s' -> take_next known s v = Ok s'.
Proof. unfold take_checked. destruct (k_que s v) as [[|l q]|]; try discriminate. destruct (l =? -1); [discriminate|auto]. Qed.
Lemma checked_total known s v l q : k_que s v = Some (l :: q) -> known l = true -> l <> -1 -> exists s', take_checked known s v = Ok s'.
Proof. intros H K N. unfold take_checked. rewrite H. apply Z.eqb_neq in N. rewrite N. eapply take_total; eassumption. Qed.

Context (links : A -> list Z) (to : Z -> Z) (goal : Z -> A -> Z) (good given : Z -> A -> Prop).
Notation prim := (prim links to goal good given).

Lemma enter_prim known s v a s' : k_que s v = None -> k_cur s v = None -> good v a ->
  take_next known (enrol s v a (links a)) v = Ok s' -> prim s v s'.
Proof.
  intros Hq Hc Hg H. apply take_ok in H as (l & q & E & _ & E1 & E2 & E3 & E4). cbn [enrol k_que k_cur k_nxt k_path] in *.
  rewrite upd_same, Hq in E. injection E as E. apply (Pr_enter _ _ _ _ _ s v a l q); auto.
  intros u. rewrite E1. unfold upd. destruct (u =? v); reflexivity.
Qed.
Lemma enter_total known s v a : k_que s v = None -> links a <> [] -> (forall l, In l (links a) -> known l = true) ->
  exists s', take_next known (enrol s v a (links a)) v = Ok s'.
Proof.
  intros Hq N K. destruct (links a) as [|l q] eqn:E; [congruence|]. apply (take_total known _ v l q).
  - cbn [enrol k_que]. rewrite upd_same, Hq. reflexivity.
  - apply K. now left.
Qed.
Lemma adv_prim known s v s' : k_cur s v = k_nxt s v -> take_next known s v = Ok s' -> prim s v s'.
Proof. intros C H. apply take_ok in H as (l & q & E & _ & E1 & E2 & E3 & E4). apply (Pr_adv _ _ _ _ _ s v l q); auto. Qed.
End T.

(** ** the drawn path *)
Lemma find_set_in {A} (t : shares_of A) o d es : find_set t o d = Some es -> In ((o, d), es) t.
Proof.
  induction t as [|[[o' d'] es'] t IH]; cbn [find_set]; [discriminate|]. destruct ((o' =? o) && (d' =? d)) eqn:E.
  - intros [= ->]. apply andb_true_iff in E as [E1 E2]. apply Z.eqb_eq in E1, E2. subst. now left.
  - intros H. right. auto.
Qed.
Lemma draw_offered {A} (t : shares_of A) o d r a : draw_path t o d r = Ok a -> offered_path t o d a.
Proof.
  unfold draw_path. destruct (find_set t o d) as [es|] eqn:E; [|discriminate]. intros H. apply bind_ok in H as (i & _ & H).
  destruct (nth_error es i) as [e|] eqn:En; [|discriminate]. apply Ok_inj in H. exists es, e. split; [now apply find_set_in|]. split; [|exact H].
  eapply nth_error_In; eassumption.
Qed.
Lemma offered_paths {A} (t t0 : shares_of A) o d a : paths_of t = paths_of t0 -> offered_path t o d a -> offered_path t0 o d a.
Proof.
  intros E (es & e & H1 & H2 & H3). assert (K : In ((o, d), map s_path es) (paths_of t)).
  { unfold paths_of. apply in_map_iff. exists ((o, d), es). auto. }
  rewrite E in K. unfold paths_of in K. apply in_map_iff in K as ([k es'] & K1 & K2). cbn [fst snd] in K1. injection K1 as -> K1.
  assert (Ia : In a (map s_path es')) by (rewrite K1, <- H3; now apply in_map). apply in_map_iff in Ia as (e' & Ea & Ie). exists es', e'. auto.
Qed.

Lemma find_set_some {A} (t : shares_of A) o d es : In ((o, d), es) t -> exists es', find_set t o d = Some es'.
Proof.
  induction t as [|[[o' d'] es'] t IH]; intros H; [destruct H|]. cbn [find_set]. destruct ((o' =? o) && (d' =? d)) eqn:E; [eauto|].
  destruct H as [H|H]; [|auto]. injection H as -> -> _. rewrite !Z.eqb_refl in E. discriminate.
Qed.
Lemma draw_total {A} (t t0 : shares_of A) o d r es0 : paths_of t = paths_of t0 -> fair t -> In ((o, d), es0) t0 -> (0 <= r <= 1)%Q -> exists a, draw_path t o d r = Ok a.
Proof.
  intros Et Ft H [R0 R1]. assert (K : In ((o, d), map s_path es0) (paths_of t0)) by (unfold paths_of; apply in_map_iff; exists ((o, d), es0); auto).
  rewrite <- Et in K. unfold paths_of in K. apply in_map_iff in K as ([k es] & K1 & K2). cbn [fst snd] in K1. injection K1 as -> _.
  destruct (find_set_some t o d es K2) as (es' & F). unfold draw_path. rewrite F. apply find_set_in in F. destruct (Ft _ _ _ F) as (Ne & Po & Su).
  destruct (draw_ok (map s_p es') r) as (i & Ei & Hi & _); [|destruct es'; [congruence|discriminate]|exact R0|rewrite Su; exact R1|].
  { intros p Hp. apply in_map_iff in Hp as (e & <- & He). now apply Po. }
  rewrite Ei. cbn [bind]. rewrite map_length in Hi. destruct (nth_error es' i) as [e|] eqn:En; [eauto|]. apply nth_error_None in En. lia.
Qed.

(** any path may be given *)
Definition free {A} (v : Z) (a : A) : Prop := True.

(** ** buses *)
Section Bus.
Context (tbl : Z -> Z -> Z -> option (option (list Z))) (known : Z -> bool) (to : Z -> Z) (I : Z -> who).
Definition bus_plan (v : Z) (ls : list Z) : Prop := tbl (i_from (I v)) (i_to (I v)) (i_route (I v)) = Some (Some ls) /\ route_to to (i_to (I v)) ls.
Definition bus_goal (v : Z) (_ : list Z) : Z := i_to (I v).
Notation bprim := (prim (fun ls => ls) to bus_goal bus_plan free).
Lemma bus_good : forall v a, bus_plan v a -> route_to to (bus_goal v a) a.
Proof. intros v a [_ H]. exact H. Qed.
Hypothesis routes : forall v ls, is_bus (I v) = true -> tbl (i_from (I v)) (i_to (I v)) (i_route (I v)) = Some (Some ls) -> route_to to (i_to (I v)) ls.

Lemma bus_origin_prim s v s' : k_cur s v = None -> bus_origin tbl known I s v = Ok s' -> bprim s v s'.
Proof.
  intros Hc. unfold bus_origin. destruct (is_bus (I v)) eqn:B; [|intros H; apply Ok_inj in H; subst; constructor].
  destruct (k_que s v) as [q|] eqn:Eq; [intros H; apply Ok_inj in H; subst; constructor|].
  intros H. apply bind_ok in H as (s1 & R & H). unfold register_bus in R.
  destruct (tbl (i_from (I v)) (i_to (I v)) (i_route (I v))) as [[ls|]|] eqn:T; try discriminate. apply Ok_inj in R. subst s1.
  apply (enter_prim (fun ls => ls) to bus_goal bus_plan free known s v ls); auto. split; auto.
Qed.
Lemma bus_link_prim l s v s' : k_cur s v = Some l -> bus_link known to I l s v = Ok s' -> bprim s v s'.
Proof.
  intros Hc. unfold bus_link. destruct (is_bus (I v)) eqn:B; [|intros H; apply Ok_inj in H; subst; constructor].
  destruct (i_to (I v) =? to l) eqn:D.
  - apply Z.eqb_eq in D. destruct (k_que s v) as [[|x q]|] eqn:Eq; try discriminate. intros H. apply Ok_inj in H. subst s'.
    apply (Pr_halt _ _ _ _ _ s v l); auto.
  - destruct (k_que s v) as [q|] eqn:Eq; [|discriminate]. destruct (same (k_cur s v) (k_nxt s v)) eqn:S; [|intros H; apply Ok_inj in H; subst; constructor].
    intros H. apply (adv_prim _ _ _ _ _ known); [now apply same_true|]. now apply checked_ok.
Qed.

Lemma bus_pass_J s s' tr : bus_round tbl known to I s s' -> (forall u, J (fun ls => ls) bus_plan free s tr u) -> forall u, J (fun ls => ls) bus_plan free s' tr u.
Proof.
  intros (origins & ends & [S1 S2] & H) HJ. unfold bus_pass in H. apply bind_ok in H as (s1 & H1 & H2).
  destruct (fold_prim (fun ls => ls) to bus_goal bus_plan free bus_good (bus_origin tbl known I) (fun v => k_cur s v = None) (k_cur s) tr
    ltac:(intros a v b Ha Jv Hv Hx; apply bus_origin_prim; [now rewrite Ha|exact Hx]) origins s s1 S1 ltac:(reflexivity) HJ H1) as [J1 C1].
  exact (proj1 (fold_prims (fun ls => ls) to bus_goal bus_plan free bus_good (fun l => bus_link known to I l) (fun l v => k_cur s v = Some l) (k_cur s) tr
    ltac:(intros l a v b Ha Jv Hv Hx; apply (bus_link_prim l); [now rewrite Ha|exact Hx]) ends s1 s' S2 C1 J1 H2)).
Qed.

Hypothesis complete : forall v, is_bus (I v) = true -> exists ls, tbl (i_from (I v)) (i_to (I v)) (i_route (I v)) = Some (Some ls) /\ (forall l, In l ls -> known l = true /\ l <> -1).

Lemma bus_origin_total s v : k_cur s v = None -> exists s', bus_origin tbl known I s v = Ok s'.
Proof.
  intros Hc. unfold bus_origin. destruct (is_bus (I v)) eqn:B; [|eauto]. destruct (k_que s v) as [q|] eqn:Eq; [eauto|].
  destruct (complete v B) as (ls & T & K). unfold register_bus. rewrite T. cbn [bind].
  apply (enter_total (fun ls => ls) known s v ls Eq); [apply (proj1 (routes v ls B T))|]. intros l Hl. now apply K.
Qed.
Lemma bus_link_total tr l s v : (forall u, J (fun ls => ls) bus_plan free s tr u) -> k_cur s v = Some l -> exists s', bus_link known to I l s v = Ok s'.
Proof.
  intros HJ Hc. unfold bus_link. destruct (is_bus (I v)) eqn:B; [|eauto].
  destruct (J_at (fun ls => ls) to bus_goal bus_plan free bus_good s tr v l (HJ v) Hc) as (a & q & Eq & P & G & Il & K1 & K2 & K3).
  unfold bus_goal in K1, K2. rewrite Eq. destruct (i_to (I v) =? to l) eqn:D.
  - apply Z.eqb_eq in D. rewrite K1 by congruence. eauto.
  - apply Z.eqb_neq in D. destruct (K2 ltac:(congruence)) as (n & En & Kn). rewrite Hc, En. cbn [same].
    destruct (l =? n) eqn:Eln; [|eauto]. apply Z.eqb_eq in Eln. destruct q as [|x q]; [now elim Kn|].
    destruct (complete v B) as (ls & T & K). destruct G as [G _]. assert (ls = a) by congruence. subst ls.
    destruct (K x (K3 x (or_introl eq_refl))) as [Kx Nx]. apply (checked_total known s v x q Eq Kx Nx).
Qed.
Lemma bus_pass_total tr s origins ends : (forall u, J (fun ls => ls) bus_plan free s tr u) -> standing s origins ends -> exists s', bus_pass tbl known to I origins ends s = Ok s'.
Proof.
  intros HJ [S1 S2]. unfold bus_pass.
  destruct (fold_total (fun ls => ls) to bus_goal bus_plan free bus_good (fun _ => True) (bus_origin tbl known I) (fun v => k_cur s v = None) (k_cur s) tr
    ltac:(intros a v _ Ha Jv Hv; destruct (bus_origin_total a v) as [b Hb]; [now rewrite Ha|]; exists b; split; [exact Hb|split; [|exact Logic.I]; apply bus_origin_prim; [now rewrite Ha|exact Hb]])
    origins s Logic.I S1 ltac:(reflexivity) HJ) as (s1 & E1 & J1 & C1 & _).
  rewrite E1. cbn [bind].
  destruct (fold_totals (fun ls => ls) to bus_goal bus_plan free bus_good (fun _ => True) (fun l => bus_link known to I l) (fun l v => k_cur s v = Some l) (k_cur s) tr
    ltac:(intros l a v _ Ha Jv Hv; destruct (bus_link_total tr l a v Jv) as [b Hb]; [now rewrite Ha|]; exists b; split; [exact Hb|split; [|exact Logic.I]; apply (bus_link_prim l); [now rewrite Ha|exact Hb]])
    ends s1 Logic.I S2 C1 J1) as (s2 & E2 & _). eauto.
Qed.
End Bus.

(** ** park-and-ride cars *)
Section Pnr.
Context (t0 : shares_of pnr) (known : Z -> bool) (to : Z -> Z) (I : Z -> who) (R : Z -> Q).
Definition pnr_plan (v : Z) (a : pnr) : Prop :=
  is_pnr_car true (I v) = true /\ offered_path t0 (i_from (I v)) (i_to (I v)) a /\ route_to to (r_mid a) (r_drive a).
Definition pnr_goal (v : Z) (a : pnr) : Z := r_mid a.
Notation cprim := (prim r_drive to pnr_goal pnr_plan free).
Notation cJ := (J r_drive pnr_plan free).
Lemma pnr_good : forall v a, pnr_plan v a -> route_to to (pnr_goal v a) (r_drive a).
Proof. intros v a (_ & _ & H). exact H. Qed.
Hypothesis routes : forall v a, is_pnr_car true (I v) = true -> offered_path t0 (i_from (I v)) (i_to (I v)) a -> route_to to (r_mid a) (r_drive a).

Lemma static_only s tr v : cJ s tr v -> is_pnr_car true (I v) = false -> k_que s v = None.
Proof. unfold J. destruct (k_que s v); [|reflexivity]. intros (a & _ & (K & _) & _). congruence. Qed.

Lemma pnr_origin_prim t s tr v s' : paths_of t = paths_of t0 -> cJ s tr v -> k_cur s v = None -> pnr_origin t known I R s v = Ok s' -> cprim s v s'.
Proof.
  intros Et Jv Hc. unfold pnr_origin. destruct (is_pnr_car true (I v)) eqn:B.
  - destruct (k_que s v) as [q|] eqn:Eq; [intros H; apply Ok_inj in H; subst; constructor|].
    intros H. apply bind_ok in H as (a & D & H). pose proof (offered_paths t t0 _ _ _ Et (draw_offered _ _ _ _ _ D)) as O.
    apply (enter_prim r_drive to pnr_goal pnr_plan free known s v a); auto. split; [exact B|]. split; [exact O|now apply (routes v)].
  - destruct (is_pnr_car false (I v)); [|intros H; apply Ok_inj in H; subst; constructor].
    destruct (k_path s v) as [a|] eqn:Ep; [intros H; apply Ok_inj in H; subst; constructor|].
    intros H. apply bind_ok in H as (a & D & H). apply Ok_inj in H. subst s'. apply Pr_nominal; [now apply (static_only s tr)|exact Logic.I].
Qed.
Lemma pnr_link_prim l s v s' : k_cur s v = Some l -> pnr_link known to I l s v = Ok s' -> cprim s v s'.
Proof.
  intros Hc. unfold pnr_link. destruct (is_pnr_car true (I v)) eqn:B; [|intros H; apply Ok_inj in H; subst; constructor].
  destruct (k_path s v) as [a|] eqn:Ep; [|discriminate]. intros H. apply bind_ok in H as (x & _ & H). destruct (r_mid a =? to l) eqn:D.
  - apply Z.eqb_eq in D. destruct (k_que s v) as [[|y q]|] eqn:Eq; try discriminate. apply Ok_inj in H. subst s'.
    apply (Pr_halt _ _ _ _ _ s v l); auto. intros b Eb. unfold pnr_goal. congruence.
  - destruct (k_que s v) as [q|] eqn:Eq; [|discriminate]. destruct (same (k_cur s v) (k_nxt s v)) eqn:S; [|apply Ok_inj in H; subst; constructor].
    apply (adv_prim _ _ _ _ _ known); [now apply same_true|]. now apply checked_ok.
Qed.
Lemma pnr_pass_J s s' tr : pnr_round t0 known to I R s s' -> (forall u, cJ s tr u) -> forall u, cJ s' tr u.
Proof.
  intros (t & origins & ends & Et & [S1 S2] & H) HJ. unfold pnr_pass in H. apply bind_ok in H as (s1 & H1 & H2).
  destruct (fold_prim r_drive to pnr_goal pnr_plan free pnr_good (pnr_origin t known I R) (fun v => k_cur s v = None) (k_cur s) tr
    ltac:(intros a v b Ha Jv Hv Hx; apply (pnr_origin_prim t a tr); [exact Et|apply Jv|now rewrite Ha|exact Hx]) origins s s1 S1 ltac:(reflexivity) HJ H1) as [J1 C1].
  exact (proj1 (fold_prims r_drive to pnr_goal pnr_plan free pnr_good (fun l => pnr_link known to I l) (fun l v => k_cur s v = Some l) (k_cur s) tr
    ltac:(intros l a v b Ha Jv Hv Hx; apply (pnr_link_prim l); [now rewrite Ha|exact Hx]) ends s1 s' S2 C1 J1 H2)).
Qed.

Hypothesis complete : forall v st, is_pnr_car st (I v) = true -> exists es, In ((i_from (I v), i_to (I v)), es) t0.
Hypothesis links_known : forall v a l, offered_path t0 (i_from (I v)) (i_to (I v)) a -> In l (r_drive a) -> known l = true /\ l <> -1.
Hypothesis apart : forall v a, offered_path t0 (i_from (I v)) (i_to (I v)) a -> i_to (I v) <> r_mid a.
Hypothesis unit : forall v, (0 <= R v <= 1)%Q.

Lemma pnr_origin_total t tr s v : paths_of t = paths_of t0 -> fair t -> cJ s tr v -> k_cur s v = None -> exists s', pnr_origin t known I R s v = Ok s'.
Proof.
  intros Et Ft Jv Hc. unfold pnr_origin. destruct (is_pnr_car true (I v)) eqn:B.
  - destruct (k_que s v) as [q|] eqn:Eq; [eauto|]. destruct (complete v true B) as (es & Hes).
    destruct (draw_total t t0 (i_from (I v)) (i_to (I v)) (R v) es Et Ft Hes (unit v)) as (a & D). rewrite D. cbn [bind].
    pose proof (offered_paths t t0 _ _ _ Et (draw_offered _ _ _ _ _ D)) as O.
    apply (enter_total r_drive known s v a Eq); [apply (proj1 (routes v a B O))|]. intros l Hl. now apply (links_known v a).
  - destruct (is_pnr_car false (I v)) eqn:B2; [|eauto]. destruct (k_path s v) as [a|]; [eauto|]. destruct (complete v false B2) as (es & Hes).
    destruct (draw_total t t0 (i_from (I v)) (i_to (I v)) (R v) es Et Ft Hes (unit v)) as (a & D). rewrite D. cbn [bind]. eauto.
Qed.
Lemma pnr_link_total tr l s v : (forall u, cJ s tr u) -> k_cur s v = Some l -> exists s', pnr_link known to I l s v = Ok s'.
Proof.
  intros HJ Hc. unfold pnr_link. destruct (is_pnr_car true (I v)) eqn:B; [|eauto].
  destruct (J_at r_drive to pnr_goal pnr_plan free pnr_good s tr v l (HJ v) Hc) as (a & q & Eq & P & (_ & O & _) & Il & K1 & K2 & K3).
  unfold pnr_goal in K1, K2. rewrite P, Eq. pose proof (apart v a O) as Ap. apply Z.eqb_neq in Ap. rewrite Ap. cbn [negb guard bind].
  destruct (r_mid a =? to l) eqn:D.
  - apply Z.eqb_eq in D. rewrite K1 by congruence. eauto.
  - apply Z.eqb_neq in D. destruct (K2 ltac:(congruence)) as (n & En & Kn). rewrite Hc, En. cbn [same].
    destruct (l =? n) eqn:Eln; [|eauto]. apply Z.eqb_eq in Eln. destruct q as [|x q]; [now elim Kn|].
    destruct (links_known v a x O (K3 x (or_introl eq_refl))) as [Kx Nx]. apply (checked_total known s v x q Eq Kx Nx).
Qed.
Lemma pnr_pass_total t tr s origins ends : paths_of t = paths_of t0 -> fair t -> (forall u, cJ s tr u) -> standing s origins ends ->
  exists s', pnr_pass t known to I R origins ends s = Ok s'.
Proof.
  intros Et Ft HJ [S1 S2]. unfold pnr_pass.
  destruct (fold_total r_drive to pnr_goal pnr_plan free pnr_good (fun _ => True) (pnr_origin t known I R) (fun v => k_cur s v = None) (k_cur s) tr
    ltac:(intros a v _ Ha Jv Hv; destruct (pnr_origin_total t tr a v Et Ft (Jv v)) as [b Hb]; [now rewrite Ha|]; exists b; split; [exact Hb|split; [|exact Logic.I]; apply (pnr_origin_prim t a tr); [exact Et|apply Jv|now rewrite Ha|exact Hb]])
    origins s Logic.I S1 ltac:(reflexivity) HJ) as (s1 & E1 & J1 & C1 & _).
  rewrite E1. cbn [bind].
  destruct (fold_totals r_drive to pnr_goal pnr_plan free pnr_good (fun _ => True) (fun l => pnr_link known to I l) (fun l v => k_cur s v = Some l) (k_cur s) tr
    ltac:(intros l a v _ Ha Jv Hv; destruct (pnr_link_total tr l a v Jv) as [b Hb]; [now rewrite Ha|]; exists b; split; [exact Hb|split; [|exact Logic.I]; apply (pnr_link_prim l); [now rewrite Ha|exact Hb]])
    ends s1 Logic.I S2 C1 J1) as (s2 & E2 & _). eauto.
Qed.
End Pnr.

(** ** passengers *)
Section Pas.
Context (t0 : shares_of (list Z)) (known : Z -> bool) (to : Z -> Z) (kind : Z -> tlink) (I : Z -> who) (R : Z -> Q).
Definition pas_plan (v : Z) (a : list Z) : Prop :=
  i_static (I v) = true /\ (i_pnr (I v) = false -> offered_path t0 (i_from (I v)) (i_to (I v)) a) /\ route_to to (i_to (I v)) a.
Definition pas_goal (v : Z) (_ : list Z) : Z := i_to (I v).
(** paths given to park-and-ride passengers are routes *)
Definition pas_given (v : Z) (a : list Z) : Prop := i_static (I v) = true -> i_pnr (I v) = true -> route_to to (i_to (I v)) a.
Notation pprim := (prim (fun ls => ls) to pas_goal pas_plan pas_given).
Notation pJ := (J (fun ls => ls) pas_plan pas_given).
Lemma pas_good : forall v a, pas_plan v a -> route_to to (pas_goal v a) a.
Proof. intros v a (_ & _ & H). exact H. Qed.
Hypothesis routes : forall v a, i_static (I v) = true -> i_pnr (I v) = false -> offered_path t0 (i_from (I v)) (i_to (I v)) a -> route_to to (i_to (I v)) a.

Lemma pas_static_only s tr v : pJ s tr v -> i_static (I v) = false -> k_que s v = None.
Proof. unfold J. destruct (k_que s v); [|reflexivity]. intros (a & _ & (K & _) & _). congruence. Qed.

Lemma register_plan t s v a : paths_of t = paths_of t0 -> (forall a, k_path s v = Some a -> pas_given v a) -> i_static (I v) = true -> register_passenger t I R s v = Ok a -> pas_plan v a.
Proof.
  intros Et G B. unfold register_passenger. destruct (i_pnr (I v)) eqn:Pn.
  - destruct (k_path s v) as [b|] eqn:Ep; [|discriminate]. intros H. apply Ok_inj in H. subst b. split; [exact B|]. split; [congruence|]. exact (G a eq_refl B Pn).
  - intros D. pose proof (offered_paths t t0 _ _ _ Et (draw_offered _ _ _ _ _ D)) as O. split; [exact B|]. split; [intros _; exact O|now apply routes].
Qed.

Lemma pas_origin_prim t s tr v s' : paths_of t = paths_of t0 -> pJ s tr v -> k_cur s v = None -> pas_origin t known I R s v = Ok s' -> pprim s v s'.
Proof.
  intros Et Jv Hc. unfold pas_origin. destruct (i_static (I v)) eqn:B.
  - destruct (k_que s v) as [q|] eqn:Eq; [intros H; apply Ok_inj in H; subst; constructor|].
    intros H. apply bind_ok in H as (a & D & H). apply (enter_prim (fun ls => ls) to pas_goal pas_plan pas_given known s v a); auto. apply (register_plan t s v a Et); auto. unfold J in Jv. rewrite Eq in Jv. apply Jv.
  - destruct (k_path s v) as [a|] eqn:Ep; [intros H; apply Ok_inj in H; subst; constructor|].
    intros H. apply bind_ok in H as (a & D & H). apply Ok_inj in H. subst s'. apply Pr_nominal; [now apply (pas_static_only s tr)|]. intros K. congruence.
Qed.
Lemma pas_lot_prim t s tr v s' : paths_of t = paths_of t0 -> pJ s tr v -> k_cur s v = None -> pas_lot t known I R s v = Ok s' -> pprim s v s'.
Proof.
  intros Et Jv Hc. unfold pas_lot. destruct (i_static (I v)) eqn:B; [|intros H; apply Ok_inj in H; subst; constructor].
  destruct (k_que s v) as [q|] eqn:Eq.
  - destruct (k_nxt s v); [|discriminate]. intros H; apply Ok_inj in H; subst; constructor.
  - intros H. apply bind_ok in H as (x & _ & H). apply bind_ok in H as (a & D & H).
    apply (enter_prim (fun ls => ls) to pas_goal pas_plan pas_given known s v a); auto. apply (register_plan t s v a Et); auto. unfold J in Jv. rewrite Eq in Jv. apply Jv.
Qed.
Lemma moved_ok (s : trip (list Z)) v m : moved_on s v = Ok m -> m = true -> k_cur s v = k_nxt s v.
Proof. unfold moved_on. destruct (k_cur s v) as [a|]; [|discriminate]. destruct (k_nxt s v) as [b|]; [|discriminate]. intros H K. apply Ok_inj in H. rewrite <- H in K. apply Z.eqb_eq in K. congruence. Qed.
Lemma pas_link_prim l s v s' : k_cur s v = Some l -> pas_link known to kind I l s v = Ok s' -> pprim s v s'.
Proof.
  intros Hc. unfold pas_link. destruct (i_static (I v)) eqn:B; [|intros H; apply Ok_inj in H; subst; constructor].
  destruct (kind l) as [e|b e].
  - destruct (i_to (I v) =? to l) eqn:D; intros H.
    + apply bind_ok in H as (x & _ & H). apply Z.eqb_eq in D. destruct (k_que s v) as [[|y q]|] eqn:Eq; try discriminate. apply Ok_inj in H. subst s'.
      apply (Pr_halt _ _ _ _ _ s v l); auto.
    + destruct (k_que s v) as [q|] eqn:Eq; [|discriminate]. apply bind_ok in H as (x & _ & H). apply bind_ok in H as (m & M & H).
      destruct m; [|apply Ok_inj in H; subst; constructor]. apply (adv_prim _ _ _ _ _ known); [exact (moved_ok s v true M eq_refl)|]. now apply checked_ok.
  - destruct (i_to (I v) =? to l) eqn:D; [discriminate|]. intros H.
    destruct (k_que s v) as [q|] eqn:Eq; [|discriminate]. apply bind_ok in H as (x & _ & H). apply bind_ok in H as (m & M & H).
    destruct m; [|apply Ok_inj in H; subst; constructor]. apply (adv_prim _ _ _ _ _ known); [exact (moved_ok s v true M eq_refl)|]. now apply checked_ok.
Qed.
Lemma pas_stop_prim inl s v s' : pas_stop known I inl s v = Ok s' -> pprim s v s'.
Proof.
  unfold pas_stop. destruct (i_static (I v)) eqn:B; [|intros H; apply Ok_inj in H; subst; constructor].
  destruct (k_que s v) as [q|] eqn:Eq; [|discriminate]. intros H. apply bind_ok in H as (m & M & H).
  match type of H with (if ?c then _ else _) = _ => destruct c eqn:C end; [|apply Ok_inj in H; subst; constructor].
  apply andb_true_iff in C as [C _]. apply (adv_prim _ _ _ _ _ known); [exact (moved_ok s v m M C)|exact H].
Qed.

(** routing never gives another path to a park-and-ride passenger *)
Lemma pas_origin_path t s v s' u : i_pnr (I u) = true -> pas_origin t known I R s v = Ok s' -> k_path s' u = k_path s u.
Proof.
  intros Pu. unfold pas_origin, register_passenger. destruct (i_static (I v)).
  - destruct (k_que s v) as [q|] eqn:Eq; [intros H; apply Ok_inj in H; now subst|]. intros H. apply bind_ok in H as (a & D & H).
    apply take_ok in H as (l & q & _ & _ & _ & _ & _ & E4). rewrite E4. cbn [enrol k_path]. destruct (Z.eq_dec u v) as [->|N]; [|now rewrite upd_other by congruence].
    rewrite upd_same. rewrite Pu in D. destruct (k_path s v); [|discriminate]. apply Ok_inj in D. now subst.
  - destruct (k_path s v) as [b|] eqn:Ep; [intros H; apply Ok_inj in H; now subst|]. intros H. apply bind_ok in H as (a & D & H). apply Ok_inj in H. subst s'.
    cbn [nominal k_path]. rewrite upd_other; [reflexivity|]. intros ->. rewrite Pu in D. discriminate.
Qed.
Lemma pas_lot_path t s v s' u : i_pnr (I u) = true -> pas_lot t known I R s v = Ok s' -> k_path s' u = k_path s u.
Proof.
  intros Pu. unfold pas_lot, register_passenger. destruct (i_static (I v)); [|intros H; apply Ok_inj in H; now subst].
  destruct (k_que s v) as [q|] eqn:Eq; [destruct (k_nxt s v); [|discriminate]; intros H; apply Ok_inj in H; now subst|].
  intros H. apply bind_ok in H as (x & _ & H). apply bind_ok in H as (a & D & H).
  apply take_ok in H as (l & q & _ & _ & _ & _ & _ & E4). rewrite E4. cbn [enrol k_path]. destruct (Z.eq_dec u v) as [->|N]; [|now rewrite upd_other by congruence].
  rewrite upd_same. rewrite Pu in D. destruct (k_path s v); [|discriminate]. apply Ok_inj in D. now subst.
Qed.

Lemma pas_pass_J s s' tr : pas_round t0 known to kind I R s s' -> (forall u, pJ s tr u) -> forall u, pJ s' tr u.
Proof.
  intros (t & origins & lots & ends & stops & Et & [S1 S2] & H) HJ. unfold pas_pass in H. apply bind_ok in H as (s1 & H1 & H).
  apply bind_ok in H as (s2 & H2 & H). apply bind_ok in H as (s3 & H3 & H4).
  destruct (fold_prim (fun ls => ls) to pas_goal pas_plan pas_given pas_good (pas_origin t known I R) (fun v => k_cur s v = None) (k_cur s) tr
    ltac:(intros a v b Ha Jv Hv Hx; apply (pas_origin_prim t a tr); [exact Et|apply Jv|now rewrite Ha|exact Hx]) origins s s1
    ltac:(intros v Hv; apply S1, in_or_app; now left) ltac:(reflexivity) HJ H1) as [J1 C1].
  destruct (fold_prim (fun ls => ls) to pas_goal pas_plan pas_given pas_good (pas_lot t known I R) (fun v => k_cur s v = None) (k_cur s) tr
    ltac:(intros a v b Ha Jv Hv Hx; apply (pas_lot_prim t a tr); [exact Et|apply Jv|now rewrite Ha|exact Hx]) lots s1 s2
    ltac:(intros v Hv; apply S1, in_or_app; now right) C1 J1 H2) as [J2 C2].
  destruct (fold_prims (fun ls => ls) to pas_goal pas_plan pas_given pas_good (fun l => pas_link known to kind I l) (fun l v => k_cur s v = Some l) (k_cur s) tr
    ltac:(intros l a v b Ha Jv Hv Hx; apply (pas_link_prim l); [now rewrite Ha|exact Hx]) ends s2 s3 S2 C2 J2 H3) as [J3 C3].
  exact (proj1 (fold_prims (fun ls => ls) to pas_goal pas_plan pas_given pas_good (fun l => pas_stop known I l) (fun l v => True) (k_cur s) tr
    ltac:(intros l a v b Ha Jv Hv Hx; apply (pas_stop_prim l); exact Hx) stops s3 s' ltac:(intros; exact Logic.I) C3 J3 H4)).
Qed.

Hypothesis complete : forall v, i_pnr (I v) = false -> exists es, In ((i_from (I v), i_to (I v)), es) t0.
Hypothesis direct_fit : forall v a, i_static (I v) = true -> i_pnr (I v) = false -> offered_path t0 (i_from (I v)) (i_to (I v)) a ->
  legal kind to (i_to (I v)) a /\ (forall l, In l a -> known l = true /\ l <> -1).
Hypothesis unit : forall v, (0 <= R v <= 1)%Q.
(** what holds of the paths of park-and-ride passengers *)
Definition lots_fit (s : trip (list Z)) : Prop := forall v, i_pnr (I v) = true -> exists a, k_path s v = Some a /\
  (i_static (I v) = true -> legal kind to (i_to (I v)) a /\ (forall l, In l a -> known l = true /\ l <> -1)).

Lemma fits s tr v a : pJ s tr v -> lots_fit s -> k_que s v <> None -> k_path s v = Some a -> legal kind to (i_to (I v)) a /\ (forall l, In l a -> known l = true /\ l <> -1).
Proof.
  unfold J. intros Jv F Q P. destruct (k_que s v); [|congruence]. destruct Jv as (b & Pb & (B & O & _) & _). assert (b = a) by congruence. subst b.
  destruct (i_pnr (I v)) eqn:Pn; [|apply direct_fit; auto]. destruct (F v Pn) as (b & Eb & Kb). assert (b = a) by congruence. subst b. auto.
Qed.
Lemma register_total t s v : paths_of t = paths_of t0 -> fair t -> lots_fit s -> exists a, register_passenger t I R s v = Ok a.
Proof.
  intros Et Ft F. unfold register_passenger. destruct (i_pnr (I v)) eqn:Pn.
  - destruct (F v Pn) as (a & -> & _). eauto.
  - destruct (complete v Pn) as (es & Hes). exact (draw_total t t0 _ _ (R v) es Et Ft Hes (unit v)).
Qed.
Lemma register_fit t s v a : paths_of t = paths_of t0 -> lots_fit s -> i_static (I v) = true -> register_passenger t I R s v = Ok a -> forall l, In l a -> known l = true.
Proof.
  intros Et F B. unfold register_passenger. destruct (i_pnr (I v)) eqn:Pn.
  - destruct (F v Pn) as (b & -> & K). intros H. apply Ok_inj in H. subst b. intros l Hl. now apply (proj2 (K B)).
  - intros D l Hl. apply (proj2 (direct_fit v a B Pn (offered_paths t t0 _ _ _ Et (draw_offered _ _ _ _ _ D)))). exact Hl.
Qed.
Lemma pas_origin_total t tr s v : paths_of t = paths_of t0 -> fair t -> lots_fit s -> pJ s tr v -> k_cur s v = None -> exists s', pas_origin t known I R s v = Ok s'.
Proof.
  intros Et Ft F Jv Hc. unfold pas_origin. destruct (register_total t s v Et Ft F) as (a & D). destruct (i_static (I v)) eqn:B.
  - destruct (k_que s v) as [q|] eqn:Eq; [eauto|]. rewrite D. cbn [bind]. apply (enter_total (fun ls => ls) known s v a Eq).
    + assert (P : pas_plan v a) by (apply (register_plan t s v a Et); auto; unfold J in Jv; rewrite Eq in Jv; apply Jv). apply P.
    + exact (register_fit t s v a Et F B D).
  - destruct (k_path s v); [eauto|]. rewrite D. cbn [bind]. eauto.
Qed.
Lemma pas_lot_total t tr s v : paths_of t = paths_of t0 -> fair t -> lots_fit s -> (i_static (I v) = true -> i_drove (I v) = true /\ i_pnr (I v) = true) -> pJ s tr v -> k_cur s v = None -> exists s', pas_lot t known I R s v = Ok s'.
Proof.
  intros Et Ft F Hd Jv Hc. unfold pas_lot. destruct (register_total t s v Et Ft F) as (a & D). destruct (i_static (I v)) eqn:B; [|eauto].
  destruct (Hd eq_refl) as [-> ->]. destruct (k_que s v) as [q|] eqn:Eq.
  - destruct (k_nxt s v) eqn:En; [eauto|]. exfalso. unfold J in Jv. rewrite Eq in Jv. destruct Jv as (b & _ & (_ & _ & (Ne & _)) & C & [(x & K & _)|[(x & K & _)|(_ & _ & K)]]); try congruence.
    rewrite Hc in C. symmetry in C. apply lasto_none in C. congruence.
  - rewrite D. cbn [andb guard bind]. apply (enter_total (fun ls => ls) known s v a Eq).
    + assert (P : pas_plan v a) by (apply (register_plan t s v a Et); auto; unfold J in Jv; rewrite Eq in Jv; apply Jv). apply P.
    + exact (register_fit t s v a Et F B D).
Qed.
Lemma pas_link_total tr l s v : lots_fit s -> (forall u, pJ s tr u) -> k_cur s v = Some l -> exists s', pas_link known to kind I l s v = Ok s'.
Proof.
  intros F HJ Hc. unfold pas_link. destruct (i_static (I v)) eqn:B; [|eauto].
  destruct (J_at (fun ls => ls) to pas_goal pas_plan pas_given pas_good s tr v l (HJ v) Hc) as (a & q & Eq & P & G & Il & K1 & K2 & K3).
  unfold pas_goal in K1, K2. destruct (fits s tr v a (HJ v) F ltac:(congruence) P) as [Lg Kn]. specialize (Lg l Il). rewrite Eq.
  assert (Adv : forall n, k_nxt s v = Some n -> (n = l -> q <> []) -> exists s', (do m <- moved_on s v; if m then take_checked known s v else Ok s) = Ok s').
  { intros n En Nq. unfold moved_on. rewrite Hc, En. cbn [bind]. destruct (l =? n) eqn:Eln; [|eauto]. apply Z.eqb_eq in Eln. destruct q as [|x q]; [now elim Nq|].
    destruct (Kn x (K3 x (or_introl eq_refl))) as [Kx Nx]. apply (checked_total known s v x q Eq Kx Nx). }
  destruct (kind l) as [e|b e].
  - destruct Lg as [L1 L2]. destruct (i_to (I v) =? to l) eqn:D.
    + apply Z.eqb_eq in D. rewrite L1 by congruence. cbn [guard bind]. rewrite K1 by congruence. eauto.
    + apply Z.eqb_neq in D. destruct (K2 ltac:(congruence)) as (n & En & Nq).
      replace (match e with SPhysical | SVirtual | SDest => true | _ => false end) with true by (destruct L2 as [-> |[-> | ->]]; reflexivity). cbn [guard bind]. eauto.
  - destruct Lg as (-> & -> & L3). destruct (i_to (I v) =? to l) eqn:D; [apply Z.eqb_eq in D; congruence|]. apply Z.eqb_neq in D.
    destruct (K2 ltac:(congruence)) as (n & En & Nq). cbn [guard bind]. eauto.
Qed.
Lemma pas_stop_total tr inl s v : lots_fit s -> (forall u, pJ s tr u) -> (i_static (I v) = true -> exists b x y, k_cur s v = Some b /\ kind b = Ride x y) -> exists s', pas_stop known I inl s v = Ok s'.
Proof.
  intros F HJ Hb. unfold pas_stop. destruct (i_static (I v)) eqn:B; [|eauto]. destruct (Hb eq_refl) as (l & bx & by_ & Hc & Kd).
  destruct (J_at (fun ls => ls) to pas_goal pas_plan pas_given pas_good s tr v l (HJ v) Hc) as (a & q & Eq & P & G & Il & K1 & K2 & K3).
  unfold pas_goal in K1, K2. destruct (fits s tr v a (HJ v) F ltac:(congruence) P) as [Lg Kn]. specialize (Lg l Il). rewrite Kd in Lg.
  destruct (K2 ltac:(tauto)) as (n & En & Nq). rewrite Eq. unfold moved_on. rewrite Hc, En. cbn [bind].
  destruct (l =? n) eqn:Eln; cbn [andb]; [|eauto]. match goal with |- context [if ?c then _ else _] => destruct c end; [|eauto].
  apply Z.eqb_eq in Eln. destruct q as [|x q]; [now elim Nq|]. apply (take_total known s v x q Eq). now apply Kn, K3; left.
Qed.
Lemma lots_fit_same s s' : (forall u, i_pnr (I u) = true -> k_path s' u = k_path s u) -> lots_fit s -> lots_fit s'.
Proof. intros E F v Pv. rewrite E by exact Pv. now apply F. Qed.
Lemma pas_link_path l s v s' u : pas_link known to kind I l s v = Ok s' -> k_path s' u = k_path s u.
Proof.
  unfold pas_link. destruct (i_static (I v)); [|intros H; apply Ok_inj in H; now subst].
  assert (Adv : forall x, (do m <- moved_on s v; if m then take_checked known s v else Ok s) = Ok x -> k_path x u = k_path s u).
  { intros x H. apply bind_ok in H as (m & _ & H). destruct m; [|apply Ok_inj in H; now subst]. apply checked_ok, take_ok in H as (n & q & _ & _ & _ & _ & _ & E4). apply E4. }
  destruct (kind l) as [e|b e]; (destruct (i_to (I v) =? to l); intros H; [try discriminate|]).
  - apply bind_ok in H as (x & _ & H). destruct (k_que s v) as [[|y q]|]; try discriminate. apply Ok_inj in H. now subst.
  - destruct (k_que s v) as [q|]; [|discriminate]. apply bind_ok in H as (x & _ & H). now apply Adv.
  - destruct (k_que s v) as [q|]; [|discriminate]. apply bind_ok in H as (x & _ & H). now apply Adv.
Qed.
Lemma pas_stop_path inl s v s' u : pas_stop known I inl s v = Ok s' -> k_path s' u = k_path s u.
Proof.
  unfold pas_stop. destruct (i_static (I v)); [|intros H; apply Ok_inj in H; now subst].
  destruct (k_que s v) as [q|]; [|discriminate]. intros H. apply bind_ok in H as (m & _ & H).
  match type of H with (if ?c then _ else _) = _ => destruct c end; [|apply Ok_inj in H; now subst].
  apply take_ok in H as (n & r & _ & _ & _ & _ & _ & E4). apply E4.
Qed.
Lemma pas_pass_total t tr s origins lots ends stops : paths_of t = paths_of t0 -> fair t -> lots_fit s -> (forall u, pJ s tr u) ->
  standing s (origins ++ lots) ends -> (forall v, In v lots -> i_static (I v) = true -> i_drove (I v) = true /\ i_pnr (I v) = true) ->
  (forall i vs v, In (i, vs) stops -> In v vs -> i_static (I v) = true -> exists b x y, k_cur s v = Some b /\ kind b = Ride x y) ->
  exists s', pas_pass t known to kind I R origins lots ends stops s = Ok s'.
Proof.
  intros Et Ft F HJ [S1 S2] Hl Hs. unfold pas_pass.
  destruct (fold_total (fun ls => ls) to pas_goal pas_plan pas_given pas_good lots_fit (pas_origin t known I R) (fun v => k_cur s v = None) (k_cur s) tr
    ltac:(intros a v Fa Ha Jv Hv; destruct (pas_origin_total t tr a v Et Ft Fa (Jv v)) as [b Hb]; [now rewrite Ha|]; exists b; split; [exact Hb|];
          split; [apply (pas_origin_prim t a tr); [exact Et|apply Jv|now rewrite Ha|exact Hb]|apply (lots_fit_same a); [intros u Pu; exact (pas_origin_path t a v b u Pu Hb)|exact Fa]])
    origins s F ltac:(intros v Hv; apply S1, in_or_app; now left) ltac:(reflexivity) HJ) as (s1 & E1 & J1 & C1 & F1).
  rewrite E1. cbn [bind].
  destruct (fold_total (fun ls => ls) to pas_goal pas_plan pas_given pas_good lots_fit (pas_lot t known I R) (fun v => k_cur s v = None /\ (i_static (I v) = true -> i_drove (I v) = true /\ i_pnr (I v) = true)) (k_cur s) tr
    ltac:(intros a v Fa Ha Jv [Hv Hd]; destruct (pas_lot_total t tr a v Et Ft Fa Hd (Jv v)) as [b Hb]; [now rewrite Ha|]; exists b; split; [exact Hb|];
          split; [apply (pas_lot_prim t a tr); [exact Et|apply Jv|now rewrite Ha|exact Hb]|apply (lots_fit_same a); [intros u Pu; exact (pas_lot_path t a v b u Pu Hb)|exact Fa]])
    lots s1 F1 ltac:(intros v Hv; split; [apply S1, in_or_app; now right|now apply Hl]) C1 J1) as (s2 & E2 & J2 & C2 & F2).
  rewrite E2. cbn [bind].
  destruct (fold_totals (fun ls => ls) to pas_goal pas_plan pas_given pas_good lots_fit (fun l => pas_link known to kind I l) (fun l v => k_cur s v = Some l) (k_cur s) tr
    ltac:(intros l a v Fa Ha Jv Hv; destruct (pas_link_total tr l a v Fa Jv) as [b Hb]; [now rewrite Ha|]; exists b; split; [exact Hb|];
          split; [apply (pas_link_prim l); [now rewrite Ha|exact Hb]|apply (lots_fit_same a); [intros u Pu; exact (pas_link_path l a v b u Hb)|exact Fa]])
    ends s2 F2 S2 C2 J2) as (s3 & E3 & J3 & C3 & F3).
  rewrite E3. cbn [bind].
  destruct (fold_totals (fun ls => ls) to pas_goal pas_plan pas_given pas_good lots_fit (fun l => pas_stop known I l)
    (fun _ v => i_static (I v) = true -> exists b x y, k_cur s v = Some b /\ kind b = Ride x y) (k_cur s) tr
    ltac:(intros l a v Fa Ha Jv Hv; destruct (pas_stop_total tr l a v Fa Jv) as [b Hb]; [now rewrite Ha|]; exists b; split; [exact Hb|];
          split; [apply (pas_stop_prim l); exact Hb|apply (lots_fit_same a); [intros u Pu; exact (pas_stop_path l a v b u Hb)|exact Fa]])
    stops s3 F3 Hs C3 J3) as (s4 & E4 & _).
  eauto.
Qed.
End Pas.
