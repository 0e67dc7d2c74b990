(** Conservation of passengers. *)
From Verif Require Import Base Base_lemmas Model_Num Model_Bus Spec_Bus.

Lemma place_eqb_spec x y : reflect (x = y) (place_eqb x y).
Proof.
  destruct x, y; cbn; try (constructor; congruence);
  match goal with |- context[?a =? ?b] => destruct (Z.eqb_spec a b) end; constructor; congruence.
Qed.
Lemma place_dec (x y : place) : {x = y} + {x <> y}.
Proof. destruct (place_eqb_spec x y); auto. Qed.
Lemma place_refl x : place_eqb x x = true.
Proof. now destruct (place_eqb_spec x x). Qed.

Lemma at_set x l w y : w_at (set_at x l w) y = if place_eqb y x then l else w_at w y.
Proof. reflexivity. Qed.
Lemma at_same x l w : w_at (set_at x l w) x = l.
Proof. now rewrite at_set, place_refl. Qed.
Lemma at_other x l w y : y <> x -> w_at (set_at x l w) y = w_at w y.
Proof. intros H. rewrite at_set. now destruct (place_eqb_spec y x). Qed.

(** ** nothing lost, nothing doubled *)
Definition keeps (f g : place -> list Z) : Prop :=
  forall p, (once f p -> once g p) /\ (nowhere f p -> nowhere g p).
Lemma keeps_refl f : keeps f f. Proof. intros p; auto. Qed.
Lemma keeps_trans f g h : keeps f g -> keeps g h -> keeps f h.
Proof. intros A B p. destruct (A p), (B p); auto. Qed.
Lemma keeps_ext f g : (forall x, f x = g x) -> keeps f g.
Proof.
  intros E p; split.
  - intros (x & C & N). exists x. rewrite <- E. split; auto. intros y Hy. rewrite <- E. auto.
  - intros N x. rewrite <- E. auto.
Qed.

Lemma cnt_pos p l : In p l <-> (1 <= cnt p l)%nat.
Proof.
  induction l as [|a l IH]; cbn; [split; [easy|lia]|].
  destruct (Z.eqb_spec p a) as [->|N]; [split; [lia|auto]|].
  cbn. rewrite <- IH. split; [intros [?|?]; [congruence|auto]|auto].
Qed.
Lemma cnt_none p l : ~ In p l <-> cnt p l = 0%nat.
Proof. rewrite cnt_pos. lia. Qed.

(** two containers changed *)
Lemma keeps_two f g x y :
  x <> y -> (forall z, z <> x -> z <> y -> g z = f z) ->
  (forall p, (cnt p (g x) + cnt p (g y) = cnt p (f x) + cnt p (f y))%nat) -> keeps f g.
Proof.
  intros Hxy O C p. specialize (C p). split.
  - intros (z & Cz & N).
    destruct (place_dec z x) as [->|Zx]; [|destruct (place_dec z y) as [->|Zy]].
    + assert (cnt p (f y) = 0)%nat by (apply cnt_none; apply N; congruence).
      destruct (cnt p (g x)) eqn:E.
      * exists y. split; [lia|]. intros u Hu. destruct (place_dec u x) as [->|]; [apply cnt_none; lia|].
        rewrite O by auto. auto.
      * exists x. split; [lia|]. intros u Hu. destruct (place_dec u y) as [->|]; [apply cnt_none; lia|].
        rewrite O by auto. auto.
    + assert (cnt p (f x) = 0)%nat by (apply cnt_none; apply N; congruence).
      destruct (cnt p (g x)) eqn:E.
      * exists y. split; [lia|]. intros u Hu. destruct (place_dec u x) as [->|]; [apply cnt_none; lia|].
        rewrite O by auto. auto.
      * exists x. split; [lia|]. intros u Hu. destruct (place_dec u y) as [->|]; [apply cnt_none; lia|].
        rewrite O by auto. auto.
    + assert (cnt p (f x) = 0)%nat by (apply cnt_none; apply N; congruence).
      assert (cnt p (f y) = 0)%nat by (apply cnt_none; apply N; congruence).
      exists z. split; [now rewrite O|]. intros u Hu.
      destruct (place_dec u x) as [->|]; [apply cnt_none; lia|].
      destruct (place_dec u y) as [->|]; [apply cnt_none; lia|]. rewrite O by auto. auto.
  - intros N z.
    assert (cnt p (f x) = 0)%nat by (apply cnt_none; apply N).
    assert (cnt p (f y) = 0)%nat by (apply cnt_none; apply N).
    destruct (place_dec z x) as [->|]; [apply cnt_none; lia|].
    destruct (place_dec z y) as [->|]; [apply cnt_none; lia|]. rewrite O by auto. auto.
Qed.
Lemma keeps_one f g x :
  (forall z, z <> x -> g z = f z) -> (forall p, cnt p (g x) = cnt p (f x)) -> keeps f g.
Proof.
  intros O C p. split.
  - intros (z & Cz & N). exists z. split.
    + destruct (place_dec z x) as [->|]; [rewrite C|rewrite O]; auto.
    + intros u Hu. destruct (place_dec u x) as [->|]; [|rewrite O; auto].
      apply cnt_none. rewrite C. apply cnt_none. auto.
  - intros N z. destruct (place_dec z x) as [->|]; [|rewrite O; auto].
    apply cnt_none. rewrite C. apply cnt_none. auto.
Qed.

(** the first of [x] goes to the end of [y] *)
Definition moved (p : Z) (x y : place) (f g : place -> list Z) : Prop :=
  forall z, g z = if place_eqb z y then (if place_eqb y x then tl (f x) else f y) ++ [p]
                  else if place_eqb z x then tl (f x) else f z.
Lemma moved_keeps p x y f g l : f x = p :: l -> moved p x y f g -> keeps f g.
Proof.
  intros Hd M. destruct (place_dec x y) as [<-|N].
  - apply (keeps_one _ _ x).
    + intros z Hz. rewrite (M z). destruct (place_eqb_spec z x); congruence.
    + intros q. rewrite (M x), !place_refl, Hd. cbn. rewrite cnt_app. cbn. lia.
  - apply (keeps_two _ _ x y N).
    + intros z Hx Hy. rewrite (M z). destruct (place_eqb_spec z y); [congruence|].
      destruct (place_eqb_spec z x); congruence.
    + intros q. rewrite (M x), (M y), !place_refl.
      destruct (place_eqb_spec x y); [congruence|]. destruct (place_eqb_spec y x); [congruence|].
      rewrite Hd. cbn. rewrite cnt_app. cbn. lia.
Qed.
Lemma moved_source p x y f g l : f x = p :: l -> x <> y -> moved p x y f g -> g x = l.
Proof.
  intros Hd N M. rewrite (M x), place_refl. destruct (place_eqb_spec x y); [congruence|]. now rewrite Hd.
Qed.

(** ** loops that visit a container from the front *)
Lemma visit (f : tw -> Z -> res tw) x :
  (forall w p w' l, w_at w x = p :: l -> f w p = Ok w' -> keeps (w_at w) (w_at w') /\ w_at w' x = l) ->
  forall l w w', w_at w x = l -> foldM f w l = Ok w' -> keeps (w_at w) (w_at w') /\ w_at w' x = [].
Proof.
  intros F l. induction l as [|p l IH]; intros w w' E H; cbn in H.
  - injection H as <-. split; [apply keeps_refl|auto].
  - destruct (f w p) as [w1|] eqn:E1; cbn in H; [|discriminate].
    destruct (F _ _ _ _ E E1) as [K S]. destruct (IH _ _ S H) as [K' S']. split; auto. eapply keeps_trans; eauto.
Qed.

Ltac gs H := match type of H with
  | (do _ <- guard ?b ?e; _) = Ok _ => let E := fresh "G" in destruct b eqn:E; cbn [bind guard] in H; [|discriminate H]
  end.

Ltac ifs H := match type of H with (if ?b then _ else _) = _ => let E := fresh "B" in destruct b eqn:E end.

Lemma onto_at l p w : w_at (onto l p w) = w_at w. Proof. reflexivity. Qed.
Lemma pas_at p r w : w_at (set_pas p r w) = w_at w. Proof. reflexivity. Qed.
Lemma age_at p r w : w_at (set_age p r w) = w_at w. Proof. reflexivity. Qed.
Lemma cin_at l w : w_at (count_in l w) = w_at w. Proof. reflexivity. Qed.
Lemma cout_at l w : w_at (count_out l w) = w_at w. Proof. reflexivity. Qed.
Lemma stop_at s r w : w_at (set_stop s r w) = w_at w. Proof. reflexivity. Qed.
Lemma bus_at s r w : w_at (set_bus s r w) = w_at w. Proof. reflexivity. Qed.

Lemma pushpop_moved p x y w : moved p x y (w_at w) (w_at (push y p (pop x w))).
Proof.
  intros z. unfold push. rewrite at_set. unfold pop.
  destruct (place_eqb_spec z y) as [->|]; rewrite !at_set.
  - destruct (place_eqb_spec y x) as [->|]; reflexivity.
  - destruct (place_eqb_spec z x) as [->|]; reflexivity.
Qed.

Lemma through_ok n al outs l w p w' r :
  w_at w (PDone l) = p :: r -> through n al outs l w p = Ok w' -> keeps (w_at w) (w_at w') /\ w_at w' (PDone l) = r.
Proof.
  unfold through. intros Hd H. destruct (p_next (w_pas w p)) as [x|]; [|discriminate].
  gs H. gs H. gs H. cbv zeta in H. gs H. injection H as <-.
  rewrite cin_at, cout_at.
  set (y := if is_boarding (k_kind n x) then PDone x else PIn x).
  assert (PDone l <> y).
  { unfold y. destruct (is_boarding (k_kind n x)) eqn:E; [|discriminate].
    cbn in G1. apply negb_true_iff, Z.eqb_neq in G1. congruence. }
  assert (M : moved p (PDone l) y (w_at w) (w_at (push y p (onto x p (pop (PDone l) w))))) by apply (pushpop_moved p (PDone l) y w).
  split; [eapply moved_keeps|eapply moved_source]; eauto.
Qed.
Lemma pass_link_ok n al outs w l w' : pass_link n al outs w l = Ok w' -> keeps (w_at w) (w_at w').
Proof.
  unfold pass_link. intros H. refine (proj1 (visit _ (PDone l) _ _ _ _ eq_refl H)).
  intros; eapply through_ok; eauto.
Qed.
Lemma foldM_keeps {A} (f : tw -> A -> res tw) :
  (forall w a w', f w a = Ok w' -> keeps (w_at w) (w_at w')) ->
  forall l w w', foldM f w l = Ok w' -> keeps (w_at w) (w_at w').
Proof.
  intros F l. induction l; cbn; intros w w' H; [injection H as <-; apply keeps_refl|].
  destruct (f w a) eqn:E; cbn in H; [|discriminate]. eapply keeps_trans; eauto.
Qed.
Lemma physical_ok n ins als outs w w' : physical_evolve n ins als outs w = Ok w' -> keeps (w_at w) (w_at w').
Proof.
  unfold physical_evolve. destruct (foldM _ w ins) as [w1|] eqn:E; cbn; [|discriminate]. intros H.
  eapply keeps_trans; eapply foldM_keeps; try eassumption; intros; eapply pass_link_ok; eauto.
Qed.

Lemma origin_ok n outs o w w' : origin_evolve n outs o w = Ok w' -> keeps (w_at w) (w_at w') /\ w_at w' (POrg o) = [].
Proof.
  unfold origin_evolve. intros H. refine (visit _ (POrg o) _ _ _ _ eq_refl H).
  intros u p u' r Hd E. unfold leave_origin in E. destruct (p_next (w_pas u p)) as [x|]; [|discriminate].
  gs E. injection E as <-. rewrite cin_at.
  assert (M := pushpop_moved p (POrg o) (PIn x) u).
  split; [eapply moved_keeps|eapply moved_source]; eauto; discriminate.
Qed.
Lemma lot_ok n outs k t w w' : lot_evolve n outs k t w = Ok w' -> keeps (w_at w) (w_at w') /\ w_at w' (PLot k) = [].
Proof.
  unfold lot_evolve. intros H. refine (visit _ (PLot k) _ _ _ _ eq_refl H).
  intros u p u' r Hd E. unfold leave_lot in E. gs E. destruct (p_next (w_pas u p)) as [x|]; [|discriminate].
  gs E. cbv zeta in E. injection E as <-. rewrite cin_at.
  assert (M := pushpop_moved p (PLot k) (PIn x) u).
  split; [eapply moved_keeps|eapply moved_source]; eauto; discriminate.
Qed.
Lemma dest_ok n ins outs d w w' : dest_evolve n ins outs d w = Ok w' -> keeps (w_at w) (w_at w').
Proof.
  unfold dest_evolve. apply foldM_keeps. clear. intros w l w' H.
  refine (proj1 (visit _ (PDone l) _ _ _ _ eq_refl H)).
  intros u p u' r Hd E. unfold into_dest in E. destruct (p_next (w_pas u p)) as [x|].
  - gs E. injection E as <-. rewrite cout_at, cin_at, onto_at.
    assert (M := pushpop_moved p (PDone l) (PIn x) u).
    split; [eapply moved_keeps|eapply moved_source]; eauto; discriminate.
  - gs E. injection E as <-. rewrite cout_at, pas_at.
    assert (M := pushpop_moved p (PDone l) (PDst d) u).
    split; [eapply moved_keeps|eapply moved_source]; eauto; discriminate.
Qed.

(** ** links *)
Lemma seq_move (f : tw -> Z -> res tw) x (P : tw -> Prop) :
  (forall w p l w', P w -> w_at w x = p :: l -> f w p = Ok w' ->
     P w' /\ keeps (w_at w) (w_at w') /\ exists e, w_at w' x = l ++ e) ->
  forall l w w' e, P w -> w_at w x = l ++ e -> foldM f w l = Ok w' -> P w' /\ keeps (w_at w) (w_at w').
Proof.
  intros F l. induction l as [|p l IH]; intros w w' e HP E H; cbn in H.
  - injection H as <-. split; auto. apply keeps_refl.
  - destruct (f w p) as [w1|] eqn:E1; cbn in H; [|discriminate].
    destruct (F _ _ _ _ HP E E1) as (P1 & K & e1 & S). rewrite <- app_assoc in S.
    destruct (IH _ _ _ P1 S H) as [P2 K']. split; auto. eapply keeps_trans; eauto.
Qed.

(** a passenger in at most one container, once *)
Definition sound (f : place -> list Z) : Prop := forall p, once f p \/ nowhere f p.
Lemma keeps_sound f g : keeps f g -> sound f -> sound g.
Proof. intros K S p. destruct (K p), (S p); auto. Qed.
Lemma sound_in f x y p : sound f -> In p (f x) -> In p (f y) -> x = y.
Proof.
  intros S A B. destruct (S p) as [(z & C & N)|N]; [|exfalso; eapply N; eauto].
  destruct (place_dec x z) as [->|]; [|exfalso; eapply N; eauto].
  destruct (place_dec y z) as [->|]; [auto|exfalso; eapply N; eauto].
Qed.

Lemma enter_walk_ok l w p r w' :
  sound (w_at w) -> w_at w (PIn l) = p :: r -> enter_walk l w p = Ok w' ->
  sound (w_at w') /\ keeps (w_at w) (w_at w') /\ exists e, w_at w' (PIn l) = r ++ e.
Proof.
  intros S Hd E. unfold enter_walk in E. gs E. destruct (p_wait (w_pas w p)) as [x|]; [|discriminate].
  enough (K : keeps (w_at w) (w_at w') /\ exists e, w_at w' (PIn l) = r ++ e)
    by (split; [eapply keeps_sound; [apply K|auto]|auto]).
  destruct (x <=? 0); [|injection E as <-].
  - cbv zeta in E.
    assert (memb p (w_at (pop (PIn l) (set_pas p (set_wait 0 (w_pas w p)) w)) (PWay l)) = false) as X.
    { apply memb_false. unfold pop. rewrite at_other by discriminate. intros Hin.
      assert (PWay l = PIn l) by (eapply sound_in; eauto; cbn; rewrite Hd; now left). discriminate. }
    rewrite X in E. injection E as <-.
    assert (M := pushpop_moved p (PIn l) (PWay l) w).
    split; [eapply moved_keeps; eauto|]. exists []. rewrite app_nil_r. eapply (moved_source p (PIn l) (PWay l)); eauto. discriminate.
  - assert (M := pushpop_moved p (PIn l) (PIn l) w).
    split; [eapply moved_keeps; eauto|]. exists [p].
    etransitivity; [exact (M (PIn l))|]. rewrite !place_refl, Hd. reflexivity.
Qed.
Lemma clear_walk_ok l w w' : sound (w_at w) -> clear_walk l w = Ok w' -> keeps (w_at w) (w_at w').
Proof.
  intros S H. refine (proj2 (seq_move (enter_walk l) (PIn l) (fun w => sound (w_at w)) _ _ _ _ [] S _ H)).
  - intros; eapply enter_walk_ok; eauto.
  - now rewrite app_nil_r.
Qed.
Lemma enter_ride_ok l w p r w' :
  sound (w_at w) -> w_at w (PIn l) = p :: r -> enter_ride l w p = Ok w' ->
  sound (w_at w') /\ keeps (w_at w) (w_at w') /\ exists e, w_at w' (PIn l) = r ++ e.
Proof.
  intros S Hd E. unfold enter_ride in E. gs E. cbv zeta in E.
  enough (K : keeps (w_at w) (w_at w') /\ exists e, w_at w' (PIn l) = r ++ e)
    by (split; [eapply keeps_sound; [apply K|auto]|auto]).
  assert (memb p (w_at (pop (PIn l) (set_pas p (set_wait 0 (w_pas w p)) w)) (PWay l)) = false) as X.
  { apply memb_false. unfold pop. rewrite at_other by discriminate. intros Hin.
    assert (PWay l = PIn l) by (eapply sound_in; eauto; cbn; rewrite Hd; now left). discriminate. }
  rewrite X in E. injection E as <-.
  assert (M := pushpop_moved p (PIn l) (PWay l) w).
  split; [eapply moved_keeps; eauto|]. exists []. rewrite app_nil_r. eapply (moved_source p (PIn l) (PWay l)); eauto. discriminate.
Qed.
Lemma clear_ride_ok l w w' : sound (w_at w) -> clear_ride l w = Ok w' -> keeps (w_at w) (w_at w').
Proof.
  intros S H. refine (proj2 (seq_move (enter_ride l) (PIn l) (fun w => sound (w_at w)) _ _ _ _ [] S _ H)).
  - intros; eapply enter_ride_ok; eauto.
  - now rewrite app_nil_r.
Qed.

Lemma permuted_keeps x f w : shuffle f -> keeps (w_at w) (w_at (set_at x (f (w_at w x)) w)).
Proof.
  intros P. apply (keeps_one _ _ x).
  - intros z Hz. now apply at_other.
  - intros p. rewrite at_same. symmetry. apply cnt_perm. apply P.
Qed.
Lemma walk_fold l stamp : forall q w e, w_at w (PWay l) = q ++ e -> keeps (w_at w) (w_at (fold_left (walk_on l stamp) q w)).
Proof.
  induction q as [|p q IH]; intros w e E; cbn [fold_left]; [apply keeps_refl|].
  unfold walk_on at 2. destruct (_ <=? _).
  - assert (M := pushpop_moved p (PWay l) (PDone l) w).
    eapply keeps_trans; [eapply moved_keeps; eauto|]. eapply (IH _ e).
    erewrite moved_source; eauto. discriminate.
  - assert (M := pushpop_moved p (PWay l) (PWay l) (set_age p (w_age w p + 1) w)).
    eapply keeps_trans; [eapply (moved_keeps p (PWay l) (PWay l) (w_at w)); eauto|].
    eapply (IH _ (e ++ [p])). etransitivity; [exact (M (PWay l))|]. rewrite !place_refl, age_at, E. cbn. now rewrite app_assoc.
Qed.
Lemma evolve_ok l stamp ord w : shuffle ord -> keeps (w_at w) (w_at (evolve_link l stamp ord w)).
Proof.
  intros P. unfold evolve_link. eapply keeps_trans; [apply (permuted_keeps (PWay l) ord); auto|].
  eapply (walk_fold _ _ _ _ []). rewrite at_same. now rewrite app_nil_r.
Qed.

(** ** stops *)
Lemma pushes (f : tw -> Z -> tw) x :
  (forall w p z, w_at (f w p) z = if place_eqb z x then w_at w x ++ [p] else w_at w z) ->
  forall q w z, w_at (fold_left f q w) z = if place_eqb z x then w_at w x ++ q else w_at w z.
Proof.
  intros F q. induction q as [|p q IH]; intros w z; cbn [fold_left].
  - rewrite app_nil_r. destruct (place_eqb_spec z x); congruence.
  - rewrite IH. destruct (place_eqb_spec z x) as [->|].
    + rewrite F, place_refl, <- app_assoc. reflexivity.
    + rewrite F. destruct (place_eqb_spec z x); congruence.
Qed.
Lemma alight_pushes x il q w z :
  w_at (fold_left (alight_one x il) q w) z = if place_eqb z (PDone x) then w_at w (PDone x) ++ q else w_at w z.
Proof. apply (pushes (alight_one x il) (PDone x)). reflexivity. Qed.
Lemma board_pushes b bl ol q w z :
  w_at (fold_left (board_one b bl ol) q w) z = if place_eqb z (PBus b) then w_at w (PBus b) ++ q else w_at w z.
Proof. apply (pushes (board_one b bl ol) (PBus b)). reflexivity. Qed.

Lemma alight_scan_ok n w al lim : forall pool c stay off,
  alight_scan n w al lim c pool = Ok (stay, off) -> forall p, (cnt p stay + cnt p off = cnt p pool)%nat.
Proof.
  induction pool as [|q pool IH]; intros c stay off H p; cbn in H.
  - injection H as <- <-. reflexivity.
  - destruct (p_next (w_pas w q)) as [x|]; [|discriminate].
    destruct (_ && _); [destruct (lim <=? c)|].
    + injection H as <- <-. cbn. lia.
    + destruct (alight_scan n w al lim (c + 1) pool) as [[s o]|] eqn:E; cbn in H; [|discriminate].
      injection H as <- <-. specialize (IH _ _ _ E p). cbn. lia.
    + destruct (alight_scan n w al lim c pool) as [[s o]|] eqn:E; cbn in H; [|discriminate].
      injection H as <- <-. specialize (IH _ _ _ E p). cbn. lia.
Qed.
Lemma board_scan_split n w out route lim : forall line c on rest,
  board_scan n w out route lim c line = Ok (on, rest) -> line = on ++ rest.
Proof.
  induction line as [|q line IH]; intros c on rest H; cbn [board_scan] in H.
  - injection H as <- <-. reflexivity.
  - gs H. destruct (lim <=? c); [injection H as <- <-; reflexivity|].
    destruct (board_scan n w out route lim (c + 1) line) as [[o r]|] eqn:E; cbn in H; [|discriminate].
    injection H as <- <-. cbn. f_equal. eauto.
Qed.

Lemma alight_keeps n b s w w' : do_alight n b s w = Ok w' -> keeps (w_at w) (w_at w').
Proof.
  unfold do_alight. cbv zeta. destruct (alight_scan _ _ _ _ _ _) as [[stay off]|] eqn:E; cbn; [|discriminate].
  intros H. assert (C := alight_scan_ok _ _ _ _ _ _ _ _ E).
  destruct off as [|o off]; [injection H as <-; apply keeps_refl|].
  destruct (s_in (w_stop w s)) as [il|]; [|discriminate]. destruct (s_alight (w_stop w s)) as [x|]; [|discriminate].
  injection H as <-. apply (keeps_two _ _ (PBus b) (PDone x)); [discriminate| |].
  - intros z Z1 Z2. rewrite (alight_pushes x il off). destruct (place_eqb_spec z (PDone x)); [congruence|].
    cbn. destruct (place_eqb_spec z (PDone x)); [congruence|]. destruct (place_eqb_spec z (PBus b)); congruence.
  - intros p. specialize (C p). rewrite !(alight_pushes x il off), place_refl. cbn. rewrite !Z.eqb_refl.
    rewrite !cnt_app. cbn in *. lia.
Qed.
Lemma board_keeps n b s w w' : do_board n b s w = Ok w' -> keeps (w_at w) (w_at w').
Proof.
  unfold do_board. cbv zeta. destruct (s_board (w_stop w s)) as [bl|]; [|intros [= <-]; apply keeps_refl].
  destruct (_ <=? 0); [intros [= <-]; apply keeps_refl|].
  destruct (board_scan _ _ _ _ _ _ _) as [[on rest]|] eqn:E; cbn; [|discriminate].
  apply board_scan_split in E. destruct (s_out (w_stop w s)) as [ol|]; intros [= <-]; [|apply keeps_refl].
  apply (keeps_two _ _ (PBus b) (PDone bl)); [discriminate| |].
  - intros z Z1 Z2. rewrite (board_pushes b bl ol on). destruct (place_eqb_spec z (PBus b)); [congruence|].
    rewrite at_other; auto.
  - intros p. rewrite !(board_pushes b bl ol on), place_refl. cbn. rewrite !Z.eqb_refl.
    rewrite E, !cnt_app. lia.
Qed.
Lemma board_and_alight_keeps n sh b s w w' :
  shuffle sh -> board_and_alight n sh b s w = Ok w' -> keeps (w_at w) (w_at w').
Proof.
  unfold board_and_alight. intros P H. gs H.
  destruct (do_alight n b s w) as [w1|] eqn:E1; cbn [bind] in H; [|discriminate].
  destruct (do_board n b s w1) as [w2|] eqn:E2; cbn [bind] in H; [|discriminate]. injection H as <-.
  eapply keeps_trans; [eapply alight_keeps; eauto|]. eapply keeps_trans; [eapply board_keeps; eauto|].
  apply (permuted_keeps (PBus b) sh); auto.
Qed.

Lemma hold_at n f b s w h w' : hold_bus n f b s w = Ok (h, w') -> w_at w' = w_at w.
Proof.
  unfold hold_bus. cbv zeta. intros H. gs H. gs H. gs H.
  ifs H; [injection H as <- <-; reflexivity|].
  ifs H; [injection H as <- <-; reflexivity|].
  destruct (want_off n w (w_stop w s) (w_at w (PBus b))) as [off|]; cbn [bind] in H; [|discriminate].
  match type of H with (do on <- ?X; _) = _ => destruct X as [on|] end; cbn [bind] in H; [|discriminate].
  match type of H with (do st1 <- ?X; _) = _ => destruct X as [st1|] end; cbn [bind] in H; [|discriminate].
  ifs H; injection H as <- <-; reflexivity.
Qed.
Lemma at_stop_keeps n f sh b s w h w' :
  shuffle sh -> at_stop n f sh b s w = Ok (h, w') -> keeps (w_at w) (w_at w').
Proof.
  unfold at_stop. intros P H. destruct (hold_bus n f b s w) as [[held w1]|] eqn:E; cbn in H; [|discriminate].
  apply hold_at in E. destruct held; [|injection H as <- <-; rewrite E; apply keeps_refl].
  ifs H; [|injection H as <- <-; rewrite E; apply keeps_refl].
  destruct (board_and_alight n sh b s w1) as [w2|] eqn:E2; cbn in H; [|discriminate]. injection H as <- <-.
  apply board_and_alight_keeps in E2; auto. now rewrite E in E2.
Qed.
Lemma foldM_at {A} (f : tw -> A -> res tw) :
  (forall w a w', f w a = Ok w' -> w_at w' = w_at w) -> forall l w w', foldM f w l = Ok w' -> w_at w' = w_at w.
Proof.
  intros F l. induction l; cbn; intros w w' H; [injection H as <-; auto|].
  destruct (f w a) eqn:E; cbn in H; [|discriminate]. rewrite (IHl _ _ H). eauto.
Qed.
Lemma ride_on_at ol il w p w' : ride_on ol il w p = Ok w' -> w_at w' = w_at w.
Proof.
  unfold ride_on. destruct (p_next _); [|discriminate]. intros H. gs H. destruct (p_cur _); [|discriminate].
  ifs H; [injection H as <-; auto|]. destruct il; [|discriminate]. gs H. injection H as <-. reflexivity.
Qed.
Lemma release_at b s w w' : release_bus b s w = Ok w' -> w_at w' = w_at w.
Proof.
  unfold release_bus. cbv zeta. intros H. gs H.
  match type of H with (do w1 <- ?X; _) = _ => destruct X as [w1|] eqn:E end; cbn [bind] in H; [|discriminate].
  gs H. injection H as <-. cbn. destruct (s_out _).
  - eapply foldM_at; [|exact E]. intros; eapply ride_on_at; eauto.
  - gs E. injection E as <-. reflexivity.
Qed.
Lemma reroute_at il rt w p w' : reroute il rt w p = Ok w' -> w_at w' = w_at w.
Proof.
  unfold reroute. destruct (p_cur _); [|discriminate]. destruct (p_next _); [|discriminate].
  intros [= <-]. destruct (_ && _); reflexivity.
Qed.
Lemma receive_at rt b s w w' : receive_bus rt b s w = Ok w' -> w_at w' = w_at w.
Proof.
  unfold receive_bus. cbv zeta. intros H. gs H.
  change (w_at w) with (w_at (set_stop s (set_queue (s_queue (w_stop w s) ++ [b]) (w_stop w s)) w)).
  eapply foldM_at; [|exact H]. intros u b' u' E. eapply foldM_at; [|exact E]. intros; eapply reroute_at; eauto.
Qed.
Lemma go_on_at rt stops x b w w' : go_on rt stops x b w = Ok w' -> w_at w' = w_at w.
Proof.
  unfold go_on. cbv zeta. destruct (_ =? -1); [intros [= <-]; reflexivity|].
  set (w1 := set_bus b _ w).
  match goal with |- (do w2 <- ?X; _) = _ -> _ => destruct X as [w2|] eqn:E end; cbn [bind]; [|discriminate]. intros H.
  assert (w_at w2 = w_at w1) as A.
  { destruct (stop_here w1 stops _ x); [eapply release_at; eauto|now injection E as <-]. }
  destruct (stop_here w2 stops _ (x + 1)).
  - rewrite (receive_at _ _ _ _ _ H), A. reflexivity.
  - injection H as <-. rewrite A. reflexivity.
Qed.
Lemma drive_keeps n f sh rt stops x b w h w' :
  shuffle sh -> drive n f sh rt stops x b w = Ok (h, w') -> keeps (w_at w) (w_at w').
Proof.
  unfold drive. intros P H.
  match type of H with (do (_, _) <- ?X; _) = _ => destruct X as [[held w1]|] eqn:E end; cbn [bind] in H; [|discriminate].
  assert (K : keeps (w_at w) (w_at w1)).
  { ifs E; [injection E as <- <-; apply keeps_refl|].
    destruct (stop_here _ _ _ _); [eapply at_stop_keeps; eauto|injection E as <- <-; apply keeps_refl]. }
  destruct held; [injection H as <- <-; auto|].
  destruct (go_on rt stops x b w1) as [w2|] eqn:E2; cbn in H; [|discriminate]. injection H as <- <-.
  apply go_on_at in E2. now rewrite E2.
Qed.

(** ** implicit buses *)
Lemma implicit_off_ok n st il : forall line c w w',
  w_at w (PDone il) = line -> implicit_off n st il c line w = Ok w' -> keeps (w_at w) (w_at w').
Proof.
  induction line as [|p line IH]; intros c w w' Hd H; cbn [implicit_off] in H; [injection H as <-; apply keeps_refl|].
  destruct (p_next (w_pas w p)) as [x|]; [|discriminate]. ifs H.
  - gs H. assert (M := pushpop_moved p (PDone il) (PIn x) w).
    refine (keeps_trans _ _ _ (moved_keeps _ _ _ _ _ _ Hd M) (IH _ _ _ _ H)).
    refine (moved_source p (PDone il) (PIn x) _ _ _ Hd _ M); auto; discriminate.
  - gs H. ifs H; [injection H as <-; apply keeps_refl|]. gs H.
    assert (PDone il <> PDone x) by (apply negb_true_iff, Z.eqb_neq in G0; congruence).
    assert (M := pushpop_moved p (PDone il) (PDone x) w).
    refine (keeps_trans _ _ _ (moved_keeps _ _ _ _ _ _ Hd M) (IH _ _ _ _ H)).
    refine (moved_source p (PDone il) (PDone x) _ _ _ Hd _ M); auto.
Qed.
Lemma implicit_on_ok n st il : forall line c w w',
  w_at w (PDone il) = line -> implicit_on n st il c line w = Ok w' -> keeps (w_at w) (w_at w').
Proof.
  induction line as [|p line IH]; intros c w w' Hd H; cbn [implicit_on] in H; [injection H as <-; apply keeps_refl|].
  destruct (p_next (w_pas w p)) as [x|]; [|discriminate]. ifs H.
  - gs H. ifs H; [injection H as <-; apply keeps_refl|].
    assert (M := pushpop_moved p (PDone il) (PIn x) w).
    refine (keeps_trans _ _ _ (moved_keeps _ _ _ _ _ _ Hd M) (IH _ _ _ _ H)).
    refine (moved_source p (PDone il) (PIn x) _ _ _ Hd _ M); auto; discriminate.
  - gs H. gs H.
    assert (PDone il <> PDone x) by (apply negb_true_iff, Z.eqb_neq in G0; congruence).
    assert (M := pushpop_moved p (PDone il) (PDone x) w).
    refine (keeps_trans _ _ _ (moved_keeps _ _ _ _ _ _ Hd M) (IH _ _ _ _ H)).
    refine (moved_source p (PDone il) (PDone x) _ _ _ Hd _ M); auto.
Qed.
Lemma virtual_keeps n s w w' : virtual_evolve n s w = Ok w' -> keeps (w_at w) (w_at w').
Proof.
  unfold virtual_evolve. cbv zeta.
  match goal with |- (do w1 <- ?X; _) = _ -> _ => destruct X as [w1|] eqn:E end; cbn [bind]; [|discriminate]. intros H.
  assert (K : keeps (w_at w) (w_at w1)).
  { destruct (s_in _); [eapply implicit_off_ok; eauto|injection E as <-; apply keeps_refl]. }
  eapply keeps_trans; [exact K|].
  destruct (s_board _); [eapply implicit_on_ok; eauto|injection H as <-; apply keeps_refl].
Qed.

(** ** destinations *)
Lemma receive_list d t : forall l w w', w_at w (PDst d) = l -> foldM (receive_pas d t) w l = Ok w' ->
  forall z, w_at w' z = if place_eqb z (PDst d) then [] else w_at w z.
Proof.
  induction l as [|p l IH]; intros w w' E H z; cbn in H.
  - injection H as <-. destruct (place_eqb_spec z (PDst d)); congruence.
  - unfold receive_pas in H at 1. destruct (p_dest _ =? d); cbn [bind guard] in H; [|discriminate].
    assert (E' : w_at (set_pas p (set_finish t (w_pas w p)) (pop (PDst d) w)) (PDst d) = l)
      by (rewrite pas_at; unfold pop; rewrite at_same, E; reflexivity).
    rewrite (IH _ _ E' H z).
    destruct (place_eqb_spec z (PDst d)); [auto|]. apply at_other. auto.
Qed.

(** ** whole runs *)
Lemma accounted_sound y : accounted y -> sound (w_at (y_w y)).
Proof. intros [_ A] p. destruct (A p) as [A1 A2]. destruct (Z_le_dec 1 p), (Z_le_dec p (y_num y)); [destruct A1 as [[? ?]|[? ?]]; auto| | |]; right; apply A2; lia. Qed.
Lemma lift_ok y x y' : lift y x = Ok y' -> exists w, x = Ok w /\ y' = {| y_w := w; y_num := y_num y; y_gone := y_gone y |}.
Proof. unfold lift. destruct x; cbn; [|discriminate]. intros [= <-]. eauto. Qed.
Lemma accounted_lift y w : accounted y -> keeps (w_at (y_w y)) (w_at w) ->
  accounted {| y_w := w; y_num := y_num y; y_gone := y_gone y |}.
Proof.
  intros [A0 A] K. split; [exact A0|]. intros p. destruct (A p) as [A1 A2]. destruct (K p) as [K1 K2]. cbn. split.
  - intros I. destruct (A1 I) as [[? ?]|[? ?]]; auto.
  - intros I. destruct (A2 I); auto.
Qed.

Lemma step_accounted n y e y' : accounted y -> fair e -> step n y e = Ok y' -> accounted y'.
Proof.
  intros A F H. assert (S := accounted_sound _ A).
  destruct e; cbn [step] in H;
    try (apply lift_ok in H; destruct H as (w & E & ->); apply accounted_lift; auto).
  - gs H. injection H as <-. destruct A as [A0 A]. split; [cbn; lia|]. intros p. cbn [y_w y_num y_gone]. destruct (A p) as [A1 A2].
    assert (NN : nowhere (w_at (y_w y)) (y_num y + 1)) by (apply A; lia).
    assert (NG : ~ In (y_num y + 1) (y_gone y)) by (apply A; lia).
    assert (X : p <> y_num y + 1 -> keeps (w_at (y_w y)) (w_at (y_w y)) ->
              (once (w_at (y_w y)) p -> once (w_at (push x (y_num y + 1) (set_pas (y_num y + 1) (new_pas t pnr dest) (y_w y)))) p) /\
              (nowhere (w_at (y_w y)) p -> nowhere (w_at (push x (y_num y + 1) (set_pas (y_num y + 1) (new_pas t pnr dest) (y_w y)))) p)).
    { intros Np _. assert (C : forall z, cnt p (w_at (push x (y_num y + 1) (set_pas (y_num y + 1) (new_pas t pnr dest) (y_w y))) z) = cnt p (w_at (y_w y) z)).
      { intros z. unfold push. rewrite at_set. destruct (place_eqb_spec z x) as [->|]; [|reflexivity].
        rewrite cnt_app. cbn [cnt]. destruct (Z.eqb_spec p (y_num y + 1)); [lia|]. cbn. lia. }
      split.
      - intros (z & Cz & N). exists z. split; [now rewrite C|]. intros u Hu. apply cnt_none. rewrite C. apply cnt_none. auto.
      - intros N z. apply cnt_none. rewrite C. apply cnt_none. auto. }
    split.
    + intros I. destruct (Z.eq_dec p (y_num y + 1)) as [->|Np].
      * left. split; auto. exists x. split.
        { unfold push. rewrite at_same, pas_at, cnt_app. cbn [cnt]. rewrite Z.eqb_refl. cbv iota.
          assert (cnt (y_num y + 1) (w_at (y_w y) x) = 0)%nat by (apply cnt_none, NN). lia. }
        intros u Hu. unfold push. rewrite at_other; auto. apply NN.
      * destruct (X Np (keeps_refl _)) as [X1 X2]. destruct A1 as [[? ?]|[? ?]]; [lia| |]; auto.
    + intros I. destruct (X ltac:(lia) (keeps_refl _)) as [X1 X2]. destruct A2; [lia|]. auto.
  - injection E as <-. apply keeps_refl.
  - eapply (proj1 (origin_ok _ _ _ _ _ E)).
  - eapply (proj1 (lot_ok _ _ _ _ _ _ E)).
  - eapply physical_ok; eauto.
  - eapply dest_ok; eauto.
  - destruct (dest_receive d t (y_w y)) as [w1|] eqn:E; cbn [bind] in H; [|discriminate]. injection H as <-.
    assert (R := receive_list d t _ _ _ eq_refl E). destruct A as [A0 A]. split; [exact A0|]. intros p. cbn [y_w y_num y_gone]. destruct (A p) as [A1 A2].
    assert (X : nowhere (w_at (y_w y)) p -> nowhere (w_at w1) p).
    { intros N z. rewrite R. destruct (place_eqb z (PDst d)); auto. }
    split.
    + intros I. destruct (A1 I) as [[(z & Cz & N) G]|[N G]].
      * destruct (place_dec z (PDst d)) as [->|Nz].
        { right. split.
          - intros u. rewrite R. destruct (place_eqb_spec u (PDst d)); auto.
          - rewrite cnt_app. apply cnt_none in G. lia. }
        { left. split.
          - exists z. split.
            + rewrite R. destruct (place_eqb_spec z (PDst d)); congruence.
            + intros u Hu. rewrite R. destruct (place_eqb_spec u (PDst d)); auto.
          - rewrite in_app_iff. intros [?|?]; [auto|]. eapply N; eauto. }
      * right. split; auto. rewrite cnt_app.
        assert (cnt p (w_at (y_w y) (PDst d)) = 0)%nat by (apply cnt_none, N). lia.
    + intros I. destruct (A2 I) as [N G]. split; auto. rewrite in_app_iff. intros [?|?]; auto. eapply N; eauto.
  - eapply clear_walk_ok; eauto.
  - eapply clear_ride_ok; eauto.
  - injection E as <-. apply evolve_ok. exact F.
  - eapply virtual_keeps; eauto.
  - destruct (drive n f sh rt stops x b (y_w y)) as [[h w1]|] eqn:E1; cbn in E; [|discriminate]. injection E as <-.
    eapply drive_keeps; eauto.
Qed.

Lemma run_accounted n : forall es y y', accounted y -> Forall fair es -> run_events n y es = Ok y' -> accounted y'.
Proof.
  unfold run_events. induction es as [|e es IH]; intros y y' A F H; cbn [foldM] in H; [injection H as <-; auto|].
  inversion F; subst. destruct (step n y e) as [y1|] eqn:E; cbn [bind] in H; [|discriminate].
  eapply IH; [| |exact H]; auto. eapply step_accounted; eauto.
Qed.
