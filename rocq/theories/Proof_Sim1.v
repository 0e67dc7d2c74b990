(** Vehicles are neither lost nor duplicated: counting. *)
From Verif Require Import Base Base_lemmas Model_Num Proof_Num Spec_Path Proof_Path Model_CC Spec_CC Proof_CC Model_Path Model_Link Spec_Link Spec_Node
  Proof_Link Proof_Link3 Proof_Link4 Proof_Link5 Model_World Model_Node Proof_Node Proof_Node2 Proof_Node3 Proof_Node4 Proof_Node5 Model_Sim Spec_Sim.
Local Open Scope Z_scope.

Definition zc (v : Z) (l : list Z) : Z := Z.of_nat (cnt v l).
Lemma zc_app v a b : zc v (a ++ b) = zc v a + zc v b.
Proof. unfold zc. rewrite cnt_app. lia. Qed.
Lemma zc_nil v : zc v [] = 0. Proof. reflexivity. Qed.
Lemma zc_nonneg v l : 0 <= zc v l. Proof. unfold zc. lia. Qed.
Lemma zc_perm v a b : Permutation a b -> zc v a = zc v b.
Proof. intros H. unfold zc. now rewrite (cnt_perm _ _ H v). Qed.
Lemma zc_In v l : In v l <-> 1 <= zc v l.
Proof. unfold zc. rewrite cnt_In. lia. Qed.
Lemma zc_concat {A} v (f : A -> list Z) l : zc v (concat (map f l)) = sumZ (map (fun x => zc v (f x)) l).
Proof. induction l; simpl; [reflexivity|]. rewrite zc_app. congruence. Qed.

Lemma NoDup_app_intro {A} (a b : list A) : NoDup a -> NoDup b -> (forall x, In x a -> ~ In x b) -> NoDup (a ++ b).
Proof.
  intros Na Nb D. induction Na as [|x a Nx Na IH]; [exact Nb|]. simpl. constructor.
  - rewrite in_app_iff. intros [C|C]; [contradiction|]. apply (D x); [now left|exact C].
  - apply IH. intros y Hy. apply D. now right.
Qed.

(** ** sums over lists *)
Lemma sumZ_map_plus {A} (f g : A -> Z) l : sumZ (map (fun x => f x + g x) l) = sumZ (map f l) + sumZ (map g l).
Proof. induction l; simpl; lia. Qed.
Lemma sumZ_map_minus {A} (f g : A -> Z) l : sumZ (map (fun x => f x - g x) l) = sumZ (map f l) - sumZ (map g l).
Proof. induction l; simpl; lia. Qed.
Lemma sumZ_map_ext {A} (f g : A -> Z) l : (forall x, In x l -> f x = g x) -> sumZ (map f l) = sumZ (map g l).
Proof. intros H. f_equal. apply map_ext_in, H. Qed.
Lemma sumZ_map_zero {A} (f : A -> Z) l : (forall x, In x l -> f x = 0) -> sumZ (map f l) = 0.
Proof. induction l as [|a l IH]; intros H; simpl; [reflexivity|]. rewrite (H a), IH; auto; [intros; apply H; now right|now left]. Qed.
Lemma sumZ_swap {A B} (f : A -> B -> Z) la lb :
  sumZ (map (fun a => sumZ (map (f a) lb)) la) = sumZ (map (fun b => sumZ (map (fun a => f a b) la)) lb).
Proof.
  induction la as [|a la IH]; simpl.
  - symmetry. apply sumZ_map_zero. reflexivity.
  - rewrite IH, <- sumZ_map_plus. reflexivity.
Qed.
Lemma sumZ_support (g : Z -> Z) : forall s l, NoDup l -> NoDup s -> incl s l -> (forall x, In x l -> ~ In x s -> g x = 0) ->
  sumZ (map g l) = sumZ (map g s).
Proof.
  induction s as [|x s IH]; intros l Nl Ns I H.
  - simpl. apply sumZ_map_zero. intros y Hy. apply H; auto.
  - apply NoDup_cons_iff in Ns as [Nx Ns]. assert (Ix : In x l) by (apply I; now left).
    apply in_split in Ix as (l1 & l2 & ->). simpl. rewrite map_app. simpl. rewrite sumZ_app. simpl.
    assert (E : sumZ (map g (l1 ++ l2)) = sumZ (map g s)).
    { apply IH; auto.
      - eapply NoDup_remove_1; eauto.
      - intros y Hy. specialize (I y (or_intror Hy)). apply in_app_or in I. apply in_or_app.
        destruct I as [I|[I|I]]; auto. subst. contradiction.
      - intros y Hy Hn. apply H; [apply in_app_or in Hy; apply in_or_app; destruct Hy; [now left|right; now right]|].
        intros [->|C]; [|contradiction]. apply NoDup_remove_2 in Nl. contradiction. }
    rewrite map_app, sumZ_app in E. lia.
Qed.
Lemma sumZ_support1 (g : Z -> Z) l x : NoDup l -> In x l -> (forall y, In y l -> y <> x -> g y = 0) -> sumZ (map g l) = g x.
Proof.
  intros N I H. rewrite (sumZ_support g [x]); auto.
  - simpl. lia.
  - repeat constructor. auto.
  - intros y [<-|[]]; exact I.
  - intros y Hy Hn. apply H; auto. intros ->. apply Hn. now left.
Qed.

(** ** where vehicle [v] is *)
Definition zo (N : net) (w : world) (v : Z) : Z := sumZ (map (fun n => zc v (w_oq w n)) (map o_node (n_origins N))).
Definition zl (N : net) (w : world) (v : Z) : Z := sumZ (map (fun l => zc v (on_link (w_link w l))) (n_links N)).
Definition zd (N : net) (w : world) (v : Z) : Z := sumZ (map (fun n => zc v (w_dq w n)) (n_dests N)).
Definition zcount (N : net) (w : world) (v : Z) : Z := zo N w v + zl N w v + zd N w v.

Lemma zcount_places N w v : zcount N w v = zc v (at_origins N w ++ on_links N w ++ at_dests N w).
Proof.
  unfold zcount, zo, zl, zd, at_origins, on_links, at_dests. rewrite !zc_app, !zc_concat, map_map. lia.
Qed.

Lemma junction_count N n w w' pass v : net_ok N -> fifo_passage N n w w' pass -> zcount N w' v = zcount N w v.
Proof.
  intros K P. destruct P as [Ff Fs Fp Fe Fi Fo Fx [Fq Fd]]. unfold zcount, zo, zd. rewrite Fq, Fd.
  enough (zl N w' v = zl N w v) by lia. unfold zl.
  enough (E : sumZ (map (fun l => zc v (on_link (w_link w' l)) - zc v (on_link (w_link w l))) (n_links N)) = 0) by (rewrite sumZ_map_minus in E; lia).
  destruct (no_around N K n) as (NI & NO & DJ).
  rewrite (sumZ_support _ (n_in N n ++ n_out N n)); [|apply no_links, K| | |].
  - rewrite map_app, sumZ_app.
    rewrite (sumZ_map_ext _ (fun a => - sumZ (map (fun b => zc v (pass a b)) (n_out N n))) (n_in N n)).
    2:{ intros a Ha. rewrite (Fi a Ha). unfold on_link. cbn [set_fin l_fin l_in l_body]. rewrite !zc_app.
        rewrite (zc_perm v _ _ (Fp a Ha)), zc_app, zc_concat. lia. }
    rewrite (sumZ_map_ext _ (fun b => sumZ (map (fun a => zc v (pass a b)) (n_in N n))) (n_out N n)).
    2:{ intros b Hb. rewrite (Fo b Hb). unfold on_link. cbn [set_in l_fin l_in l_body]. rewrite !zc_app.
        destruct (Fe b Hb) as (order & Po & ->). rewrite zc_app, zc_concat.
        rewrite (sumZ_perm _ _ (Permutation_map (fun a => zc v (pass a b)) Po)). lia. }
    rewrite <- (sumZ_swap (fun a b => zc v (pass a b))).
    rewrite <- sumZ_map_plus. apply sumZ_map_zero. intros; lia.
  - apply NoDup_app_intro; auto.
  - intros l Hl. apply in_app_or in Hl as [Hl|Hl]; [apply (no_in N K n l Hl)|apply (no_out N K n l Hl)].
  - intros l Hl Hn. rewrite Fx; [lia| |]; intros C; apply Hn; apply in_or_app; auto.
Qed.

Lemma origin_count N n w w' send v : net_ok N -> In n (map o_node (n_origins N)) -> origin_sends N n w w' send -> zcount N w' v = zcount N w v.
Proof.
  intros K In_ [Of Os Op Oe Ox [Oq Od]]. unfold zcount, zd. rewrite Od.
  assert (E1 : zo N w' v - zo N w v = - sumZ (map (fun b => zc v (send b)) (n_out N n))).
  { unfold zo. rewrite <- sumZ_map_minus. rewrite (sumZ_support1 _ _ n (no_origins N K) In_).
    - rewrite (zc_perm v _ _ Op), zc_app, zc_concat. lia.
    - intros y _ Hy. rewrite Oq by exact Hy. lia. }
  assert (E2 : zl N w' v - zl N w v = sumZ (map (fun b => zc v (send b)) (n_out N n))).
  { unfold zl. rewrite <- sumZ_map_minus. rewrite (sumZ_support _ (n_out N n)); [|apply no_links, K| | |].
    - apply sumZ_map_ext. intros b Hb. rewrite (Oe b Hb). unfold on_link. cbn [set_in l_fin l_in l_body]. rewrite !zc_app. lia.
    - apply (no_around N K n).
    - intros b Hb. apply (no_out N K n b Hb).
    - intros l _ Hn. rewrite Ox by exact Hn. lia. }
  lia.
Qed.

Lemma dest_count N n fs t w w' v : net_ok N -> In n (n_dests N) -> deff fs t n (n_in N n) w w' -> zcount N w' v = zcount N w v.
Proof.
  intros K In_ J. destruct J as [Dk Do Dqo Dq Dn Dl Dlo Dc _ _ _ _ _]. unfold zcount, zo. rewrite Do.
  assert (E1 : zd N w' v - zd N w v = sumZ (map (fun a => zc v (l_fin (w_link w a))) (n_in N n))).
  { unfold zd. rewrite <- sumZ_map_minus. rewrite (sumZ_support1 _ _ n (no_dests N K) In_).
    - rewrite Dq, zc_app, zc_concat. lia.
    - intros y _ Hy. rewrite Dqo by exact Hy. lia. }
  assert (E2 : zl N w' v - zl N w v = - sumZ (map (fun a => zc v (l_fin (w_link w a))) (n_in N n))).
  { unfold zl. rewrite <- sumZ_map_minus. rewrite (sumZ_support _ (n_in N n)); [|apply no_links, K| | |].
    - rewrite <- (sumZ_map_ext (fun a => 0 - zc v (l_fin (w_link w a)))).
      + rewrite sumZ_map_minus. rewrite (sumZ_map_zero (fun _ : Z => 0)); [lia|reflexivity].
      + intros a Ha. rewrite (Dl a Ha). unfold on_link. cbn [set_fin l_fin l_in l_body]. rewrite !zc_app, zc_nil. lia.
    - apply (no_around N K n).
    - intros a Ha. apply (no_in N K n a Ha).
    - intros l _ Hn. rewrite Dlo by exact Hn. lia. }
  lia.
Qed.
