(** Invariant of travellers under way. *)
From Verif Require Import Base Base_lemmas Model_Num Model_Node Model_Path Model_Proute Spec_Proute Proof_Link4 Proof_Node4.
Local Open Scope Z_scope.

Definition lasto (l : list Z) : option Z := match rev l with [] => None | x :: _ => Some x end.
Lemma lasto_snoc l x : lasto (l ++ [x]) = Some x.
Proof. unfold lasto. now rewrite rev_app_distr. Qed.
Lemma lasto_some l x : lasto l = Some x -> exists pre, l = pre ++ [x].
Proof. unfold lasto. destruct (rev l) as [|y r] eqn:E; [discriminate|]. intros [= <-]. exists (rev r). rewrite <- (rev_involutive l), E. reflexivity. Qed.
Lemma lasto_none l : lasto l = None -> l = [].
Proof. unfold lasto. destruct (rev l) as [|y r] eqn:E; [|discriminate]. intros _. rewrite <- (rev_involutive l), E. reflexivity. Qed.

Lemma same_true a b : same a b = true -> a = b.
Proof. destruct a, b; cbn [same]; intros H; try discriminate; [|reflexivity]. apply Z.eqb_eq in H. now subst. Qed.
Lemma same_false a b : same a b = false -> a <> b.
Proof. destruct a, b; cbn [same]; intros H; try discriminate. apply Z.eqb_neq in H. congruence. Qed.

Section G.
Context {A : Type} (links : A -> list Z) (to : Z -> Z) (goal : Z -> A -> Z) (good given : Z -> A -> Prop).
(** [good v a] holds of every path that is given *)
Hypothesis good_route : forall v a, good v a -> route_to to (goal v a) (links a).

Definition J (s : trip A) (tr : Z -> list Z) (v : Z) : Prop :=
  match k_que s v with
  | None => k_cur s v = None /\ k_nxt s v = None /\ tr v = [] /\ forall a, k_path s v = Some a -> given v a
  | Some q =>
      exists a, k_path s v = Some a /\ good v a /\ k_cur s v = lasto (tr v) /\
        ((exists l, k_nxt s v = Some l /\ k_cur s v = Some l /\ links a = tr v ++ q) \/
         (exists l, k_nxt s v = Some l /\ k_cur s v <> Some l /\ links a = tr v ++ l :: q) \/
         (k_nxt s v = None /\ q = [] /\ links a = tr v))
  end.

(** one traveller is routed *)
Inductive prim (s : trip A) (v : Z) : trip A -> Prop :=
| Pr_same : prim s v s
| Pr_nominal : forall a, k_que s v = None -> given v a -> prim s v (nominal s v a)
| Pr_enter : forall a l q s', k_que s v = None -> k_cur s v = None -> good v a -> links a = l :: q ->
    (forall u, k_que s' u = upd (k_que s) v (Some q) u) -> (forall u, k_cur s' u = k_cur s u) ->
    (forall u, k_nxt s' u = upd (k_nxt s) v (Some l) u) -> (forall u, k_path s' u = upd (k_path s) v (Some a) u) -> prim s v s'
| Pr_adv : forall l q s', k_que s v = Some (l :: q) -> k_cur s v = k_nxt s v ->
    (forall u, k_que s' u = upd (k_que s) v (Some q) u) -> (forall u, k_cur s' u = k_cur s u) ->
    (forall u, k_nxt s' u = upd (k_nxt s) v (Some l) u) -> (forall u, k_path s' u = k_path s u) -> prim s v s'
| Pr_halt : forall l, k_que s v = Some [] -> k_cur s v = Some l -> (forall a, k_path s v = Some a -> to l = goal v a) -> prim s v (halt s v).

Lemma prim_cur s v s' : prim s v s' -> forall u, k_cur s' u = k_cur s u.
Proof. intros H. destruct H; try reflexivity; assumption. Qed.

Lemma prim_J s v s' tr : prim s v s' -> (forall u, J s tr u) -> forall u, J s' tr u.
Proof.
  intros H HJ u. specialize (HJ u) as Hu. unfold J in *.
  destruct H as [|a Hq Hgv|a l q s' Hq Hc Hg Hl E1 E2 E3 E4|l q s' Hq Hc E1 E2 E3 E4|l Hq Hc Hgo].
  - exact Hu.
  - cbn [nominal k_que k_cur k_nxt k_path]. destruct (Z.eq_dec u v) as [->|N].
    + rewrite Hq in Hu |- *. destruct Hu as (C & Nx & T & _). rewrite upd_same. repeat split; auto. intros b [= <-]. exact Hgv.
    + rewrite upd_other by congruence. exact Hu.
  - rewrite E1, E2, E3, E4. destruct (Z.eq_dec u v) as [->|N].
    + rewrite !upd_same. rewrite Hq in Hu. destruct Hu as (C & Nx & T & _). exists a. split; [reflexivity|]. split; [exact Hg|].
      rewrite T. split; [exact C|]. right. left. exists l. split; [reflexivity|]. split; [rewrite C; discriminate|]. exact Hl.
    + rewrite !upd_other by congruence. exact Hu.
  - rewrite E1, E2, E3, E4. destruct (Z.eq_dec u v) as [->|N].
    + rewrite !upd_same. rewrite Hq in Hu. destruct Hu as (a & P & Hg & C & Cs). exists a. split; [exact P|]. split; [exact Hg|]. split; [exact C|].
      destruct Cs as [(l' & N1 & N2 & E)|[(l' & N1 & N2 & E)|(N1 & E & _)]]; [| |discriminate].
      * right. left. exists l. split; [reflexivity|]. split; [|exact E].
        rewrite N2. rewrite N2 in C. symmetry in C. apply lasto_some in C as [pre Ep]. rewrite Ep, <- app_assoc in E. cbn [app] in E.
        destruct (good_route _ _ Hg) as (_ & St & _). specialize (St pre l' l q E). congruence.
      * congruence.
    + rewrite !upd_other by congruence. exact Hu.
  - cbn [halt k_que k_cur k_nxt k_path]. destruct (Z.eq_dec u v) as [->|N].
    + rewrite !upd_same. rewrite Hq in Hu |- *. destruct Hu as (a & P & Hg & C & Cs). exists a. split; [exact P|]. split; [exact Hg|]. split; [exact C|].
      right. right. split; [reflexivity|]. split; [reflexivity|].
      destruct Cs as [(l' & N1 & N2 & E)|[(l' & N1 & N2 & E)|(N1 & _ & E)]].
      * now rewrite app_nil_r in E.
      * exfalso. rewrite Hc in C. symmetry in C. apply lasto_some in C as [pre Ep]. rewrite Ep, <- app_assoc in E. cbn [app] in E.
        destruct (good_route _ _ Hg) as (_ & _ & Gl). specialize (Gl pre l [l'] E). specialize (Hgo a P). apply Gl in Hgo. discriminate.
      * exact E.
    + rewrite upd_other by congruence. exact Hu.
Qed.

Lemma go_J s v l tr : k_nxt s v = Some l -> k_cur s v <> Some l -> (forall u, J s tr u) -> forall u, J (go s v) (upd tr v (tr v ++ [l])) u.
Proof.
  intros Hn Hc HJ u. specialize (HJ u). unfold J in *. cbn [go k_que k_cur k_nxt k_path]. destruct (Z.eq_dec u v) as [->|N].
  - rewrite !upd_same. destruct (k_que s v) as [q|]; [|destruct HJ as (_ & K & _); congruence].
    destruct HJ as (a & P & Hg & C & Cs). exists a. split; [exact P|]. split; [exact Hg|]. split; [now rewrite Hn, lasto_snoc|].
    destruct Cs as [(l' & N1 & N2 & E)|[(l' & N1 & N2 & E)|(N1 & _ & E)]]; [congruence| |congruence].
    left. exists l. split; [exact Hn|]. split; [exact Hn|]. rewrite E, <- app_assoc. cbn [app]. congruence.
  - rewrite !upd_other by congruence. exact HJ.
Qed.

Lemma give_J s v a tr : k_que s v = None -> given v a -> (forall u, J s tr u) -> forall u, J (nominal s v a) tr u.
Proof. intros H G. apply (prim_J s v). now apply Pr_nominal. Qed.

Lemma start_J s : (forall v, k_que s v = None /\ k_cur s v = None /\ k_nxt s v = None /\ forall a, k_path s v = Some a -> given v a) -> forall u, J s (fun _ => []) u.
Proof. intros H u. destruct (H u) as (a & b & c & d). unfold J. rewrite a. auto. Qed.

(** routing a list of travellers one by one *)
Lemma fold_prim (f : trip A -> Z -> res (trip A)) (at_ : Z -> Prop) c tr :
  (forall s v s', (forall u, k_cur s u = c u) -> (forall u, J s tr u) -> at_ v -> f s v = Ok s' -> prim s v s') ->
  forall vs s s', (forall v, In v vs -> at_ v) -> (forall u, k_cur s u = c u) -> (forall u, J s tr u) -> foldM f s vs = Ok s' ->
  (forall u, J s' tr u) /\ (forall u, k_cur s' u = c u).
Proof.
  intros Hf vs. induction vs as [|v vs IH]; intros s s' Ha Hc HJ H; cbn [foldM] in H.
  - apply Ok_inj in H. subst s'. auto.
  - destruct (f s v) as [s1|e] eqn:E; [|discriminate]. cbn [bind] in H.
    assert (P : prim s v s1) by (apply (Hf s v s1 Hc HJ); [apply Ha; now left|exact E]).
    apply (IH s1 s'); [intros w Hw; apply Ha; now right| |exact (prim_J _ _ _ _ P HJ)|exact H].
    intros u. rewrite (prim_cur _ _ _ P). apply Hc.
Qed.

(** the same for lists of lists *)
Lemma fold_prims {K} (f : K -> trip A -> Z -> res (trip A)) (at_ : K -> Z -> Prop) c tr :
  (forall k s v s', (forall u, k_cur s u = c u) -> (forall u, J s tr u) -> at_ k v -> f k s v = Ok s' -> prim s v s') ->
  forall (xs : list (K * list Z)) s s', (forall k vs v, In (k, vs) xs -> In v vs -> at_ k v) -> (forall u, k_cur s u = c u) -> (forall u, J s tr u) ->
  foldM (fun s x => foldM (f (fst x)) s (snd x)) s xs = Ok s' -> (forall u, J s' tr u) /\ (forall u, k_cur s' u = c u).
Proof.
  intros Hf xs. induction xs as [|[k vs] xs IH]; intros s s' Ha Hc HJ H; cbn [foldM] in H.
  - apply Ok_inj in H. subst s'. auto.
  - cbn [fst snd] in H. destruct (foldM (f k) s vs) as [s1|e] eqn:E; [|discriminate]. cbn [bind] in H.
    destruct (fold_prim (f k) (at_ k) c tr (Hf k) vs s s1) as [J1 C1]; [intros v Hv; apply (Ha k vs v); [now left|exact Hv]|exact Hc|exact HJ|exact E|].
    apply (IH s1 s'); [intros k' vs' v Hx Hv; apply (Ha k' vs' v); [now right|exact Hv]|exact C1|exact J1|exact H].
Qed.

(** progress; [X] is any further invariant *)
Lemma fold_total (X : trip A -> Prop) (f : trip A -> Z -> res (trip A)) (at_ : Z -> Prop) c tr :
  (forall s v, X s -> (forall u, k_cur s u = c u) -> (forall u, J s tr u) -> at_ v -> exists s', f s v = Ok s' /\ prim s v s' /\ X s') ->
  forall vs s, X s -> (forall v, In v vs -> at_ v) -> (forall u, k_cur s u = c u) -> (forall u, J s tr u) ->
  exists s', foldM f s vs = Ok s' /\ (forall u, J s' tr u) /\ (forall u, k_cur s' u = c u) /\ X s'.
Proof.
  intros Hf vs. induction vs as [|v vs IH]; intros s Hx Ha Hc HJ; cbn [foldM].
  - exists s. auto.
  - destruct (Hf s v Hx Hc HJ (Ha v (or_introl eq_refl))) as (s1 & E & P & X1). rewrite E. cbn [bind].
    apply IH; [exact X1|intros w Hw; apply Ha; now right| |exact (prim_J _ _ _ _ P HJ)]. intros u. rewrite (prim_cur _ _ _ P). apply Hc.
Qed.
Lemma fold_totals {K} (X : trip A -> Prop) (f : K -> trip A -> Z -> res (trip A)) (at_ : K -> Z -> Prop) c tr :
  (forall k s v, X s -> (forall u, k_cur s u = c u) -> (forall u, J s tr u) -> at_ k v -> exists s', f k s v = Ok s' /\ prim s v s' /\ X s') ->
  forall (xs : list (K * list Z)) s, X s -> (forall k vs v, In (k, vs) xs -> In v vs -> at_ k v) -> (forall u, k_cur s u = c u) -> (forall u, J s tr u) ->
  exists s', foldM (fun s x => foldM (f (fst x)) s (snd x)) s xs = Ok s' /\ (forall u, J s' tr u) /\ (forall u, k_cur s' u = c u) /\ X s'.
Proof.
  intros Hf xs. induction xs as [|[k vs] xs IH]; intros s Hx Ha Hc HJ; cbn [foldM].
  - exists s. auto.
  - cbn [fst snd]. destruct (fold_total X (f k) (at_ k) c tr (Hf k) vs s Hx) as (s1 & E & J1 & C1 & X1); [intros v Hv; apply (Ha k vs v); [now left|exact Hv]|exact Hc|exact HJ|].
    rewrite E. cbn [bind]. apply IH; [exact X1|intros k' vs' v Hy Hv; apply (Ha k' vs' v); [now right|exact Hv]|exact C1|exact J1].
Qed.

Lemma story_J (pass : trip A -> trip A -> Prop) :
  (forall s s' tr, pass s s' -> (forall u, J s tr u) -> forall u, J s' tr u) ->
  forall s tr, story given pass s tr -> forall u, J s tr u.
Proof.
  intros Hp s tr H. induction H as [s H|s tr s' H IH P|s tr v l H IH N C|s tr v a H IH N Gv].
  - now apply start_J.
  - exact (Hp _ _ _ P IH).
  - now apply go_J.
  - now apply give_J.
Qed.

Lemma J_on_way s tr v q : J s tr v -> k_que s v = Some q ->
  exists a, k_path s v = Some a /\ good v a /\ on_way s (tr v) v (links a).
Proof.
  unfold J. intros H Hq. rewrite Hq in H. destruct H as (a & P & Hg & C & Cs). exists a. split; [exact P|]. split; [exact Hg|].
  exists q. split; [exact Hq|]. destruct Cs as [K|[K|(N & E & K)]]; auto.
Qed.

(** what the invariant says about a traveller at the end of its link *)
Lemma J_at s tr v l : J s tr v -> k_cur s v = Some l ->
  exists a q, k_que s v = Some q /\ k_path s v = Some a /\ good v a /\ In l (links a) /\
    (to l = goal v a -> q = []) /\
    (to l <> goal v a -> exists n, k_nxt s v = Some n /\ (n = l -> q <> [])) /\
    (forall x, In x q -> In x (links a)).
Proof.
  unfold J. intros H Hc. destruct (k_que s v) as [q|]; [|destruct H as (K & _); congruence].
  destruct H as (a & P & Hg & C & Cs). exists a, q. split; [reflexivity|]. split; [exact P|]. split; [exact Hg|].
  rewrite Hc in C. symmetry in C. apply lasto_some in C as [pre Ep].
  destruct (good_route _ _ Hg) as (_ & _ & Gl).
  destruct Cs as [(n & N1 & N2 & E)|[(n & N1 & N2 & E)|(N1 & Eq & E)]].
  - rewrite Ep, <- app_assoc in E. cbn [app] in E. specialize (Gl pre l q E). split; [rewrite E; apply in_elt|].
    split; [intros K; now apply Gl|]. split; [|intros x Hx; rewrite E; apply in_or_app; right; now right].
    intros K. exists n. split; [exact N1|]. intros _ Kq. now apply K, Gl.
  - rewrite Ep, <- app_assoc in E. cbn [app] in E. specialize (Gl pre l (n :: q) E). split; [rewrite E; apply in_elt|].
    split; [intros K; apply Gl in K; discriminate|]. split; [|intros x Hx; rewrite E; apply in_or_app; right; right; now right].
    intros K. exists n. split; [exact N1|]. intros ->. congruence.
  - subst q. rewrite Ep in E. specialize (Gl pre l [] E). split; [rewrite E; apply in_elt|]. split; [reflexivity|]. split; [|intros x []].
    intros K. exfalso. apply K, Gl. reflexivity.
Qed.
End G.
