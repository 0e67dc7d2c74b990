From Verif Require Import Base Base_lemmas Model_Node Model_PreRouting Spec_PreRouting.
Local Open Scope Z_scope.

Lemma od_eqb_iff a b : od_eqb a b = true <-> a = b.
Proof. unfold od_eqb. destruct a, b; cbn [fst snd]. rewrite andb_true_iff, !Z.eqb_eq. split; [intros [-> ->]; reflexivity|]. intros E; injection E; auto. Qed.
Lemma od_eqb_refl a : od_eqb a a = true.
Proof. now apply od_eqb_iff. Qed.
Lemma find_od_In T o d f : find_od T o d = Some f -> In ((o, d), f) T.
Proof.
  induction T as [|[k g] T IH]; [discriminate|]. cbn [find_od]. destruct (od_eqb k (o, d)) eqn:E.
  - apply od_eqb_iff in E as ->. intros [= ->]. now left.
  - intros H. right. auto.
Qed.
Lemma find_od_spec T o d f : NoDup (map fst T) -> (find_od T o d = Some f <-> In ((o, d), f) T).
Proof.
  intros N. split; [apply find_od_In|]. induction T as [|[k g] T IH]; [intros []|]. cbn [find_od]. inversion N as [|? ? N1 N2]; subst.
  intros [E|H].
  - injection E as -> ->. now rewrite od_eqb_refl.
  - destruct (od_eqb k (o, d)) eqn:E; [|auto]. apply od_eqb_iff in E as ->. exfalso. apply N1. cbn. change (o, d) with (fst ((o, d), f)). now apply in_map.
Qed.
Lemma find_path_spec f p a : NoDup (map fst f) -> (find_path f p = Some a <-> In (p, a) f).
Proof.
  intros N. induction f as [|[k g] f IH]; [split; [discriminate|intros []]|]. cbn [find_path]. inversion N as [|? ? N1 N2]; subst.
  destruct (Z.eqb_spec k p) as [->|E].
  - split; [intros [= ->]; now left|]. intros [E|H]; [injection E as ->; reflexivity|]. exfalso. apply N1. cbn. change p with (fst (p, a)). now apply in_map.
  - rewrite (IH N2). split; [now right|]. intros [X|H]; [injection X; congruence|exact H].
Qed.
Lemma read_ok a i x : read a i = Ok x <-> 0 <= i /\ nth_error a (Z.to_nat i) = Some x.
Proof.
  unfold read. destruct (Z.ltb_spec i 0); [split; [discriminate|lia]|]. destruct (nth_error a (Z.to_nat i)) as [y|].
  - split; [intros E; apply Ok_inj in E as ->; split; [lia|reflexivity]|intros [_ E]; congruence].
  - split; [discriminate|intros [_ E]; discriminate].
Qed.
Lemma read_total a i : 0 <= i < Z.of_nat (length a) -> exists x, read a i = Ok x.
Proof.
  intros H. destruct (nth_error a (Z.to_nat i)) as [x|] eqn:E; [exists x; apply read_ok; split; [lia|exact E]|]. apply nth_error_None in E. lia.
Qed.
Lemma put_same a i v : (i < length a)%nat -> nth_error (put a i v) i = Some v.
Proof. revert i; induction a as [|x a IH]; intros [|i] H; cbn in *; try lia; [reflexivity|]. apply IH. lia. Qed.
Lemma put_other a i j v : i <> j -> nth_error (put a i v) j = nth_error a j.
Proof. revert i j; induction a as [|x a IH]; intros [|i] [|j] H; cbn in *; try reflexivity; try congruence. apply IH. congruence. Qed.
Lemma put_length a i v : length (put a i v) = length a.
Proof. revert i; induction a as [|x a IH]; intros [|i]; cbn; auto. Qed.
Lemma nth_of_error {A} (a : list A) i x d : nth_error a i = Some x -> nth i a d = x.
Proof. apply nth_error_nth. Qed.

(** the sum and the shift of one pair *)
Lemma total_flow_acc f i : forall acc tot, foldM (fun acc p => do x <- read (snd p) i; Ok (acc + x)%Q) acc f = Ok tot ->
  (tot == acc + pair_total f (Z.to_nat i))%Q.
Proof.
  induction f as [|[p a] f IH]; intros acc tot; cbn [foldM].
  - intros E. apply Ok_inj in E as <-. unfold pair_total. cbn. lra.
  - intros H. apply bind_ok in H as (y & H1 & H). apply bind_ok in H1 as (x & Hx & H1). apply Ok_inj in H1 as <-. apply IH in H. rewrite H.
    apply read_ok in Hx as [_ Hx]. cbn [snd] in Hx. unfold pair_total. cbn [map sumQ fold_right snd]. rewrite (nth_of_error _ _ _ 0%Q Hx). fold (sumQ (map (fun e : Z * list Q => nth (Z.to_nat i) (snd e) 0%Q) f)). lra.
Qed.
Lemma total_flow_spec f i tot : total_flow f i = Ok tot -> (tot == pair_total f (Z.to_nat i))%Q.
Proof. intros H. apply total_flow_acc in H. rewrite H. lra. Qed.
Lemma total_flow_total f i : (forall e, In e f -> 0 <= i < Z.of_nat (length (snd e))) -> exists tot, total_flow f i = Ok tot.
Proof.
  unfold total_flow. intros H. generalize 0%Q. induction f as [|e f IH]; intros q; [eexists; reflexivity|]. cbn [foldM].
  destruct (read_total (snd e) i (H e (or_introl eq_refl))) as (x & ->). cbn [bind]. apply IH. intros; apply H; now right.
Qed.

(** relation between the flows of a pair before and after *)
Definition shifted (p : Z) (i : nat) (lam tot : Q) (e e' : Z * list Q) : Prop :=
  fst e' = fst e /\ length (snd e') = length (snd e) /\ (forall j, j <> i -> nth_error (snd e') j = nth_error (snd e) j) /\
  exists x, nth_error (snd e) i = Some x /\ nth_error (snd e') i = Some (if fst e =? p then (1 - lam) * x + lam * tot else (1 - lam) * x)%Q.
Lemma shift_path_ok p i lam tot e e' : shift_path p i lam tot e = Ok e' -> 0 <= i /\ shifted p (Z.to_nat i) lam tot e e'.
Proof.
  unfold shift_path. intros H. apply bind_ok in H as (x & Hx & H). apply Ok_inj in H as <-. apply read_ok in Hx as [Hi Hx]. split; [exact Hi|].
  assert ((Z.to_nat i < length (snd e))%nat) by (apply nth_error_Some; congruence).
  split; [reflexivity|]. cbn [snd fst]. split; [apply put_length|]. split; [intros j Hj; apply put_other; congruence|]. exists x. split; [exact Hx|]. now apply put_same.
Qed.
Lemma mapM_Forall2 {A B} (g : A -> res B) l : forall l', mapM g l = Ok l' -> Forall2 (fun a b => g a = Ok b) l l'.
Proof.
  induction l as [|a l IH]; intros l'; cbn [mapM].
  - intros E. apply Ok_inj in E as <-. constructor.
  - intros H. apply bind_ok in H as (b & Hb & H). apply bind_ok in H as (bs & Hbs & H). apply Ok_inj in H as <-. constructor; auto.
Qed.
Lemma shifted_all p i lam tot f f' : mapM (shift_path p i lam tot) f = Ok f' -> Forall2 (shifted p (Z.to_nat i) lam tot) f f'.
Proof.
  intros H. apply mapM_Forall2 in H. induction H as [|a b l l' H _ IH]; constructor; [|exact IH]. now apply shift_path_ok in H.
Qed.
Lemma shifted_keys p i lam tot f f' : Forall2 (shifted p i lam tot) f f' -> map fst f' = map fst f.
Proof. induction 1 as [|a b l l' (E & _) _ IH]; cbn; congruence. Qed.
Lemma shifted_other p i lam tot f f' j : Forall2 (shifted p i lam tot) f f' -> j <> i -> pair_total f' j = pair_total f j.
Proof.
  intros H Hj. unfold pair_total. f_equal. induction H as [|a b l l' (_ & _ & E & _) _ IH]; [reflexivity|]. cbn. rewrite IH. f_equal.
  specialize (E j Hj). destruct (nth_error (snd a) j) eqn:Ea; [now rewrite (nth_of_error _ _ _ 0%Q E), (nth_of_error _ _ _ 0%Q Ea)|].
  apply nth_error_None in E, Ea. now rewrite !nth_overflow.
Qed.
Lemma shifted_sum p i lam tot f f' : Forall2 (shifted p i lam tot) f f' ->
  (pair_total f' i == (1 - lam) * pair_total f i + lam * tot * inject_Z (Z.of_nat (cnt p (map fst f))))%Q.
Proof.
  unfold pair_total. induction 1 as [|a b l l' (_ & _ & _ & x & Hx & Hy) _ IH]; [cbn; change (inject_Z 0) with 0%Q; ring|].
  cbn [map sumQ fold_right cnt]. fold (sumQ (map (fun e : Z * list Q => nth i (snd e) 0%Q) l')). fold (sumQ (map (fun e : Z * list Q => nth i (snd e) 0%Q) l)).
  rewrite IH, (nth_of_error _ _ _ 0%Q Hx), (nth_of_error _ _ _ 0%Q Hy), Nat2Z.inj_add, inject_Z_plus. rewrite (Z.eqb_sym p (fst a)). destruct (fst a =? p).
  - change (inject_Z (Z.of_nat 1)) with 1%Q. ring.
  - change (inject_Z (Z.of_nat 0)) with 0%Q. ring.
Qed.

(** the table after a shift *)
Definition od_upd (o d : Z) (f' : flows) (e : (Z * Z) * flows) : (Z * Z) * flows := if od_eqb (fst e) (o, d) then (fst e, f') else e.
Lemma set_od_map T o d f' : NoDup (map fst T) -> set_od T o d f' = map (od_upd o d f') T.
Proof.
  induction T as [|[k g] T IH]; intros N; [reflexivity|]. inversion N as [|? ? N1 N2]; subst. cbn [set_od map]. unfold od_upd at 1. cbn [fst].
  destruct (od_eqb k (o, d)) eqn:E; [|now rewrite IH]. f_equal. apply od_eqb_iff in E as ->. symmetry. transitivity (map (fun x => x) T); [|apply map_id].
  apply map_ext_in. intros [k h] Hk. unfold od_upd. cbn [fst]. destruct (od_eqb k (o, d)) eqn:E2; [|reflexivity]. exfalso. apply od_eqb_iff in E2 as ->.
  apply N1. cbn [fst]. change (o, d) with (fst ((o, d), h)). now apply in_map.
Qed.
Lemma od_upd_key o d f' e : fst (od_upd o d f' e) = fst e.
Proof. unfold od_upd. now destruct (od_eqb (fst e) (o, d)). Qed.
Lemma od_total_one T o d f i : NoDup (map fst T) -> In ((o, d), f) T -> (od_total T o d i == pair_total f i)%Q.
Proof.
  unfold od_total. induction T as [|[[a b] g] T IH]; intros N; [intros []|]. inversion N as [|? ? N1 N2]; subst. intros [E|H].
  - injection E as -> -> ->. cbn [filter fst snd]. rewrite !Z.eqb_refl. cbn [andb map sumQ fold_right snd].
    assert (Z : filter (fun e : Z * Z * flows => (fst (fst e) =? o) && (snd (fst e) =? d)) T = []).
    { clear IH N N2. induction T as [|[[a b] g] T IH]; [reflexivity|]. cbn [filter fst snd]. destruct ((a =? o) && (b =? d)) eqn:E.
      - exfalso. apply N1. apply andb_true_iff in E as [E1 E2]. apply Z.eqb_eq in E1 as ->, E2 as ->. now left.
      - apply IH. intros X. apply N1. now right. }
    rewrite Z. cbn. lra.
  - cbn [filter fst snd]. destruct ((a =? o) && (b =? d)) eqn:E; [|now apply IH]. exfalso. apply N1. apply andb_true_iff in E as [E1 E2].
    apply Z.eqb_eq in E1 as ->, E2 as ->. cbn. change (o, d) with (fst ((o, d), f)). now apply in_map.
Qed.

(** [tot] is only equal (==) to the total, so it stays a parameter *)
Lemma reassign_ok T o d p i lam T' : table_ok T -> reassign T o d p i lam = Ok T' ->
  exists f f' tot, In ((o, d), f) T /\ T' = map (od_upd o d f') T /\ Forall2 (shifted p (Z.to_nat i) lam tot) f f' /\ (tot == pair_total f (Z.to_nat i))%Q.
Proof.
  intros [N _]. unfold reassign. destruct (find_od T o d) as [f|] eqn:E; [|discriminate]. intros H.
  apply bind_ok in H as (tot & Ht & H). apply bind_ok in H as (f' & Hf & H). apply Ok_inj in H as <-.
  exists f, f', tot. split; [now apply find_od_In|]. split; [now apply set_od_map|]. split; [now apply shifted_all|now apply total_flow_spec].
Qed.
Lemma od_upd_table_ok T o d f f' : table_ok T -> In ((o, d), f) T -> map fst f' = map fst f -> table_ok (map (od_upd o d f') T).
Proof.
  intros [N1 N2] Hf E. split.
  - rewrite map_map. rewrite (map_ext _ fst) by (apply od_upd_key). exact N1.
  - intros k g Hg. apply in_map_iff in Hg as ([k0 g0] & Eg & Hg). unfold od_upd in Eg. cbn [fst] in Eg. destruct (od_eqb k0 (o, d)) eqn:Ek.
    + injection Eg as -> <-. rewrite E. exact (N2 _ _ Hf).
    + injection Eg as -> ->. exact (N2 _ _ Hg).
Qed.
Lemma od_upd_In T o d f f' : NoDup (map fst T) -> In ((o, d), f) T -> forall a b g,
  In ((a, b), g) (map (od_upd o d f') T) <-> ((a, b) = (o, d) /\ g = f') \/ ((a, b) <> (o, d) /\ In ((a, b), g) T).
Proof.
  intros N Hf a b g. rewrite in_map_iff. split.
  - intros ([k h] & E & H). unfold od_upd in E. cbn [fst] in E. destruct (od_eqb k (o, d)) eqn:Ek.
    + injection E as -> ->. apply od_eqb_iff in Ek. left. auto.
    + injection E as -> ->. right. split; [|exact H]. intros X. rewrite X, od_eqb_refl in Ek. discriminate.
  - intros [[E ->]|[E H]].
    + injection E as -> ->. exists ((o, d), f). split; [|exact Hf]. unfold od_upd. cbn [fst]. now rewrite od_eqb_refl.
    + exists ((a, b), g). split; [|exact H]. unfold od_upd. cbn [fst]. destruct (od_eqb (a, b) (o, d)) eqn:Ek; [|reflexivity]. apply od_eqb_iff in Ek. congruence.
Qed.
Lemma od_total_missing T o d i : (forall f, ~ In ((o, d), f) T) -> od_total T o d i = 0%Q.
Proof.
  unfold od_total. intros H. replace (filter _ T) with (@nil ((Z * Z) * flows)); [reflexivity|]. symmetry.
  induction T as [|[[a b] g] T IH]; [reflexivity|]. cbn [filter fst snd]. destruct ((a =? o) && (b =? d)) eqn:E.
  - exfalso. apply andb_true_iff in E as [E1 E2]. apply Z.eqb_eq in E1 as ->, E2 as ->. apply (H g). now left.
  - apply IH. intros f Hf. apply (H f). now right.
Qed.
Lemma Forall2_In_r' {A B} (R : A -> B -> Prop) l l' b : Forall2 R l l' -> In b l' -> exists a, In a l /\ R a b.
Proof. induction 1 as [|x y l l' H _ IH]; [intros []|]. intros [->|Hb]; [exists x; split; [now left|exact H]|]. destruct (IH Hb) as (a & Ha & Hr). exists a. split; [now right|exact Hr]. Qed.
Lemma Forall2_In_l' {A B} (R : A -> B -> Prop) l l' a : Forall2 R l l' -> In a l -> exists b, In b l' /\ R a b.
Proof. induction 1 as [|x y l l' H _ IH]; [intros []|]. intros [->|Hb]; [exists y; split; [now left|exact H]|]. destruct (IH Hb) as (b & Ha & Hr). exists b. split; [now right|exact Hr]. Qed.
Lemma in_unique {A} (l : list (Z * A)) k a b : NoDup (map fst l) -> In (k, a) l -> In (k, b) l -> a = b.
Proof.
  induction l as [|[k0 a0] l IH]; intros N; [intros []|]. inversion N as [|? ? N1 N2]; subst. intros [E1|H1] [E2|H2].
  - congruence.
  - injection E1 as -> ->. exfalso. apply N1. change k with (fst (k, b)). now apply in_map.
  - injection E2 as -> ->. exfalso. apply N1. change k with (fst (k, a)). now apply in_map.
  - auto.
Qed.
Lemma in_unique2 {A} (l : list ((Z * Z) * A)) k a b : NoDup (map fst l) -> In (k, a) l -> In (k, b) l -> a = b.
Proof.
  induction l as [|[k0 a0] l IH]; intros N; [intros []|]. inversion N as [|? ? N1 N2]; subst. intros [E1|H1] [E2|H2].
  - congruence.
  - injection E1 as -> ->. exfalso. apply N1. change k with (fst (k, b)). now apply in_map.
  - injection E2 as -> ->. exfalso. apply N1. change k with (fst (k, a)). now apply in_map.
  - auto.
Qed.
Lemma cnt_one p (f : flows) : NoDup (map fst f) -> (exists a, In (p, a) f) -> cnt p (map fst f) = 1%nat.
Proof.
  intros N (a & H). apply NoDup_cnt with (x := p) in N. assert (In p (map fst f)) by (change p with (fst (p, a)); now apply in_map). apply cnt_In in H0. lia.
Qed.

(** the initial table *)
Lemma build_pair_cases sizes o d T T' : build_pair sizes o d T = Ok T' ->
  T' = T /\ (find_demand (po_demand o) d = None \/ exists f, find_od T (po_node o) d = Some f) \/
  exists a n, find_demand (po_demand o) d = Some a /\ (po_max o <= length a)%nat /\ sizes (po_node o) d = Some n /\ find_od T (po_node o) d = None /\
    T' = T ++ [((po_node o, d), initial_flows (po_max o) (firstn (po_max o) a) n)].
Proof.
  unfold build_pair, copy_demand. destruct (find_demand (po_demand o) d) as [a|]; [|intros E; apply Ok_inj in E as <-; left; auto].
  destruct (Nat.ltb_spec (length a) (po_max o)); [discriminate|]. cbn [bind]. destruct (sizes (po_node o) d) as [n|]; [|discriminate].
  destruct (find_od T (po_node o) d) as [f|] eqn:E.
  - intros X. apply Ok_inj in X as <-. left. split; [reflexivity|]. right. eauto.
  - intros X. apply Ok_inj in X as <-. right. exists a, n. repeat split; auto.
Qed.
Lemma find_od_none T o d : find_od T o d = None -> forall f, ~ In ((o, d), f) T.
Proof.
  induction T as [|[k g] T IH]; [intros _ f []|]. cbn [find_od]. destruct (od_eqb k (o, d)) eqn:E; [discriminate|]. intros H f [X|X].
  - injection X as -> ->. rewrite od_eqb_refl in E. discriminate.
  - exact (IH H f X).
Qed.
Lemma NoDup_app_one {A} (l : list A) x : NoDup l -> ~ In x l -> NoDup (l ++ [x]).
Proof.
  intros N H. induction N as [|y l Hy N IH]; cbn; [constructor; [intros []|constructor]|]. constructor.
  - rewrite in_app_iff. intros [X|[X|[]]]; [auto|]. apply H. now left.
  - apply IH. intros X. apply H. now right.
Qed.
Lemma initial_keys n dem size : NoDup (map fst (initial_flows n dem size)).
Proof.
  unfold initial_flows. cbn [map fst]. rewrite map_map. cbn [fst]. constructor.
  - rewrite in_map_iff. intros (k & E & H). apply in_seq in H. lia.
  - apply FinFun.Injective_map_NoDup; [|apply seq_NoDup]. intros x y E. lia.
Qed.
Lemma initial_total n dem size i : (pair_total (initial_flows n dem size) i == nth i dem 0)%Q.
Proof.
  unfold initial_flows, pair_total. cbn [map snd sumQ fold_right]. rewrite map_map. cbn [snd].
  assert (E : forall l : list nat, (fold_right Qplus 0 (map (fun _ : nat => nth i (repeat 0%Q n) 0%Q) l) == 0)%Q).
  { intros l. assert (Z : nth i (repeat 0%Q n) 0%Q = 0%Q). { clear. revert i. induction n; intros [|i]; cbn; auto. } rewrite Z. induction l as [|? l IH]; cbn; [lra|]. rewrite IH. lra. }
  rewrite E. lra.
Qed.
Lemma initial_path n dem size p : In p (map fst (initial_flows n dem size)) <-> 0 <= p < Z.max 1 (Z.of_nat size).
Proof.
  unfold initial_flows. cbn [map fst]. rewrite map_map. cbn [fst]. cbn [In]. rewrite in_map_iff. split.
  - intros [<-|(k & <- & H)]; [lia|]. apply in_seq in H. lia.
  - intros H. destruct (Z.eq_dec p 0) as [->|]; [now left|]. right. exists (Z.to_nat p). split; [lia|]. apply in_seq. lia.
Qed.
(** everything in the table built by the constructor is the initial assignment of some pair *)
Definition built (sizes : Z -> Z -> option nat) (origins : list porigin) (T : rtable) : Prop :=
  NoDup (map fst T) /\ forall a d f, In ((a, d), f) T -> exists o dem n, In o origins /\ po_node o = a /\ find_demand (po_demand o) d = Some dem /\
    (po_max o <= length dem)%nat /\ sizes a d = Some n /\ f = initial_flows (po_max o) (firstn (po_max o) dem) n.
Lemma build_pair_built sizes origins o d T T' : In o origins -> built sizes origins T -> build_pair sizes o d T = Ok T' ->
  built sizes origins T' /\ (forall e, In e T -> In e T') /\ (find_demand (po_demand o) d <> None -> exists f, In ((po_node o, d), f) T').
Proof.
  intros Ho [B1 B2] H. apply build_pair_cases in H as [[-> C]|(a & n & Ea & La & En & Ef & ->)].
  - split; [split; assumption|]. split; [auto|]. intros X. destruct C as [C|(f & C)]; [congruence|]. exists f. now apply find_od_In.
  - pose proof (find_od_none _ _ _ Ef) as Nf. split; [split|].
    + rewrite map_app. cbn [map fst]. apply NoDup_app_one; [exact B1|]. rewrite in_map_iff. intros ([k g] & E & H). cbn in E. subst k. exact (Nf g H).
    + intros x y f H. apply in_app_or in H as [H|[H|[]]]; [exact (B2 x y f H)|]. injection H as <- <- <-. exists o, a, n. repeat split; auto.
    + split; [intros e He; apply in_or_app; now left|]. intros _. eexists. apply in_or_app. right. left. reflexivity.
Qed.
Lemma build_row sizes origins d : forall os T T', (forall o, In o os -> In o origins) -> built sizes origins T ->
  foldM (fun T o => build_pair sizes o d T) T os = Ok T' ->
  built sizes origins T' /\ (forall e, In e T -> In e T') /\ (forall o, In o os -> find_demand (po_demand o) d <> None -> exists f, In ((po_node o, d), f) T').
Proof.
  induction os as [|o os IH]; intros T T' Hs B; cbn [foldM].
  - intros E. apply Ok_inj in E as <-. split; [exact B|]. split; [auto|]. intros o [].
  - intros H. apply bind_ok in H as (T1 & H1 & H). destruct (build_pair_built _ _ _ _ _ _ (Hs o (or_introl eq_refl)) B H1) as (B1 & I1 & P1).
    destruct (IH T1 T' (fun x Hx => Hs x (or_intror Hx)) B1 H) as (B2 & I2 & P2). split; [exact B2|]. split; [auto|].
    intros x [<-|Hx] Hd; [|auto]. destruct (P1 Hd) as (f & Hf). exists f. auto.
Qed.
Lemma build_table_built sizes dests origins T : build_table sizes dests origins = Ok T ->
  built sizes origins T /\ (forall d o, In d dests -> In o origins -> find_demand (po_demand o) d <> None -> exists f, In ((po_node o, d), f) T).
Proof.
  unfold build_table. assert (B0 : built sizes origins []) by (split; [constructor|intros a d f []]). revert B0. generalize (@nil ((Z * Z) * flows)).
  induction dests as [|d dests IH]; intros T0 B0; cbn [foldM].
  - intros E. apply Ok_inj in E as <-. split; [exact B0|]. intros d o [].
  - intros H. apply bind_ok in H as (T1 & H1 & H). destruct (build_row _ _ _ _ _ _ (fun x Hx => Hx) B0 H1) as (B1 & _ & P1). destruct (IH T1 B1 H) as (B2 & P2).
    split; [exact B2|]. intros d' o [<-|Hd] Ho Hn; [|now apply P2]. destruct (P1 o Ho Hn) as (f & Hf). exists f.
    assert (Keep : forall ds T0 T', built sizes origins T0 -> foldM (fun T d => foldM (fun T o => build_pair sizes o d T) T origins) T0 ds = Ok T' -> forall e, In e T0 -> In e T').
    { clear. induction ds as [|d ds IH]; intros T0 T' B0; cbn [foldM]; [intros E; apply Ok_inj in E as <-; auto|]. intros H e He. apply bind_ok in H as (T1 & H1 & H).
      destruct (build_row _ _ _ _ _ _ (fun x Hx => Hx) B0 H1) as (B1 & I1 & _). exact (IH T1 T' B1 H e (I1 e He)). }
    exact (Keep dests T1 T B1 H _ Hf).
Qed.
Lemma built_ok sizes origins T : built sizes origins T -> table_ok T.
Proof. intros [B1 B2]. split; [exact B1|]. intros [a d] f H. destruct (B2 a d f H) as (o & dem & n & _ & _ & _ & _ & _ & ->). apply initial_keys. Qed.
