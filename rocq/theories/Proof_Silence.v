From Verif Require Import Base Base_lemmas Model_Silence Spec_Silence.
Local Open Scope Z_scope.

Lemma upd_case {A} (f : Z -> A) a x b : upd f a x b = if Z.eq_dec b a then x else f b.
Proof. destruct (Z.eq_dec b a) as [->|N]; [apply upd_same|now apply upd_other]. Qed.
Lemma lowest_some o i : (i < lim o)%nat -> tab o (Z.of_nat i) = None -> exists x, lowest_free o = Some x /\ tab o x = None.
Proof.
  intros L N. unfold lowest_free. destruct (find _ _) as [x|] eqn:F.
  - exists x. split; [reflexivity|]. apply find_some in F as [_ F]. destruct (tab o x); [discriminate|reflexivity].
  - exfalso. eapply find_none in F; [|apply in_map, in_seq; split; [apply Nat.le_0_l|exact L]]. cbv beta in F. rewrite N in F. discriminate.
Qed.
(** the steps before the block, and those after it *)
Lemma enter o fd d : tab o fd = Some d -> room o -> exists save null, save <> null /\ save <> fd /\ null <> fd /\ tab o save = None /\ tab o null = None /\
  forall X (body : os * X -> os * X * bool) m,
  silence body fd (o, m) =
  let o3 := set_tab (set_tab (set_tab o save (Some d)) null (Some Null)) fd (Some Null) in
  match body (o3, m) with
  | (o4, m', x) =>
      match os_dup2 o4 save fd with
      | None => (o4, m', true)
      | Some o5 => match os_close o5 null with
                   | None => (o5, m', true)
                   | Some o6 => match os_close o6 save with None => (o6, m', true) | Some o7 => (o7, m', x) end
                   end
      end
  end.
Proof.
  intros T (i & j & Lij & Ni & Nj). destruct (lowest_some o i ltac:(lia) Ni) as (save & F & Ns).
  assert (X : exists k, (k < lim o)%nat /\ tab (set_tab o save (Some d)) (Z.of_nat k) = None).
  { destruct (Z.eq_dec (Z.of_nat i) save) as [E|E].
    - exists j. split; [lia|]. cbn [set_tab tab]. rewrite upd_other by lia. exact Nj.
    - exists i. split; [lia|]. cbn [set_tab tab]. rewrite upd_other by exact E. exact Ni. }
  destruct X as (k & Lk & Nk). destruct (lowest_some (set_tab o save (Some d)) k Lk Nk) as (null & F2 & N2). cbn [set_tab tab] in N2.
  assert (D1 : save <> null) by (intros <-; rewrite upd_same in N2; discriminate). rewrite upd_other in N2 by congruence.
  assert (D2 : save <> fd) by congruence. assert (D3 : null <> fd) by congruence.
  exists save, null. repeat (split; [assumption|]). intros X body m. unfold silence. rewrite T. unfold os_dup. rewrite T. unfold os_new. rewrite F, F2. unfold os_dup2 at 1.
  cbn [set_tab tab]. rewrite upd_same. reflexivity.
Qed.
Lemma leave {X} o4 (m' : X) x save null fd d : save <> null -> save <> fd -> null <> fd -> tab o4 save = Some d -> tab o4 null <> None ->
  match os_dup2 o4 save fd with
  | None => (o4, m', true)
  | Some o5 => match os_close o5 null with
               | None => (o5, m', true)
               | Some o6 => match os_close o6 save with None => (o6, m', true) | Some o7 => (o7, m', x) end
               end
  end = (set_tab (set_tab (set_tab o4 fd (Some d)) null None) save None, m', x).
Proof.
  intros D1 D2 D3 T1 T2. unfold os_dup2. rewrite T1. unfold os_close. cbn [set_tab tab]. rewrite !upd_case. destruct (Z.eq_dec null fd); [congruence|]. destruct (tab o4 null); [|contradiction].
  cbn [set_tab tab]. rewrite !upd_case. destruct (Z.eq_dec save null); [congruence|]. destruct (Z.eq_dec save fd); [congruence|]. rewrite T1. reflexivity.
Qed.

Lemma write_facts o x data : tab o x <> None -> exists o', os_write o x data = Some o' /\ tab o' = tab o /\ lim o' = lim o /\
  forall f, log o' f = log o f ++ match tab o x with Some (File g) => if g =? f then data else [] | _ => [] end.
Proof.
  intros T. unfold os_write. destruct (tab o x) as [[g|]|]; [| |contradiction].
  - eexists. split; [reflexivity|]. cbn [tab lim log]. repeat split. intros f. rewrite upd_case. destruct (Z.eq_dec f g) as [->|N]; [now rewrite Z.eqb_refl|].
    destruct (Z.eqb_spec g f); [congruence|now rewrite app_nil_r].
  - exists o. repeat split. intros f. now rewrite app_nil_r.
Qed.
Lemma writes_facts {X} fails : forall ws o (m : X), (forall x data, In (x, data) ws -> tab o x <> None) ->
  exists o', writes ws fails (o, m) = (o', m, fails) /\ tab o' = tab o /\ lim o' = lim o /\
  forall f, log o' f = log o f ++ concat (map (fun w => match tab o (fst w) with Some (File g) => if g =? f then snd w else [] | _ => [] end) ws).
Proof.
  induction ws as [|[x data] ws IH]; intros o m H.
  - exists o. repeat split. intros f. now rewrite app_nil_r.
  - destruct (write_facts o x data (H x data (or_introl eq_refl))) as (o1 & E & T & L & G). destruct (IH o1 m) as (o' & E' & T' & L' & G').
    { intros y dt I. rewrite T. apply (H y dt). right. exact I. }
    exists o'. cbn [writes fst snd]. rewrite E. split; [exact E'|]. split; [congruence|]. split; [congruence|]. intros f. rewrite G', G, T, <- app_assoc. reflexivity.
Qed.

(** ** streams *)
Lemma prints_facts fd cap : forall ps o buf, (length buf <= cap)%nat -> tab o fd <> None ->
  exists o' a t, prints fd cap (o, buf) ps = (o', t) /\ buf ++ concat ps = a ++ t /\ (length t <= cap)%nat /\ tab o' = tab o /\ lim o' = lim o /\
  forall f, log o' f = log o f ++ match tab o fd with Some (File g) => if g =? f then a else [] | _ => [] end.
Proof.
  induction ps as [|p ps IH]; intros o buf L T.
  - exists o, [], buf. cbn [prints fold_left concat]. rewrite app_nil_r. repeat split; auto. intros f. destruct (tab o fd) as [[g|]|]; [destruct (g =? f)| |]; now rewrite app_nil_r.
  - unfold prints. cbn [fold_left]. fold (prints fd cap). unfold print at 2. destruct (Nat.leb_spec (length (buf ++ p)) cap) as [S|S].
    + destruct (IH o (buf ++ p) S T) as (o' & a & t & E & D & R). exists o', a, t. split; [exact E|]. split; [|exact R]. cbn [concat]. rewrite app_assoc. exact D.
    + destruct (write_facts o fd (buf ++ p) T) as (o1 & W & T1 & L1 & G1). rewrite W. destruct (IH o1 [] ltac:(cbn; lia) ltac:(now rewrite T1)) as (o' & a & t & E & D & Lt & T2 & L2 & G2).
      exists o', ((buf ++ p) ++ a), t. split; [exact E|]. cbn [app] in D. split; [cbn [concat]; rewrite app_assoc, D, !app_assoc; reflexivity|]. split; [exact Lt|]. split; [congruence|]. split; [congruence|].
      intros f. rewrite G2, G1, T1. destruct (tab o fd) as [[g|]|]; [destruct (g =? f)| |]; rewrite ?app_nil_r, <- ?app_assoc; reflexivity.
Qed.
