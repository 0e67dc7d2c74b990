(** Property theorems: the Tdsp class (C163 - C168). *)
From Coq Require Import Qround.
From Verif Require Import Base Base_lemmas Model_Num Proof_Num Model_Graph Spec_Graph Proof_Graph Proof_Graph2 Model_SP Spec_SP Proof_SP
  Model_TDSP Spec_TDSP Proof_TDSP Proof_Path Prop_TDSP Model_TdspApi Spec_TdspApi Proof_TdspApi Proof_TdspApi2.

(** C163: whatever the object was used for before with horizons not shorter
    than [M].  [lids] is the iteration order of the links. *)
Theorem C163_extract_is_best : forall (o : tdsp) ops lids dest M nl rtt rcost,
  let g := gbuild ops in
  In dest (g_nids g) -> ~ In (-1) (g_lids g) -> Permutation lids (g_lids g) -> 1 <= M ->
  wide M (td_ltt o) -> wide M (td_lcost o) -> shaped nl M rtt -> shaped nl M rcost ->
  td_tables_ok g M (given (Some 0%Q) rcost) (given 0%Q rtt) ->
  exists N o1 o2, td_read rtt rcost [] [] (td_init g M nl (-1) o) = Ok o1 /\
  forall fuel, (N <= fuel)%nat -> td_build fuel lids dest o1 = Ok (o2 fuel) /\
  forall n t fuel', In n (g_nids g) -> 0 <= t < M -> (Z.to_nat M + length (g_nids g) <= fuel')%nat ->
  exists rows ns ls c x, td_extract fuel' n t (o2 fuel) = Ok rows /\ displays rows ns ls c x /\
    td_least g (cost_at (given (Some 0%Q) rcost)) (tt_at (given 0%Q rtt)) M n t dest c /\
    match c with
    | Some d => visits g n ls ns /\ exists d' x', (d == d')%Q /\ (x == x')%Q /\
        td_way g (cost_at (given (Some 0%Q) rcost)) (tt_at (given 0%Q rtt)) M n t ls dest d' x'
    | None => ns = [n] /\ ls = [] /\ x = (-1)%Q
    end.
Proof.
  intros o ops lids dest M nl rtt rcost g Hd Hm HP HM Wt Wc St Sc HT.
  destruct (read_links_ok 0%Q M nl (td_ltt o) rtt Wt St) as (a & Ea & Wa & Ha).
  destruct (@read_links_ok ext (Some 0%Q) M nl (td_lcost o) rcost Wc Sc) as (b & Eb & Wb & Hb).
  assert (Tc : forall l e, get_endpoints g l = Ok e -> exists f ar, given (Some 0%Q) rcost l = Some f /\ b l = Some ar /\ forall t, 0 <= t < M -> tb_val ar t = f t).
  { intros l e He. destruct (HT l e He) as (_ & f & Ef & _). specialize (Hb l). change (@given ext (Some 0%Q) rcost l) with (@given (option Q) (Some 0%Q) rcost l) in Hb. rewrite Ef in Hb. destruct Hb as (ar & E1 & _ & E2). exists f, ar. auto. }
  assert (Tt : forall l e, get_endpoints g l = Ok e -> exists f ar, given 0%Q rtt l = Some f /\ a l = Some ar /\ forall t, 0 <= t < M -> tb_val ar t = f t).
  { intros l e He. destruct (HT l e He) as ((f & Ef) & _). specialize (Ha l). rewrite Ef in Ha. destruct Ha as (ar & E1 & _ & E2). exists f, ar. auto. }
  assert (HT' : td_tables_ok g M (arr b) (arr a)).
  { intros l e He. destruct (Tc l e He) as (f & ar & E1 & E2 & E3). destruct (Tt l e He) as (f2 & ar2 & G1 & G2 & G3). unfold arr. rewrite E2, G2.
    split; [eauto|]. eexists. split; [reflexivity|]. intros t Ht. rewrite (E3 t Ht). destruct (HT l e He) as (_ & f3 & Ef & Hnn). rewrite E1 in Ef. injection Ef as <-. apply Hnn. exact Ht. }
  assert (Cc : forall l e t, get_endpoints g l = Ok e -> 0 <= t < M -> cost_at (arr b) l t = cost_at (given (Some 0%Q) rcost) l t).
  { intros l e t He Ht. destruct (Tc l e He) as (f & ar & E1 & E2 & E3). unfold cost_at, arr. rewrite E1, E2. apply E3. exact Ht. }
  assert (Ct : forall l e t, get_endpoints g l = Ok e -> 0 <= t < M -> tt_at (arr a) l t = tt_at (given 0%Q rtt) l t).
  { intros l e t He Ht. destruct (Tt l e He) as (f & ar & E1 & E2 & E3). unfold tt_at, arr. rewrite E1, E2. apply E3. exact Ht. }
  pose proof (gbuild_rep ops) as R. fold g in R.
  pose proof Hd as Hd0. rewrite (rep_nids _ _ R) in Hd0. pose proof Hm as Hm0. rewrite (rep_lids _ _ R) in Hm0.
  destruct (update_tree_ok g _ R (arr b) (arr a) dest M HM HT' Hd0 Hm0 lids) as (N & HN).
  { intros l. rewrite <- (rep_lids _ _ R). split; apply Permutation_in; [exact HP|symmetry; exact HP]. }
  set (o1 := {| td_g := g; td_M := M; td_nl := nl; td_nn := -1; td_ltt := a; td_lcost := b;
        td_ntt := td_ntt o; td_ncost := td_ncost o; td_tr := td_tr o |}).
  set (o2 := fun fuel => {| td_g := g; td_M := M; td_nl := nl; td_nn := -1; td_ltt := a; td_lcost := b;
        td_ntt := td_ntt o; td_ncost := td_ncost o;
        td_tr := match update_tree fuel g lids dest M (arr b) (arr a) with Ok s => Some (dest, M, g_nids g, s) | Err _ => None end |}).
  exists N, o1, o2. split.
  { unfold td_read, td_init. cbn [td_M td_nl td_nn td_ltt td_lcost td_ntt td_ncost td_g td_tr]. rewrite Ea. cbn [bind]. rewrite Eb. reflexivity. }
  intros fuel Hf. destruct (HN fuel Hf) as (s & Es & HE & HL). split.
  { unfold td_build, o2, o1. cbn [td_M td_nl td_nn td_ltt td_lcost td_ntt td_ncost td_g td_tr]. rewrite Es.
    match goal with |- context [guard ?c EUB] => assert (F : c = true) end.
    { apply forallb_forall. intros l _. unfold long_enough. apply andb_true_intro. split.
      - destruct (a l) as [ar|] eqn:E; [|reflexivity]. apply Z.leb_le. eapply Wa; eauto.
      - destruct (b l) as [ar|] eqn:E; [|reflexivity]. apply Z.leb_le. eapply Wb; eauto. }
    rewrite F. cbn [guard bind]. rewrite ?Z.eqb_refl. reflexivity. }
  intros n t fuel' Hn Ht Hf'. unfold td_extract, o2. cbn [td_M td_nl td_nn td_ltt td_lcost td_ntt td_ncost td_g td_tr]. rewrite Es.
  assert (G1 : (t <? M) && (0 <=? t) = true) by (apply andb_true_intro; split; lia). rewrite G1. cbn [guard bind].
  assert (G2 : memb n (g_nids g) = true) by (now apply memb_In). rewrite G2. cbn [guard bind]. rewrite Z.eqb_refl.
  assert (G3 : t <? M = true) by lia. rewrite G3.
  unfold get_tdsp. assert (G4 : 0 <=? t = true) by lia. rewrite G4, G3. cbn [guard bind].
  pose proof Hn as Hn0. rewrite (rep_nids _ _ R) in Hn0. rewrite (rep_nids _ _ R) in Hf'.
  pose proof (follow_ok g _ R (arr b) (arr a) dest M HM HT' Hd0 s HL HE (Z.to_nat M) n t ltac:(lia) Ht Hn0 fuel' 0%Q [] [] ltac:(lia)) as HF.
  pose proof (proj1 (HE n t Hn0 Ht)) as Hl.
  pose proof (least_ext g M _ _ _ _ n t dest _ HM Cc Ct Ht Hl) as Hl'.
  destruct (td_dist s n t) as [d|].
  - destruct HF as (ls & ns & c & x & x' & E1 & Ex & Wy & V & Hc). cbn [app] in E1. rewrite E1. cbn [bind fst snd].
    destruct (out_rows_ok ls ns (Some d) x' (visits_len _ _ _ _ V)) as (rows & Er & Dr).
    exists rows, ns, ls, (Some d), x'. split; [exact Er|]. split; [exact Dr|]. split; [exact Hl'|]. split; [exact V|].
    exists c, x. split; [lra|]. split; [lra|]. now apply (way_ext g M _ _ _ _ HM Cc Ct).
  - rewrite HF. cbn [bind fst snd app]. destruct (out_rows_ok [] [n] None (-1)%Q eq_refl) as (rows & Er & Dr).
    exists rows, [n], [], None, (-1)%Q. split; [exact Er|]. split; [exact Dr|]. split; [exact Hl'|]. auto.
Qed.
Print Assumptions C163_extract_is_best.

(** rows in any order; link 10 is listed twice, the second row counts *)
Definition C163_tt : list (Q * list Q) := [(12, [3#2; 3#2; 3#2; 3#2]); (10, [1; 1; 1; 1]); (11, [3#2; 3#2; 3#2; 3#2]); (10, [3#2; 3#2; 3#2; 3#2])]%Q.
Definition C163_cost : list (Q * list ext) :=
  [(12, [Some 6; Some 6; Some 6; Some 6]); (10, [None; None; None; None]); (11, [Some 2; Some 2; Some 2; Some 2]); (10, [Some 1; Some 9; Some 9; Some 9])]%Q.
Example C163_case : shaped 4 4 C163_tt /\ shaped 4 4 C163_cost /\
  td_tables_ok (gbuild C23_ops) 4 (given (Some 0%Q) C163_cost) (given 0%Q C163_tt) /\
  match (do o1 <- td_read C163_tt C163_cost [] [] (td_init (gbuild C23_ops) 4 4 (-1) new_tdsp);
         do o2 <- td_build 20 [12; 10; 11] 3 o1; td_extract 9 1 0 o2) with
  | Ok rows => rows = [(1%Z, 10%Z, Some (3#1), 12#4); (2%Z, 11%Z, Some (-1), -1); (3%Z, (-1)%Z, Some (-1), -1)]%Q
  | Err _ => False end.
Proof.
  split; [split; [reflexivity|intros r [<-|[<-|[<-|[<-|[]]]]]; reflexivity]|].
  split; [split; [reflexivity|intros r [<-|[<-|[<-|[<-|[]]]]]; reflexivity]|]. split.
  - intros l [u w] He. apply (rep_endpoints_iff _ _ _ _ _ (gbuild_rep C23_ops)) in He. cbn in He.
    destruct He as [He|[He|[He|[]]]]; injection He as <- <- <-; (split; [eexists; reflexivity|]); eexists; (split; [reflexivity|]);
      intros t Ht; assert (Hc : t = 0 \/ t = 1 \/ t = 2 \/ t = 3) by lia; destruct Hc as [-> | [-> | [-> | ->]]]; cbn; discriminate.
  - vm_compute. reflexivity.
Qed.

(** C164: what an object was given before shows through.  The calls after the
    first reading are the same in both runs. *)
Definition C164_g := gbuild [GNode 1; GNode 2; GNode 3; GLink 1 2 10; GLink 2 3 11].
Definition C164_run (first : Q) : res (list td_row) :=
  do o1 <- td_read [(10, [1; 1]); (11, [1; 1])]%Q [(10, [Some 1; Some 1]); (11, [Some first; Some first])]%Q [] [] (td_init C164_g 2 2 (-1) new_tdsp);
  do o2 <- td_read [(10, [1; 1])]%Q [(10, [Some 3; Some 3])]%Q [] [] (td_init C164_g 2 1 (-1) o1);
  do o3 <- td_build 20 [10; 11] 3 o2; td_extract 9 1 0 o3.
Theorem C164_old_rows_kept_refuted : exists a b ra rb, C164_run a = Ok ra /\ C164_run b = Ok rb /\ ra <> rb.
Proof. exists 1%Q, 5%Q. eexists. eexists. split; [vm_compute; reflexivity|]. split; [vm_compute; reflexivity|]. discriminate. Qed.
Print Assumptions C164_old_rows_kept_refuted.
(** the general effect: rows of links that the new array does not list stay *)
Theorem C164_listed_rows_replaced : forall A (d : A) M nl t rows, wide M t -> shaped nl M rows ->
  exists t', read_links d M nl t rows = Ok t' /\ forall l,
  match given d rows l with
  | Some f => exists a, t' l = Some a /\ forall j, 0 <= j < M -> tb_val a j = f j
  | None => t' l = t l
  end.
Proof.
  intros A d M nl t rows W Sh. destruct (read_links_ok d M nl t rows W Sh) as (t' & E & _ & H). exists t'. split; [exact E|].
  intros l. specialize (H l). destruct (given d rows l); [|exact H]. destruct H as (b & H1 & _ & H2). eauto.
Qed.
Print Assumptions C164_listed_rows_replaced.
(** text files: a link that the new file does not list becomes free of charge *)
Theorem C164_text_zero_refuted : exists o, 
  td_read_txt [(10, [1; 1])]%Q [(10, [Some 3; Some 3])]%Q (td_init C164_g 2 1 (-1) o) <> Err EThrow /\
  (do o2 <- td_read_txt [(10, [1; 1])]%Q [(10, [Some 3; Some 3])]%Q (td_init C164_g 2 1 (-1) o);
   do o3 <- td_build 20 [10; 11] 3 o2; td_extract 9 1 0 o3) = Ok [(1%Z, 10%Z, Some (3#1), 1); (2%Z, 11%Z, Some (-1), -1); (3%Z, (-1)%Z, Some (-1), -1)]%Q /\
  (do o2 <- td_read_txt [(10, [1; 1])]%Q [(10, [Some 3; Some 3])]%Q (td_init C164_g 2 1 (-1) new_tdsp);
   td_build 20 [10; 11] 3 o2) = Err EUB.
Proof.
  destruct (td_read [(10, [1; 1]); (11, [1; 1])]%Q [(10, [Some 1; Some 1]); (11, [Some 7; Some 7])]%Q [] [] (td_init C164_g 2 2 (-1) new_tdsp)) as [o|] eqn:E; [|vm_compute in E; discriminate].
  exists o. assert (H : match td_read [(10, [1; 1]); (11, [1; 1])]%Q [(10, [Some 1; Some 1]); (11, [Some 7; Some 7])]%Q [] [] (td_init C164_g 2 2 (-1) new_tdsp) with
    | Ok o => match td_read_txt [(10, [1; 1])]%Q [(10, [Some 3; Some 3])]%Q (td_init C164_g 2 1 (-1) o) with Err EThrow => False | _ => True end /\
      (do o2 <- td_read_txt [(10, [1; 1])]%Q [(10, [Some 3; Some 3])]%Q (td_init C164_g 2 1 (-1) o);
       do o3 <- td_build 20 [10; 11] 3 o2; td_extract 9 1 0 o3) = Ok [(1%Z, 10%Z, Some (3#1), 1); (2%Z, 11%Z, Some (-1), -1); (3%Z, (-1)%Z, Some (-1), -1)]%Q
    | Err _ => False end) by (vm_compute; split; [exact I|reflexivity]).
  rewrite E in H. destruct H as [H1 H2]. split; [intros H; rewrite H in H1; exact H1|]. split; [exact H2|vm_compute; reflexivity].
Qed.
Print Assumptions C164_text_zero_refuted.
(** new tables without a new tree: the old cost beside the new travel time *)
Theorem C164_mixed_answer_refuted :
  (do o1 <- td_read [(10, [1; 1]); (11, [1; 1])]%Q [(10, [Some 1; Some 1]); (11, [Some 1; Some 1])]%Q [] [] (td_init C164_g 2 2 (-1) new_tdsp);
   do o2 <- td_build 20 [10; 11] 3 o1;
   do o3 <- td_read [(10, [4; 4]); (11, [4; 4])]%Q [(10, [Some 9; Some 9]); (11, [Some 9; Some 9])]%Q [] [] o2;
   td_extract 9 1 0 o3) = Ok [(1%Z, 10%Z, Some (2#1), 8#1); (2%Z, 11%Z, Some (-1), -1); (3%Z, (-1)%Z, Some (-1), -1)]%Q.
Proof. vm_compute. reflexivity. Qed.
Print Assumptions C164_mixed_answer_refuted.

(** C165: an object that has read a link for a shorter horizon cannot read it
    for a longer one *)
Theorem C165_longer_horizon_refuted : forall (o : tdsp) g M nl nn rtt rcost ntt ncost l a,
  td_ltt o l = Some a -> tb_len a < M -> given 0%Q rtt l <> None -> shaped nl M rtt ->
  td_read rtt rcost ntt ncost (td_init g M nl nn o) = Err EUB.
Proof.
  intros o g M nl nn rtt rcost ntt ncost l a Ha Hlt Hg [Sn Sr]. unfold td_read, td_init. cbn [td_M td_nl td_nn td_ltt].
  assert (E : read_links 0%Q M nl (td_ltt o) rtt = Err EUB); [|rewrite E; reflexivity].
  unfold read_links. assert (G : (Z.of_nat (length rtt) =? nl) && forallb (fun r => Z.of_nat (length (snd r)) =? M) rtt = true).
  { apply andb_true_intro. split; [lia|]. apply forallb_forall. intros r Hr. specialize (Sr r Hr). lia. }
  rewrite G. cbn [guard bind].
  assert (Hin : exists r, In r rtt /\ trunc (fst r) = l).
  { unfold given in Hg. destruct (find _ (rev rtt)) as [r|] eqn:E; [|congruence]. apply find_some in E as [E1 E2]. exists r. split; [now apply in_rev|lia]. }
  clear G Sn Sr Hg. generalize (td_ltt o) Ha. induction rtt as [|r rtt IH]; intros t Ht; [destruct Hin as (r & [] & _)|].
  cbn [foldM]. destruct (Z.eq_dec (trunc (fst r)) l) as [El|Nl].
  - unfold write_row. rewrite El, Ht. unfold guard. destruct (Z.leb_spec M (tb_len a)); [lia|]. reflexivity.
  - destruct (write_row 0%Q M (t (trunc (fst r))) (snd r)) as [b|e] eqn:Ew; cbn [bind].
    + apply IH; [|rewrite upd_other by congruence; exact Ht]. destruct Hin as (r' & [<-|Hr] & Er); [congruence|eauto].
    + unfold write_row in Ew. unfold guard in Ew. destruct (M <=? _); cbn [bind] in Ew; congruence.
Qed.
Print Assumptions C165_longer_horizon_refuted.
Example C165_case : match td_read [(10, [1]); (11, [1])]%Q [(10, [Some 1]); (11, [Some 1])]%Q [] [] (td_init C164_g 1 2 (-1) new_tdsp) with
  | Ok o => match td_ltt o 10 with Some a => tb_len a = 1 | None => False end /\
            match td_read [(10, [1; 1]); (11, [1; 1])]%Q [(10, [Some 1; Some 1]); (11, [Some 1; Some 1])]%Q [] [] (td_init C164_g 2 2 (-1) o) with Err EUB => True | _ => False end
  | Err _ => False end.
Proof. vm_compute. split; [reflexivity|exact I]. Qed.

(** C166: movement costs.  With movement times of zero and a route that ends
    before the last interval, the cost shown is that of the route shown. *)
Theorem C166_cost_of_route_partial : forall ops fuel lids dest M cost nc tt ntt s n t fuel' x ns ls d,
  let g := gbuild ops in
  1 <= M -> ~ In (-1) (g_lids g) ->
  (forall l c t k, cost l = Some c -> 0 <= t < M -> c t = Some k -> (0 <= k)%Q) ->
  (forall i o f t, nc i o = Some f -> 0 <= t < M -> (0 <= f t)%Q) ->
  (forall i o h t, ntt i o = Some h -> 0 <= t < M -> (h t == 0)%Q) ->
  update_tree_nc fuel g lids dest M cost nc tt ntt = Ok s -> 0 <= t < M - 1 ->
  td_dist s n t = Some d -> get_tdsp_nc fuel' g dest M tt ntt s n t = Ok (x, (ns, ls)) ->
  visits g n ls ns /\ exists ts c, mwalk g (cost_at cost) nc (tt_at tt) ntt M dest n t ls ts c /\
    (Forall (fun b => b < M - 1) ts -> (d == c)%Q).
Proof.
  intros ops fuel lids dest M cost nc tt ntt s n t fuel' x ns ls d g HM Hm Hc Hn Hz Hs Ht Hd H. pose proof (gbuild_rep ops) as R. fold g in R.
  rewrite (rep_lids _ _ R) in Hm.
  pose proof (update_nc g _ R cost nc tt ntt dest M HM Hm Hc Hn Hz fuel lids s Hs) as HB.
  unfold get_tdsp_nc in H. apply bind_ok in H as (u & _ & H). replace (if t <? M then t else M - 1) with t in H by (destruct (Z.ltb_spec t M); lia).
  destruct (follow_nc g _ R cost nc tt ntt dest M HM Hm Hc Hn Hz s n HB fuel' n t None 0%Q [] [] x ns ls d ltac:(lia) Hd H) as (ns1 & ls1 & ts & c & E1 & E2 & V & W & Q & _).
  cbn [app] in E1, E2. subst ns1 ls1. split; [exact V|]. exists ts, c. split; [exact W|]. intros F. apply Q; [lia|exact F].
Qed.
Print Assumptions C166_cost_of_route_partial.
Definition C166_ltt (l : Z) : option (Z -> Q) := if (l =? 10) || (l =? 11) then Some (fun _ => 3#2)%Q else None.
Definition C166_lc (l : Z) : option (Z -> ext) := if l =? 10 then Some (fun _ => Some 1%Q) else if l =? 11 then Some (fun t => Some (if t =? 2 then 1 else 5)%Q) else None.
Definition C166_move (x : Q) (i o : Z) : option (Z -> Q) := if (i =? 10) && (o =? 11) then Some (fun _ => x) else None.
Example C166_case : match update_tree_nc 20 C164_g [10; 11] 3 9 C166_lc (C166_move 4) C166_ltt (C166_move 0) with
  | Ok s => td_dist s 1 0 = Some (6#1)%Q /\ get_tdsp_nc 9 C164_g 3 9 C166_ltt (C166_move 0) s 1 0 = Ok ((12#4)%Q, ([1; 2; 3], [10; 11]))
  | Err _ => False end.
Proof. vm_compute. split; reflexivity. Qed.
(** movement times: the label looks 2 = up(3/2 + 1/2) intervals ahead, the route
    enters the second link after 3 = up(3/2) + up(1/2) *)
Theorem C166_movement_times_refuted : exists s d x ns ls ts c,
  update_tree_nc 20 C164_g [10; 11] 3 9 C166_lc (C166_move 0) C166_ltt (C166_move (1#2)) = Ok s /\
  td_dist s 1 0 = Some d /\ get_tdsp_nc 9 C164_g 3 9 C166_ltt (C166_move (1#2)) s 1 0 = Ok (x, (ns, ls)) /\
  mwalk C164_g (cost_at C166_lc) (C166_move 0) (tt_at C166_ltt) (C166_move (1#2)) 9 3 1 0 ls ts c /\
  Forall (fun b => b < 8) ts /\ (d == 2)%Q /\ (c == 6)%Q.
Proof.
  destruct (update_tree_nc 20 C164_g [10; 11] 3 9 C166_lc (C166_move 0) C166_ltt (C166_move (1#2))) as [s|] eqn:E; [|vm_compute in E; discriminate].
  assert (H : match update_tree_nc 20 C164_g [10; 11] 3 9 C166_lc (C166_move 0) C166_ltt (C166_move (1#2)) with
    | Ok s => td_dist s 1 0 = Some (2#1)%Q /\ get_tdsp_nc 9 C164_g 3 9 C166_ltt (C166_move (1#2)) s 1 0 = Ok ((28#8)%Q, ([1; 2; 3], [10; 11]))
    | Err _ => False end) by (vm_compute; split; reflexivity).
  rewrite E in H. destruct H as [H1 H2]. exists s, (2#1)%Q, (28#8)%Q, [1; 2; 3], [10; 11], [2; 5].
  exists (1 + move_at (C166_move 0) 10%Z [11]%Z 2%Z + (5 + move_at (C166_move 0) 11%Z [] 5%Z + 0))%Q.
  split; [reflexivity|]. split; [exact H1|]. split; [exact H2|]. split.
  - econstructor; [vm_compute; reflexivity|reflexivity|exists 2; split; vm_compute; reflexivity|].
    econstructor; [vm_compute; reflexivity|reflexivity|exists 2; split; vm_compute; reflexivity|]. constructor.
  - split; [repeat constructor|]. split; reflexivity.
Qed.
Print Assumptions C166_movement_times_refuted.
(** last interval: the label of node 1 was computed with the turn from link 10
    into 11; node 2 has turned to link 12 since *)
Definition C166_ops := [GNode 1; GNode 2; GNode 3; GNode 4; GLink 1 2 10; GLink 3 4 13; GLink 2 4 11; GLink 2 3 12].
Definition C166_lc2 (l : Z) : option (Z -> ext) := if memb l [10; 11; 12; 13] then Some (fun _ => Some (if l =? 11 then 10 else 1)%Q) else None.
Definition C166_tt2 (l : Z) : option (Z -> Q) := if memb l [10; 11; 12; 13] then Some (fun _ => 1%Q) else None.
Definition C166_nc2 (x : Q) (i o : Z) : option (Z -> Q) := if (i =? 10) && (o =? 12) then Some (fun _ => x) else None.
Theorem C166_last_interval_refuted : exists s d x ns ls ts c,
  update_tree_nc 20 (gbuild C166_ops) [10; 11; 12; 13] 4 1 C166_lc2 (C166_nc2 100) C166_tt2 (C166_nc2 0) = Ok s /\
  td_dist s 1 0 = Some d /\ get_tdsp_nc 9 (gbuild C166_ops) 4 1 C166_tt2 (C166_nc2 0) s 1 0 = Ok (x, (ns, ls)) /\
  mwalk (gbuild C166_ops) (cost_at C166_lc2) (C166_nc2 100) (tt_at C166_tt2) (C166_nc2 0) 1 4 1 0 ls ts c /\
  (d == 11)%Q /\ (c == 103)%Q.
Proof.
  destruct (update_tree_nc 20 (gbuild C166_ops) [10; 11; 12; 13] 4 1 C166_lc2 (C166_nc2 100) C166_tt2 (C166_nc2 0)) as [s|] eqn:E; [|vm_compute in E; discriminate].
  assert (H : match update_tree_nc 20 (gbuild C166_ops) [10; 11; 12; 13] 4 1 C166_lc2 (C166_nc2 100) C166_tt2 (C166_nc2 0) with
    | Ok s => td_dist s 1 0 = Some (11#1)%Q /\ get_tdsp_nc 9 (gbuild C166_ops) 4 1 C166_tt2 (C166_nc2 0) s 1 0 = Ok ((3#1)%Q, ([1; 2; 3; 4], [10; 12; 13]))
    | Err _ => False end) by (vm_compute; split; reflexivity).
  rewrite E in H. destruct H as [H1 H2]. exists s, (11#1)%Q, (3#1)%Q, [1; 2; 3; 4], [10; 12; 13], [0; 0; 0].
  exists (1 + move_at (C166_nc2 100) 10%Z [12; 13]%Z 0%Z + (1 + move_at (C166_nc2 100) 12%Z [13]%Z 0%Z + (1 + move_at (C166_nc2 100) 13%Z [] 0%Z + 0)))%Q.
  split; [reflexivity|]. split; [exact H1|]. split; [exact H2|]. split.
  - econstructor; [vm_compute; reflexivity|reflexivity|exists 1; split; vm_compute; reflexivity|].
    econstructor; [vm_compute; reflexivity|reflexivity|exists 1; split; vm_compute; reflexivity|].
    econstructor; [vm_compute; reflexivity|reflexivity|exists 1; split; vm_compute; reflexivity|]. constructor.
  - split; reflexivity.
Qed.
Print Assumptions C166_last_interval_refuted.

(** C167: a movement table that lists no movement from a link of the network
    changes nothing *)
Theorem C167_no_movements : forall (o : tdsp) g M nl nn fuel lids dest fuel' n t,
  1 <= M -> (forall l e out, get_endpoints g l = Ok e -> td_ntt o l out = None /\ td_ncost o l out = None) ->
  (do o1 <- td_build fuel lids dest (td_init g M nl nn o); td_extract fuel' n t o1) =
  (do o1 <- td_build fuel lids dest (td_init g M nl (-1) o); td_extract fuel' n t o1).
Proof.
  intros o g M nl nn fuel lids dest fuel' n t HM Hn. destruct (Z.eq_dec nn (-1)) as [->|Nn]; [reflexivity|].
  assert (HN : forall l e out, get_endpoints g l = Ok e -> arr2 (td_ncost o) l out = None /\ arr2 (td_ntt o) l out = None).
  { intros l e out He. destruct (Hn l e out He) as [H1 H2]. unfold arr2, arr. now rewrite H1, H2. }
  unfold td_build, td_init. cbn [td_M td_nl td_nn td_ltt td_lcost td_ntt td_ncost td_g td_tr].
  destruct (guard _ _); [|reflexivity]. cbn [bind]. rewrite Z.eqb_refl. destruct (Z.eqb_spec nn (-1)) as [|_]; [congruence|].
  rewrite (update_plain g _ _ _ _ dest M HN). destruct (update_tree _ _ _ _ _ _ _) as [s|]; [|reflexivity]. cbn [bind].
  unfold td_extract. cbn [td_M td_nl td_nn td_ltt td_lcost td_ntt td_ncost td_g td_tr].
  destruct (guard _ _); [|reflexivity]. cbn [bind]. destruct (guard _ _); [|reflexivity]. cbn [bind].
  rewrite Z.eqb_refl. destruct (Z.eqb_spec nn (-1)) as [|_]; [congruence|]. rewrite (get_plain g _ _ _ dest M HN) by exact HM. reflexivity.
Qed.
Print Assumptions C167_no_movements.
Example C167_case : match (do o1 <- td_read C163_tt C163_cost [] [] (td_init (gbuild C23_ops) 4 4 0 new_tdsp);
         do o2 <- td_build 20 [12; 10; 11] 3 o1; td_extract 9 1 0 o2) with
  | Ok rows => rows = [(1%Z, 10%Z, Some (3#1), 12#4); (2%Z, 11%Z, Some (-1), -1); (3%Z, (-1)%Z, Some (-1), -1)]%Q
  | Err _ => False end.
Proof. vm_compute. reflexivity. Qed.

(** C168: calls in the wrong order or with incomplete tables *)
Theorem C168_no_tree_refuted : forall (o : tdsp) g M nl nn fuel n t, td_tr o = None -> 0 <= t < M ->
  td_extract fuel n t (td_init g M nl nn o) = Err EUB.
Proof.
  intros o g M nl nn fuel n t Ho Ht. unfold td_extract, td_init. cbn [td_M td_tr]. rewrite Ho.
  assert (G : (t <? M) && (0 <=? t) = true) by (apply andb_true_intro; split; lia). rewrite G. reflexivity.
Qed.
Print Assumptions C168_no_tree_refuted.
(** a link of the network without a row: with at least two intervals no tree
    is built; whatever happens is undefined behaviour or the search does not end *)
Theorem C168_missing_row_refuted : forall (o : tdsp) fuel lids dest l, td_nn o = -1 -> 2 <= td_M o ->
  In l lids -> (exists e, get_endpoints (td_g o) l = Ok e) -> td_lcost o l = None ->
  (forall m, In m lids -> exists e, get_endpoints (td_g o) m = Ok e) ->
  (exists s, all_to_one_FIFO fuel (td_g o) dest (fun l => match arr (td_lcost o) l with Some c => Some (c (td_M o - 1)) | None => None end) (fun _ => Some (-1)) = Ok s) ->
  td_build fuel lids dest o = Err EUB.
Proof.
  intros o fuel lids dest l Hn HM Hl (e & He) Hc Hall (s & Es). unfold td_build. unfold guard at 1. destruct (forallb _ lids); [|reflexivity]. cbn [bind].
  rewrite Hn, Z.eqb_refl. assert (E : update_tree fuel (td_g o) lids dest (td_M o) (arr (td_lcost o)) (arr (td_ltt o)) = Err EUB); [|rewrite E; reflexivity].
  unfold update_tree, guard. destruct (Z.leb_spec 1 (td_M o)); [|lia]. cbn [bind]. rewrite Es. cbn [bind].
  destruct (Z.to_nat (td_M o - 1)) as [|k] eqn:Ek; [lia|]. cbn [td_back].
  match goal with |- (do s' <- foldM ?f ?s0 lids; _) = _ => assert (F : foldM f s0 lids = Err EUB); [|rewrite F; reflexivity]; generalize s0 end.
  clear Es s. induction lids as [|m lids IH]; intros s0; [destruct Hl|]. cbn [foldM].
  destruct (td_step (td_M o) (td_g o) (arr (td_lcost o)) (arr (td_ltt o)) (Z.of_nat k) s0 m) as [s1|er] eqn:Em; cbn [bind].
  - apply IH.
    + destruct Hl as [->|Hl]; [|exact Hl]. exfalso. unfold td_step in Em. rewrite He in Em. cbn [bind] in Em. unfold arr in Em at 1. rewrite Hc in Em. discriminate.
    + intros; apply Hall; now right.
  - unfold td_step in Em. destruct (Hall m ltac:(now left)) as (em & Hem). rewrite Hem in Em. cbn [bind] in Em.
    destruct (arr (td_lcost o) m) as [c|]; [|congruence]. destruct (arr (td_ltt o) m) as [w|]; [|congruence].
    destruct (c (Z.of_nat k)) as [q|]; [|discriminate]. destruct (round_time_ok (td_M o) (Z.of_nat k) (w (Z.of_nat k))) as (b & Eb & _). rewrite Eb in Em. cbn [bind] in Em.
    destruct (eltb _ _) in Em; discriminate.
Qed.
Print Assumptions C168_missing_row_refuted.
Example C168_case : match td_read [(11, [1; 1])]%Q [(11, [Some 3; Some 3])]%Q [] [] (td_init C164_g 2 1 (-1) new_tdsp) with
  | Ok o => td_build 20 [10; 11] 2 o = Err EUB /\ td_build 20 [10; 11] 1 o = Err EUB /\
            match all_to_one_FIFO 20 (td_g o) 1 (fun l => match arr (td_lcost o) l with Some c => Some (c (td_M o - 1)) | None => None end) (fun _ => Some (-1)) with Ok _ => True | Err _ => False end
  | Err _ => False end.
Proof. vm_compute. split; [reflexivity|]. split; [reflexivity|exact I]. Qed.
