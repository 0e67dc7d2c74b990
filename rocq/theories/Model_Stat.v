(** Link statistics: src/statistics.cpp (MNM_Statistics, MNM_Statistics_Lrn) and the link
    costs of the adaptive routing, src/routing.cpp:184-199.  The values that the links
    report (get_link_flow, get_link_tt, modelled in Model_Link.v) are arguments.
    Left out: the text format of the output files (a row is the interval and the list
    of values), opening and closing of the files. *)
From Verif Require Import Base Model_Node.
Local Open Scope Z_scope.

(** m_load_interval_X, m_record_interval_X, m_to_be_X for X = volume or tt
    (src/statistics.h:26-29, 76-77) *)
Record smap := { m_load : Z -> option Q; m_rec : Z -> option Q; m_tobe : Z -> option Q }.
Definition put (m : Z -> option Q) (l : Z) (x : Q) : Z -> option Q := upd m l (Some x).

(** insert of init_record, src/statistics.cpp:83-91, 136-144, 403-427: an entry that is
    there is kept *)
Definition ins0 (m : Z -> option Q) (l : Z) : Z -> option Q :=
  match m l with None => put m l 0 | Some _ => m end.
Definition init_smap (links : list Z) (m : smap) : smap :=
  fold_left (fun m l => {| m_load := ins0 (m_load m) l; m_rec := ins0 (m_rec m) l; m_tobe := ins0 (m_tobe m) l |}) links m.
Definition no_smap : smap := {| m_load := fun _ => None; m_rec := fun _ => None; m_tobe := fun _ => None |}.

(** [x.find (l)->second = v] *)
Definition assign (m : Z -> option Q) (l : Z) (v : Q) : res (Z -> option Q) :=
  match m l with None => Err EUB | Some _ => Ok (put m l v) end.
Definition read (m : Z -> option Q) (l : Z) : res Q := match m l with None => Err EUB | Some x => Ok x end.

(** [timestamp % m_n == 0 || timestamp == 0]; a zero m_n divides by zero *)
Definition at_record (n t : Z) : res bool :=
  do _ <- guard (negb (n =? 0)) EUB; Ok ((Z.rem t n =? 0) || (t =? 0)).

(** src/statistics.cpp:322-357 (volume) and 358-393 (travel time): one link *)
Definition update_one (n t : Z) (now : bool) (obs : Z -> Q) (m : smap) (l : Z) : res smap :=
  let x := obs l in
  do ld <- assign (m_load m) l x;
  if now then
    do rc <- (if t =? 0 then assign (m_rec m) l x
              else do b <- read (m_tobe m) l; assign (m_rec m) l (b + x / inject_Z n)%Q);
    do tb <- assign (m_tobe m) l 0%Q;
    Ok {| m_load := ld; m_rec := rc; m_tobe := tb |}
  else
    do b <- read (m_tobe m) l;
    do tb <- assign (m_tobe m) l (b + x / inject_Z n)%Q;
    Ok {| m_load := ld; m_rec := m_rec m; m_tobe := tb |}.
Definition update_map (n t : Z) (now : bool) (links : list Z) (obs : Z -> Q) (m : smap) : res smap :=
  foldM (update_one n t now obs) m links.

(** The four output files; [None] = not open *)
Definition rows := option (list (Z * list Q)).
Definition add_row (t : Z) (links : list Z) (m : Z -> option Q) (f : rows) : res rows :=
  match f with
  | None => Ok None
  | Some rs => do vs <- mapM (read m) links; Ok (Some (rs ++ [(t, vs)]))
  end.

(** State of the recorder of one quantity: switched on (rec_volume / rec_tt), maps, and
    the two files *)
Record srec := { sr_on : bool; sr_map : smap; sr_load : rows; sr_rec : rows }.
Record stats := { st_n : Z; st_links : list Z; st_vol : srec; st_tt : srec }.

(** src/statistics.cpp:78-200, 402-427 [init_record]: [l] and [r] say whether the load and
    the record file are kept (…_automatic_rec = 1) *)
Definition init_srec (links : list Z) (on l r : bool) : srec :=
  {| sr_on := on; sr_map := if on then init_smap links no_smap else no_smap;
     sr_load := if on && l then Some [] else None; sr_rec := if on && r then Some [] else None |}.

(** src/statistics.cpp:202-269, 317-400 [update_record] for one quantity *)
Definition update_srec (n t : Z) (now : bool) (links : list Z) (obs : Z -> Q) (s : srec) : res srec :=
  if sr_on s then
    do m <- update_map n t now links obs (sr_map s);
    do fl <- add_row t links (m_load m) (sr_load s);
    do fr <- (if now then add_row t links (m_rec m) (sr_rec s) else Ok (sr_rec s));
    Ok {| sr_on := true; sr_map := m; sr_load := fl; sr_rec := fr |}
  else Ok s.
Definition update_record (flow tt : Z -> Q) (s : stats) (t : Z) : res stats :=
  do now <- at_record (st_n s) t;
  do v <- update_srec (st_n s) t now (st_links s) flow (st_vol s);
  do c <- update_srec (st_n s) t now (st_links s) tt (st_tt s);
  Ok {| st_n := st_n s; st_links := st_links s; st_vol := v; st_tt := c |}.

(** src/dta.cpp:548-550, 680: the calls during [k] loading intervals (update_record (-1)
    before interval 0, then one call per interval) *)
Definition stat_run (flow tt : Z -> Z -> Q) (k : nat) (s : stats) : res stats :=
  foldM (fun s t => update_record (flow t) (tt t) s t) s (map (fun i => Z.of_nat i - 1) (seq 0 (S k))).

(** src/routing.cpp:184-199 [MNM_Routing_Adaptive::update_link_cost], one entry *)
Definition link_cost (vot : Q) (toll : Z -> Q) (s : stats) (l : Z) : option Q :=
  match m_rec (sr_map (st_tt s)) l with Some x => Some (x * vot + toll l)%Q | None => None end.
