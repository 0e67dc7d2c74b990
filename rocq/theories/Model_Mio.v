(** More input files: two-class nodes, links and demand, tolls, label shares, adaptive shares,
    time-dependent link attributes and lists of numbers.  [stod] and [stof] stand for [std::stod]
    and [std::stof]: any functions from texts to numbers or an exception.  [None] is a file that
    cannot be opened. *)
From Coq Require Import Ascii String Qround.
From Verif Require Import Base Model_Num Model_Graph Model_McLink Model_Text Model_Io.
Local Open Scope list_scope.

(** ** loops over lines *)

(** The loop [for (int i = 0; i < n; ++i) { getline; f }] of src/io.cpp:441-457, 1025-1040,
    1062-1068, 1093-1106, 1213-1229 and src/multiclass.cpp:4029-4046, 4086-4103, 4140-4164: every
    line counts.  The line variable keeps its value when [getline] fails. *)
Fixpoint read_lines {A} (f : A -> text -> res A) (n : nat) (s : stream) (line : text) (a : A) : res A :=
  match n with
  | O => Ok a
  | S n' => let '(s', l) := getline s line in do a' <- f a l; read_lines f n' s' l a'
  end.
(** The loop [while (getline) { f }] of src/io.cpp:681-705, 745-807 and src/multiclass.cpp:3950-3988,
    4211-4288.  [fuel] bounds the number of lines ([EFuel]: still running). *)
Fixpoint all_lines {A} (f : A -> text -> res A) (fuel : nat) (s : stream) (line : text) (a : A) : res A :=
  match fuel with
  | O => Err EFuel
  | S fuel => let '(s', l) := getline s line in
              if st_fail s' then Ok a else do a' <- f a l; all_lines f fuel s' l a'
  end.
(** the first line is read and not looked at: src/io.cpp:439, 680, 743, 1212 and
    src/multiclass.cpp:3949, 4027, 4084, 4139, 4209 *)
Definition skip_line (content : text) : stream * text := getline (open_file (Some content)) [].

(** ** two-class nodes: src/multiclass.cpp:3575-3653, 3401-3425.  The map keeps the first node of an id. *)
Inductive mkind := KFwj | KOrigin | KDest.
Definition mnode_kind (t : text) : option mkind :=
  if text_eqb t (txt "FWJ") then Some KFwj
  else if text_eqb t (txt "DMOND") then Some KOrigin
  else if text_eqb t (txt "DMDND") then Some KDest
  else None.
Definition mnodes := list (Z * (mkind * Q)).
Definition mnode_row (stod : text -> res Q) (m : mnodes) (l : text) : res mnodes :=
  let ws := split l ch_space in
  if (length ws =? 3)%nat then
    do id <- stoi (word ws 0);
    do pcu <- stod (word ws 2);
    match mnode_kind (trim (word ws 1)) with
    | Some k => Ok (insert m id (k, pcu))
    | None => Err EThrow
    end
  else Err EThrow.
Definition build_node_two (stod : text -> res Q) (fuel : nat) (num_of_node : Z) (file : option text) : res mnodes :=
  read_file (mnode_row stod) fuel num_of_node file [].

(** ** two-class links: src/multiclass.cpp:3655-3788, 3450-3489.  Only the constructor arguments are recorded. *)
Inductive mlkind := TPq | TLq | TCtm.
Definition mlink_kind (t : text) : option mlkind :=
  if text_eqb t (txt "PQ") then Some TPq
  else if text_eqb t (txt "LQ") then Some TLq
  else if text_eqb t (txt "CTM") then Some TCtm
  else None.
Record mlink_args := { ma_kind : mlkind; ma_prop : mprop; ma_pcu : Q }.
Definition mlinks := list (Z * mlink_args).
(** src/multiclass.cpp:3718-3730, 4236-4248: units *)
Definition in_units (lanes : Z) (len fc cc hc ft ct ht : Q) : mprop :=
  {| mr_lanes := lanes; mr_len := len * 1600; mr_hold_c := hc / 1600; mr_hold_t := ht / 1600;
     mr_flow_c := cc / 3600; mr_flow_t := ct / 3600; mr_ffs_c := fc * 1600 / 3600; mr_ffs_t := ft * 1600 / 3600 |}.
Definition mlink_row (stod : text -> res Q) (m : mlinks) (l : text) : res mlinks :=
  let ws := split l ch_space in
  if (length ws =? 11)%nat then
    do id <- stoi (word ws 0);
    do len <- stod (word ws 2);
    do fc <- stod (word ws 3);
    do cc <- stod (word ws 4);
    do hc <- stod (word ws 5);
    do lanes <- stoi (word ws 6);
    do ft <- stod (word ws 7);
    do ct <- stod (word ws 8);
    do ht <- stod (word ws 9);
    do pcu <- stod (word ws 10);
    match mlink_kind (trim (word ws 1)) with
    | Some k => Ok (insert m id {| ma_kind := k; ma_prop := in_units lanes len fc cc hc ft ct ht; ma_pcu := pcu |})
    | None => Err EThrow
    end
  else Err EThrow.
Definition build_link_two (stod : text -> res Q) (fuel : nat) (num_of_link : Z) (file : option text) : res mlinks :=
  read_file (mlink_row stod) fuel num_of_link file [].

(** ** two-class demand: src/multiclass.cpp:3790-3914 *)

(** src/multiclass.cpp:3803-3806, 3929-3932: minutes of an assignment interval; a unit time of 0 and one
    of more than 60 seconds divide by zero *)
Definition num_of_minute (unit_time assign_frq : Z) : res Z :=
  do _ <- guard (negb (unit_time =? 0)) EUB;
  do _ <- guard (negb (Z.quot 60 unit_time =? 0)) EUB;
  Ok (Z.quot assign_frq (Z.quot 60 unit_time)).
(** src/multiclass.cpp:3858-3872, 3873-3888: the largest [k <= nm] such that a [k]-th of the demand is at
    least one unit; without one the minutes stay 0.  The minutes of the interval. *)
Fixpoint spread (fs d : Q) (nm k : nat) : list Q :=
  match k with
  | O => repeat 0%Q nm
  | S k' => let x := (d / inject_Z (Z.of_nat k))%Q in
            if (1 <=? Qfloor (x * fs))%Z then repeat x k ++ repeat 0%Q (nm - k) else spread fs d nm k'
  end.
(** src/multiclass.cpp:3846-3893 for one interval and class.  In the first case the demand is put into the
    first minute; without minutes that is outside of the array. *)
Definition minutes (split_kind : Z) (fs : Q) (nm : nat) (d : Q) : res (list Q) :=
  if (split_kind =? 0)%Z then match nm with O => Err EUB | S k => Ok (d :: repeat 0%Q k) end
  else if (split_kind =? 1)%Z then Ok (spread fs d nm nm)
  else Err EThrow.
(** src/multiclass.cpp:2981-3001 [add_dest_demand_multiclass], also 3003-3023: 15 entries per interval are
    copied; reading outside of the array is undefined *)
Definition copy15 (max_interval : nat) (v : list Q) : res (list Q) :=
  do _ <- guard (max_interval * 15 <=? length v)%nat EUB;
  Ok (firstn (max_interval * 15) v).
(** per pair of origin and destination: cars and trucks per minute; the first row of a pair counts *)
Definition mtable := Z -> Z -> option (list Q * list Q).
Definition mfile {V} (T : Z -> Z -> option V) (o d : Z) (v : V) : Z -> Z -> option V :=
  match T o d with
  | Some _ => T
  | None => fun o' d' => if (o' =? o)%Z && (d' =? d)%Z then Some v else T o' d'
  end.
Definition mdemand_row (stod : text -> res Q) (sk : Z) (fs : Q) (max nm : nat) (x : od) (T : mtable) (l : text) : res mtable :=
  let ws := split l ch_space in
  if (length ws =? max * 2 + 2)%nat then
    do o <- stoi (word ws 0);
    do d <- stoi (word ws 1);
    do vc <- mapR (fun w => do q <- stod w; minutes sk fs nm q) (firstn max (skipn 2 ws));
    do vt <- mapR (fun w => do q <- stod w; minutes sk fs nm q) (firstn max (skipn (2 + max) ws));
    match lookup (fst x) o, lookup (snd x) d with
    | Some _, Some _ =>
        do c <- copy15 max (concat vc);
        do t <- copy15 max (concat vt);
        Ok (mfile T o d (c, t))
    | _, _ => Err EThrow
    end
  else Err EThrow.
(** arrays of a negative size are an exception *)
Definition build_demand_two (stod : text -> res Q) (fuel : nat) (sk : Z) (fs : Q) (unit_time assign_frq max_interval OD_pair : Z)
    (x : od) (file : option text) : res mtable :=
  do nm <- num_of_minute unit_time assign_frq;
  match file with
  | None => Ok (fun _ _ => None)
  | Some _ =>
      do _ <- guard ((0 <=? max_interval) && (0 <=? nm))%Z EThrow;
      read_file (mdemand_row stod sk fs (Z.to_nat max_interval) (Z.to_nat nm) x) fuel OD_pair file (fun _ _ => None)
  end.

(** ** adaptive shares *)

(** src/io.cpp:655-713, src/od.cpp:55-65: one share per interval, the first row of a pair counts *)
Definition ratio_row (stod : text -> res Q) (max : nat) (x : od) (T : demand) (l : text) : res demand :=
  let ws := split (trim l) ch_space in
  if (max + 2 <=? length ws)%nat then
    do o <- stoi (word ws 0);
    do d <- stoi (word ws 1);
    do v <- mapR stod (firstn max (skipn 2 ws));
    match lookup (fst x) o, lookup (snd x) d with
    | Some _, Some _ => Ok (mfile T o d v)
    | _, _ => Err EThrow
    end
  else Err EThrow.
Definition build_ratio (stod : text -> res Q) (fuel : nat) (max_interval : Z) (x : od) (file : option text) : res demand :=
  match file with
  | None => Ok (fun _ _ => None)
  | Some content =>
      do _ <- guard (0 <=? max_interval)%Z EThrow;
      all_lines (ratio_row stod (Z.to_nat max_interval) x) fuel (fst (skip_line content)) (snd (skip_line content)) (fun _ _ => None)
  end.
(** src/multiclass.cpp:3916-3998, 3003-3023: the share of an interval is given to each of its minutes *)
Definition mratio_row (stod : text -> res Q) (max nm : nat) (x : od) (T : mtable) (l : text) : res mtable :=
  let ws := split (trim l) ch_space in
  if (length ws =? max * 2 + 2)%nat then
    do o <- stoi (word ws 0);
    do d <- stoi (word ws 1);
    do vc <- mapR stod (firstn max (skipn 2 ws));
    do vt <- mapR stod (firstn max (skipn (2 + max) ws));
    match lookup (fst x) o, lookup (snd x) d with
    | Some _, Some _ =>
        do c <- copy15 max (concat (map (fun q => repeat q nm) vc));
        do t <- copy15 max (concat (map (fun q => repeat q nm) vt));
        Ok (mfile T o d (c, t))
    | _, _ => Err EThrow
    end
  else Err EThrow.
Definition build_ratio_two (stod : text -> res Q) (fuel : nat) (unit_time assign_frq max_interval : Z) (x : od) (file : option text) : res mtable :=
  do nm <- num_of_minute unit_time assign_frq;
  match file with
  | None => Ok (fun _ _ => None)
  | Some content =>
      do _ <- guard ((0 <=? max_interval) && (0 <=? nm))%Z EThrow;
      all_lines (mratio_row stod (Z.to_nat max_interval) (Z.to_nat nm) x) fuel (fst (skip_line content)) (snd (skip_line content)) (fun _ _ => None)
  end.

(** ** shares of labels: src/io.cpp:410-465, src/multiclass.cpp:3999-4054, 4056-4111.  [L]: the list of an
    origin; [known]: the origins.  A row with another number of words is passed over. *)
Definition label_row (stof : text -> res Q) (known : Z -> bool) (labels : nat) (L : Z -> list Q) (l : text) : res (Z -> list Q) :=
  let ws := split l ch_space in
  if (length ws =? 1 + labels)%nat then
    do o <- stoi (word ws 0);
    do _ <- guard (known o) EThrow;
    do v <- mapR stof (skipn 1 ws);
    Ok (fun o' => if (o' =? o)%Z then L o' ++ v else L o')
  else Ok L.
Definition read_labels (stof : text -> res Q) (known : Z -> bool) (num_of_O labels : Z) (file : option text) (L : Z -> list Q) : res (Z -> list Q) :=
  match file with
  | None => Ok L
  | Some content =>
      if (labels <=? 0)%Z then Ok L
      else read_lines (label_row stof known (Z.to_nat labels)) (Z.to_nat num_of_O) (fst (skip_line content)) (snd (skip_line content)) L
  end.

(** ** tolls: src/io.cpp:1180-1238 and src/multiclass.cpp:4113-4173.  [T]: m_toll of the links, in the
    second case with m_toll_car and m_toll_truck *)
Definition toll_row (stof : text -> res Q) (known : Z -> bool) (T : Z -> Q) (l : text) : res (Z -> Q) :=
  let ws := split l ch_space in
  if (length ws =? 2)%nat then
    do k <- stoi (trim (word ws 0));
    do _ <- guard (known k) EThrow;
    do v <- stof (trim (word ws 1));
    Ok (fun k' => if (k' =? k)%Z then v else T k')
  else Err EThrow.
Record tolls := { tl_all : Q; tl_car : Q; tl_truck : Q }.
Definition mtoll_row (stof : text -> res Q) (known : Z -> bool) (T : Z -> tolls) (l : text) : res (Z -> tolls) :=
  let ws := split l ch_space in
  if (length ws =? 3)%nat then
    do k <- stoi (trim (word ws 0));
    do _ <- guard (known k) EThrow;
    do v <- stof (trim (word ws 1));
    do w <- stof (trim (word ws 2));
    Ok (fun k' => if (k' =? k)%Z then {| tl_all := v; tl_car := v; tl_truck := w |} else T k')
  else Err EThrow.
Definition read_tolls {T} (row : T -> text -> res T) (num : Z) (file : option text) (t : T) : res T :=
  match file with
  | None => Ok t
  | Some content =>
      if (num <=? 0)%Z then Ok t
      else read_lines row (Z.to_nat num) (fst (skip_line content)) (snd (skip_line content)) t
  end.

(** ** time-dependent link attributes *)

(** src/multiclass.h:500-513: type and conversion factor are stored and not used *)
Record tdrow := { td_prop : mprop; td_toll : Q }.
(** the rows of an interval; a second row for a link replaces the first *)
Fixpoint td_set (rows : list (Z * tdrow)) (k : Z) (r : tdrow) : list (Z * tdrow) :=
  match rows with
  | [] => [(k, r)]
  | (k', r') :: rows' => if (k' =? k)%Z then (k', r) :: rows' else (k', r') :: td_set rows' k r
  end.
Definition tdtable := Z -> list (Z * tdrow).
Definition td_add (T : tdtable) (t k : Z) (r : tdrow) : tdtable :=
  fun t' => if (t' =? t)%Z then td_set (T t') k r else T t'.
(** src/multiclass.cpp:4216-4287.  The toll is read by [std::stoi]. *)
Definition td_line (stod : text -> res Q) (T : tdtable) (l : text) : res tdtable :=
  let ws := split l ch_space in
  if (length ws =? 13)%nat then
    do t <- stoi (word ws 0);
    do k <- stoi (word ws 1);
    do len <- stod (word ws 3);
    do fc <- stod (word ws 4);
    do cc <- stod (word ws 5);
    do hc <- stod (word ws 6);
    do lanes <- stoi (word ws 7);
    do ft <- stod (word ws 8);
    do ct <- stod (word ws 9);
    do ht <- stod (word ws 10);
    do pcu <- stod (word ws 11);
    do toll <- stoi (word ws 12);
    Ok (td_add T t k {| td_prop := in_units lanes len fc cc hc ft ct ht; td_toll := inject_Z toll |})
  else Err EThrow.
(** src/multiclass.cpp:4175-4297 [build_link_td_attribute] *)
Definition build_td (stod : text -> res Q) (fuel : nat) (file : option text) : res tdtable :=
  match file with
  | None => Ok (fun _ => [])
  | Some content => all_lines (td_line stod) fuel (fst (skip_line content)) (snd (skip_line content)) (fun _ => [])
  end.
(** src/multiclass.cpp:3491-3516 [update_link_attribute]: links (with their tolls) of the factory; the
    element of a link that is not there is used (undefined).  [ord]: the order of the hash map. *)
Definition mnet_links := Z -> option (mlink * tolls).
Definition td_apply (N : mnet_links) (x : Z * tdrow) : res mnet_links :=
  match N (fst x) with
  | None => Err EUB
  | Some (l, _) =>
      do l' <- mlink_modify l (td_prop (snd x));
      let c := td_toll (snd x) in
      Ok (fun k => if (k =? fst x)%Z then Some (l', {| tl_all := c; tl_car := c; tl_truck := c |}) else N k)
  end.
Definition update_link_attribute (ord : list (Z * tdrow) -> list (Z * tdrow)) (T : tdtable) (N : mnet_links) (interval : Z) : res mnet_links :=
  foldM td_apply N (ord (T interval)).

(** the single-class reader, src/io.cpp:715-815: 13 words are asked for, 9 are used, the toll is the
    ninth.  The type is not recorded and rounding to single precision (src/factory.h:44-53) left out. *)
Record tdrow1 := { t1_lanes : Z; t1_len : Q; t1_hold : Q; t1_flow : Q; t1_ffs : Q; t1_toll : Q }.
Definition td_line1 (stod : text -> res Q) (T : Z -> Z -> option tdrow1) (l : text) : res (Z -> Z -> option tdrow1) :=
  let ws := split l ch_space in
  if (length ws =? 13)%nat then
    do t <- stoi (word ws 0);
    do k <- stoi (word ws 1);
    do len <- stod (word ws 3);
    do fc <- stod (word ws 4);
    do cc <- stod (word ws 5);
    do hc <- stod (word ws 6);
    do lanes <- stoi (word ws 7);
    do toll <- stoi (word ws 8);
    Ok (fun t' k' => if (t' =? t)%Z && (k' =? k)%Z
                     then Some {| t1_lanes := lanes; t1_len := len * 1600; t1_hold := hc / 1600; t1_flow := cc / 3600;
                                  t1_ffs := fc * 1600 / 3600; t1_toll := inject_Z toll |}
                     else T t' k')
  else Err EThrow.
Definition build_td1 (stod : text -> res Q) (fuel : nat) (file : option text) : res (Z -> Z -> option tdrow1) :=
  match file with
  | None => Ok (fun _ _ => None)
  | Some content => all_lines (td_line1 stod) fuel (fst (skip_line content)) (snd (skip_line content)) (fun _ _ => None)
  end.

(** src/factory.h:66-69 [update_link_attribute] of the single-class links: [N] is their state *)
Definition update_link_attribute1 {N} (T : Z -> Z -> option tdrow1) (n : N) (interval : Z) : N := n.

(** ** lists of numbers: the first line is the number of the others *)
Definition read_list {A} (f : A -> text -> res A) (file : option text) (a : A) : res A :=
  match file with
  | None => Ok a
  | Some content =>
      let '(s, l) := skip_line content in
      do n <- stoi (trim l);
      read_lines f (Z.to_nat n) s l a
  end.
(** src/io.cpp:1046-1072 *)
Definition read_int := read_list (fun a l => do z <- stoi (trim l); Ok (a ++ [z])).
(** src/io.cpp:1074-1110 *)
Definition read_float (stof : text -> res Q) :=
  read_list (fun a l => do v <- mapR (fun w => stof (trim w)) (split l ch_space); Ok (a ++ [v])).
(** src/io.cpp:1006-1044 *)
Definition read_int_float (stof : text -> res Q) :=
  read_list (fun (a : list (Z * Q)) l =>
    let ws := split l ch_space in
    if (length ws =? 2)%nat then
      do z <- stoi (trim (word ws 0));
      do q <- stof (trim (word ws 1));
      Ok (insert a z q)
    else Err EThrow).
