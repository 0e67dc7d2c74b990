(** Vocabulary for the two-class input files and the files of tolls, shares and attributes. *)
From Coq Require Import Ascii String.
From Verif Require Import Base Model_Num Model_Graph Model_McLink Model_Text Model_Io Model_Mio Spec_Io.
Local Open Scope list_scope.

(** the lines of a file after its first line *)
Definition headed (content : text) (ls : list text) : Prop := exists h, file_lines content (h :: ls).

Definition mnode_name (k : mkind) : text := match k with KFwj => txt "FWJ" | KOrigin => txt "DMOND" | KDest => txt "DMDND" end.
(** id, kind and conversion factor of a node: three words *)
Definition says_mnode (stod : text -> res Q) (l : text) (id : Z) (x : mkind * Q) : Prop :=
  exists w0 w1 w2, words l [w0; w1; w2] /\ reads_as w0 id /\ stripped w1 (mnode_name (fst x)) /\ stod w2 = Ok (snd x).

(** a two-class link as in a file: miles, lanes, and for cars and trucks miles per hour, vehicles per hour
    and lane, vehicles per mile and lane *)
Record two_link := { tw_miles : Q; tw_lanes : Z; tw_mph_c : Q; tw_vph_c : Q; tw_vpm_c : Q; tw_mph_t : Q; tw_vph_t : Q; tw_vpm_t : Q }.
(** metres and seconds; a mile is taken for 1600 metres *)
Definition metric (a : mprop) (d : two_link) : Prop :=
  (mr_lanes a = tw_lanes d /\ mr_len a = tw_miles d * 1600 /\
  mr_ffs_c a = tw_mph_c d * 1600 / 3600 /\ mr_flow_c a = tw_vph_c d / 3600 /\ mr_hold_c a = tw_vpm_c d / 1600 /\
  mr_ffs_t a = tw_mph_t d * 1600 / 3600 /\ mr_flow_t a = tw_vph_t d / 3600 /\ mr_hold_t a = tw_vpm_t d / 1600)%Q.
Definition mlink_name (k : mlkind) : text := match k with TPq => txt "PQ" | TLq => txt "LQ" | TCtm => txt "CTM" end.
(** eleven words *)
Definition says_mlink (stod : text -> res Q) (l : text) (id : Z) (x : mlkind * two_link * Q) : Prop :=
  let d := snd (fst x) in
  exists w0 w1 w2 w3 w4 w5 w6 w7 w8 w9 w10, words l [w0; w1; w2; w3; w4; w5; w6; w7; w8; w9; w10] /\
    reads_as w0 id /\ stripped w1 (mlink_name (fst (fst x))) /\ stod w2 = Ok (tw_miles d) /\
    stod w3 = Ok (tw_mph_c d) /\ stod w4 = Ok (tw_vph_c d) /\ stod w5 = Ok (tw_vpm_c d) /\ reads_as w6 (tw_lanes d) /\
    stod w7 = Ok (tw_mph_t d) /\ stod w8 = Ok (tw_vph_t d) /\ stod w9 = Ok (tw_vpm_t d) /\ stod w10 = Ok (snd x).

(** an OD pair, one number per interval for cars and one for trucks; nothing else *)
Definition says_mpair (stod : text -> res Q) (max_interval : Z) (l : text) (x : Z * Z * (list Q * list Q)) : Prop :=
  exists w0 w1 wc wt, words l (w0 :: w1 :: wc ++ wt) /\ reads_as w0 (fst (fst x)) /\ reads_as w1 (snd (fst x)) /\
    Z.of_nat (length wc) = max_interval /\ Z.of_nat (length wt) = max_interval /\
    Forall2 (fun w q => stod w = Ok q) wc (fst (snd x)) /\ Forall2 (fun w q => stod w = Ok q) wt (snd (snd x)).
(** an OD pair and one share per interval, perhaps more words; blanks around do not matter *)
Definition says_ratio (stod : text -> res Q) (max_interval : Z) (l : text) (x : Z * Z * list Q) : Prop :=
  exists r, stripped l r /\ says_demand stod max_interval r x.
Definition says_mratio (stod : text -> res Q) (max_interval : Z) (l : text) (x : Z * Z * (list Q * list Q)) : Prop :=
  exists r, stripped l r /\ says_mpair stod max_interval r x.
(** what the first row of the pair says *)
Definition first_pair {V} (xs : list (Z * Z * V)) (o d : Z) : option V :=
  option_map snd (find (fun x => (fst (fst x) =? o)%Z && (snd (fst x) =? d)%Z) xs).

(** the minutes of one of 15-minute intervals *)
Definition interval15 (v : list Q) (j : nat) : list Q := firstn 15 (skipn (j * 15) v).
(** all at once *)
Definition at_once (d : Q) (ms : list Q) : Prop := ms = d :: repeat 0%Q 14.
(** evenly over [k] minutes, where [k] is as large as possible with at least one unit per minute *)
Definition evenly (fs d : Q) (ms : list Q) : Prop :=
  exists k, (1 <= k <= 15)%nat /\ ms = repeat (d / inject_Z (Z.of_nat k))%Q k ++ repeat 0%Q (15 - k) /\
    (1 <= d / inject_Z (Z.of_nat k) * fs)%Q /\ forall k', (k < k' <= 15)%nat -> (d / inject_Z (Z.of_nat k') * fs < 1)%Q.

(** shares of labels: an origin and one number per label *)
Definition says_labels (stof : text -> res Q) (labels : Z) (l : text) (x : Z * list Q) : Prop :=
  exists w ws, words l (w :: ws) /\ Z.of_nat (length ws) = labels /\ reads_as w (fst x) /\ Forall2 (fun w q => stof w = Ok q) ws (snd x).
Definition numbers_for {V} (xs : list (Z * list V)) (o : Z) : list V := concat (map snd (filter (fun x => (fst x =? o)%Z) xs)).

(** tolls *)
Definition says_toll (stof : text -> res Q) (l : text) (x : Z * Q) : Prop :=
  exists w0 w1 r0 r1, words l [w0; w1] /\ stripped w0 r0 /\ stripped w1 r1 /\ reads_as r0 (fst x) /\ stof r1 = Ok (snd x).
Definition says_mtoll (stof : text -> res Q) (l : text) (x : Z * (Q * Q)) : Prop :=
  exists w0 w1 w2 r0 r1 r2, words l [w0; w1; w2] /\ stripped w0 r0 /\ stripped w1 r1 /\ stripped w2 r2 /\ reads_as r0 (fst x) /\
    stof r1 = Ok (fst (snd x)) /\ stof r2 = Ok (snd (snd x)).
(** the entry of the last pair with key [k] *)
Definition last_of {V} (xs : list (Z * V)) (k : Z) : option V := first_of (rev xs) k.

(** time-dependent attributes: interval, link, type, the numbers, conversion factor and a number [toll] that
    the last word begins with *)
Definition says_td (stod : text -> res Q) (l : text) (x : Z * Z * (two_link * Z)) : Prop :=
  let d := fst (snd x) in
  exists w0 w1 w2 w3 w4 w5 w6 w7 w8 w9 w10 w11 w12 pcu, words l [w0; w1; w2; w3; w4; w5; w6; w7; w8; w9; w10; w11; w12] /\
    reads_as w0 (fst (fst x)) /\ reads_as w1 (snd (fst x)) /\ stod w3 = Ok (tw_miles d) /\
    stod w4 = Ok (tw_mph_c d) /\ stod w5 = Ok (tw_vph_c d) /\ stod w6 = Ok (tw_vpm_c d) /\ reads_as w7 (tw_lanes d) /\
    stod w8 = Ok (tw_mph_t d) /\ stod w9 = Ok (tw_vph_t d) /\ stod w10 = Ok (tw_vpm_t d) /\ stod w11 = Ok pcu /\ reads_as w12 (snd (snd x)).
Definition last_pair {V} (xs : list (Z * Z * V)) (t k : Z) : option V := first_pair (rev xs) t k.

(** a line of blanks, or one that begins with # *)
Definition remark (l : text) : Prop := Forall (eq ch_space) l \/ exists r, l = ch_hash :: r.
(** lines with shares of labels among others with another number of words *)
Inductive label_lines (stof : text -> res Q) (labels : Z) : list text -> list (Z * list Q) -> Prop :=
| ll_nil : label_lines stof labels [] []
| ll_row l x ls xs : says_labels stof labels l x -> label_lines stof labels ls xs -> label_lines stof labels (l :: ls) (x :: xs)
| ll_off l ws ls xs : words l ws -> Z.of_nat (length ws) <> labels + 1 -> label_lines stof labels ls xs -> label_lines stof labels (l :: ls) xs.
(** origin and destination are known *)
Definition present (x : od) (o d : Z) : Prop := lookup (fst x) o <> None /\ lookup (snd x) d <> None.
(** a row of time-dependent attributes whose ninth word (the speed of trucks) begins with the number [v]
    and whose last word (the toll) begins with the number [toll] *)
Definition says_td_ninth (stod : text -> res Q) (l : text) (x : Z * Z * (two_link * Z)) (v : Z) : Prop :=
  says_td stod l x /\ exists w0 w1 w2 w3 w4 w5 w6 w7 w8 ws, words l (w0 :: w1 :: w2 :: w3 :: w4 :: w5 :: w6 :: w7 :: w8 :: ws) /\ reads_as w8 v.

(** a line with one number, with numbers, blanks around them *)
Definition says_int (l : text) (z : Z) : Prop := exists r, stripped l r /\ reads_as r z.
Definition says_floats (stof : text -> res Q) (l : text) (v : list Q) : Prop :=
  exists ws, words l ws /\ Forall2 (fun w q => exists r, stripped w r /\ stof r = Ok q) ws v.
