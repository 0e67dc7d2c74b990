(** Vocabulary for text files. *)
From Coq Require Import Ascii String.
From Verif Require Import Base Model_Num Model_Graph Model_Text Model_Io.
Local Open Scope list_scope.

Definition space (c : ascii) : Prop :=
  c = ascii_of_nat 9 \/ c = ascii_of_nat 10 \/ c = ascii_of_nat 11 \/ c = ascii_of_nat 12 \/ c = ascii_of_nat 13 \/ c = ascii_of_nat 32.

(** [r] is [l] without the white space at both ends *)
Definition stripped (l r : text) : Prop :=
  exists a b, l = a ++ r ++ b /\ Forall space a /\ Forall space b /\
  (forall c r', r = c :: r' -> ~ space c) /\ (forall c r', r = r' ++ [c] -> ~ space c).

(** [ws] are the words of [s]: the maximal non-empty pieces without separator *)
Inductive tokens (sep : ascii) : text -> list text -> Prop :=
| tk_end : tokens sep [] []
| tk_sep s ws : tokens sep s ws -> tokens sep (sep :: s) ws
| tk_word w s ws : w <> [] -> ~ In sep w -> (s = [] \/ exists s', s = sep :: s') -> tokens sep s ws -> tokens sep (w ++ s) (w :: ws).

(** [ls] are the lines of a file; [terminated]: the last one ends with a newline *)
Definition unlines (ls : list text) : text := concat (map (fun l => l ++ [ch_newline]) ls).
Definition single_lines (ls : list text) : Prop := Forall (fun l => ~ In ch_newline l) ls.
Definition terminated (content : text) (ls : list text) : Prop := content = unlines ls /\ single_lines ls.
Definition unterminated (content : text) (ls : list text) (last : text) : Prop :=
  content = unlines ls ++ last /\ single_lines ls /\ ~ In ch_newline last /\ last <> [].
Definition file_lines (content : text) (ls : list text) : Prop :=
  terminated content ls \/ exists ls' last, ls = ls' ++ [last] /\ unterminated content ls' last.

(** the data rows of a file: blank lines and lines starting with # do not count *)
Inductive rows_of : list text -> list text -> Prop :=
| ro_nil : rows_of [] []
| ro_skip l r ls rs : stripped l r -> (r = [] \/ exists r', r = ch_hash :: r') -> rows_of ls rs -> rows_of (l :: ls) rs
| ro_row l c r ls rs : stripped l (c :: r) -> c <> ch_hash -> rows_of ls rs -> rows_of (l :: ls) ((c :: r) :: rs).


(** ** numbers: [w] starts with the decimal number [z] (white space and a sign before it, any text
    that does not start with a digit after it), and [z] fits into an int *)
Definition code (c : ascii) : Z := Z.of_nat (nat_of_ascii c).
Definition digit (c : ascii) : Prop := 48 <= code c <= 57.
Definition digits_value (ds : text) : Z := fold_left (fun v c => 10 * v + (code c - 48)) ds 0.
Definition ch_minus : ascii := ascii_of_nat 45.
Definition ch_plus : ascii := ascii_of_nat 43.
Definition reads_as (w : text) (z : Z) : Prop :=
  exists sp sg ds rest, w = sp ++ sg ++ ds ++ rest /\ Forall space sp /\ ds <> [] /\ Forall digit ds /\
    (forall c r, rest = c :: r -> ~ digit c) /\
    (((sg = [] \/ sg = [ch_plus]) /\ z = digits_value ds) \/ (sg = [ch_minus] /\ z = - digits_value ds)) /\
    -2147483648 <= z <= 2147483647.

(** ** what a row says *)
Definition words (l : text) (ws : list text) : Prop := tokens ch_space l ws.

Definition node_name (k : nkind) : text :=
  match k with NFwj => txt "FWJ" | NGrj => txt "GRJ" | NOrigin => txt "DMOND" | NDest => txt "DMDND" end.
(** id and kind of a node; further words are ignored *)
Definition says_node (l : text) (id : Z) (k : nkind) : Prop :=
  exists w0 w1 ws, words l (w0 :: w1 :: ws) /\ reads_as w0 id /\ stripped w1 (node_name k).

Definition link_name (k : fkind) : text :=
  match k with FPq => txt "PQ" | FCtm => txt "CTM" | FLq => txt "LQ" | FLtm => txt "LTM" end.
(** a link: length in miles, speed in miles per hour, vehicles per hour and lane, vehicles per mile and lane *)
Record link_data := { ld_kind : fkind; ld_miles : Q; ld_mph : Q; ld_vph : Q; ld_vpm : Q; ld_lanes : Z }.
Definition says_link (stod : text -> res Q) (l : text) (id : Z) (d : link_data) : Prop :=
  exists w0 w1 w2 w3 w4 w5 w6 ws, words l (w0 :: w1 :: w2 :: w3 :: w4 :: w5 :: w6 :: ws) /\
    reads_as w0 id /\ stripped w1 (link_name (ld_kind d)) /\ stod w2 = Ok (ld_miles d) /\ stod w3 = Ok (ld_mph d) /\
    stod w4 = Ok (ld_vph d) /\ stod w5 = Ok (ld_vpm d) /\ reads_as w6 (ld_lanes d).

(** two, three numbers *)
Definition says_two (l : text) (x : Z * Z) : Prop :=
  exists w0 w1, words l [w0; w1] /\ reads_as w0 (fst x) /\ reads_as w1 (snd x).
Definition says_three (l : text) (x : Z * (Z * Z)) : Prop :=
  exists w0 w1 w2, words l [w0; w1; w2] /\ reads_as w0 (fst x) /\ reads_as w1 (fst (snd x)) /\ reads_as w2 (snd (snd x)).
(** an OD pair and one number for each interval; further words are ignored *)
Definition says_demand (stod : text -> res Q) (max_interval : Z) (l : text) (x : Z * Z * list Q) : Prop :=
  exists w0 w1 ws ws', words l (w0 :: w1 :: ws ++ ws') /\ reads_as w0 (fst (fst x)) /\ reads_as w1 (snd (fst x)) /\
    Z.of_nat (length ws) = max_interval /\ Forall2 (fun w q => stod w = Ok q) ws (snd x).
(** a list of nodes *)
Definition says_nodes (l : text) (ns : list Z) : Prop := exists ws, words l ws /\ Forall2 reads_as ws ns.

(** the entry of the first pair with key [k] *)
Definition first_of {V} (xs : list (Z * V)) (k : Z) : option V :=
  option_map snd (find (fun x => (fst x =? k)%Z) xs).

(** ** paths: [ls] are links that lead along the nodes [ns] *)
Inductive along (g : graph) : list Z -> list Z -> Prop :=
| along_end n : along g [n] []
| along_step n l m ns ls : get_endpoints g l = Ok (n, m) -> along g (m :: ns) ls -> along g (n :: m :: ns) (l :: ls).
(** the paths of a pair, in order *)
Definition paths_of (o d : Z) (ps : list lpath) : list lpath :=
  filter (fun p => (hd 0 (lp_nodes p) =? o) && (last (lp_nodes p) 0 =? d))%Z ps.
Definition table_of (T : ptable) (ps : list lpath) : Prop :=
  forall o d, T o d = match paths_of o d ps with [] => None | l => Some l end.
Definition paths_at (T : ptable) (o d : Z) : list lpath := match T o d with Some ps => ps | None => [] end.
