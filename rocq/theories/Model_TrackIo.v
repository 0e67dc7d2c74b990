(** The two files with the settings of vehicle tracking. *)
From Coq Require Import Ascii String.
From Verif Require Import Base Model_Num Model_Graph Model_Text Model_Io Model_Mio.
Local Open Scope list_scope.

(** src/io.cpp:490-502: one line of the OD file *)
Definition track_od_row (m : list (Z * Z)) (l : text) : res (list (Z * Z)) :=
  let ws := split l ch_space in
  if (length ws =? 2)%nat then
    do o <- stoi (word ws 0);
    do d <- stoi (word ws 1);
    Ok (m ++ [(o, d)])
  else Err EThrow.
(** src/io.cpp:521-529: one line of the interval file *)
Definition track_int_row (m : list Z) (l : text) : res (list Z) :=
  let ws := split l ch_space in
  if (length ws =? 1)%nat then do t <- stoi (word ws 0); Ok (m ++ [t]) else Err EThrow.
(** src/io.cpp:485-509 and 516-534: a file that cannot be opened ([None]) adds nothing; else the first
    line is read and not looked at and every other line is a row *)
Definition track_file {A} (row : list A -> text -> res (list A)) (fuel : nat) (file : option text) : res (list A) :=
  match file with
  | None => Ok []
  | Some content => let '(s, line) := skip_line content in all_lines row fuel s line []
  end.
(** src/io.cpp:467-536 [read_vehicle_tracking_setting] on two empty vectors, as called in
    src/multiclass.cpp:4531-4537 *)
Definition read_tracking (fuel : nat) (od_file interval_file : option text) : res (list (Z * Z) * list Z) :=
  do ods <- track_file track_od_row fuel od_file;
  do ints <- track_file track_int_row fuel interval_file;
  Ok (ods, ints).
