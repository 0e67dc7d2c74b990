(** Message signs: the file that places them and the messages they show. *)
From Coq Require Import Ascii String.
From Verif Require Import Base Model_Num Model_Graph Model_CC Model_Path Model_Link Model_World Model_Node Model_Sim Model_Rt Model_Text Model_Io.
Local Open Scope list_scope.

(** src/io.cpp:984-1000 and src/vms.cpp:126-133: one row; the map keeps the first sign of an id *)
Definition sign_row (g : graph) (m : list (Z * vms)) (l : text) : res (list (Z * vms)) :=
  let ws := split l ch_space in
  if (length ws =? 2)%nat then
    do id <- stoi (trim (word ws 0));
    do k <- stoi (trim (word ws 1));
    do v <- make_vms g k;
    Ok (insert m id v)
  else Err EThrow.
(** src/io.cpp:963-1004 [build_vms_facotory] on an empty factory *)
Definition build_signs (fuel : nat) (g : graph) (num_vms : Z) (file : option text) : res (list (Z * vms)) :=
  read_file (sign_row g) fuel num_vms file [].

(** The messages of src/vms.cpp:170-190: take the exit to a link; minutes to the next exit; drive with care *)
Inductive message := MExit (l : Z) | MMinutes (n : Z) | MCare.
(** m_ffs, m_length and [get_link_tt ()] of a link *)
Record linfo := { li_ffs : Q; li_len : Q; li_tt : Q }.
(** src/vms.cpp:166-190: the message of one sign.  [links]: the link factory; the free flow speeds are not 0. *)
Definition sign_message (links : Z -> option linfo) (v : vms) : res message :=
  match links (vm_detour v) with
  | None => Err EThrow
  | Some x =>
      if Qltb (li_ffs x) (60 * 1600 / 3600) then Ok (MExit (vm_detour v))
      else if Qltb (li_len x / li_ffs x) (li_tt x) then Ok (MMinutes (trunc (li_tt x / 60)))
      else Ok MCare
  end.
(** src/vms.cpp:148-196 [generate_vms_instructions], the file being writable: one line per sign, in the
    order of the map *)
Definition sign_lines (links : Z -> option linfo) (m : list (Z * vms)) : res (list (Z * message)) :=
  mapR (fun x => do t <- sign_message links (snd x); Ok (fst x, t)) m.
