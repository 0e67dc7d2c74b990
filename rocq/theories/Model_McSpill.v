(** Report of spill-back after a two-class run. *)
From Verif Require Import Base Model_Num Model_CC Model_Path Model_Link Model_World Model_Node Model_McLink Model_McNode Model_McSim.

(** src/multiclass.cpp:4755-4770 [get_is_spillback] of an existing link *)
Definition is_spillback (w : mworld) (l : Z) : Z := if ml_spill (mw_link w l) then 1 else 0.
(** macposts/_ext/mcdta.cpp:1482-1495 [get_link_spillback]: one number per registered link *)
Definition report_spillback (w : mworld) (links : list Z) : list Z := map (is_spillback w) links.
