(** Nobody on the network: what an empty loading looks like from outside. *)
From Verif Require Import Base Model_CC Model_Path Model_Link Spec_Link Model_World Model_Sim Spec_Sim.

(** No vehicle was ever made, none waits at an origin, none is on a link, none waits at a
    destination, none has arrived. *)
Definition nobody (N : net) (w : world) : Prop :=
  f_num (w_fac w) = 0 /\ f_finished (w_fac w) = 0 /\ f_enroute (w_fac w) = 0 /\ f_done (w_fac w) = [] /\
  at_origins N w = [] /\ on_links N w = [] /\ at_dests N w = [].
