(** A single-class loading whose routing_type is none of the names that load_once
    knows: src/dta.cpp:561-640, 298-305; src/routing.cpp:37-98. *)
From Verif Require Import Base Model_Num Model_CC Model_Path Model_Link Model_World Model_Node Model_Sim.

(** [rand ()] then [MNM_Ults::mod] and [while (idx--) ++it]: src/routing.cpp:57-62 and
    82-86; MNM_Ults::mod (a, 0) = 0 (src/ults.cpp:33-39).  The order of the outgoing
    links is that of [n_out]; the draw is arbitrary, so the order does not matter. *)
Definition pick_out (r : nat) (outs : list Z) : option Z := nth_error outs (r mod length outs).

(** src/routing.cpp:54-66: a vehicle waiting at origin node [n].  Without outgoing link
    the end iterator is dereferenced: [EUB]. *)
Definition random_origin_veh (N : net) (r : Z -> nat) (n : Z) (w : world) (v : Z) : res world :=
  match pick_out (r v) (n_out N n) with
  | None => Err EUB
  | Some b => do _ <- guard (memb b (n_links N)) EThrow; Ok (veh_next w v (Some b))
  end.

(** src/routing.cpp:76-94: a vehicle at the end of link [l] *)
Definition random_link_veh (N : net) (r : Z -> nat) (l : Z) (w : world) (v : Z) : res world :=
  match n_out N (n_to N l) with
  | [] => Ok (veh_next w v None)
  | outs => match pick_out (r v) outs with
            | None => Err EUB
            | Some b => do _ <- guard (memb b (n_links N)) EThrow; Ok (veh_next w v (Some b))
            end
  end.

(** src/routing.cpp:37-98 [MNM_Routing_Random::update_routing]; [r v] is the number
    drawn for vehicle [v] in this interval *)
Definition random_routing (N : net) (r : Z -> nat) (w : world) : res world :=
  do w1 <- foldM (fun w o => foldM (random_origin_veh N r (o_node o)) w (w_oq w (o_node o))) w (n_origins N);
  foldM (fun w l => foldM (random_link_veh N r l) w (l_fin (w_link w l))) w1 (n_links N).

(** The same network for the parts of the loading that ask for the routing: the random
    routing, like the adaptive one, has no tracker (src/routing.h:24). *)
Definition untracked (N : net) : net :=
  {| n_fs := n_fs N; n_nodes := n_nodes N; n_out := n_out N; n_in := n_in N; n_links := n_links N; n_to := n_to N;
     n_origins := n_origins N; n_dests := n_dests N; n_freq := n_freq N; n_total_assign := n_total_assign N;
     n_start_assign := n_start_assign N; n_total_int := n_total_int N; n_routing := RAdaptive;
     n_rfreq := n_rfreq N; n_rlen := n_rlen N |}.

(** src/dta.cpp:538-689 [load_once] with a routing_type that is not "Fixed", "Due",
    "Adaptive", "Hybrid" or "Biclass_Hybrid": step 1 only prints "WARNING:No assignment!"
    (631-634), and past the last assignment interval it releases with -1, that is nothing.
    A zero assignment frequency divides by zero: [EUB].  Left out as in [load_once]. *)
Definition load_other (N : net) (D : draws) (r : Z -> nat) (t : Z) (w : world) : res world :=
  do _ <- guard (negb (n_freq N =? 0)) EUB;
  do w2 <- random_routing N r w;
  do w3 <- foldM (node_evolve N D t) w2 (n_nodes N);
  do w4 <- foldM (link_step D) w3 (n_links N);
  foldM (receive (untracked N) t) w4 (n_dests N).

(** src/dta.cpp:692-718: the body of the loop, as [loop_body] *)
Definition body_other (N : net) (D : Z -> draws) (r : Z -> Z -> nat) (s : lstate) : res lstate :=
  do w <- load_other N (D (s_cur s)) (r (s_cur s)) (s_cur s) (s_w s);
  let cur := s_cur s + 1 in
  Ok {| s_cur := cur; s_assign := if Z.rem cur (n_freq N) =? 0 then s_assign s + 1 else s_assign s;
        s_w := w; s_enroute := s_enroute s ++ [f_enroute (w_fac w)] |}.

(** src/dta.cpp:692-729 [loading], at most [fuel] iterations *)
Fixpoint loading_other (N : net) (D : Z -> draws) (r : Z -> Z -> nat) (fuel : nat) (s : lstate) : res lstate :=
  if loop_cond N s
  then match fuel with
       | O => Err EFuel
       | S fuel' => do s1 <- body_other N D r s; loading_other N D r fuel' s1
       end
  else Ok s.
