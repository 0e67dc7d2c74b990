(** Observed itineraries of the vehicles of a two-class run. *)
From Verif Require Import Base Spec_Path Model_CC Model_Path Model_Link Spec_Link Model_World Spec_Node Model_Sim Spec_Sim Spec_Route
  Model_McLink Spec_McLink Model_McNode Spec_McNode Model_McSim Spec_McSim.

(** The link a vehicle is on, among the vehicles of its class, if any. *)
Definition mlink_of (M : mnet) (w : mworld) (v : Z) : option Z :=
  find (fun l => existsb (fun u => u =? v)%Z (on_mlink (mw_cls w) (mw_cls w v) (mw_link w l))) (mn_links M).
(** Links on which [v] was seen at the end of intervals 0, 1, ..., k-1, as [visited]. *)
Fixpoint mvisited (M : mnet) (D : Z -> mdrawsI) (w0 : mworld) (v : Z) (k : nat) : list Z :=
  match k with
  | O => []
  | S k' => match mrun M D k (minit M w0) with
            | Ok s => sight (mvisited M D w0 v k') (mlink_of M (ms_w s) v)
            | Err _ => mvisited M D w0 v k'
            end
  end.
