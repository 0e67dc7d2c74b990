(** What the properties about parking lots, accounts and lengths say. *)
From Verif Require Import Base Model_Bus Model_Bus2.

(** the calls to the factory of passengers; the numbers of each kind and the total time *)
Inductive fop := FMake (pnr : bool) | FRemove (p : Z) (r : pas).
Definition frun (f : factory) (o : fop) : res factory :=
  match o with FMake b => Ok (make_passenger b f) | FRemove p r => remove_passenger false p r f end.
Definition makes (os : list fop) : Z := Z.of_nat (length (filter (fun o => match o with FMake _ => true | _ => false end) os)).
Definition removes (os : list fop) : Z := Z.of_nat (length (filter (fun o => match o with FMake _ => false | _ => true end) os)).
Definition makes_pnr (os : list fop) : Z := Z.of_nat (length (filter (fun o => match o with FMake b => b | _ => false end) os)).
Definition removes_pnr (os : list fop) : Z := Z.of_nat (length (filter (fun o => match o with FRemove _ r => p_pnr r | _ => false end) os)).
Definition times (os : list fop) : Z := sumZ (map (fun o => match o with FRemove _ r => p_finish r - p_start r | _ => 0 end) os).

(** the length covered by portions [ps] of the links [ls] *)
Definition covered (ps : list Q) (ls : list (Z * Q)) : Q := sumQ (map (fun x => (fst x * snd (snd x))%Q) (combine ps ls)).
