(** Shared vocabulary: outcomes of a C++ call, function update, counting.
    Models no single function; see DESIGN.md section 2 for the conventions. *)
From Coq Require Export List ZArith QArith Qabs Qminmax Qround Lia Lqa Bool Permutation.
From Coq Require Export ZifyBool ZifyNat.
Export ListNotations.
Global Open Scope Z_scope.

(** Outcomes.  [EThrow]: a C++ exception; [EAssert]: a failed [IAssert]
    (src/common.h:9-10, [assert]); [EUB]: undefined behaviour; [EFuel]: a
    loop not finished within the given fuel. *)
Inductive err := EThrow | EAssert | EUB | EFuel.
Inductive res (A : Type) := Ok (a : A) | Err (e : err).
Arguments Ok {A} a.
Arguments Err {A} e.

Definition bind {A B} (x : res A) (f : A -> res B) : res B :=
  match x with Ok a => f a | Err e => Err e end.
Notation "'do' x <- e1 ; e2" := (bind e1 (fun x => e2))
  (at level 200, x pattern, e1 at level 100, e2 at level 200).
Definition guard (b : bool) (e : err) : res unit := if b then Ok tt else Err e.

(** fold with early exit *)
Fixpoint foldM {A S} (f : S -> A -> res S) (s : S) (l : list A) : res S :=
  match l with
  | [] => Ok s
  | a :: l' => do s' <- f s a; foldM f s' l'
  end.

(** pointwise update of a total map keyed by integers (std::unordered_map<TInt,_>) *)
Definition upd {A} (m : Z -> A) (k : Z) (v : A) : Z -> A :=
  fun x => if Z.eqb x k then v else m x.

(** number of occurrences, [lia]-friendly multiset view of lists *)
Fixpoint cnt (x : Z) (l : list Z) : nat :=
  match l with
  | [] => 0%nat
  | y :: l' => ((if Z.eqb x y then 1 else 0) + cnt x l')%nat
  end.

Definition memb (x : Z) (l : list Z) : bool := existsb (Z.eqb x) l.

Definition sumQ (l : list Q) : Q := fold_right Qplus 0%Q l.
Definition sumZ (l : list Z) : Z := fold_right Z.add 0 l.
