(** Numeric helpers: src/ults.cpp. *)
From Verif Require Import Base.

Definition Qltb (a b : Q) : bool := negb (Qle_bool b a).

(** [TInt (x)]: C++ conversion double -> int, truncation toward zero. *)
Definition trunc (q : Q) : Z := Z.quot (Qnum q) (Zpos (Qden q)).

(** src/ults.cpp:12-21 [MNM_Ults::round]; [r] is rand()/RAND_MAX. *)
Definition rround (r : Q) (x : Q) : Z :=
  let f := trunc x in
  if Qltb r (x - inject_Z f)%Q then f + 1 else f.

(** src/ults.cpp:23-31 [MNM_Ults::divide] *)
Definition divide (a b : Q) : Q :=
  if Qeq_bool a 0 then 0%Q else if Qeq_bool b 0 then 0%Q else (a / b)%Q.

(** src/ults.cpp:33-39 [MNM_Ults::mod] (C++ % is [Z.rem]) *)
Definition cmod (a b : Z) : Z := if b =? 0 then 0 else Z.rem a b.

(** src/ults.cpp:47-51 [max_link_cost] *)
Definition max_link_cost : Q := 3600.

(** src/ults.h default tolerance p = 1e-4 *)
Definition tol : Q := 1 # 10000.

(** src/ults.cpp:75-88 [approximate_equal] *)
Definition approx_eq (a b p : Q) : bool :=
  Qle_bool (Qabs (a - b)) (p * Qmax (Qabs a) (Qabs b)).

(** src/ults.cpp:90-94 [approximate_less_than] *)
Definition approx_lt (a b p : Q) : bool :=
  Qltb (a + p * Qmax (Qabs a) (Qabs b)) b.

(** src/ults.cpp:96-116 [round_up_time].  The two asserts at 105 and 112 are
    modelled as [EAssert]. *)
Definition round_up_time (time p : Q) : res Z :=
  if Qltb time 1 then Ok 1
  else
    let n := trunc time in
    do _ <- guard (1 <=? n) EAssert;
    if approx_eq time (inject_Z n) p then Ok n
    else do _ <- guard (Qltb time (inject_Z (n + 1))) EAssert; Ok (n + 1).

(** src/ults.cpp:118-130 [round_down_time]; assert at 127. *)
Definition round_down_time (time : Q) : res Z :=
  if Qltb time 1 then Ok 1
  else do _ <- guard (1 <=? trunc time) EAssert; Ok (trunc time).
