(** Model of class XorshiftRand, src/Headers/RandomNumber.h:71-129. *)
From Verif Require Import Prelude.
From Coq Require Import NArith Reals.
Local Open Scope N_scope.

(** unsigned long int: 64 bits. *)
Definition w64 : N := 2 ^ 64.
(** a1, a2, a3, amod: RandomNumber.h:78-81. *)
Definition a1 : N := 21.
Definition a2 : N := 35.
Definition a3 : N := 4.
Definition amod : N := 4768777513237032717.

(** xorshiftrand, RandomNumber.h:99-105: new state, and the returned word. *)
Definition rng_state (x : N) : N :=
  let x := N.lxor x (N.shiftr x a1) in
  let x := N.lxor x ((N.shiftl x a2) mod w64) in
  let x := N.lxor x (N.shiftr x a3) in x.
Definition xorshiftrand (x : N) : N * N :=
  let x := rng_state x in (x, (x * amod) mod w64).

(** Constructor, RandomNumber.h:91-94: ten discarded calls. *)
Definition rng_seed (seed : N) : N := N.iter 10 rng_state seed.

(** invrandmax, src/Common/RandomNumber.cpp:25 and floatrand, RandomNumber.h:108-109, in real
    arithmetic. *)
Definition invrandmax : R := (1 / IZR 18446744073709500000)%R.
Definition floatrand (x : N) : N * R :=
  let (x, w) := xorshiftrand x in (x, (invrandmax * IZR (Z.of_N w))%R).

(** gaussrand, RandomNumber.h:111-120; the loop repeats while U is zero. *)
Fixpoint gauss_loop (fuel : nat) (x : N) : res (N * R * R) :=
  match fuel with
  | O => NoFuel
  | S f =>
      let (x, U) := floatrand x in
      let (x, V) := floatrand x in
      if Req_EM_T U 0 then gauss_loop f x else Ok (x, U, V)
  end.
Definition gaussrand (fuel : nat) (mean sigma : R) (x : N) : res (N * R) :=
  let! (y, V) := gauss_loop fuel x in
  let (x, U) := y in
  Ok (x, (sqrt (-2 * ln U) * cos (2 * PI * V))%R).
