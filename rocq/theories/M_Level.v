(** InlineFuncs.h:550-558 ComputeTimestepLevel, over the reals.
    Constants.h:67 invlogetwo is the decimal literal 1.44269504088896, slightly below 1/ln 2.
    The asserts dt_max > 0, dt > 0 are hypotheses of the theorems. *)
From Verif Require Import Prelude.
From Coq Require Import Reals ZArith.
Local Open Scope R_scope.

Definition invlogetwo : R := 144269504088896 / 100000000000000.
(** C++ cast of a FLOAT to int: truncation toward zero. *)
Definition ztrunc (x : R) : Z := if Rle_dec 0 x then Int_part x else (- Int_part (- x))%Z.
Definition ComputeTimestepLevel (dt dt_max : R) : Z :=
  Z.max (ztrunc (invlogetwo * ln (dt_max / dt)) + 1) 0.
