(** Specification of a look-up in a table of a function on [0, range). *)
From Verif Require Import Prelude.
From Coq Require Import Reals.
From Flocq Require Import Core BinarySingleNaN.
Local Open Scope R_scope.

(** [a] is a grid point inside the range, not further from [s] than 1.01 times the spacing
    of 1000 points. *)
Definition grid_point {prec emax} (range : R) (s a : binary_float prec emax) : Prop :=
  is_finite a = true /\ 0 <= B2R a < range /\ Rabs (B2R a - B2R s) <= 101/100 * (range / 1000).

(** Not NaN, not infinite, not negative. *)
Definition separation {prec emax} (s : binary_float prec emax) : Prop := is_finite s = true /\ 0 <= B2R s.
