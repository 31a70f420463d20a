(** Boxes as sets of points. *)
From Verif Require Import Prelude Vec.
From Coq Require Import Reals.
Local Open Scope R_scope.

Definition in_box (n : nat) (lo hi x : vec) : Prop := forall k, (k < n)%nat -> lo k <= x k <= hi k.
(** Half-open box. *)
Definition in_hbox (n : nat) (lo hi x : vec) : Prop := forall k, (k < n)%nat -> lo k <= x k < hi k.
Fixpoint prodf (n : nat) (f : nat -> R) : R := match n with O => 1 | S k => prodf k f * f k end.
(** Length of the intersection of two intervals. *)
Definition common (a b c d : R) : R := Rmax 0 (Rmin b d - Rmax a c).
