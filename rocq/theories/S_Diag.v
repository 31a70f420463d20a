(** What diagnostics of a set of bodies should be. *)
From Verif Require Import Prelude Vec.
From Coq Require Import Reals List.
Local Open Scope R_scope.

(** Sum of a quantity over a list. *)
Fixpoint lsum {A : Type} (f : A -> R) (l : list A) : R :=
  match l with nil => 0 | cons x l => f x + lsum f l end.
(** Component k (of three) of the product r x v of vectors with n <= 3 components, missing ones being zero. *)
Definition comp (n : nat) (r : vec) (k : nat) : R := if Nat.ltb k n then r k else 0.
Definition cross (n : nat) (r v : vec) (k : nat) : R :=
  let i := Nat.modulo (k + 1) 3 in let j := Nat.modulo (k + 2) 3 in
  comp n r i * comp n v j - comp n r j * comp n v i.
