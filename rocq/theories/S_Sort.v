(** Independent specification of a stable sort, stated on the arrays only. *)
From Verif Require Import Prelude.
From Coq Require Import Permutation Sorted.
Local Open Scope Z_scope.

(** [stable_sort_of before after]: the list of (value, tag) pairs [after] is a
    permutation of [before], its values are in non-decreasing order, and for
    every value the sequence of tags carried by that value is unchanged. *)
Definition stable_sort_of (before after : list (Z * Z)) : Prop :=
  Permutation before after /\
  StronglySorted (fun a b => fst a <= fst b) after /\
  (forall v, filter (fun p => fst p =? v) after = filter (fun p => fst p =? v) before).
