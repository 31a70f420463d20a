(** C01: the insertion sorts of InlineFuncs.h. *)
From Verif Require Import Prelude M_Sort S_Sort L_Sort.
From Coq Require Import Permutation Sorted.
Local Open Scope Z_scope.

(** InsertionSort on the first [N] entries of any array of at least [N] entries:
    no out-of-bounds access, the first [N] entries become a sorted permutation,
    the others are untouched. *)
Theorem C01_InsertionSort_sorts : forall (N : nat) (r : list Z),
  (N <= length r)%nat ->
  exists r', InsertionSort N r = Ok r' /\
    Permutation (firstn N r) (firstn N r') /\ skipn N r' = skipn N r /\
    StronglySorted Z.le (firstn N r').
Proof. exact InsertionSort_array. Qed.
Print Assumptions C01_InsertionSort_sorts.

(** InsertionSortIds: stable sort of (value,id) pairs. *)
Theorem C01_InsertionSortIds_stable : forall (N : nat) (ids r : list Z),
  (N <= length ids)%nat -> (N <= length r)%nat ->
  exists ids' r', InsertionSortIds N ids r = Ok (ids', r') /\
    length ids' = length ids /\ length r' = length r /\
    skipn N ids' = skipn N ids /\ skipn N r' = skipn N r /\
    stable_sort_of (combine (firstn N r) (firstn N ids)) (combine (firstn N r') (firstn N ids')).
Proof. exact InsertionSortIds_correct. Qed.
Print Assumptions C01_InsertionSortIds_stable.

(** A concrete run with ties: equal values keep their ids in order. *)
Example C01_example :
  InsertionSortIds 5 [10;11;12;13;14;99] [3;1;3;1;2;0] = Ok ([11;13;14;10;12;99], [1;1;2;3;3;0]).
Proof. vm_compute. reflexivity. Qed.
