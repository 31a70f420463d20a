(** Model of the two insertion sorts of src/Headers/InlineFuncs.h.

    The value type is [Z]: the code only compares values with [<=].
    The array is a list; every access is bounds-checked. *)
From Verif Require Import Prelude.
Local Open Scope Z_scope.

(** InlineFuncs.h:210-213, the inner loop
    [for (i=j-1; i>=0; i--) { if (r[i] <= raux) break; r[i+1] = r[i]; }].
    [n] is i+1, so the recursion is structural; the result is the array and the
    final value of i+1. *)
Fixpoint isort_inner (r : list Z) (raux : Z) (n : nat) : res (list Z * Z) :=
  match n with
  | O => Ok (r, 0)
  | S i =>
      let! ri := aget r (Z.of_nat i) in
      if ri <=? raux then Ok (r, Z.of_nat i + 1)
      else
        let! r' := aset r (Z.of_nat i + 1) ri in
        isort_inner r' raux i
  end.

(** InlineFuncs.h:208-215, the outer loop from [j] for [k] more iterations. *)
Fixpoint isort_outer (r : list Z) (j : nat) (k : nat) : res (list Z) :=
  match k with
  | O => Ok r
  | S k' =>
      let! raux := aget r (Z.of_nat j) in
      let! (r1, i1) := isort_inner r raux j in
      let! r2 := aset r1 i1 raux in
      isort_outer r2 (S j) k'
  end.

(** InlineFuncs.h:200-218, InsertionSort(Nsort, r). *)
Definition InsertionSort (Nsort : nat) (r : list Z) : res (list Z) :=
  isort_outer r 1 (Nsort - 1).

(** InlineFuncs.h:238-242, inner loop of InsertionSortIds. *)
Fixpoint isortids_inner (ids r : list Z) (raux : Z) (n : nat) : res (list Z * list Z * Z) :=
  match n with
  | O => Ok (ids, r, 0)
  | S i =>
      let! ri := aget r (Z.of_nat i) in
      if ri <=? raux then Ok (ids, r, Z.of_nat i + 1)
      else
        let! r' := aset r (Z.of_nat i + 1) ri in
        let! idi := aget ids (Z.of_nat i) in
        let! ids' := aset ids (Z.of_nat i + 1) idi in
        isortids_inner ids' r' raux i
  end.

(** InlineFuncs.h:235-245, outer loop of InsertionSortIds. *)
Fixpoint isortids_outer (ids r : list Z) (j : nat) (k : nat) : res (list Z * list Z) :=
  match k with
  | O => Ok (ids, r)
  | S k' =>
      let! raux := aget r (Z.of_nat j) in
      let! iaux := aget ids (Z.of_nat j) in
      let! (ids1, r1, i1) := isortids_inner ids r raux j in
      let! r2 := aset r1 i1 raux in
      let! ids2 := aset ids1 i1 iaux in
      isortids_outer ids2 r2 (S j) k'
  end.

(** InlineFuncs.h:226-248, InsertionSortIds(Nsort, ids, r). *)
Definition InsertionSortIds (Nsort : nat) (ids r : list Z) : res (list Z * list Z) :=
  isortids_outer ids r 1 (Nsort - 1).
