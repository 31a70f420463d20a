(** C02: KDTree::QuickSelect. *)
From Verif Require Import Prelude M_KDTree L_QuickSelect.
From Coq Require Import Permutation.
Local Open Scope Z_scope.

(** For every id array, every array of coordinates, every range and every pivot
    position inside the range: the do-while loop ends after at most
    right-left+1 iterations without leaving the arrays; the ids are permuted inside
    the range only; the returned value is the coordinate at the pivot position; entries
    before (after) the pivot have coordinates not larger (not smaller). *)
Theorem C02_QuickSelect_partitions : forall (key ids : list Z) (left right jpivot : Z),
  0 <= left -> left <= jpivot <= right -> right < zlen ids ->
  (forall i, left <= i <= right -> exists a v, aget ids i = Ok a /\ aget key a = Ok v) ->
  exists ids' rp,
    QuickSelect (S (Z.to_nat (right - left))) key ids left right jpivot = Ok (ids', rp) /\
    Permutation ids ids' /\
    (forall i, 0 <= i -> ~ (left <= i <= right) -> aget ids' i = aget ids i) /\
    keyat key ids' jpivot = Ok rp /\
    (forall i v, left <= i <= jpivot -> keyat key ids' i = Ok v -> v <= rp) /\
    (forall i v, jpivot <= i <= right -> keyat key ids' i = Ok v -> rp <= v).
Proof. exact QuickSelect_correct. Qed.
Print Assumptions C02_QuickSelect_partitions.

(** A concrete instance with ties, on a sub-range of the id array. *)
Example C02_example :
  QuickSelect 6 [50;30;30;10;20;40;0] [6;0;1;2;3;4;5] 1 6 4 = Ok ([6;1;3;4;2;5;0], 30).
Proof. vm_compute. reflexivity. Qed.
