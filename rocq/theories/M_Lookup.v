(** Model of the table look-up functions, src/Headers/InlineFuncs.h:645-678. *)
From Verif Require Import Prelude Vec M_Box.
From Coq Require Import Reals.
Local Open Scope R_scope.

(** std::lower_bound(first,last,value): position of the first entry that is not less than
    [value] (the length if there is none); this is its contract for a sorted range. *)
Fixpoint lower_bound (l : list R) (value : R) : nat :=
  match l with
  | [] => O
  | x :: t => if rltb x value then S (lower_bound t value) else O
  end.

(** getClosestIndex / getClosest, InlineFuncs.h:650-678; the iterator is a position. *)
Definition getClosestIndex (l : list R) (value : R) : res Z :=
  let before := Z.of_nat (lower_bound l value) in
  if (before =? 0)%Z then Ok 0%Z
  else if (before =? zlen l)%Z then Ok (zlen l - 1)%Z
  else
    let after := before in
    let before := (before - 1)%Z in
    let! a := aget l after in
    let! b := aget l before in
    Ok (if rltb (a - value) (value - b) then after else before).
