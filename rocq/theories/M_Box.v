(** Boxes: InlineFuncs.h:362-480, DomainBox.h:194-237.  FLOAT values are reals. *)
From Verif Require Import Prelude Vec.
From Coq Require Import Reals.
Local Open Scope R_scope.

(** C++ comparisons as booleans. *)
Definition rltb (a b : R) : bool := if Rlt_dec a b then true else false.
Definition rleb (a b : R) : bool := if Rle_dec a b then true else false.

(** InlineFuncs.h:362-390 BoxOverlap.  The three cases ndim = 1, 2 and "else" (3). *)
Definition BoxOverlap (ndim : nat) (min1 max1 min2 max2 : vec) : bool :=
  let t k := if rltb (max2 k) (min1 k) then false else if rltb (max1 k) (min2 k) then false else true in
  match ndim with
  | 1%nat => t 0%nat
  | 2%nat => if t 0%nat then t 1%nat else false
  | _ => if t 0%nat then if t 1%nat then t 2%nat else false else false
  end.

(** DomainBox.h:183-211 BoxesOverlap (with valueInRange). *)
Definition valueInRange (x lo hi : R) : bool := rleb lo x && rleb x hi.
Fixpoint BoxesOverlap (ndim : nat) (min1 max1 min2 max2 : vec) : bool :=
  match ndim with
  | O => true
  | S k => BoxesOverlap k min1 max1 min2 max2 &&
           (valueInRange (min1 k) (min2 k) (max2 k) || valueInRange (min2 k) (min1 k) (max1 k))
  end.

(** InlineFuncs.h:473-480 ParticleInBox. *)
Fixpoint ParticleInBox (ndim : nat) (r lo hi : vec) : bool :=
  match ndim with
  | O => true
  | S k => ParticleInBox k r lo hi && negb (rltb (r k) (lo k) || rleb (hi k) (r k))
  end.

(** InlineFuncs.h:398-439 FractionalBoxOverlap (without the assertions); the parameters
    are box2min, box2max, box1min, box1max in this order.  [frac_loop] returns
    (area, overlap). *)
Fixpoint frac_loop (ndim : nat) (min2 max2 min1 max1 : vec) : R * R :=
  match ndim with
  | O => (1, 1)
  | S k =>
      let '(area, overlap) := frac_loop k min2 max2 min1 max1 in
      (area * (max1 k - min1 k),
       if rleb (max1 k) (min2 k) || rleb (max2 k) (min1 k) then overlap * 0
       else if rltb (min2 k) (min1 k) && rltb (max1 k) (max2 k) then overlap * (max1 k - min1 k)
       else if rltb (min1 k) (min2 k) && rltb (max2 k) (max1 k) then overlap * (max2 k - min2 k)
       else if rltb (min1 k) (min2 k) && rltb (max1 k) (max2 k) then overlap * (max1 k - min2 k)
       else if rltb (min2 k) (min1 k) && rltb (max2 k) (max1 k) then overlap * (max2 k - min1 k)
       else overlap)
  end.
Definition FractionalBoxOverlap (ndim : nat) (min2 max2 min1 max1 : vec) : R :=
  let '(area, overlap) := frac_loop ndim min2 max2 min1 max1 in
  if rltb 0 area then overlap / area else 0.
