(** Model of the matrix helpers of src/Headers/InlineFuncs.h. *)
From Verif Require Import Prelude Vec.
From Coq Require Import Reals.
Local Open Scope R_scope.

(** A[i][j]. *)
Definition mat := nat -> nat -> R.
Definition mat3 (a b c d e f g h i : R) : mat := fun r k =>
  match r, k with
  | 0%nat, 0%nat => a | 0%nat, 1%nat => b | 0%nat, _ => c
  | 1%nat, 0%nat => d | 1%nat, 1%nat => e | 1%nat, _ => f
  | _, 0%nat => g | _, 1%nat => h | _, _ => i
  end.

(** __matrixInverter<1,2,3>::invert, InlineFuncs.h:578-606, and InvertMatrix 609-612. *)
Definition invert1 (A : mat) : mat := mat3 (1 / A 0%nat 0%nat) 0 0 0 0 0 0 0 0.
Definition invert2 (A : mat) : mat :=
  let invdet := 1 / (A 0%nat 0%nat * A 1%nat 1%nat - A 0%nat 1%nat * A 1%nat 0%nat) in
  mat3 (invdet * A 1%nat 1%nat) (- invdet * A 0%nat 1%nat) 0
       (- invdet * A 1%nat 0%nat) (invdet * A 0%nat 0%nat) 0 0 0 0.
Definition invert3 (A : mat) : mat :=
  let invdet := 1 / (A 0%nat 0%nat * (A 1%nat 1%nat * A 2%nat 2%nat - A 2%nat 1%nat * A 1%nat 2%nat) -
                     A 0%nat 1%nat * (A 1%nat 0%nat * A 2%nat 2%nat - A 1%nat 2%nat * A 2%nat 0%nat) +
                     A 0%nat 2%nat * (A 1%nat 0%nat * A 2%nat 1%nat - A 1%nat 1%nat * A 2%nat 0%nat)) in
  mat3 ((A 1%nat 1%nat * A 2%nat 2%nat - A 2%nat 1%nat * A 1%nat 2%nat) * invdet)
       ((A 0%nat 2%nat * A 2%nat 1%nat - A 0%nat 1%nat * A 2%nat 2%nat) * invdet)
       ((A 0%nat 1%nat * A 1%nat 2%nat - A 0%nat 2%nat * A 1%nat 1%nat) * invdet)
       ((A 1%nat 2%nat * A 2%nat 0%nat - A 1%nat 0%nat * A 2%nat 2%nat) * invdet)
       ((A 0%nat 0%nat * A 2%nat 2%nat - A 0%nat 2%nat * A 2%nat 0%nat) * invdet)
       ((A 1%nat 0%nat * A 0%nat 2%nat - A 0%nat 0%nat * A 1%nat 2%nat) * invdet)
       ((A 1%nat 0%nat * A 2%nat 1%nat - A 2%nat 0%nat * A 1%nat 1%nat) * invdet)
       ((A 2%nat 0%nat * A 0%nat 1%nat - A 0%nat 0%nat * A 2%nat 1%nat) * invdet)
       ((A 0%nat 0%nat * A 1%nat 1%nat - A 1%nat 0%nat * A 0%nat 1%nat) * invdet).
Definition InvertMatrix (ndim : nat) (A : mat) : mat :=
  match ndim with 1%nat => invert1 A | 2%nat => invert2 A | _ => invert3 A end.

(** EulerAngleMatrix, InlineFuncs.h:256-274. *)
Definition EulerAngleMatrix (phi theta psi : R) : mat :=
  mat3 (cos theta * cos psi)
       (- cos theta * sin psi)
       (sin theta)
       (cos phi * sin psi + sin phi * sin theta * cos psi)
       (cos phi * cos psi - sin phi * sin theta * sin psi)
       (- sin phi * cos theta)
       (sin phi * sin psi - cos phi * sin theta * cos psi)
       (sin phi * cos psi + cos phi * sin theta * sin psi)
       (cos phi * cos theta).
Definition apply_rot (A : mat) (v : vec) : vec := fun k =>
  A 0%nat k * v 0%nat + A 1%nat k * v 1%nat + A 2%nat k * v 2%nat.
(** EulerAngleRotation, InlineFuncs.h:282-306 (output to cout not modelled). *)
Definition EulerAngleRotation (phi theta psi : R) (v : vec) : vec :=
  apply_rot (EulerAngleMatrix phi theta psi) v.
(** EulerAngleArrayRotation, InlineFuncs.h:314-339: on a flat array of 3N values. *)
Definition rot_one (A : mat) (i : Z) (v : list R) : res (list R) :=
  let! x := aget v (3 * i) in
  let! y := aget v (3 * i + 1) in
  let! z := aget v (3 * i + 2) in
  let w := apply_rot A (fun k => match k with 0%nat => x | 1%nat => y | _ => z end) in
  let! v := aset v (3 * i) (w 0%nat) in
  let! v := aset v (3 * i + 1) (w 1%nat) in
  aset v (3 * i + 2) (w 2%nat).
Fixpoint rot_loop (n : nat) (i : Z) (A : mat) (v : list R) : res (list R) :=
  match n with
  | O => Ok v
  | S m => let! v := rot_one A i v in rot_loop m (i + 1)%Z A v
  end.
Definition EulerAngleArrayRotation (N : nat) (phi theta psi : R) (v : list R) : res (list R) :=
  rot_loop N 0 (EulerAngleMatrix phi theta psi) v.
