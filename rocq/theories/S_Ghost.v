(** Mirror images of a particle. *)
From Verif Require Import Prelude Vec M_Box S_Box M_Util M_Periodic M_Ghost.
From Coq Require Import Reals NArith.
Local Open Scope R_scope.

(** In each direction a copy is reflected at the left face, at the right face or not. *)
Inductive side := No | Left | Right.
Definition choice := list side.
(** A choice that uses only the faces marked in [ml] and [mr]. *)
Definition allowed (ndim : nat) (ml mr : nat -> bool) (c : choice) : Prop :=
  length c = ndim /\
  forall k, (k < ndim)%nat ->
    (nth k c No = Left -> ml k = true) /\ (nth k c No = Right -> mr k = true).
(** [q] is the image of [p] under choice [c] in the box with faces [lo] and [hi]. *)
Definition is_image (lo hi : vec) (p : gpart) (c : choice) (q : gpart) : Prop :=
  gp_id q = gp_id p /\ gp_h2 q = gp_h2 p /\
  (forall k, gp_r q k = match nth k c No with No => gp_r p k | Left => 2 * lo k - gp_r p k | Right => 2 * hi k - gp_r p k end) /\
  (forall k, gp_v q k = match nth k c No with No => gp_v p k | _ => - gp_v p k end) /\
  (forall k, gp_a q k = match nth k c No with No => gp_a p k | _ => - gp_a p k end) /\
  (forall i, N.testbit (gp_fl q) i = true <->
     N.testbit (gp_fl p) i = true \/
     exists k, (k < 3)%nat /\ ((nth k c No = Left /\ i = N.of_nat (13 + k)) \/ (nth k c No = Right /\ i = N.of_nat (16 + k)))).

(** [q] is the periodic image of [p] nearest to the point [c]; everything but the position
    and the flags is unchanged, and the flags tell by which faces the image was moved. *)
Definition nearest_image (n : nat) (b : dombox) (c : vec) (p q : gpart) : Prop :=
  gp_id q = gp_id p /\ gp_h2 q = gp_h2 p /\ gp_v q = gp_v p /\ gp_a q = gp_a p /\
  (forall k, (k < n)%nat ->
     (blhs b k = periodicB /\ brhs b k = periodicB /\ (exists z : Z, gp_r q k = gp_r p k + IZR z * dsize b k) /\
        Rabs (gp_r q k - c k) <= dhalf b k) \/
     (~ (blhs b k = periodicB /\ brhs b k = periodicB) /\ gp_r q k = gp_r p k)) /\
  (forall k, (n <= k)%nat -> gp_r q k = gp_r p k) /\
  (forall i, N.testbit (gp_fl q) i = true <->
     N.testbit (gp_fl p) i = true \/
     exists k, (k < n)%nat /\ ((gp_r p k < gp_r q k /\ i = N.of_nat (7 + k)) \/ (gp_r q k < gp_r p k /\ i = N.of_nat (10 + k)))).

(** The kernel-extended box of the target cell reaches over a mirror face. *)
Definition reaches_mirror (n : nat) (b : dombox) (hmin hmax : vec) : Prop :=
  exists k, (k < n)%nat /\
    ((blhs b k = mirrorB /\ hmin k < dmin b k) \/ (brhs b k = mirrorB /\ dmax b k < hmax k)).
Definition is_mirrorB (b : boundary) : bool := match b with mirrorB => true | _ => false end.

(** A particle interacts with the cell: it lies within its own kernel radius of a point of the
    cell's box, or inside the box extended by the smoothing lengths of the cell. *)
Definition touches (n : nat) (bmin bmax hmin hmax : vec) (q : gpart) : Prop :=
  (exists y, in_box n bmin bmax y /\ dot n (vsub (gp_r q) y) (vsub (gp_r q) y) < gp_h2 q) \/
  (forall k, (k < n)%nat -> hmin k < gp_r q k < hmax k).
