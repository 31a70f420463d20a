(** Periodic images. *)
From Verif Require Import Prelude Vec S_Box M_Periodic.
From Coq Require Import Reals.
Local Open Scope R_scope.

Definition periodic_dir (b : dombox) (k : nat) : Prop := blhs b k = periodicB /\ brhs b k = periodicB.
(** A box whose periodic directions are periodic on both sides (the setup routine accepts
    one-sided combinations, the ghost finder asserts against them). *)
Definition two_sided (n : nat) (b : dombox) : Prop :=
  forall k, (k < n)%nat -> (blhs b k = periodicB <-> brhs b k = periodicB).
(** [d'] is an image of [d]: it differs by a whole number of box lengths in periodic
    directions and not at all in the others. *)
Definition image_of (n : nat) (b : dombox) (d d' : vec) : Prop :=
  forall k, (k < n)%nat ->
    (periodic_dir b k /\ exists z : Z, d' k = d k + IZR z * dsize b k) \/
    (~ periodic_dir b k /\ d' k = d k).

(** What may happen to one direction [k] of a particle at a boundary. *)
Definition same_dir (k : nat) (p q : bpart) : Prop :=
  br q k = br p k /\ br0 q k = br0 p k /\ bv q k = bv p k /\ bv0 q k = bv0 p k /\ ba q k = ba p k /\ ba0 q k = ba0 p k.
(** Moved by [s]: displacement r - r0, velocities and accelerations kept. *)
Definition moved_dir (k : nat) (s : R) (p q : bpart) : Prop :=
  br q k = br p k + s /\ br q k - br0 q k = br p k - br0 p k /\
  bv q k = bv p k /\ bv0 q k = bv0 p k /\ ba q k = ba p k /\ ba0 q k = ba0 p k.
(** Mirrored at the plane [x]: the plane is half way between old and new position (now and
    at the start of the step); normal velocities and accelerations change sign. *)
Definition mirrored_dir (k : nat) (x : R) (p q : bpart) : Prop :=
  (br p k + br q k) / 2 = x /\ (br0 p k + br0 q k) / 2 = x /\
  bv q k + bv p k = 0 /\ bv0 q k + bv0 p k = 0 /\ ba q k + ba p k = 0 /\ ba0 q k + ba0 p k = 0.
Definition reflecting (b : boundary) : Prop := b = mirrorB \/ b = wallB.
(** The treatment of direction [k] at a box [lo,hi] with boundary types [bl], [br']. *)
Definition dir_spec (lo hi : R) (bl br' : boundary) (k : nat) (p q : bpart) : Prop :=
  (lo <= br p k <= hi -> same_dir k p q) /\
  (br p k < lo -> bl = openB -> same_dir k p q) /\
  (hi < br p k -> br' = openB -> same_dir k p q) /\
  (lo - (hi - lo) <= br p k < lo -> bl = periodicB -> moved_dir k (hi - lo) p q /\ lo <= br q k <= hi) /\
  (hi < br p k <= hi + (hi - lo) -> br' = periodicB -> moved_dir k (- (hi - lo)) p q /\ lo <= br q k <= hi) /\
  (lo - (hi - lo) <= br p k < lo -> reflecting bl -> mirrored_dir k lo p q /\ lo <= br q k <= hi) /\
  (hi < br p k <= hi + (hi - lo) -> reflecting br' -> mirrored_dir k hi p q /\ lo <= br q k <= hi).

(** Two boxes have an image pair with a common point. *)
Definition images_meet (n : nat) (b : dombox) (min1 max1 min2 max2 : vec) : Prop :=
  exists x x', in_box n min1 max1 x /\ in_box n min2 max2 x' /\ image_of n b x x'.
