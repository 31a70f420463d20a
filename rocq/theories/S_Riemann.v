(** The Euler equations at a moving face. *)
From Verif Require Import Prelude Vec.
From Coq Require Import Reals.
Local Open Scope R_scope.

(** Density, velocity, pressure and energy per volume (kinetic and internal). *)
Record fluid := mkfluid { d_rho : R; d_v : vec; d_p : R; d_E : R }.

Section Euler.
Variable ndim : nat.
(** Components below [ndim]: momentum; [ndim]: mass; [S ndim]: energy. *)
Definition density (s : fluid) (i : nat) : R :=
  if Nat.ltb i ndim then d_rho s * d_v s i else if Nat.eqb i ndim then d_rho s else d_E s.
(** What crosses a face with normal [n] that moves with velocity [w]. *)
Definition crossing (s : fluid) (n w : vec) (i : nat) : R :=
  let rel := sumf ndim (fun k => (d_v s k - w k) * n k) in
  if Nat.ltb i ndim then d_rho s * d_v s i * rel + d_p s * n i
  else if Nat.eqb i ndim then d_rho s * rel
  else d_E s * rel + d_p s * sumf ndim (fun k => d_v s k * n k).
(** A gas with the density W[ndim], the pressure W[S ndim] and the velocity W[k] + w[k]. *)
Definition gas (gammam1 : R) (W w : vec) : fluid :=
  mkfluid (W ndim) (fun k => W k + w k) (W (S ndim)) (W (S ndim) / gammam1 + 1 / 2 * W ndim * sumf ndim (fun k => (W k + w k) * (W k + w k))).
(** The states on both sides of a wave moving with speed [s] relative to the face. *)
Definition jump (a b : fluid) (n w : vec) (s : R) : Prop :=
  forall i, (i <= S ndim)%nat -> crossing b n w i - crossing a n w i = s * (density b i - density a i).
Definition unit (n : vec) : Prop := sumf ndim (fun k => n k * n k) = 1.
Definition normal_speed (s : fluid) (n w : vec) : R := sumf ndim (fun k => (d_v s k - w k) * n k).
(** The stress of a viscous fluid with the velocity gradient [g]: shear and bulk viscosity [eta] and [zeta]. *)
Definition stress (eta zeta : R) (g : nat -> vec) (i j : nat) : R :=
  let div := sumf ndim (fun k => g k k) in
  eta * (g i j + g j i - if Nat.eqb i j then 2 / 3 * div else 0) + if Nat.eqb i j then zeta * div else 0.
End Euler.
