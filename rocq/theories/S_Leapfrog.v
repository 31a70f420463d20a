(** Dynamics of a point particle, independent of the integrator code. *)
From Verif Require Import Vec.
From Coq Require Import Reals.
Local Open Scope R_scope.

(** Uniformly accelerated motion. *)
Definition parabola_r (r v g : vec) (t : R) : vec := fun k => r k + v k * t + g k * t^2 / 2.
Definition parabola_v (v g : vec) (t : R) : vec := fun k => v k + g k * t.
Definition veq (x y : vec) : Prop := forall k, x k = y k.
(** The velocity Verlet map. *)
Definition verlet (A : vec -> vec) (h : R) (r v r' v' : vec) : Prop :=
  veq r' (fun k => r k + h * v k + h^2 / 2 * A r k) /\
  veq v' (fun k => v k + h / 2 * (A r k + A r' k)).
(** The midpoint (drift-kick-drift) map. *)
Definition midpoint (A : vec -> vec) (h : R) (r v r' v' : vec) : Prop :=
  let rh := fun k => r k + h / 2 * v k in
  veq v' (fun k => v k + h * A rh k) /\ veq r' (fun k => rh k + h / 2 * v' k).
(** Fields only look at the values of the components. *)
Definition proper (A : vec -> vec) : Prop := forall x y, veq x y -> veq (A x) (A y).
(** A scalar that, if [on], changes at a constant rate. *)
Definition drifts (on : bool) (x rate t : R) : R := if on then x + rate * t else x.
