(** What is asked of a smoothing kernel, as statements about functions of s = r/h.
    With W(r,h) = h^-n w(r/h) and phi(r,h) = - G m p(r/h) / h:
    - dW/dr = h^-(n+1) w'(s), so w1 = w';
    - dW/dh = - h^-(n+1) (n w + s w'), so womega = -(n w + s w');
    - the force is -dphi/dr, so wgrav = - p';
    - dphi/dh = G m (p + s p') / h^2, so wzeta = p + s p'. *)
From Coq Require Import Reals.
From Coquelicot Require Import Coquelicot.
Local Open Scope R_scope.

Record density_kernel (n : nat) (range : R) (w w1 om : R -> R) : Prop := {
  dk_deriv : forall s, is_derive w s (w1 s);
  dk_cont1 : forall s, continuous w1 s;
  dk_omega : forall s, om s = - (INR n * w s + s * w1 s);
  dk_pos : forall s, 0 <= s -> 0 <= w s;
  dk_inside : forall s, 0 <= s < range -> 0 < w s;
  dk_decr : forall s t, 0 <= s <= t -> w t <= w s;
  dk_out : forall s, range <= s -> w s = 0 /\ w1 s = 0 /\ om s = 0
}.

Record gravity_kernel (range : R) (grav pot zeta : R -> R) : Prop := {
  gk_force : forall s, is_derive pot s (- grav s);
  gk_cont : forall s, continuous grav s;
  gk_zeta : forall s, zeta s = pot s + s * Derive pot s;
  gk_newton : forall s, range <= s -> grav s = / s^2 /\ pot s = / s;
  gk_zero : grav 0 = 0;
  gk_attr : forall s, 0 < s -> 0 < grav s
}.

(** Measure of a shell of radius s in n dimensions. *)
Definition shell (n : nat) (s : R) : R :=
  match n with 1%nat => 2 | 2%nat => 2 * PI * s | _ => 4 * PI * (s * s) end.
(** The kernel integrates to one over its support. *)
Definition normalised (n : nat) (range : R) (w : R -> R) : Prop :=
  is_RInt (fun s => shell n s * w s) 0 range 1.
(** The force at s is that of the mass inside s (three dimensions). *)
Definition gauss_law (w grav : R -> R) : Prop :=
  forall s, is_derive (fun x => x^2 * grav x) s (4 * PI * s^2 * w s).
