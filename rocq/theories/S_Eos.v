(** What an equation of state means, said without the classes of the code. *)
From Verif Require Import Prelude Vec.
From Coq Require Import Reals String.
Local Open Scope R_scope.

(** p = (gamma-1) rho u. *)
Definition gamma_law (g rho u p : R) : Prop := p = (g - 1) * rho * u.
(** p = rho k T / (mu m_H), in units where k / m_H = 1. *)
Definition ideal_gas (mu rho T p : R) : Prop := p * mu = rho * T.
(** [d] is the distance from [r] to the nearest of [l]. *)
Definition nearest (n : nat) (l : list vec) (r : vec) (d : R) : Prop :=
  (exists s, In s l /\ d = norm n (vsub r s)) /\ forall s, In s l -> d <= norm n (vsub r s).
(** [c] is the speed of sound of gas of density [rho] whose pressure at density s is [p s]. *)
Definition sound_of (p : R -> R) (rho c : R) : Prop := 0 <= c /\ derivable_pt_lim p rho (c * c).
(** Names a parameter file may give. *)
Definition names : list string :=
  ["energy_eqn"; "constant_temp"; "isothermal"; "locally_isothermal"; "disc_locally_isothermal"; "polytropic"; "barotropic";
   "barotropic2"; "radws"]%string.
