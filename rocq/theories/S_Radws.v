(** Specification for the tabulated gas and its heating and cooling.  Independent of the model. *)
From Coq Require Import Reals List.
Import ListNotations.
Local Open Scope R_scope.

(** Entry [i] of the first [n] entries of [f] is nearest to [v], the first such on a tie. *)
Definition nearest (n : nat) (f : nat -> R) (v : R) (i : nat) : Prop :=
  (i < n)%nat /\ (forall j, (j < n)%nat -> Rabs (f i - v) <= Rabs (f j - v)) /\
  (forall j, (j < i)%nat -> Rabs (f i - v) < Rabs (f j - v)).
Definition rises (n : nat) (f : nat -> R) : Prop := forall i j, (i < j < n)%nat -> f i < f j.

(** Ideal gas whose adiabatic index, first adiabatic exponent and mean molecular weight are [g], [g1], [mu]. *)
Record gas (g g1 mu rho u p c T : R) : Prop := mkgas {
  gas_p : p = (g - 1) * rho * u;
  gas_c : rho * (c * c) = g1 * p;
  gas_T : mu * p = rho * T }.

(** Flux received at distance d from a source of luminosity L, as the fourth power of the temperature of a black body that re-emits
    it from its whole surface: 4 sigma T^4 = L / (4 pi d^2). *)
Definition flux4 (sigma L d : R) : R := L / (16 * PI * sigma * (d * d)).

(** u relaxes to ueq in the time tau: u' = (ueq - u) / tau. *)
Definition relaxes (ueq tau : R) (u : R -> R) : Prop := forall s, derivable_pt_lim u s ((ueq - u s) / tau).

(** The class of a source by its mass: planet below 13 Jupiter masses, brown dwarf below 80, else star. *)
Inductive kind := planet | dwarf | star.
Definition is_kind (mjup m : R) (k : kind) : Prop :=
  match k with planet => m < 13 * mjup | dwarf => 13 * mjup <= m < 80 * mjup | star => 80 * mjup <= m end.
(** A star shines as the cube of its mass; gas falling on it at [mdot] from the sink radius releases the fraction [f] of its energy. *)
Definition shines (k : kind) (lsun msun f m mdot r rsink : R) : R :=
  (match k with star => (m / msun) ^ 3 * lsun | _ => 0 end) + f * (m * mdot / r) * (1 - r / (2 * rsink)).

(** Radiative loss per mass of gas at temperature T, with Rosseland and Planck opacities kR and kP behind the column whose square
    is col2, to surroundings at Ta. *)
Definition loss (sigma kR kP col2 Ta T : R) : R := 4 * sigma * (T ^ 4 - Ta ^ 4) / (col2 * kR + 1 / kP).
