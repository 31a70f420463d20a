(** What the solution of a Riemann problem of the Euler equations is. *)
From Coq Require Import Reals List Lra.
From Coquelicot Require Import Coquelicot.
Local Open Scope R_scope.

Section Spec.
Variable gamma : R.
(** Density, velocity and pressure. *)
Definition state : Type := R * R * R.
Definition de (w : state) : R := fst (fst w).
Definition ve (w : state) : R := snd (fst w).
Definition pe (w : state) : R := snd w.
Definition speed_of_sound (p d : R) : R := sqrt (gamma * p / d).
(** Total energy per volume of an ideal gas and the fluxes of mass, momentum and energy. *)
Definition energy (w : state) : R := pe w / (gamma - 1) + 1 / 2 * de w * (ve w * ve w).
Definition flux_m (w : state) : R := de w * ve w.
Definition flux_p (w : state) : R := de w * ve w * ve w + pe w.
Definition flux_e (w : state) : R := (energy w + pe w) * ve w.
(** Rankine and Hugoniot: nothing is lost at a discontinuity that moves with speed s. *)
Definition rankine (s : R) (a b : state) : Prop :=
  flux_m b - flux_m a = s * (de b - de a) /\ flux_p b - flux_p a = s * (de b * ve b - de a * ve a) /\
  flux_e b - flux_e a = s * (energy b - energy a).
(** Entropy p/d^gamma does not fall along the flow: gas that crosses from a to b gains, and the reverse. *)
Definition entropic (s : R) (a b : state) : Prop :=
  let S w := pe w * Rpower (de w) (- gamma) in de a * (ve a - s) * (S b - S a) >= 0.
(** Along a ray the profile is smooth and solves the equations of Euler in the variable s = x/t. *)
Definition euler_at (W : R -> state) (s : R) : Prop :=
  exists d' u' p', is_derive (fun x => de (W x)) s d' /\ is_derive (fun x => ve (W x)) s u' /\ is_derive (fun x => pe (W x)) s p' /\
    (ve (W s) - s) * d' + de (W s) * u' = 0 /\
    de (W s) * (ve (W s) - s) * u' + p' = 0 /\
    (ve (W s) - s) * p' + gamma * pe (W s) * u' = 0.
(** Limits from both sides exist and are joined by a discontinuity that conserves and does not lower entropy. *)
Definition jump_at (W : R -> state) (s : R) : Prop :=
  exists a b, (forall f, In f (de :: ve :: pe :: nil) ->
      filterlim (fun x => f (W x)) (at_left s) (locally (f a)) /\ filterlim (fun x => f (W x)) (at_right s) (locally (f b))) /\
    rankine s a b /\ entropic s a b.
(** The profile W(x/t) solves the Riemann problem with states l and r. *)
Definition solves (l r : state) (W : R -> state) : Prop :=
  (exists breaks : list R, forall s, (~ In s breaks -> euler_at W s) /\ (In s breaks -> jump_at W s)) /\
  (exists m, forall s, s < m -> W s = l) /\ (exists m, forall s, m < s -> W s = r) /\
  (forall s, 0 < de (W s) /\ 0 < pe (W s)).
(** The waves that join a side to the pressure p: loss of velocity across a shock or a rarefaction, written with the mass flux of the
    shock and the change of the speed of sound. *)
Definition wave (p d ps df : R) : Prop :=
  (p < ps -> exists q, 0 < q /\ q * q = d / 2 * ((gamma + 1) * ps + (gamma - 1) * p) /\ q * df = ps - p) /\
  (ps <= p -> exists c d', c = speed_of_sound p d /\ ps * Rpower d' (- gamma) = p * Rpower d (- gamma) /\ 0 < d' /\
     df = 2 / (gamma - 1) * (speed_of_sound ps d' - c)).
(** Pressure and velocity between the waves. *)
Definition star (l r : state) (ps us : R) : Prop :=
  0 < ps /\ wave (pe l) (de l) ps (ve l - us) /\ wave (pe r) (de r) ps (us - ve r).
(** Fluxes of gas with density d, velocity v and pressure p, seen from the laboratory, through a face that moves with velocity vf:
    component k of the flux of mass, of the component kv of momentum and of energy. *)
Definition mass_flux (d : R) (v vf : nat -> R) (k : nat) : R := d * (v k - vf k).
Definition mom_flux (d p : R) (v vf : nat -> R) (kv k : nat) : R := d * v kv * (v k - vf k) + (if Nat.eqb kv k then p else 0).
Definition en_flux (v2 d p : R) (v vf : nat -> R) (k : nat) : R := (1 / 2 * d * v2 + p / (gamma - 1)) * (v k - vf k) + p * v k.
End Spec.
