(** SPH leapfrog integrators, one particle at a time: SphLeapfrogKDK.cpp:76-272 and
    SphLeapfrogDKD.cpp:77-214.  Every loop body touches only its own particle, so the OpenMP
    loop over particles is the map of the body.  FLOAT is R, the vectors are functions of the
    component index (the loops over k < ndim are applied to every component). *)
From Verif Require Import Prelude Vec M_Box.
From Coq Require Import Reals ZArith.
Local Open Scope R_scope.

(** The fields of SphParticle the integrators use (Particle.h:130-215). *)
Record lpart := mkLP {
  l_dead : bool; l_active : bool; l_end : bool;
  l_r : vec; l_v : vec; l_a : vec; l_r0 : vec; l_v0 : vec; l_a0 : vec;
  l_u : R; l_u0 : R; l_dudt : R; l_dudt0 : R; l_alpha : R; l_dalphadt : R;
  l_nlast : Z; l_nstep : Z; l_tlast : R; l_dt : R; l_dtnext : R
}.
(** Constructor parameters of the integrator: energy_integration and tdavisc != notdav. *)
Record lconf := mkLC { c_energy : bool; c_tdav : bool }.

(** SphLeapfrogKDK.cpp:99-122. *)
Definition KDK_Advance (c : lconf) (n : Z) (t timestep : R) (p : lpart) : lpart :=
  if l_dead p then p else
  let dn := (n - l_nlast p)%Z in
  let dt := t - l_tlast p in
  mkLP false (dn =? l_nstep p)%Z (l_end p)
    (fun k => l_r0 p k + l_v0 p k * dt + (1/2) * l_a0 p k * dt * dt)
    (fun k => l_v0 p k + l_a0 p k * dt)
    (l_a p) (l_r0 p) (l_v0 p) (l_a0 p)
    (if c_energy c then l_u0 p + l_dudt0 p * dt else l_u p)
    (l_u0 p) (l_dudt p) (l_dudt0 p)
    (if c_tdav c then l_alpha p + l_dalphadt p * timestep else l_alpha p) (l_dalphadt p)
    (l_nlast p) (l_nstep p) (l_tlast p) (l_dt p) (l_dtnext p).

(** SphLeapfrogKDK.cpp:236-265. *)
Definition KDK_End (c : lconf) (n : Z) (t : R) (p : lpart) : lpart :=
  if l_dead p then p else
  if l_end p then
    let v' := fun k => l_v p k + (1/2) * l_dt p * (l_a p k - l_a0 p k) in
    let u1 := l_u p + (1/2) * (l_dudt p - l_dudt0 p) * l_dt p in
    let u2 := if rleb u1 0 then l_u0 p + l_dudt0 p * l_dt p else u1 in
    mkLP false false false
      (l_r p) v' (l_a p) (l_r p) v' (l_a p)
      (if c_energy c then u2 else l_u p)
      (if c_energy c then u2 else l_u0 p)
      (l_dudt p) (if c_energy c then l_dudt p else l_dudt0 p)
      (l_alpha p) (l_dalphadt p)
      n (l_nstep p) t (l_dtnext p) 0
  else p.

(** SphLeapfrogDKD.cpp:99-131.  Integer division nstep/2 of a non-negative int. *)
Definition DKD_Advance (c : lconf) (n : Z) (t timestep : R) (p : lpart) : lpart :=
  if l_dead p then p else
  let dn := (n - l_nlast p)%Z in
  let dt := t - l_tlast p in
  let v' := fun k => l_v0 p k + l_a p k * dt in
  mkLP false (dn =? l_nstep p / 2)%Z (l_end p)
    (if (dn <? l_nstep p)%Z then (fun k => l_r0 p k + l_v0 p k * dt)
     else (fun k => l_r0 p k + (1/2) * (l_v0 p k + v' k) * dt))
    v' (l_a p) (l_r0 p) (l_v0 p) (l_a0 p)
    (if c_energy c then l_u0 p + l_dudt p * dt else l_u p)
    (l_u0 p) (l_dudt p) (l_dudt0 p)
    (if c_tdav c then l_alpha p + l_dalphadt p * timestep else l_alpha p) (l_dalphadt p)
    (l_nlast p) (l_nstep p) (l_tlast p) (l_dt p) (l_dtnext p).

(** SphLeapfrogDKD.cpp:191-209. *)
Definition DKD_End (c : lconf) (n : Z) (t : R) (p : lpart) : lpart :=
  if l_dead p then p else
  if l_end p then
    mkLP false false false
      (l_r p) (l_v p) (l_a p) (l_r p) (l_v p) (l_a p)
      (l_u p) (if c_energy c then l_u p else l_u0 p)
      (l_dudt p) (l_dudt0 p) (l_alpha p) (l_dalphadt p)
      n (l_nstep p) t (l_dtnext p) 0
  else p.

(** The force calculation: active particles get the acceleration (and heating rate) of the
    field at their present position; others keep theirs.  UpdateAllSphForces is abstracted to
    an arbitrary function of position. *)
Definition kick (A : vec -> vec) (U : vec -> R) (p : lpart) : lpart :=
  if l_active p then
    mkLP (l_dead p) (l_active p) (l_end p) (l_r p) (l_v p) (A (l_r p)) (l_r0 p) (l_v0 p) (l_a0 p)
      (l_u p) (l_u0 p) (U (l_r p)) (l_dudt0 p) (l_alpha p) (l_dalphadt p)
      (l_nlast p) (l_nstep p) (l_tlast p) (l_dt p) (l_dtnext p)
  else p.
(** ComputeBlockTimesteps sets end_timestep and the next step for a particle with
    n - nlast == nstep (Simulation.cpp:1955-1992); the level logic is in M_Block.v. *)
Definition mark_end (n : Z) (nstep' : Z) (dtn : R) (p : lpart) : lpart :=
  if (n - l_nlast p =? l_nstep p)%Z then
    mkLP (l_dead p) (l_active p) true (l_r p) (l_v p) (l_a p) (l_r0 p) (l_v0 p) (l_a0 p)
      (l_u p) (l_u0 p) (l_dudt p) (l_dudt0 p) (l_alpha p) (l_dalphadt p)
      (l_nlast p) nstep' (l_tlast p) (l_dt p) dtn
  else p.

(** One pass of the main loop for one particle at integer time n and time t
    (SphSimulation.cpp:574-880): advance, force, timesteps, end of step. *)
Definition KDK_loop (c : lconf) (A : vec -> vec) (U : vec -> R) (n : Z) (t timestep : R)
    (nstep' : Z) (dtn : R) (p : lpart) : lpart :=
  KDK_End c n t (mark_end n nstep' dtn (kick A U (KDK_Advance c n t timestep p))).
Definition DKD_loop (c : lconf) (A : vec -> vec) (U : vec -> R) (n : Z) (t timestep : R)
    (nstep' : Z) (dtn : R) (p : lpart) : lpart :=
  DKD_End c n t (mark_end n nstep' dtn (kick A U (DKD_Advance c n t timestep p))).
(** [m] passes with constant timestep, starting from integer time [n0] and time [t0]. *)
Fixpoint KDK_run (c : lconf) (A : vec -> vec) (U : vec -> R) (n0 : Z) (t0 timestep : R)
    (nstep' : Z) (dtn : R) (m : nat) (p : lpart) : lpart :=
  match m with
  | O => p
  | S m' => KDK_loop c A U (n0 + Z.of_nat m) (t0 + INR m * timestep) timestep nstep' dtn
              (KDK_run c A U n0 t0 timestep nstep' dtn m' p)
  end.
Fixpoint DKD_run (c : lconf) (A : vec -> vec) (U : vec -> R) (n0 : Z) (t0 timestep : R)
    (nstep' : Z) (dtn : R) (m : nat) (p : lpart) : lpart :=
  match m with
  | O => p
  | S m' => DKD_loop c A U (n0 + Z.of_nat m) (t0 + INR m * timestep) timestep nstep' dtn
              (DKD_run c A U n0 t0 timestep nstep' dtn m' p)
  end.
