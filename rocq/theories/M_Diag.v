(** Diagnostics (src/Common/SimAnalysis.hpp:52-180, Diagnostics.h), their collection from all MPI processes
    (src/Mpi/MpiControl.cpp:1233-1277), the change to the frame of the centre of mass
    (src/Common/Simulation.cpp:1621-1645) and the external potentials (src/Headers/ExternalPotential.h).
    FLOAT and DOUBLE are R.  A loop over k < ndim acts on every component.  Binary statistics and output to
    screen and file are left out. *)
From Verif Require Import Prelude Vec M_Box M_Hermite.
From Coq Require Import Reals.
Local Open Scope R_scope.

(** What is used of a gas particle (Particle.h) or star (NbodyParticle.h; u and the dead flag are not used). *)
Record part := mkpart { p_m : R; p_u : R; p_gpot : R; p_r : vec; p_v : vec; p_a : vec; p_dead : bool }.
(** Diagnostics.h:42-57 without Eerror. *)
Record diag := mkdiag { d_Nhydro : nat; d_Nstar : nat; d_Ndead : nat; d_mtot : R; d_Etot : R; d_utot : R; d_ketot : R; d_gpetot : R;
  d_rcom : vec; d_vcom : vec; d_mom : vec; d_force : vec; d_angmom : vec }.

Section Diag.
Variable ndim : nat.
(** SimAnalysis.hpp:59-74. *)
Definition diag0 (Nhydro Nstar : nat) : diag :=
  mkdiag Nhydro Nstar 0 0 0 0 0 0 (fun _ => 0) (fun _ => 0) (fun _ => 0) (fun _ => 0) (fun _ => 0).
(** Lines 77-94, one particle. *)
Definition add_gas (d : diag) (p : part) : diag :=
  if p_dead p then mkdiag (d_Nhydro d) (d_Nstar d) (S (d_Ndead d)) (d_mtot d) (d_Etot d) (d_utot d) (d_ketot d) (d_gpetot d)
                     (d_rcom d) (d_vcom d) (d_mom d) (d_force d) (d_angmom d)
  else mkdiag (d_Nhydro d) (d_Nstar d) (d_Ndead d) (d_mtot d + p_m p) (d_Etot d) (d_utot d + p_m p * p_u p)
         (d_ketot d + p_m p * dot ndim (p_v p) (p_v p)) (d_gpetot d - p_m p * p_gpot p)
         (fun k => d_rcom d k + p_m p * p_r p k) (fun k => d_vcom d k + p_m p * p_v p k)
         (fun k => d_mom d k + p_m p * p_v p k) (fun k => d_force d k + p_m p * p_a p k) (d_angmom d).
(** Lines 97-112 and 132-144: what a body adds to component k of angmom, for ndim = 2 and ndim = 3. *)
Definition add_ang (ang : vec) (p : part) : vec :=
  let r := p_r p in let v := p_v p in
  match ndim with
  | 2%nat => fun k => match k with 2%nat => ang 2%nat + p_m p * (r 0%nat * v 1%nat - r 1%nat * v 0%nat) | _ => ang k end
  | 3%nat => fun k => match k with
      | 0%nat => ang 0%nat + p_m p * (r 1%nat * v 2%nat - r 2%nat * v 1%nat)
      | 1%nat => ang 1%nat + p_m p * (r 2%nat * v 0%nat - r 0%nat * v 2%nat)
      | 2%nat => ang 2%nat + p_m p * (r 0%nat * v 1%nat - r 1%nat * v 0%nat)
      | _ => ang k end
  | _ => ang
  end.
Definition add_gas_ang (d : diag) (p : part) : diag :=
  if p_dead p then d
  else mkdiag (d_Nhydro d) (d_Nstar d) (d_Ndead d) (d_mtot d) (d_Etot d) (d_utot d) (d_ketot d) (d_gpetot d)
         (d_rcom d) (d_vcom d) (d_mom d) (d_force d) (add_ang (d_angmom d) p).
(** Lines 119-145, one star; with MPI only stars in the domain of the process are counted (they are the list given). *)
Definition add_star (d : diag) (p : part) : diag :=
  mkdiag (d_Nhydro d) (d_Nstar d) (d_Ndead d) (d_mtot d + p_m p) (d_Etot d) (d_utot d)
    (d_ketot d + p_m p * dot ndim (p_v p) (p_v p)) (d_gpetot d - p_m p * p_gpot p)
    (fun k => d_rcom d k + p_m p * p_r p k) (fun k => d_vcom d k + p_m p * p_v p k)
    (fun k => d_mom d k + p_m p * p_v p k) (fun k => d_force d k + p_m p * p_a p k) (add_ang (d_angmom d) p).
(** Lines 149-154: [s] is sink[i].angmom. *)
Definition add_sink (d : diag) (s : vec) : diag :=
  mkdiag (d_Nhydro d) (d_Nstar d) (d_Ndead d) (d_mtot d) (d_Etot d) (d_utot d) (d_ketot d) (d_gpetot d)
    (d_rcom d) (d_vcom d) (d_mom d) (d_force d) (fun k => d_angmom d k + s k).
(** Lines 52-165: [gas] are the Nhydro particles, [stars] those counted here, [Nstar] the number of all stars,
    [hf] and [sg] are hydro_forces == 1 and self_gravity == 1. *)
Definition CalculateDiagnostics (hf sg : bool) (Nstar : nat) (gas stars : list part) (sinks : list vec) : diag :=
  let d := fold_left add_gas gas (diag0 (length gas) Nstar) in
  let d := fold_left add_gas_ang gas d in
  let d := fold_left add_star stars d in
  let d := fold_left add_sink sinks d in
  let ke := d_ketot d * (1 / 2) in
  let gp := d_gpetot d * (1 / 2) in
  let com (x : vec) : vec := if rltb 0 (d_mtot d) then fun k => x k / d_mtot d else x in
  let E := ke in
  let E := if hf then E + d_utot d else E in
  let E := if sg || Nat.ltb 0 Nstar then E + gp else E in
  mkdiag (d_Nhydro d) (d_Nstar d) (d_Ndead d) (d_mtot d) E (d_utot d) ke gp (com (d_rcom d)) (com (d_vcom d)) (d_mom d) (d_force d) (d_angmom d).

(** Simulation.cpp:1628-1641: [c] and [w] are rcom and vcom; all particles, dead or not, and all stars. *)
Definition shift (c w : vec) (p : part) : part :=
  mkpart (p_m p) (p_u p) (p_gpot p) (fun k => p_r p k - c k) (fun k => p_v p k - w k) (p_a p) (p_dead p).
Definition SetComFrame (hf sg : bool) (gas stars : list part) (sinks : list vec) : list part * list part * diag :=
  let d := CalculateDiagnostics hf sg (length stars) gas stars sinks in
  let gas := map (shift (d_rcom d) (d_vcom d)) gas in
  let stars := map (shift (d_rcom d) (d_vcom d)) stars in
  (gas, stars, CalculateDiagnostics hf sg (length stars) gas stars sinks).

(** MpiControl.cpp:1248-1261: a message from another process is added. *)
Definition collate_one (d x : diag) : diag :=
  mkdiag (d_Nhydro d + d_Nhydro x) (d_Nstar d) (d_Ndead d) (d_mtot d + d_mtot x) (d_Etot d + d_Etot x) (d_utot d + d_utot x)
    (d_ketot d + d_ketot x) (d_gpetot d + d_gpetot x)
    (fun k => d_rcom d k + d_mtot x * d_rcom x k) (fun k => d_vcom d k + d_mtot x * d_vcom x k)
    (fun k => d_mom d k + d_mom x k) (fun k => d_force d k + d_force x k) (fun k => d_angmom d k + d_angmom x k).
(** MpiControl.cpp:1242-1267 on process 0: [xs] are the messages of processes 1, 2, ... in this order. *)
Definition CollateDiagnosticsData (d : diag) (xs : list diag) : diag :=
  let d := mkdiag (d_Nhydro d) (d_Nstar d) (d_Ndead d) (d_mtot d) (d_Etot d) (d_utot d) (d_ketot d) (d_gpetot d)
    (fun k => d_rcom d k * d_mtot d) (fun k => d_vcom d k * d_mtot d) (d_mom d) (d_force d) (d_angmom d) in
  let d := fold_left collate_one xs d in
  mkdiag (d_Nhydro d) (d_Nstar d) (d_Ndead d) (d_mtot d) (d_Etot d) (d_utot d) (d_ketot d) (d_gpetot d)
    (fun k => d_rcom d k / d_mtot d) (fun k => d_vcom d k / d_mtot d) (d_mom d) (d_force d) (d_angmom d).

(** ExternalPotential.h: NullPotential (60-73), VerticalPotential (84-112), PlummerPotential (123-160);
    SilccPotential (170-201) adds nothing like NullPotential.  pow is Rpower. *)
Inductive extpot := NullPot | VerticalPot (kgrav : nat) (avert rzero : R) | PlummerPot (m rp : R).
(** What is added to a, adot and pot of a particle at r with velocity v. *)
Definition ext_a (x : extpot) (r : vec) : vec := fun k =>
  match x with
  | NullPot => 0
  | VerticalPot kg av _ => if Nat.eqb k kg then av else 0
  | PlummerPot m rp => - (m * r k * Rpower (dot ndim r r + rp * rp) (- (3 / 2)))
  end.
Definition ext_adot (x : extpot) (r v : vec) : vec := fun k =>
  match x with
  | PlummerPot m rp => 3 * m * Rpower (dot ndim r r + rp * rp) (- (5 / 2)) * dot ndim r v * r k -
                       m * Rpower (dot ndim r r + rp * rp) (- (3 / 2)) * v k
  | _ => 0
  end.
Definition ext_pot (x : extpot) (r : vec) : R :=
  match x with
  | NullPot => 0
  | VerticalPot kg av rz => (r kg - rz) * av
  | PlummerPot m rp => 2 * m * Rpower (dot ndim r r + rp * rp) (- (1 / 2))
  end.
(** NbodySimulation.cpp:350-358 (the same lines in the other simulations): an active star. *)
Definition AddExternalPotential (x : extpot) (p : star) : star :=
  if s_active p then
    set_force p (s_gpot p + ext_pot x (s_r p)) (fun k => s_a p k + ext_a x (s_r p) k) (fun k => s_adot p k + ext_adot x (s_r p) (s_v p) k)
  else p.
(** SphSimulation.cpp:713-719 for an active gas particle (the jerk is not kept). *)
Definition AddExternalGas (x : extpot) (p : part) : part :=
  mkpart (p_m p) (p_u p) (p_gpot p + ext_pot x (p_r p)) (p_r p) (p_v p) (fun k => p_a p k + ext_a x (p_r p) k) (p_dead p).
(** A star as the diagnostics see it. *)
Definition part_of (p : star) : part := mkpart (s_m p) 0 (s_gpot p) (s_r p) (s_v p) (s_a p) false.
End Diag.
