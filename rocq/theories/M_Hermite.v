(** Stars: direct-summation forces and the Hermite and leapfrog integrators,
    Nbody.cpp:232-290, NbodyHermite4.cpp, NbodyHermite4TS.cpp, NbodyHermite6TS.cpp,
    NbodyLeapfrogKDK.cpp, the loop of NbodySimulation.cpp:312-402 without sub-systems and
    Simulation.cpp:1669-1750 (one time step for all).
    FLOAT and DOUBLE are R; powf (which computes in single precision) is the power of R.
    A loop over k < ndim acts on every component.  A loop over i < N whose body writes only
    star i and reads of the other stars only fields that no body writes is the map of its
    body, which is also what the OpenMP loops compute.
    Not modelled: the Ewald correction (simbox.PeriodicGravity is false), external potentials,
    sub-systems and perturbers. *)
From Verif Require Import Prelude Vec M_Box M_Periodic.
From Coq Require Import Reals ZArith.
Local Open Scope R_scope.

(** Fields of NbodyParticle (NbodyParticle.h:50-180) that are used here. *)
Record star := mkStar {
  s_m : R; s_h : R;
  s_r : vec; s_v : vec; s_a : vec; s_adot : vec; s_a2dot : vec; s_a3dot : vec; s_gpot : R;
  s_r0 : vec; s_v0 : vec; s_a0 : vec; s_adot0 : vec; s_a2dot0 : vec;
  s_active : bool; s_end : bool; s_nlast : Z; s_nstep : Z;
  s_tlast : R; s_dt : R; s_dtnext : R; s_dtint : R
}.
(** The array of stars; entries at and beyond N are not touched. *)
Definition stars := nat -> star.
Definition upd (N : nat) (f : nat -> star -> star) (S : stars) : stars :=
  fun i => if (i <? N)%nat then f i (S i) else S i.

(** Assignments to groups of fields. *)
Definition set_force (p : star) (gpot : R) (a adot : vec) : star :=
  mkStar (s_m p) (s_h p) (s_r p) (s_v p) a adot (s_a2dot p) (s_a3dot p) gpot
    (s_r0 p) (s_v0 p) (s_a0 p) (s_adot0 p) (s_a2dot0 p)
    (s_active p) (s_end p) (s_nlast p) (s_nstep p) (s_tlast p) (s_dt p) (s_dtnext p) (s_dtint p).
Definition set_a23 (p : star) (a2 a3 : vec) : star :=
  mkStar (s_m p) (s_h p) (s_r p) (s_v p) (s_a p) (s_adot p) a2 a3 (s_gpot p)
    (s_r0 p) (s_v0 p) (s_a0 p) (s_adot0 p) (s_a2dot0 p)
    (s_active p) (s_end p) (s_nlast p) (s_nstep p) (s_tlast p) (s_dt p) (s_dtnext p) (s_dtint p).
Definition set_rv (p : star) (r v : vec) : star :=
  mkStar (s_m p) (s_h p) r v (s_a p) (s_adot p) (s_a2dot p) (s_a3dot p) (s_gpot p)
    (s_r0 p) (s_v0 p) (s_a0 p) (s_adot0 p) (s_a2dot0 p)
    (s_active p) (s_end p) (s_nlast p) (s_nstep p) (s_tlast p) (s_dt p) (s_dtnext p) (s_dtint p).
Definition set_active (p : star) (b : bool) : star :=
  mkStar (s_m p) (s_h p) (s_r p) (s_v p) (s_a p) (s_adot p) (s_a2dot p) (s_a3dot p) (s_gpot p)
    (s_r0 p) (s_v0 p) (s_a0 p) (s_adot0 p) (s_a2dot0 p)
    b (s_end p) (s_nlast p) (s_nstep p) (s_tlast p) (s_dt p) (s_dtnext p) (s_dtint p).
Definition set_step (p : star) (e : bool) (nstep : Z) (dtnext : R) : star :=
  mkStar (s_m p) (s_h p) (s_r p) (s_v p) (s_a p) (s_adot p) (s_a2dot p) (s_a3dot p) (s_gpot p)
    (s_r0 p) (s_v0 p) (s_a0 p) (s_adot0 p) (s_a2dot0 p)
    (s_active p) e (s_nlast p) nstep (s_tlast p) (s_dt p) dtnext (s_dtint p).

(** Constants.h:89-90. *)
Definition small_number_dp : R := / 10 ^ 50.
Definition big_number_dp : R := 99 * 10 ^ 49.

(** What the softened loops use of a kernel: w0, wgrav, wpot. *)
Record skern := mkSK { k_w0 : R -> R; k_wgrav : R -> R; k_wpot : R -> R }.

Section forces.
Variable ndim : nat.
Variable b : dombox.

(** dr[k], dv[k] and NearestPeriodicVector (e.g. Nbody.cpp:262-264); the old content of
    dr_corr is irrelevant and taken to be zero. *)
Definition pair_dr (pi pj : star) : vec :=
  fst (NearestPeriodicVector ndim b (vsub (s_r pj) (s_r pi)) (fun _ => 0)).
Definition pair_dv (pi pj : star) : vec := vsub (s_v pj) (s_v pi).

(** Nbody.cpp:262-271, and NbodyHermite6TS.cpp:112-122 where drsqd has small_number_dp
    added ([e]): what star j does to star i. *)
Definition grav_pair (e : R) (pj pi : star) : star :=
  let dr := pair_dr pi pj in
  let dv := pair_dv pi pj in
  let drsqd := dot ndim dr dr + e in
  let invdrmag := 1 / sqrt drsqd in
  let drdt := dot ndim dv dr * invdrmag in
  set_force pi (s_gpot pi + s_m pj * invdrmag)
    (fun k => s_a pi k + s_m pj * dr k * invdrmag ^ 3)
    (fun k => s_adot pi k + s_m pj * invdrmag ^ 3 * (dv k - 3 * drdt * invdrmag * dr k)).

(** NbodyHermite4.cpp:110-126, NbodyHermite6TS.cpp:220-235 ([e] = 0), and
    NbodyLeapfrogKDK.cpp:111-127 ([e] = small_number is added to drmag). *)
Definition smooth_pair (K : skern) (e : R) (pj pi : star) : star :=
  let dr := pair_dr pi pj in
  let dv := pair_dv pi pj in
  let drsqd := dot ndim dr dr in
  let drmag := sqrt drsqd + e in
  let invdrmag := 1 / drmag in
  let invhmean := 2 / (s_h pi + s_h pj) in
  let drdt := dot ndim dv dr * invdrmag in
  let paux := s_m pj * invhmean * invhmean * k_wgrav K (drmag * invhmean) * invdrmag in
  let wmean := k_w0 K (drmag * invhmean) * invhmean ^ ndim in
  set_force pi (s_gpot pi + s_m pj * invhmean * k_wpot K (drmag * invhmean))
    (fun k => s_a pi k + paux * dr k)
    (fun k => s_adot pi k + (paux * dv k - 3 * paux * drdt * invdrmag * dr k +
                             2 * (2 * PI) * s_m pj * drdt * wmean * invdrmag * dr k)).

(** for (j=0; j<N; j++) { if (i == j) continue; ... } for an active star i. *)
Definition pair_loop (pair : star -> star -> star) (N : nat) (S : stars) (i : nat) (pi : star) : star :=
  if s_active pi then
    loopk N (fun j p => if Nat.eqb i j then p else pair (S j) p) pi
  else pi.

(** Nbody.cpp:254-284. *)
Definition DirectGrav (N : nat) (S : stars) : stars := upd N (pair_loop (grav_pair 0) N S) S.
(** NbodyHermite4.cpp:102-139, NbodyHermite6TS.cpp:212-248; NbodyLeapfrogKDK.cpp:103-139. *)
Definition DirectSmoothed (K : skern) (e : R) (N : nat) (S : stars) : stars :=
  upd N (pair_loop (smooth_pair K e) N S) S.

(** NbodyHermite6TS.cpp:151-168: the second derivative from star j *replaces* that of star i;
    the separation is not corrected for periodic images. *)
Definition a2_pair (pj pi : star) : star :=
  let dr := vsub (s_r pj) (s_r pi) in
  let dv := pair_dv pi pj in
  let da := vsub (s_a pj) (s_a pi) in
  let drsqd := dot ndim dr dr + small_number_dp in
  let dvsqd := dot ndim dv dv in
  let invdrsqd := 1 / drsqd in
  let invdrmag := sqrt invdrsqd in
  let drdt := dot ndim dv dr * invdrmag in
  let a := fun k => s_m pj * dr k * invdrmag ^ 3 in
  let adot := fun k => s_m pj * invdrmag ^ 3 * (dv k - 3 * drdt * invdrmag * dr k) in
  let afac := dot ndim dv dr * invdrsqd in
  let bfac := dvsqd * invdrsqd + afac * afac + dot ndim da dr * invdrsqd in
  set_a23 pi
    (fun k => s_m pj * da k * invdrsqd * invdrmag - 6 * afac * adot k - 3 * bfac * a k)
    (s_a3dot pi).
(** NbodyHermite6TS.cpp:104-174. *)
Definition Direct6 (N : nat) (S : stars) : stars :=
  let S1 := upd N (pair_loop (grav_pair small_number_dp) N S) S in
  upd N (fun i pi => if s_active pi then
                       pair_loop a2_pair N S1 i (set_a23 pi (fun _ => 0) (s_a3dot pi))
                     else pi) S1.

(** NbodyHermite4.cpp:293-317, NbodyHermite6TS.cpp:402-426: contribution of star j. *)
Definition startup_pair (pj pi : star) : star :=
  let dr := pair_dr pi pj in
  let dv := pair_dv pi pj in
  let da := vsub (s_a pj) (s_a pi) in
  let dadot := vsub (s_adot pj) (s_adot pi) in
  let drsqd := dot ndim dr dr + small_number_dp in
  let dvsqd := dot ndim dv dv in
  let invdrsqd := 1 / drsqd in
  let invdrmag := sqrt invdrsqd in
  let drdt := dot ndim dv dr * invdrmag in
  let a := fun k => s_m pj * dr k * invdrmag ^ 3 in
  let adot := fun k => s_m pj * invdrmag ^ 3 * (dv k - 3 * drdt * invdrmag * dr k) in
  let afac := dot ndim dv dr * invdrsqd in
  let bfac := dvsqd * invdrsqd + afac * afac + dot ndim da dr * invdrsqd in
  let cfac := 3 * dot ndim dv da * invdrsqd + dot ndim dr dadot * invdrsqd +
              afac * (3 * bfac - 4 * afac * afac) in
  let a2dot := fun k => s_m pj * da k * invdrsqd * invdrmag - 6 * afac * adot k - 3 * bfac * a k in
  set_a23 pi
    (fun k => s_a2dot pi k + a2dot k)
    (fun k => s_a3dot pi k + (s_m pj * dadot k * invdrsqd * invdrmag - 9 * afac * a2dot k -
                              9 * bfac * adot k - 3 * cfac * a k)).
(** NbodyHermite4.cpp:283-323: all stars, active or not. *)
Definition Startup (N : nat) (S : stars) : stars :=
  upd N (fun i pi =>
    loopk N (fun j p => if Nat.eqb i j then p else startup_pair (S j) p)
      (set_a23 pi (fun _ => 0) (fun _ => 0))) S.
End forces.

(** The four selectable integrators (Simulation.cpp:732-910): "lfkdk", "hermite4",
    "hermite4ts", "hermite6ts". *)
Inductive scheme := LeapKDK | Hermite4 | Hermite4TS | Hermite6TS.

(** NbodyHermite4.cpp:357-375 (also used by NbodyHermite4TS), NbodyHermite6TS.cpp:468-488,
    NbodyLeapfrogKDK.cpp:271-288. *)
Definition advance_rv (c : scheme) (dt : R) (p : star) : star :=
  match c with
  | LeapKDK => set_rv p
      (fun k => s_r0 p k + s_v0 p k * dt + (1/2) * s_a0 p k * dt * dt)
      (fun k => s_v0 p k + s_a0 p k * dt)
  | Hermite6TS => set_rv p
      (fun k => s_r0 p k + s_v0 p k * dt + (1/2) * s_a0 p k * (dt * dt) +
                (1/6) * s_adot0 p k * (dt * dt) * dt +
                (1/2) * (1/12) * s_a2dot0 p k * (dt * dt) * (dt * dt))
      (fun k => s_v0 p k + s_a0 p k * dt + (1/2) * s_adot0 p k * (dt * dt) +
                (1/6) * s_a2dot0 p k * (dt * dt) * dt)
  | _ => set_rv p
      (fun k => s_r0 p k + s_v0 p k * dt + (1/2) * s_a0 p k * dt * dt +
                (1/6) * s_adot0 p k * dt * dt * dt)
      (fun k => s_v0 p k + s_a0 p k * dt + (1/2) * s_adot0 p k * dt * dt)
  end.
Definition Advance (c : scheme) (n : Z) (N : nat) (t : R) (S : stars) : stars :=
  upd N (fun _ p =>
    let dn := (n - s_nlast p)%Z in
    set_active (advance_rv c (t - s_tlast p) p) (dn =? s_nstep p)%Z) S.

(** NbodyHermite4.cpp:407-437, NbodyHermite4TS.cpp:95-119, NbodyHermite6TS.cpp:521-547,
    NbodyLeapfrogKDK.cpp:322-329: the body for a star at the end of its step, dt = t - tlast. *)
Definition correct_rv (c : scheme) (dt : R) (p : star) : star :=
  let a := s_a p in let a0 := s_a0 p in let adot := s_adot p in let adot0 := s_adot0 p in
  let invdt := 1 / dt in
  let dt3 := dt ^ 3 in
  let h2 := fun k => (- 6 * (a0 k - a k) - dt * (4 * adot0 k + 2 * adot k)) * invdt * invdt in
  let h3 := fun k => (12 * (a0 k - a k) + 6 * dt * (adot0 k + adot k)) * invdt * invdt * invdt in
  match c with
  | LeapKDK => set_rv p (s_r p) (fun k => s_v p k + (1/2) * (a k - a0 k) * dt)
  | Hermite4 =>
      let p := set_a23 p h2 h3 in
      set_rv p
        (fun k => s_r p k + (s_a2dot p k * dt3 * dt / 24 + s_a3dot p k * dt3 * dt * dt / 120))
        (fun k => s_v p k + (s_a2dot p k * dt3 / 6 + s_a3dot p k * dt3 * dt / 24))
  | Hermite4TS =>
      let p := set_a23 p h2 h3 in
      let v := fun k => s_v0 p k + (1/2) * (a0 k + a k) * dt - (1/12) * (adot k - adot0 k) * dt * dt in
      set_rv p
        (fun k => s_r0 p k + (1/2) * (s_v0 p k + v k) * dt - (1/12) * (a k - a0 k) * dt * dt) v
  | Hermite6TS =>
      let p := set_a23 p (s_a2dot p) h3 in
      let v := fun k => s_v0 p k + (1/2) * (a0 k + a k) * dt - (1/10) * (adot k - adot0 k) * dt * dt +
                        (1/120) * (s_a2dot p k + s_a2dot0 p k) * dt3 in
      set_rv p
        (fun k => s_r0 p k + (1/2) * (s_v0 p k + v k) * dt - (1/10) * (a k - a0 k) * dt * dt +
                  (1/120) * (adot k + adot0 k) * dt3) v
  end.
Definition Correction (c : scheme) (n : Z) (N : nat) (t : R) (S : stars) : stars :=
  upd N (fun _ p =>
    let dn := (n - s_nlast p)%Z in
    if (dn =? s_nstep p)%Z then correct_rv c (t - s_tlast p) p else p) S.

(** NbodyHermite4.cpp:512-526, NbodyHermite6TS.cpp:595-609, NbodyLeapfrogKDK.cpp:360-373;
    only NbodyHermite6TS stores a2dot0. *)
Definition end_star (c : scheme) (n : Z) (t : R) (p : star) : star :=
  if s_end p then
    mkStar (s_m p) (s_h p) (s_r p) (s_v p) (s_a p) (s_adot p) (s_a2dot p) (s_a3dot p) (s_gpot p)
      (s_r p) (s_v p) (s_a p) (s_adot p) (match c with Hermite6TS => s_a2dot p | _ => s_a2dot0 p end)
      false false n (s_nstep p) t (s_dtnext p) 0 (s_dtint p)
  else p.
Definition EndTimestep (c : scheme) (n : Z) (N : nat) (t : R) (S : stars) : stars :=
  upd N (fun _ p => end_star c n t p) S.

(** NbodyHermite4.cpp:551-576, NbodyHermite6TS.cpp:634-659 (the same text) and
    NbodyLeapfrogKDK.cpp:397-399. *)
Definition Timestep (ndim : nat) (c : scheme) (mult : R) (p : star) : R :=
  let asqd := dot ndim (s_a p) (s_a p) in
  let a1sqd := dot ndim (s_adot p) (s_adot p) in
  let a2sqd := dot ndim (s_a2dot p) (s_a2dot p) in
  let a3sqd := dot ndim (s_a3dot p) (s_a3dot p) in
  let timestep :=
    match c with
    | LeapKDK => mult * sqrt (s_h p / (sqrt asqd + small_number_dp))
    | _ =>
      if rltb small_number_dp a1sqd && rltb small_number_dp a2sqd then
        mult * sqrt ((sqrt (asqd * a2sqd) + a1sqd) / (sqrt (a1sqd * a3sqd) + a2sqd))
      else if rltb small_number_dp asqd && rltb small_number_dp a2sqd then
        mult * sqrt (asqd / (a2sqd + small_number_dp))
      else if rltb small_number_dp asqd then
        sqrt (s_h p / (sqrt asqd + small_number_dp))
      else big_number_dp
    end in
  Rmin timestep (s_dtint p).

Section run.
Variable ndim : nat.
Variable b : dombox.
(** nbody_softening == 1 with its kernel, or not. *)
Variable soft : option skern.
Variable c : scheme.
(** The parameter Npec; NbodyHermite4 and NbodyLeapfrogKDK are constructed without it
    (Simulation.cpp:732-838), so that it is 1 for them. *)
Variable npec_par : nat.
Variable mult : R.
Definition Npec : nat := match c with Hermite4 | LeapKDK => 1 | _ => npec_par end.

(** Simulation.cpp: small_number = 1e-20 is added by NbodyLeapfrogKDK only. *)
Definition soft_e : R := match c with LeapKDK => / 10 ^ 20 | _ => 0 end.

(** NbodySimulation.cpp:343-348 with the overridden force routine. *)
Definition Forces (N : nat) (S : stars) : stars :=
  match soft with
  | Some K => DirectSmoothed ndim b K soft_e N S
  | None => match c with Hermite6TS => Direct6 ndim b N S | _ => DirectGrav ndim b N S end
  end.
(** NbodySimulation.cpp:332-340. *)
Definition zero_star (p : star) : star :=
  if s_active p then set_force (set_a23 p (fun _ => 0) (fun _ => 0)) 0 (fun _ => 0) (fun _ => 0) else p.
Definition Zero (N : nat) (S : stars) : stars := upd N (fun _ p => zero_star p) S.

(** Simulation.cpp:1681-1745 for the stars of a simulation without gas and with
    integration_step = 1: nstep = 2^0, the flag is set, every star asks for a step and all
    get the smallest; [n == nresync] is the case after every step.  Result: stars, timestep. *)
Definition min_step (N : nat) (S : stars) : R :=
  loopk N (fun i dt => Rmin dt (Timestep ndim c mult (S i))) big_number_dp.
Definition GlobalTimestep (N : nat) (S : stars) : stars * R :=
  let dt := min_step N S in
  (upd N (fun _ p => set_step p true 1 dt) S, dt).

(** NbodySimulation.cpp:329-362: Npec times forces and correction. *)
Definition pec (n : Z) (N : nat) (t : R) (S : stars) : stars :=
  Correction c n N t (Forces N (Zero N S)).
(** NbodySimulation.cpp:312-402.  State: stars, integer time, time, timestep.
    ComputeGlobalTimestep sets the integer time to zero before EndTimestep is called with it. *)
Record sim := mkSim { m_S : stars; m_n : Z; m_t : R; m_dt : R }.
Definition MainLoop (N : nat) (s : sim) : sim :=
  let n := (m_n s + 1)%Z in
  let t := m_t s + m_dt s in
  let S := Advance c n N t (m_S s) in
  let S := Nat.iter Npec (pec n N t) S in
  let (S, dt) := GlobalTimestep N S in
  mkSim (EndTimestep c 0 N t S) 0 t dt.

(** NbodySimulation.cpp:197-241: the first forces, derivatives and step;
    CalculateAllStartupQuantities of NbodyLeapfrogKDK is empty (Nbody.h:186). *)
Definition init_star (t : R) (p : star) : star :=
  mkStar (s_m p) (s_h p) (s_r p) (s_v p) (fun _ => 0) (fun _ => 0) (fun _ => 0) (fun _ => 0) 0
    (s_r0 p) (s_v0 p) (s_a0 p) (s_adot0 p) (s_a2dot0 p)
    true (s_end p) 0 0 t (s_dt p) (s_dtnext p) (s_dtint p).
Definition Setup (N : nat) (t : R) (S : stars) : sim :=
  let S := upd N (fun _ p => init_star t p) S in
  let S := Forces N S in
  let S := match c with LeapKDK => S | _ => Startup ndim b N S end in
  let (S, dt) := GlobalTimestep N S in
  mkSim (EndTimestep c 0 N t S) 0 t dt.
Definition Run (N : nat) (t : R) (steps : nat) (S : stars) : sim := Nat.iter steps (MainLoop N) (Setup N t S).
End run.
