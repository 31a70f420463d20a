(** Grad-h SPH forces: src/GradhSph/GradhSph.cpp:361-690 and the loops around them in
    src/GradhSph/GradhSphTree.cpp:290-620.  FLOAT values are reals; the assertions are left
    out.  The kernel functions, the equation of state and the constants of the method are
    parameters. *)
From Verif Require Import Prelude Vec M_Box.
From Coq Require Import Reals.
Local Open Scope R_scope.

(** Headers/Sph.h:50-52. *)
Inductive aviscenum := noav | mon97 | mon97mm97 | mon97cd2010.
Inductive acondenum := noac | wadsley2008 | price2008.
Inductive tdaviscenum := notdav | mm97 | cd2010.
(** Headers/Constants.h:73. *)
Definition small_number : R := / 10 ^ 20.

(** The fields of a GradhSphParticle (or its HydroNeib copy) read by the force loops. *)
Record fpart := { f_m : R; f_r : vec; f_v : vec; f_h : R; f_rho : R; f_pressure : R; f_invomega : R;
                  f_hfactor : R; f_sound : R; f_alpha : R; f_u : R; f_zeta : R; f_hr2 : R; f_level : Z }.
(** The fields of particle i that are accumulated. *)
Record facc := { a_a : vec; a_atree : vec; a_gpot : R; a_dudt : R; a_divv : R; a_dalphadt : R; a_lneib : Z }.

Section Force.
Variables (ndim : nat) (w1 wgrav wpot : R -> R).
Variables (avisc : aviscenum) (acond : acondenum) (tdavisc : tdaviscenum).
Variables (alpha_visc beta_visc alpha_visc_min : R).
Variable Pressure : fpart -> R.          (* eos->Pressure *)

(** GradhSph.cpp:408-440 and, with the same text, 522-554: the dissipation terms of the pair;
    takes and returns (paux, dudt). *)
Definition dissipation (p q : fpart) (dvdr wkerni wkernj paux dudt : R) : R * R :=
  let invrho_i := 1 / f_rho p in
  let invrho_j := 1 / f_rho q in
  if rltb dvdr 0 then
    let winvrho := (1/4) * (wkerni + wkernj) * (invrho_i + invrho_j) in
    let '(paux, dudt) :=
      match avisc with
      | noav => (paux, dudt)
      | mon97 =>
          let vsignal := f_sound p + f_sound q - beta_visc * alpha_visc * dvdr in
          (paux - alpha_visc * vsignal * dvdr * winvrho,
           dudt - (1/2) * f_m q * alpha_visc * vsignal * dvdr * dvdr * winvrho)
      | mon97mm97 | mon97cd2010 =>
          let alpha_mean := (1/2) * (f_alpha p + f_alpha q) in
          let vsignal := f_sound p + f_sound q - beta_visc * alpha_mean * dvdr in
          (paux - alpha_mean * vsignal * dvdr * winvrho,
           dudt - (1/2) * f_m q * alpha_mean * vsignal * dvdr * dvdr * winvrho)
      end in
    match acond with
    | noac => (paux, dudt)
    | wadsley2008 =>
        (paux, dudt + f_m q * dvdr * (f_u q - f_u p) * (invrho_i * wkerni + invrho_j * wkernj))
    | price2008 =>
        (paux, dudt + (1/2) * f_m q * (f_u p - f_u q) * winvrho * (invrho_i + invrho_j) *
                      sqrt (Rabs (f_pressure p - f_pressure q)))
    end
  else (paux, dudt).

(** GradhSph.cpp:403-404, 518-519. *)
Definition ppair (p q : fpart) (wkerni wkernj : R) : R :=
  ((f_pressure p * f_invomega p) / (f_rho p * f_rho p)) * wkerni +
  ((f_pressure q * f_invomega q) / (f_rho q * f_rho q)) * wkernj.

(** GradhSph.cpp:384-448: one neighbour. *)
Definition hydro_neib (p : fpart) (x : facc) (q : fpart) : facc :=
  let invh_i := 1 / f_h p in
  let invh_j := 1 / f_h q in
  let dr := vsub (f_r q) (f_r p) in
  let drmag := sqrt (dot ndim dr dr) in
  let dr := if rltb 0 drmag then (fun k => dr k / drmag) else dr in
  let wkerni := f_hfactor p * w1 (drmag * invh_i) in
  let wkernj := f_hfactor q * w1 (drmag * invh_j) in
  let dvdr := dot ndim (f_v q) dr - dot ndim (f_v p) dr in
  let divv := a_divv x - f_m q * dvdr * wkerni in
  let '(paux, dudt) := dissipation p q dvdr wkerni wkernj (ppair p q wkerni wkernj) (a_dudt x) in
  {| a_a := fun k => a_a x k + f_m q * dr k * paux; a_atree := a_atree x; a_gpot := a_gpot x; a_dudt := dudt;
     a_divv := divv; a_dalphadt := a_dalphadt x; a_lneib := Z.max (a_lneib x) (f_level q) |}.
(** GradhSph.cpp:361-460 ComputeSphHydroForces.  levelneib of the neighbours (line 446) is left
    out. *)
Definition ComputeSphHydroForces (p : fpart) (x : facc) (neib : list fpart) : facc :=
  let invrho_i := 1 / f_rho p in
  let x := fold_left (hydro_neib p) neib x in
  let divv := a_divv x * invrho_i in
  {| a_a := a_a x; a_atree := a_atree x; a_gpot := a_gpot x;
     a_dudt := a_dudt x - Pressure p * divv * invrho_i * f_invomega p;
     a_divv := divv;
     a_dalphadt := match tdavisc with
       | mm97 => (1/10) * f_sound p * (alpha_visc_min - f_alpha p) * (1 / f_h p) +
                 Rmax (- divv) 0 * (alpha_visc - f_alpha p)
       | _ => a_dalphadt x end;
     a_lneib := a_lneib x |}.

(** GradhSph.cpp:500-570: one neighbour. *)
Definition hydrograv_neib (p : fpart) (x : facc) (q : fpart) : facc :=
  let invh_i := 1 / f_h p in
  let invhsqdi := invh_i * invh_i in
  let dr := vsub (f_r q) (f_r p) in
  let dv := vsub (f_v q) (f_v p) in
  let drmag := sqrt (dot ndim dr dr + small_number) in
  let invdrmag := 1 / drmag in
  let dr := fun k => dr k * invdrmag in
  let dvdr := dot ndim dv dr in
  let invh_j := 1 / f_h q in
  let wkerni := f_hfactor p * w1 (drmag * invh_i) in
  let wkernj := f_hfactor q * w1 (drmag * invh_j) in
  let '(paux, dudt) := dissipation p q dvdr wkerni wkernj (ppair p q wkerni wkernj) (a_dudt x) in
  let gaux := (1/2) * (invhsqdi * wgrav (drmag * invh_i) + f_zeta p * wkerni +
                       invh_j * invh_j * wgrav (drmag * invh_j) + f_zeta q * wkernj) in
  {| a_a := fun k => a_a x k + f_m q * dr k * paux;
     a_atree := fun k => a_atree x k + f_m q * dr k * gaux;
     a_gpot := a_gpot x + (1/2) * f_m q * (invh_i * wpot (drmag * invh_i) + invh_j * wpot (drmag * invh_j));
     a_dudt := dudt;
     a_divv := a_divv x - f_m q * dvdr * wkerni; a_dalphadt := a_dalphadt x; a_lneib := Z.max (a_lneib x) (f_level q) |}.
(** GradhSph.cpp:474-585 ComputeSphHydroGravForces. *)
Definition ComputeSphHydroGravForces (p : fpart) (x : facc) (neib : list fpart) : facc :=
  let invrho_i := 1 / f_rho p in
  let x := fold_left (hydrograv_neib p) neib x in
  let divv := a_divv x * invrho_i in
  {| a_a := a_a x; a_atree := a_atree x; a_gpot := a_gpot x;
     a_dudt := a_dudt x - Pressure p * divv * invrho_i * f_invomega p;
     a_divv := divv;
     a_dalphadt := match tdavisc with
       | mm97 => (1/10) * f_sound p * (alpha_visc_min - f_alpha p) * (1 / f_h p) +
                 Rmax divv 0 * (alpha_visc - f_alpha p)
       | _ => a_dalphadt x end;
     a_lneib := a_lneib x |}.

(** GradhSph.cpp:598-647 ComputeSphGravForces.  Line 641 takes the level of sphdata[j], where j
    counts the neighbours: [lev j]. *)
Definition grav_neib (lev : nat -> Z) (p : fpart) (x : facc * nat) (q : fpart) : facc * nat :=
  let '(x, j) := x in
  let invh_i := 1 / f_h p in
  let dr := vsub (f_r q) (f_r p) in
  let drmag := sqrt (dot ndim dr dr + small_number) in
  let invdrmag := 1 / drmag in
  let dr := fun k => dr k * invdrmag in
  let invh_j := 1 / f_h q in
  let paux := (1/2) * (invh_i * invh_i * wgrav (drmag * invh_i) + f_zeta p * f_hfactor p * w1 (drmag * invh_i) +
                       invh_j * invh_j * wgrav (drmag * invh_j) + f_zeta q * f_hfactor q * w1 (drmag * invh_j)) in
  let gaux := (1/2) * (invh_i * wpot (drmag * invh_i) + invh_j * wpot (drmag * invh_j)) in
  ({| a_a := a_a x; a_atree := fun k => a_atree x k + f_m q * dr k * paux; a_gpot := a_gpot x + f_m q * gaux;
      a_dudt := a_dudt x; a_divv := a_divv x; a_dalphadt := a_dalphadt x;
      a_lneib := Z.max (a_lneib x) (lev j) |}, S j).
Definition ComputeSphGravForces (lev : nat -> Z) (p : fpart) (x : facc) (neib : list fpart) : facc :=
  fst (fold_left (grav_neib lev p) neib (x, O)).

(** GradhSph.cpp:657-690 ComputeDirectGravForces. *)
Definition direct_neib (p : fpart) (x : facc) (q : fpart) : facc :=
  let dr := vsub (f_r q) (f_r p) in
  let drsqd := dot ndim dr dr + small_number in
  let invdrmag := 1 / sqrt drsqd in
  let invdr3 := invdrmag * invdrmag * invdrmag in
  {| a_a := a_a x; a_atree := fun k => a_atree x k + f_m q * dr k * invdr3; a_gpot := a_gpot x + f_m q * invdrmag;
     a_dudt := a_dudt x; a_divv := a_divv x; a_dalphadt := a_dalphadt x; a_lneib := a_lneib x |}.
Definition ComputeDirectGravForces (p : fpart) (x : facc) (neib : list fpart) : facc :=
  fold_left (direct_neib p) neib x.

(** Hydrodynamics/Sph.cpp:126-140 ZeroAccelerations of an active particle. *)
Definition ZeroAccelerations (x : facc) : facc :=
  {| a_a := fun _ => 0; a_atree := fun _ => 0; a_gpot := 0; a_dudt := 0; a_divv := 0;
     a_dalphadt := a_dalphadt x; a_lneib := 0 |}.

(** GradhSphTree.cpp:331-405: UpdateAllSphHydroForces for one active particle whose stored sums
    are [x]; without stars; hydro_forces set for its type.  Its levelneib goes through the thread's
    array (lines 404, 413-417). *)
Definition UpdateHydro (p : fpart) (x : facc) (neib : list fpart) : facc :=
  let y := {| a_a := fun _ => 0; a_atree := a_atree x; a_gpot := 0; a_dudt := 0; a_divv := 0; a_dalphadt := 0; a_lneib := 0 |} in
  let y := ComputeSphHydroForces p y neib in
  {| a_a := fun k => a_a x k + a_a y k + a_atree y k;
     a_atree := fun k => a_atree x k + a_atree y k;
     a_gpot := a_gpot x + a_gpot y; a_dudt := a_dudt x + a_dudt y; a_divv := a_divv x + a_divv y;
     a_dalphadt := a_dalphadt x + a_dalphadt y; a_lneib := Z.max (a_lneib x) (a_lneib y) |}.

(** GradhSphTree.cpp:503-620: UpdateAllSphForces for one active particle with the three lists of
    GetParticleNeibGravity; without distant cells, stars and the periodic correction;
    self_gravity set for its type. *)
Definition UpdateAll (lev : nat -> Z) (p : fpart) (x : facc) (neib smooth direct : list fpart) : facc :=
  let y := {| a_a := fun _ => 0; a_atree := fun _ => 0; a_gpot := (f_m p / f_h p) * wpot 0; a_dudt := 0; a_divv := 0;
              a_dalphadt := a_dalphadt x; a_lneib := 0 |} in
  let y := match neib with [] => y | _ => ComputeSphHydroGravForces p y neib end in
  let y := ComputeSphGravForces lev p y smooth in
  let y := ComputeDirectGravForces p y direct in
  {| a_a := fun k => a_a x k + a_a y k + a_atree y k;
     a_atree := fun k => a_atree x k + a_atree y k;
     a_gpot := a_gpot x + a_gpot y; a_dudt := a_dudt x + a_dudt y; a_divv := a_divv x + a_divv y;
     a_dalphadt := a_dalphadt x; a_lneib := Z.max (a_lneib x) (a_lneib y) |}.
End Force.

(** The neighbour list of [p]: NeighbourManager.h:519-531 without images and types. *)
Definition interacts (ndim : nat) (p q : fpart) : bool :=
  let dr := vsub (f_r q) (f_r p) in
  negb (rleb (f_hr2 p) (dot ndim dr dr) && rleb (f_hr2 q) (dot ndim dr dr)).
