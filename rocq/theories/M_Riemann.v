(** The HLLC Riemann solver and the viscous flux at a face, src/Headers/RiemannSolver.h:120-420, 444-515.  FLOAT and double values
    are reals. *)
From Verif Require Import Prelude Vec M_Box M_Mfv.
From Coq Require Import Reals.
Local Open Scope R_scope.

(** RiemannSolver.h:170-209 HLLC_State. *)
Record hstate := mkhstate { s_v : vec; s_rho : R; s_press : R; s_e : R; s_cs : R; s_vline : R }.

Section Hllc.
Variable ndim : nat.
Notation irho := (irho ndim).
Notation iE := (ietot ndim).

(** Lines 194-204 with EOS.h:164-181: the state vector of an equation of state with the given gamma and sound speed; lines 202-224 of
    MfvMuscl.cpp. *)
Definition state_of (gammam1 : R) (sound : R -> R -> R) (W n : vec) : hstate :=
  let rho := W irho in
  let p := W iE in
  let u := p / (rho * gammam1) in
  mkhstate W rho p (rho * u + sumf ndim (fun i => 1 / 2 * rho * W i * W i)) (sound rho u) (dot ndim W n).
(** AdiabaticEOS.cpp:69-72 SoundSpeed. *)
Definition adiabatic_sound (gamma : R) (rho u : R) : R := sqrt (gamma * (gamma - 1) * u).

(** Lines 387-405 Hydro_Flux. *)
Definition Hydro_Flux (s : hstate) (n : vec) : vec :=
  fun i => if Nat.eqb i irho then s_rho s * s_vline s
           else if Nat.eqb i iE then (s_press s + s_e s) * s_vline s
           else s_rho s * s_vline s * s_v s i + s_press s * n i.
(** Lines 275-282, 307-312: the conserved quantities. *)
Definition cons_of (s : hstate) : vec :=
  fun i => if Nat.eqb i irho then s_rho s else if Nat.eqb i iE then s_e s else s_rho s * s_v s i.
(** Lines 284-294. *)
Definition star_of (s : hstate) (n : vec) (vwave vm : R) : vec :=
  let vs := s_vline s in
  let dms := s_rho s * (vs - vwave) in
  let Qr := s_rho s * (vwave - vs) / (vwave - vm) in
  fun i => if Nat.eqb i irho then Qr
           else if Nat.eqb i iE then Qr * (s_e s / s_rho s + (vm - vs) * (vm - s_press s / dms))
           else Qr * (s_v s i + (vm - vs) * n i).
(** Lines 272-299 add_RH_flux. *)
Definition add_RH_flux (s : hstate) (n : vec) (vwave vm : R) (flux : vec) : vec :=
  fun i => flux i + vwave * (star_of s n vwave vm i - cons_of s i).
(** Lines 301-320 compute_HLL_flux. *)
Definition compute_HLL_flux (sl sr : hstate) (Smin Smax : R) (n : vec) : vec :=
  fun i => (Smax * Hydro_Flux sl n i - Smin * Hydro_Flux sr n i + Smin * Smax * (cons_of sr i - cons_of sl i)) / (Smax - Smin).
(** Lines 329-362 HLL_Speeds. *)
Definition HLL_Speeds (sl sr : hstate) : R * R :=
  let R_ := sqrt (s_rho sr / s_rho sl) in
  let fl := 1 / (1 + R_) in
  let fr := 1 - fl in
  let vl := s_vline sl in
  let vr := s_vline sr in
  let v_av := fl * vl + fr * vr in
  let cs_l := s_cs sl in
  let cs_r := s_cs sr in
  let dv2 := sumf ndim (fun i => (s_v sl i - s_v sr i) * (s_v sl i - s_v sr i)) in
  let gamma := Rmax ((s_rho sl * s_cs sl * s_cs sl + s_rho sr * s_cs sr * s_cs sr) / (s_press sl + s_press sr)) 1 in
  let cs_av := sqrt (fl * cs_l * cs_l + fr * cs_r * cs_r + 1 / 2 * fl * fr * (gamma - 1) * dv2) in
  (Rmin (vl - cs_l) (v_av - cs_av), Rmax (vr + cs_r) (v_av + cs_av)).
(** Lines 365-384 compute_central_wave_speed. *)
Definition compute_central_wave_speed (isothermal : bool) (sl sr : hstate) (Smin Smax : R) : R :=
  let vl := s_vline sl in
  let vr := s_vline sr in
  let dml := s_rho sl * (vl - Smin) in
  let dmr := s_rho sr * (vr - Smax) in
  if negb isothermal then
    let Pl := vl * dml + s_press sl in
    let Pr := vr * dmr + s_press sr in
    (Pr - Pl) / (dmr - dml)
  else (Smax * dml - Smin * dmr) / (dml - dmr).
(** Lines 219-232: the change of frame; the energy is not changed. *)
Definition boosted (s : hstate) (n : vec) (vm : R) : hstate :=
  mkhstate (fun i => s_v s i - vm * n i) (s_rho s) (s_press s) (s_e s) (s_cs s) (s_vline s - vm).
(** Lines 234-256: the flux in the frame of the face. *)
Definition frame_flux (isothermal : bool) (sl sr : hstate) (n : vec) (Smin Smax vm : R) : vec :=
  if rleb Smax 0 then Hydro_Flux sr n
  else if rleb 0 Smin then Hydro_Flux sl n
  else if negb isothermal then
    if rltb 0 vm then add_RH_flux sl n Smin vm (Hydro_Flux sl n)
    else add_RH_flux sr n Smax vm (Hydro_Flux sr n)
  else compute_HLL_flux sl sr Smin Smax n.
(** Lines 258-267. *)
Definition lab_frame (zmf : bool) (f vface : vec) : vec :=
  let f := if zmf then vupd f irho 0 else f in
  fun i => if Nat.eqb i irho then f irho
           else if Nat.eqb i iE then f iE + sumf ndim (fun i => f i * vface i) + f irho * (1 / 2 * dot ndim vface vface)
           else f i + f irho * vface i.
(** Lines 212-268 solve. *)
Definition solve (zmf isothermal : bool) (sl sr : hstate) (n vface : vec) : vec :=
  let '(Smin, Smax) := HLL_Speeds sl sr in
  let vm := compute_central_wave_speed isothermal sl sr Smin Smax in
  if zmf then
    lab_frame true (frame_flux isothermal (boosted sl n vm) (boosted sr n vm) n (Smin - vm) (Smax - vm) 0) (fun i => vface i + vm * n i)
  else lab_frame false (frame_flux isothermal sl sr n Smin Smax vm) vface.
(** Lines 154-166 ComputeFluxes, called as in MfvMuscl.cpp:202-224. *)
Definition hllc (zmf isothermal : bool) (gammam1 : R) (sound : R -> R -> R) (Wl Wr n vface : vec) : nat -> vec :=
  let f := solve zmf isothermal (state_of gammam1 sound Wl n) (state_of gammam1 sound Wr n) n vface in
  fun i j => f i * n j.

(** Lines 464-506 ComputeViscousFlux. *)
Definition ComputeViscousFlux (nu_shear nu_bulk : R) (Wl Wr : vec) (gradv_l gradv_r : nat -> vec) (flux : nat -> vec) : nat -> vec :=
  let W := fun i => (Wl i + Wr i) / 2 in
  let gradv := fun i j => (gradv_l i j + gradv_r i j) / 2 in
  let div_v := sumf ndim (fun i => gradv i i) in
  let eta_s := nu_shear * W irho in
  let eta_b := nu_bulk * W irho in
  let stress := fun i j => eta_s * (gradv i j + gradv j i) + if Nat.eqb i j then (eta_b - 2 * eta_s / 3) * div_v else 0 in
  fun i j => if Nat.eqb i iE then flux i j - sumf ndim (fun k => stress k j * W k)
             else if Nat.ltb i ndim then flux i j - stress i j else flux i j.
End Hllc.
