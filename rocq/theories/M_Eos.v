(** Equations of state (src/Headers/EOS.h, src/Thermal/AdiabaticEOS.cpp, IsothermalEOS.cpp, LocallyIsothermal.cpp,
    DiscLocallyIsothermal.cpp, PolytropicEOS.cpp, BarotropicEOS.cpp, Barotropic2EOS.cpp, IonisingRadiationEOS.cpp,
    MCRadiationEOS.cpp), how one is chosen (src/Hydrodynamics/Hydrodynamics.cpp:80-118) and how it sets the thermal
    properties of a particle (src/GradhSph/GradhSph.cpp:335-347, src/SM2013/SM2012Sph.cpp:277-287,
    src/MeshlessFV/MeshlessFV.cpp:148-164) and the states at a face (EOS.h:169-184, MfvMuscl.cpp:216-221).
    FLOAT is R; pow(x,y) is [Rpower x y], which agrees with it for 0 < x.  The tabulated one (Radws) is in M_Radws.v. *)
From Verif Require Import Prelude Vec M_Box.
From Coq Require Import Reals String.
Local Open Scope R_scope.

(** EOS.h:110-135, EosParticleProxy. *)
Record proxy := mkpx { x_r : vec; x_v : vec; x_rho : R; x_u : R; x_p : R; x_ionfrac : R; x_ionstate : Z }.
Definition set_rho (x : proxy) (s : R) : proxy := mkpx (x_r x) (x_v x) s (x_u x) (x_p x) (x_ionfrac x) (x_ionstate x).
Definition set_u (x : proxy) (s : R) : proxy := mkpx (x_r x) (x_v x) (x_rho x) s (x_p x) (x_ionfrac x) (x_ionstate x).
Definition set_p (x : proxy) (s : R) : proxy := mkpx (x_r x) (x_v x) (x_rho x) (x_u x) s (x_ionfrac x) (x_ionstate x).

(** The parameters read by the constructors, already divided by the units they divide by. *)
Record eospar := mkep { gamma_eos : R; eta_eos : R; Kpoly : R; temp0 : R; mu_bar : R; rho_bary : R; templaw : R; tempmin : R;
  DiscIcQ : R; DiscIcHr : R; DiscIcRin : R; temp_ion : R; mu_ion : R }.

Inductive base := Adiabatic | Isothermal | LocallyIsothermal | DiscLocallyIsothermal | Polytropic | Barotropic | Barotropic2.
(** IonisingRadiation and MCRadiationEOS hold another equation of state, the member eos. *)
Inductive eos := Plain (b : base) | IonisingRadiation (b : base) | MCRadiation (b : base).

Section Eos.
Variable ndim : nat.
Variable P : eospar.
(** nbody->stardata[i].r for i < nbody->Nstar, and nbody->stardata[0].r. *)
Variable stars : list vec.
Variable star0 : vec.

(** The member gamma: EOS(gamma_eos) everywhere but PolytropicEOS.cpp:35; gammam1 is EOS.h:150. *)
Definition bgamma (b : base) : R := match b with Polytropic => eta_eos P | _ => gamma_eos P end.
Definition bgammam1 (b : base) : R := bgamma b - 1.
(** PolytropicEOS.cpp:36, the member eta. *)
Definition poly_eta : R := gamma_eos P.
(** BarotropicEOS.cpp:43, Barotropic2EOS.cpp:45. *)
Definition invrho_bary : R := 1 / rho_bary P.

(** LocallyIsothermal.cpp:67-80: the loop over the stars, and the root. *)
Definition stardist (x : proxy) : R :=
  sqrt (fold_left (fun m s => Rmin (dot ndim (vsub (x_r x) s) (vsub (x_r x) s)) m) stars (10 ^ 30)).
(** LocallyIsothermal.cpp:83. *)
Definition loctemp (x : proxy) : R := Rmax (temp0 P * Rpower (stardist x) (- templaw P)) (tempmin P).
(** DiscLocallyIsothermal.cpp:44-46 and 67-80. *)
Definition discnorm : R := DiscIcHr P * sqrt (1 / DiscIcRin P).
Definition discsound (x : proxy) : R :=
  let dr := vsub (x_r x) star0 in discnorm * Rpower (sqrt (dot ndim dr dr) / DiscIcRin P) (- DiscIcQ P).

(** EOS.h:157 and PolytropicEOS.cpp:59. *)
Definition bPressure (b : base) (x : proxy) : R :=
  match b with Polytropic => Kpoly P * Rpower (x_rho x) poly_eta | _ => bgammam1 b * x_rho x * x_u x end.
(** AdiabaticEOS.cpp:57 and the same in every other class. *)
Definition bEntropicFunction (b : base) (x : proxy) : R := bgammam1 b * x_u x * Rpower (x_rho x) (1 - bgamma b).
(** AdiabaticEOS.cpp:69, IsothermalEOS.cpp:72 (also LocallyIsothermal), PolytropicEOS.cpp:83, BarotropicEOS.cpp:76,
    Barotropic2EOS.cpp:77, DiscLocallyIsothermal.cpp:67. *)
Definition bSoundSpeed (b : base) (x : proxy) : R :=
  match b with
  | Adiabatic => sqrt (bgamma b * bgammam1 b * x_u x)
  | DiscLocallyIsothermal => discsound x
  | _ => sqrt (bgammam1 b * x_u x)
  end.
(** AdiabaticEOS.cpp:81, IsothermalEOS.cpp:84, LocallyIsothermal.cpp:92, DiscLocallyIsothermal.cpp:87, PolytropicEOS.cpp:95,
    BarotropicEOS.cpp:88, Barotropic2EOS.cpp:89. *)
Definition bSpecificInternalEnergy (b : base) (x : proxy) : R :=
  match b with
  | Adiabatic => x_u x
  | Isothermal => temp0 P / bgammam1 b / mu_bar P
  | LocallyIsothermal => loctemp x / bgammam1 b / mu_bar P
  | DiscLocallyIsothermal => let cs := discsound x in cs * cs / bgammam1 b
  | Polytropic => Kpoly P * Rpower (x_rho x) (bgammam1 b) / bgammam1 b
  | Barotropic => temp0 P * (1 + Rpower (x_rho x * invrho_bary) (bgammam1 b)) / bgammam1 b / mu_bar P
  | Barotropic2 => if rltb (x_rho x) (rho_bary P) then temp0 P / bgammam1 b / mu_bar P
                   else temp0 P * Rpower (x_rho x * invrho_bary) (bgammam1 b) / bgammam1 b / mu_bar P
  end.
(** AdiabaticEOS.cpp:93, IsothermalEOS.cpp:96, LocallyIsothermal.cpp:67, DiscLocallyIsothermal.cpp:99, PolytropicEOS.cpp:107,
    BarotropicEOS.cpp:102, Barotropic2EOS.cpp:104. *)
Definition bTemperature (b : base) (x : proxy) : R :=
  match b with
  | Adiabatic | Polytropic => bgammam1 b * x_u x
  | Isothermal => temp0 P
  | LocallyIsothermal => loctemp x
  | DiscLocallyIsothermal => let cs := discsound x in mu_bar P * cs * cs
  | Barotropic => temp0 P * (1 + Rpower (x_rho x * invrho_bary) (bgammam1 b))
  | Barotropic2 => if rltb (x_rho x) (rho_bary P) then temp0 P else temp0 P * Rpower (x_rho x * invrho_bary) (bgammam1 b)
  end.

(** gamma, gammam1 of the object: IonisingRadiationEOS.cpp:36, MCRadiationEOS.cpp:39. *)
Definition egammam1 (e : eos) : R := match e with Plain b => bgammam1 b | _ => gamma_eos P - 1 end.
(** EOS.h:157; not overridden in IonisingRadiation and MCRadiationEOS. *)
Definition Pressure (e : eos) (x : proxy) : R :=
  match e with Plain b => bPressure b x | _ => egammam1 e * x_rho x * x_u x end.
(** IonisingRadiationEOS.cpp:75, MCRadiationEOS.cpp:79. *)
Definition EntropicFunction (e : eos) (x : proxy) : R :=
  match e with Plain b | IonisingRadiation b | MCRadiation b => bEntropicFunction b x end.
(** IonisingRadiationEOS.cpp:88, MCRadiationEOS.cpp:92. *)
Definition SoundSpeed (e : eos) (x : proxy) : R :=
  match e with
  | Plain b | IonisingRadiation b => bSoundSpeed b x
  | MCRadiation b => x_ionfrac x * sqrt (temp_ion P / mu_ion P) + (1 - x_ionfrac x) * bSoundSpeed b x
  end.
(** IonisingRadiationEOS.cpp:100-110, MCRadiationEOS.cpp:105-111. *)
Definition SpecificInternalEnergy (e : eos) (x : proxy) : R :=
  match e with
  | Plain b => bSpecificInternalEnergy b x
  | IonisingRadiation b =>
      if Z.eqb (x_ionstate x) 0 then bSpecificInternalEnergy b x
      else let n := bSpecificInternalEnergy b x in if rltb n (x_u x) then x_u x else n
  | MCRadiation b => x_ionfrac x * temp_ion P / egammam1 e / mu_ion P + (1 - x_ionfrac x) * bSpecificInternalEnergy b x
  end.
(** IonisingRadiationEOS.cpp:119, MCRadiationEOS.cpp:120. *)
Definition Temperature (e : eos) (x : proxy) : R :=
  match e with
  | Plain b | IonisingRadiation b => bTemperature b x
  | MCRadiation b => x_ionfrac x * temp_ion P + (1 - x_ionfrac x) * bTemperature b x
  end.
(** EOS.h:165. *)
Definition InternalEnergyFromPressure (e : eos) (x : proxy) : R := x_p x / (x_rho x * egammam1 e).

(** The three assignments of ComputeThermalProperties: the particle with its u and pressure set, and its sound. *)
Definition thermal (e : eos) (x : proxy) : proxy * R :=
  let x := set_u x (SpecificInternalEnergy e x) in
  let cs := SoundSpeed e x in
  (set_p x (Pressure e x), cs).
(** GradhSph.cpp:335-347; SM2012Sph.cpp:277-287 has no test of the type ([dust] is false). *)
Definition ComputeThermalSph (e : eos) (dust : bool) (xc : proxy * R) : proxy * R := if dust then xc else thermal e (fst xc).
(** MeshlessFV.cpp:148-164: [hf] is types[part.ptype].hydro_forces. *)
Definition ComputeThermalMfv (e : eos) (hf : bool) (xc : proxy * R) : res (proxy * R) :=
  if hf then
    let '(x, cs) := thermal e (fst xc) in
    if (rltb 0 (x_u x) && rltb 0 cs && rltb 0 (x_p x))%bool then Ok (x, cs) else Raise
  else Ok xc.

(** EOS.h:68-104, StateVector. *)
Record state := mkst { w_density : R; w_pressure : R; w_velocity : vec; c_density : R; c_energy : R; c_momentum : vec; s_sound : R }.
(** EOS.h:169-184. *)
Definition ConstructStateVector (e : eos) (x : proxy) : state :=
  mkst (x_rho x) (x_p x) (x_v x) (x_rho x)
    (fold_left (fun a i => a + 1 / 2 * x_rho x * x_v x i * x_v x i) (seq 0 ndim) (x_rho x * x_u x))
    (fun i => x_rho x * x_v x i) (SoundSpeed e x).
(** MfvMuscl.cpp:216-221: the side of a face, from density, velocity and pressure. *)
Definition face_state (e : eos) (x : proxy) : state := ConstructStateVector e (set_u x (InternalEnergyFromPressure e x)).
End Eos.

(** IonisingRadiationEOS.cpp:41-54, MCRadiationEOS.cpp:46-59. *)
Definition inner (gas_eos : string) : res base :=
  if (String.eqb gas_eos "energy_eqn" || String.eqb gas_eos "constant_temp")%bool then Ok Adiabatic
  else if String.eqb gas_eos "isothermal" then Ok Isothermal
  else if String.eqb gas_eos "barotropic" then Ok Barotropic
  else Raise.
(** Hydrodynamics.cpp:80-118; [inr tt] is Radws. *)
Definition select (gas_eos radiation : string) : res (eos + unit) :=
  let some := (String.eqb gas_eos "energy_eqn" || String.eqb gas_eos "constant_temp" || String.eqb gas_eos "isothermal" ||
               String.eqb gas_eos "polytropic" || String.eqb gas_eos "barotropic" || String.eqb gas_eos "barotropic2")%bool in
  if (some && String.eqb radiation "ionisation")%bool then let! b := inner gas_eos in Ok (inl (IonisingRadiation b))
  else if (some && String.eqb radiation "monoionisation")%bool then let! b := inner gas_eos in Ok (inl (MCRadiation b))
  else if (String.eqb gas_eos "energy_eqn" || String.eqb gas_eos "constant_temp")%bool then Ok (inl (Plain Adiabatic))
  else if String.eqb gas_eos "isothermal" then Ok (inl (Plain Isothermal))
  else if String.eqb gas_eos "locally_isothermal" then Ok (inl (Plain LocallyIsothermal))
  else if String.eqb gas_eos "disc_locally_isothermal" then Ok (inl (Plain DiscLocallyIsothermal))
  else if String.eqb gas_eos "polytropic" then Ok (inl (Plain Polytropic))
  else if String.eqb gas_eos "barotropic" then Ok (inl (Plain Barotropic))
  else if String.eqb gas_eos "barotropic2" then Ok (inl (Plain Barotropic2))
  else if String.eqb gas_eos "radws" then Ok (inr tt)
  else Raise.
