(** Parameters and parameter files: Common/Parameters.cpp 75-152 and 551-688, SimulationBase::SetParam
    (Simulation.cpp:287-338), with the behaviour of the libstdc++ streams they use.

    Simplifications: a string is a list of characters; the three std::map are association lists in
    the order of iteration; a double is the real number it represents (no NaN, no infinities, one
    zero); length() and find() fit an int. *)
From Verif Require Import Prelude.
From Coq Require Import Ascii String Reals.
From Flocq Require Import Core.
Local Open Scope Z_scope.

Definition text := list ascii.
Definition lit (s : string) : text := list_ascii_of_string s.
Definition teq (a b : text) : bool := if list_eq_dec ascii_dec a b then true else false.
Definition ceq (a b : ascii) : bool := if ascii_dec a b then true else false.

(** ** Text, Parameters.cpp:677-688 and std::string *)

(** 677-688 TrimWhiteSpace: only the blank is removed. *)
Definition TrimWhiteSpace (s : text) : text := filter (fun c => negb (ceq c " ")) s.
(** int pos = s.find(c): the first position, or -1 (npos converted to int). *)
Fixpoint find_from (c : ascii) (s : text) (i : Z) : Z :=
  match s with
  | [] => -1
  | x :: s' => if ceq x c then i else find_from c s' (i + 1)
  end.
Definition find (c : ascii) (s : text) : Z := find_from c s 0.
(** s.substr(pos,len) with int arguments converted to size_t: a negative length means the rest,
    a position past the end (or negative) throws. *)
Definition substr (s : text) (pos len : Z) : res text :=
  if (pos <? 0) || (pos >? zlen s) then Raise else
  let r := skipn (Z.to_nat pos) s in
  Ok (if len <? 0 then r else firstn (Z.to_nat len) r).

(** ** Reading numbers from a stream *)

Definition is_space (c : ascii) : bool :=
  let n := N_of_ascii c in (N.eqb n 32 || ((9 <=? n)%N && (n <=? 13)%N))%bool.
Fixpoint skip_ws (s : text) : text :=
  match s with
  | c :: s' => if is_space c then skip_ws s' else s
  | [] => []
  end.
Definition digit (c : ascii) : option Z :=
  let n := Z.of_N (N_of_ascii c) in if (48 <=? n) && (n <=? 57) then Some (n - 48) else None.
(** The longest prefix of digits: their values, and what follows. *)
Fixpoint digits (s : text) : list Z * text :=
  match s with
  | [] => ([], [])
  | c :: s' => match digit c with
               | Some d => let '(l, r) := digits s' in (d :: l, r)
               | None => ([], s)
               end
  end.
Definition horner (l : list Z) : Z := fold_left (fun n d => 10 * n + d) l 0.
(** An optional sign: is it minus, and what follows. *)
Definition sign (s : text) : bool * text :=
  match s with
  | c :: s' => if ceq c "-" then (true, s') else if ceq c "+" then (false, s') else (false, s)
  | [] => (false, [])
  end.
Definition INT_MAX : Z := 2147483647.
Definition INT_MIN : Z := -2147483648.

(** stream >> int.  [None]: nothing to read, the variable keeps its value; no digits: 0; out of
    range: the nearest int (istream.cc and num_get::do_get). *)
Definition read_int (s : text) : option Z :=
  match skip_ws s with
  | [] => None
  | s => let '(neg, s) := sign s in
         let n := horner (fst (digits s)) in
         Some (Z.max INT_MIN (Z.min INT_MAX (if neg then - n else n)))
  end.

(** The nearest double; too large numbers give the largest one (num_get after strtod). *)
Definition ten : radix := Build_radix 10 eq_refl.
Definition to_double (x : R) : R := round radix2 (FLT_exp (-1074) 53) ZnearestE x.
Definition max_double : R := (bpow radix2 1024 - bpow radix2 971)%R.
Definition clamp_double (x : R) : R := Rmax (- max_double) (Rmin max_double x).
(** stream >> double: num_get::_M_extract_float and strtod.  A number that is not complete
    gives 0. *)
Definition read_float (s : text) : option R :=
  match skip_ws s with
  | [] => None
  | s =>
    let '(neg, s) := sign s in
    let '(ip, s) := digits s in
    let '(fp, s) := match s with
                    | c :: s' => if ceq c "." then digits s' else ([], s)
                    | [] => ([], [])
                    end in
    match ip ++ fp with
    | [] => Some 0%R
    | _ =>
      let m := horner (ip ++ fp) in
      let m := if neg then - m else m in
      let value e := clamp_double (to_double (IZR m * bpow ten (e - zlen fp))) in
      Some (match s with
            | c :: s' => if ceq c "e" || ceq c "E" then
                           let '(eneg, s') := sign s' in
                           let '(ed, _) := digits s' in
                           match ed with
                           | [] => 0%R
                           | _ => value (if eneg then - horner ed else horner ed)
                           end
                         else value 0
            | [] => value 0
            end)
    end
  end.

(** ** Writing numbers to a stream *)

Definition char_of_digit (d : Z) : ascii := ascii_of_N (Z.to_N (d + 48)).
Fixpoint dec_digits (fuel : nat) (n : Z) (acc : list Z) : list Z :=
  match fuel with
  | O => acc
  | S f => if n <? 10 then n :: acc else dec_digits f (n / 10) (n mod 10 :: acc)
  end.
(** Decimal digits of a number n >= 0, most significant first. *)
Definition digits_of (n : Z) : list Z := dec_digits (S (Z.to_nat (Z.log2 n))) n [].
Definition show_digits (l : list Z) : text := map char_of_digit l.
(** stream << int *)
Definition show_int (n : Z) : text :=
  if n <? 0 then "-"%char :: show_digits (digits_of (- n)) else show_digits (digits_of n).

(** Trailing zeros are not written. *)
Fixpoint lead0 (l : list Z) : list Z :=
  match l with
  | d :: l' => if d =? 0 then lead0 l' else l
  | [] => []
  end.
Definition strip (l : list Z) : list Z := rev (lead0 (rev l)).
Definition point (fp : list Z) : text :=
  match fp with
  | [] => []
  | _ => "."%char :: show_digits fp
  end.
(** The exponent has a sign and at least two digits. *)
Definition show_exp (x : Z) : text :=
  "e"%char :: (if x <? 0 then "-"%char else "+"%char) ::
  (if Z.abs x <? 10 then ["0"%char] else []) ++ show_digits (digits_of (Z.abs x)).
(** stream << double, i.e. printf("%.6g"): the value rounded to six significant digits; [x] is
    the decimal exponent and [ds] are the six digits. *)
Definition six (v : R) : R := round ten (FLX_exp 6) ZnearestE v.
Definition show_float (v : R) : text :=
  if Req_bool v 0 then ["0"%char] else
  let y := six (Rabs v) in
  let x := mag_val ten y (mag ten y) - 1 in
  let ds := digits_of (Zfloor (y * bpow ten (5 - x))) in
  (if Rlt_bool v 0 then ["-"%char] else []) ++
  (if (x <? -4) || (6 <=? x) then
     show_digits (firstn 1 ds) ++ point (strip (skipn 1 ds)) ++ show_exp x
   else if 0 <=? x then
     let k := S (Z.to_nat x) in show_digits (firstn k ds) ++ point (strip (skipn k ds))
   else
     "0"%char :: point (repeat 0 (Z.to_nat (- x - 1)) ++ strip ds)).

(** ** The tables *)

Record params := mkP { ints : list (text * Z); floats : list (text * R); strs : list (text * text) }.
(** std::map::count *)
Definition has {A} (k : text) (m : list (text * A)) : bool := existsb (fun x => teq (fst x) k) m.
(** m[k] = v for a key that is present. *)
Definition put {A} (k : text) (v : A) (m : list (text * A)) : list (text * A) :=
  map (fun x => if teq (fst x) k then (fst x, v) else x) m.
Definition get {A} (k : text) (m : list (text * A)) : option A :=
  match List.find (fun x => teq (fst x) k) m with
  | Some x => Some (snd x)
  | None => None
  end.

(** 582-600 SetParameter *)
Definition SetParameter (key value : text) (t : params) : params :=
  if has key (ints t) then
    match read_int value with
    | Some n => mkP (put key n (ints t)) (floats t) (strs t)
    | None => t
    end
  else if has key (floats t) then
    match read_float value with
    | Some x => mkP (ints t) (put key x (floats t)) (strs t)
    | None => t
    end
  else if has key (strs t) then mkP (ints t) (floats t) (put key value (strs t))
  else t.
(** 551-573 GetParameter *)
Definition GetParameter (key : text) (t : params) : res text :=
  match get key (ints t) with
  | Some n => Ok (show_int n)
  | None => match get key (floats t) with
            | Some x => Ok (show_float x)
            | None => match get key (strs t) with
                      | Some s => Ok s
                      | None => Raise
                      end
            end
  end.

(** 126-152 ParseLine *)
Definition ParseLine (line : text) (t : params) : res params :=
  let s := TrimWhiteSpace line in
  let colon_pos := find ":" s in
  let equal_pos := find "=" s in
  let hash_pos := find "#" s in
  let length := zlen s in
  if (hash_pos =? 0) || (length =? 0) then Ok t else
  if (equal_pos >=? length) || ((colon_pos <? length) && (colon_pos >? equal_pos)) then Ok t else
  let! var_name := substr s (colon_pos + 1) (equal_pos - colon_pos - 1) in
  let! var_value := substr s (equal_pos + 1) (length - equal_pos - 1) in
  Ok (SetParameter var_name var_value t).

(** 90-93: getline until the end of the file; after a final newline it gives one empty line. *)
Definition newline : ascii := "010"%char.
Fixpoint lines (f : text) : list text :=
  match f with
  | [] => [[]]
  | c :: f' => if ceq c newline then [] :: lines f' else
               match lines f' with
               | l :: ls => (c :: l) :: ls
               | [] => [[c]]
               end
  end.
Fixpoint ParseLines (ls : list text) (t : params) : res params :=
  match ls with
  | [] => Ok t
  | l :: ls' => let! t := ParseLine l t in ParseLines ls' t
  end.
(** 75-115 ReadParamsFile of a file that exists with content [f]; [defaults] is the result of
    SetDefaultValues.  Reading a missing key of stringparams gives the empty string.  The last
    test is CheckInvalidParameters (695-722). *)
Definition str_of (k : string) (t : params) : text :=
  match get (lit k) (strs t) with Some s => s | None => [] end.
Definition ReadParamsFile (defaults : params) (f : text) : res params :=
  let! t := ParseLines (lines f) defaults in
  if teq (str_of "run_id" t) [] then Raise else
  if teq (str_of "sim" t) (lit "sm2012sph") then Raise else Ok t.
(** 639-669 RecordParametersToFile: the content of the file. *)
Definition record_lines {A} (show : A -> text) (m : list (text * A)) : text :=
  flat_map (fun x => fst x ++ lit " = " ++ show (snd x) ++ [newline]) m.
Definition RecordParametersToFile (t : params) : text :=
  record_lines show_int (ints t) ++ record_lines show_float (floats t) ++ record_lines (fun s => s) (strs t).

(** Simulation.cpp:287-338 SetParam; [done] is ParametersProcessed. *)
Definition SetParam (done : bool) (key value : text) (t : params) : res params :=
  if done then Raise else
  if teq key (lit "ndim") then Raise else
  if teq key (lit "sim") then Raise else Ok (SetParameter key value t).
Definition SetParam_int (done : bool) (key : text) (n : Z) (t : params) : res params :=
  SetParam done key (show_int n) t.
Definition SetParam_double (done : bool) (key : text) (x : R) (t : params) : res params :=
  SetParam done key (show_float x) t.

(** The keys set by SetDefaultValues (160-543), in the order of the maps. *)
Definition int_keys : list string := [
  "DiscIcPlanet"; "Ndust"; "Nhydro"; "Nhydromax"; "Nlattice1[0]"; "Nlattice1[1]"; "Nlattice1[2]";
  "Nlattice2[0]"; "Nlattice2[1]"; "Nlattice2[2]"; "Nleafmax"; "Nlevels"; "Npec"; "Nraditerations";
  "Nradlevels"; "Nreg"; "Nsinkfixed"; "Nstar"; "Nstarmax"; "Nstepsmax"; "ambient_heating";
  "binary_stats"; "com_frame"; "conservative_sph_star_gravity"; "create_sinks"; "cut_box";
  "dimensionless"; "disc_heating"; "ewald"; "extra_sink_output"; "field_type"; "fixed_sink_mass";
  "gr_bhewaldseriesn"; "gridsize"; "hydro_forces"; "ilFinePix"; "ilNNS"; "ilNPhi"; "ilNR";
  "ilNTheta"; "in"; "kgrav"; "level_diff_max"; "litesnap"; "lombardi_method"; "nEwaldGrid";
  "nbody_single_timestep"; "nbody_softening"; "ndiagstep"; "ndim"; "noutputstep"; "nradstep";
  "nrestartstep"; "nside"; "nsystembuildstep"; "ntreebuildstep"; "ntreestockstep"; "on_the_spot";
  "perturbers"; "pruning_level_max"; "pruning_level_min"; "rad_fb"; "randseed";
  "regularise_particle_ics"; "regularise_smooth_density"; "self_gravity"; "sink_heating";
  "sink_particles"; "smooth_accretion"; "smooth_ic"; "sph_single_timestep"; "static_particles";
  "sub_systems"; "tabulated_kernel"; "use_fixed_spacing"; "zero_mass_flux"]%string.
Definition float_keys : list string := [
  "DiscIcHr"; "DiscIcMass"; "DiscIcP"; "DiscIcPlanetAccretionRadiusHill"; "DiscIcPlanetEccen";
  "DiscIcPlanetIncl"; "DiscIcPlanetMass"; "DiscIcPlanetRadius"; "DiscIcQ"; "DiscIcRin";
  "DiscIcRout"; "DiscIcStarMass"; "DustGasRatio"; "EFratio"; "Kpoly"; "Lfilament"; "NLyC";
  "Ndotmin"; "Nphotonratio"; "Rfilament"; "a_midplane"; "abin"; "abin2"; "accel_mult"; "alpha_reg";
  "alpha_ss"; "alpha_turb"; "alpha_visc"; "alpha_visc_min"; "amp"; "angvel"; "arecomb"; "asound";
  "avert"; "beta_visc"; "boxmax[0]"; "boxmax[1]"; "boxmax[2]"; "boxmin[0]"; "boxmin[1]";
  "boxmin[2]"; "bulk_visc"; "cdmfrac"; "courant_mult"; "drag_coeff"; "dt_litesnap"; "dt_python";
  "dt_snap"; "dust_mass_factor"; "ebin"; "ebin2"; "energy_mult"; "eta_eos"; "ewald_mult"; "f_acc";
  "gamma_eos"; "gasfrac"; "gpefrac"; "gpehard"; "gpesoft"; "h_converge"; "h_fac"; "h_midplane";
  "ixmax"; "ixmin"; "kefrac"; "lambda"; "m1"; "m2"; "m3"; "m4"; "macerror"; "mach"; "maxDist";
  "mcloud"; "mplummer"; "mplummer_extpot"; "mu_bar"; "mu_ion"; "n0"; "nbody_mult"; "phirot";
  "power_turb"; "press1"; "press2"; "psirot"; "r0"; "r_bdwarf"; "r_planet"; "r_smooth"; "r_star";
  "radius"; "rayRadRes"; "relErr"; "rexplosion"; "rho_bary"; "rho_midplane"; "rho_reg"; "rho_sink";
  "rho_star"; "rhofluid1"; "rhofluid2"; "rplummer"; "rplummer_extpot"; "rstar"; "shear_visc";
  "sigma_star"; "sink_radius"; "smooth_accrete_dt"; "smooth_accrete_frac"; "starfrac";
  "subsys_mult"; "temp0"; "temp_ambient"; "temp_au"; "temp_au_secondary"; "temp_ion"; "temp_q";
  "temp_q_secondary"; "templaw"; "tempmin"; "tend"; "thermal_energy"; "thetamaxsqd"; "thetarot";
  "tlitesnapfirst"; "tmax_wallclock"; "tsnapfirst"; "v_cyl_infall"; "v_rad_infall"; "vfluid1[0]";
  "vfluid1[1]"; "vfluid1[2]"; "vfluid2[0]"; "vfluid2[1]"; "vfluid2[2]"; "visc_mult"; "vmachbin";
  "z_d"; "zmax"]%string.
Definition string_keys : list string := [
  "Binunit"; "Boutunit"; "Einunit"; "Eoutunit"; "Jcurinunit"; "Jcuroutunit"; "Linunit"; "Loutunit";
  "Qinunit"; "Qoutunit"; "acond"; "ainunit"; "angmominunit"; "angmomoutunit"; "angvelinunit";
  "angveloutunit"; "aoutunit"; "avisc"; "boundary_lhs[0]"; "boundary_lhs[1]"; "boundary_lhs[2]";
  "boundary_rhs[0]"; "boundary_rhs[1]"; "boundary_rhs[2]"; "dmdtinunit"; "dmdtoutunit"; "drag_law";
  "dudtinunit"; "dudtoutunit"; "dust_forces"; "energy_integration"; "errControl";
  "external_potential"; "finunit"; "foutunit"; "gas_eos"; "grav_kernel"; "gravity_mac"; "ic";
  "in_file"; "in_file_form"; "kappainunit"; "kappaoutunit"; "kernel"; "minunit"; "mominunit";
  "momoutunit"; "moutunit"; "mpi_decomposition"; "multipole"; "nbody"; "neib_search";
  "out_file_form"; "particle_distribution"; "pressinunit"; "pressoutunit"; "radiation";
  "radws_table"; "rand_algorithm"; "rhoinunit"; "rhooutunit"; "riemann_solver"; "rinunit";
  "routunit"; "run_id"; "sigmainunit"; "sigmaoutunit"; "sim"; "sink_fb"; "sink_radius_mode";
  "slope_limiter"; "sph_integration"; "sub_system_integration"; "supernova_feedback"; "tempinunit";
  "tempoutunit"; "time_dependent_avisc"; "time_step_limiter"; "tinunit"; "toutunit"; "uinunit";
  "uoutunit"; "vinunit"; "voutunit"]%string.
