(** Units: Common/SimUnits.cpp, Headers/SimUnits.h, the constants of Headers/Constants.h, the
    units of the arrays handed to Python (Common/SphSnapshot.cpp:509-631), the units read from
    a snapshot (Common/SimulationIO.hpp:695-718) and the sink density
    (Hydrodynamics/SphSimulation.cpp:128-129, MeshlessFV/MeshlessFVSimulation.cpp:330-331).
    DOUBLE values are reals. *)
From Verif Require Import Prelude.
From Coq Require Import Reals String.
Local Open Scope string_scope.
Local Open Scope R_scope.

(** Constants.h:34-56. *)
Definition r_pc : R := 308568025 * 10 ^ 8.
Definition r_au : R := 149597870 * 10 ^ 3.
Definition r_sun : R := 6955 * 10 ^ 5.
Definition r_earth : R := 6371 * 10 ^ 3.
Definition m_sun : R := 198892 * 10 ^ 25.
Definition m_jup : R := 18986 * 10 ^ 23.
Definition m_earth : R := 59736 * 10 ^ 20.
Definition myr : R := 31556952 * 10 ^ 6.
Definition yr : R := 31556952.
Definition day : R := 86400.
Definition m_hydrogen : R := 166054 / 10 ^ 32.
Definition G_const : R := 667384 / 10 ^ 16.
Definition k_boltzmann : R := 13806503 / 10 ^ 30.
Definition e_charge : R := 16021765 / 10 ^ 26.
Definition L_sun : R := 3839 * 10 ^ 23.

(** The unit classes, in the order of SimUnits.h:424-446 (nounits apart). *)
Inductive quantity := Qr | Qm | Qt | Qv | Qa | Qrho | Qsigma | Qpress | Qf | QE | Qmom | Qangmom | Qangvel | Qdmdt | QL | Qkappa
  | QB | QQ | QJcur | Qu | Qdudt | Qtemp.

(** A chain "if (unit == ...) return ...; else ...; else raise". *)
Fixpoint pick (l : list (string * R)) (s : string) : res R :=
  match l with
  | [] => Raise
  | (n, x) :: l' => if String.eqb s n then Ok x else pick l' s
  end.

(** SimUnits.cpp:71-88, 116-129, 153-166, 190-202, 225-237, 260-271, 293-304, 326-336, 357-367,
    388-401, 425-437, 460-472, 495-504, 524-536, 559-570, 592-602, 623-633, 654-664, 685-694,
    714-724, 745-755, 776-785. *)
Definition si_names (q : quantity) : list (string * R) :=
  match q with
  | Qr => [("mpc", 10 ^ 6 * r_pc); ("kpc", 10 ^ 3 * r_pc); ("pc", r_pc); ("au", r_au); ("r_sun", r_sun); ("r_earth", r_earth);
           ("km", 1000); ("m", 1); ("cm", 1 / 100); ("", 1)]
  | Qm => [("m_sun", m_sun); ("m_jup", m_jup); ("m_earth", m_earth); ("kg", 1); ("g", 1 / 10 ^ 3); ("", 1)]
  | Qt => [("gyr", 1000 * myr); ("myr", myr); ("yr", yr); ("day", day); ("s", 1); ("", 1)]
  | Qv => [("km_s", 1000); ("au_yr", r_au / yr); ("m_s", 1); ("cm_s", 1 / 100); ("", 1)]
  | Qa => [("km_s2", 1000); ("au_yr2", r_au / yr / yr); ("m_s2", 1); ("cm_s2", 1 / 100); ("", 1)]
  | Qrho => [("m_sun_pc3", m_sun / (r_pc * r_pc * r_pc)); ("kg_m3", 1); ("g_cm3", 1000); ("", 1)]
  | Qsigma => [("m_sun_pc2", m_sun / (r_pc * r_pc)); ("kg_m2", 1); ("g_cm2", 10); ("", 1)]
  | Qpress => [("Pa", 1); ("bar", 10 ^ 5); ("", 1)]
  | Qf => [("N", 1); ("dyn", 1 / 10 ^ 5); ("", 1)]
  | QE => [("J", 1); ("erg", 1 / 10 ^ 7); ("GJ", 10 ^ 12); ("eV", e_charge); ("10^40erg", 10 ^ 33); ("", 1)]
  | Qmom => [("m_sunkm_s", m_sun * 1000); ("m_sunau_yr", m_sun * r_au / yr); ("kgm_s", 1); ("gcm_s", 1 / 10 ^ 5); ("", 1)]
  | Qangmom => [("m_sunkm2_s", m_sun * 1000 * 1000); ("m_sunau2_yr", m_sun * r_au * r_au / yr); ("kgm2_s", 1); ("gcm2_s", 1 / 10 ^ 7); ("", 1)]
  | Qangvel => [("rad_s", 1); ("", 1)]
  | Qdmdt => [("m_sun_myr", m_sun / myr); ("m_sun_yr", m_sun / yr); ("kg_s", 1); ("g_s", 1 / 10 ^ 3); ("", 1)]
  | QL => [("L_sun", L_sun); ("W", 1); ("erg_s", 1 / 10 ^ 7); ("", 1)]
  | Qkappa => [("m2_kg", 1); ("cm2_g", 1 / 10); ("", 1)]
  | QB => [("tesla", 1); ("gauss", 1 / 10 ^ 4); ("", 1)]
  | QQ => [("C", 1); ("e", e_charge); ("", 1)]
  | QJcur => [("C_s_m2", 1); ("", 1)]
  | Qu => [("J_kg", 1); ("erg_g", 1 / 10 ^ 4); ("", 1)]
  | Qdudt => [("J_kg_s", 1); ("erg_g_s", 1 / 10 ^ 4); ("", 1)]
  | Qtemp => [("K", 1); ("", 1)]
  end.
Definition SIUnit (q : quantity) (s : string) : res R := pick (si_names q) s.

(** SimUnits.h:54-60 and the constructor SimUnits.cpp:42-51. *)
Record sunit := mku { inscale : R; inSI : R; outcgs : R; outscale : R; outSI : R; inunit : string; outunit : string }.
Definition unit0 : sunit := mku 1 1 1 1 1 "" "".

(** SimUnits.h:64-72, and SimUnits.cpp:60-63. *)
Definition Input_to_CodeUnits (u : sunit) (x : R) : R := x / inscale u.
Definition Output_to_CodeUnits (u : sunit) (x : R) : R := x / outscale u.
Definition Code_to_InputUnits (u : sunit) (x : R) : R := x * inscale u.
Definition Code_to_OutputUnits (u : sunit) (x : R) : R := x * outscale u.
Definition SI_to_CodeUnits (u : sunit) (x : R) : R := x / (outscale u * outSI u).
Definition CGS_to_CodeUnits (u : sunit) (x : R) : R := x / (outscale u * outcgs u).
Definition Code_to_SIUnits (u : sunit) (x : R) : R := x * outscale u * outSI u.
Definition Code_to_CGSUnits (u : sunit) (x : R) : R := x * outscale u * outcgs u.
Definition OutputScale (q : quantity) (u : sunit) (s : string) : res R :=
  let! x := SIUnit q s in Ok (inscale u * inSI u / x).

(** Keys of the parameters, SimUnits.cpp:840-861. *)
Definition inkey (q : quantity) : string :=
  match q with
  | Qr => "rinunit" | Qm => "minunit" | Qt => "tinunit" | Qv => "vinunit" | Qa => "ainunit" | Qrho => "rhoinunit"
  | Qsigma => "sigmainunit" | Qpress => "pressinunit" | Qf => "finunit" | QE => "Einunit" | Qmom => "mominunit"
  | Qangmom => "angmominunit" | Qangvel => "angvelinunit" | Qdmdt => "dmdtinunit" | QL => "Linunit" | Qkappa => "kappainunit"
  | QB => "Binunit" | QQ => "Qinunit" | QJcur => "Jcurinunit" | Qu => "uinunit" | Qdudt => "dudtinunit" | Qtemp => "tempinunit"
  end.
Definition outkey (q : quantity) : string :=
  match q with
  | Qr => "routunit" | Qm => "moutunit" | Qt => "toutunit" | Qv => "voutunit" | Qa => "aoutunit" | Qrho => "rhooutunit"
  | Qsigma => "sigmaoutunit" | Qpress => "pressoutunit" | Qf => "foutunit" | QE => "Eoutunit" | Qmom => "momoutunit"
  | Qangmom => "angmomoutunit" | Qangvel => "angveloutunit" | Qdmdt => "dmdtoutunit" | QL => "Loutunit" | Qkappa => "kappaoutunit"
  | QB => "Boutunit" | QQ => "Qoutunit" | QJcur => "Jcuroutunit" | Qu => "uoutunit" | Qdudt => "dudtoutunit" | Qtemp => "tempoutunit"
  end.
Definition quantities : list quantity :=
  [Qr; Qm; Qt; Qv; Qa; Qrho; Qsigma; Qpress; Qf; QE; Qmom; Qangmom; Qangvel; Qdmdt; QL; Qkappa; QB; QQ; QJcur; Qu; Qdudt; Qtemp].

(** params->stringparams; operator[] of a missing key gives the empty string. *)
Definition params := string -> string.
Definition set_param (p : params) (k x : string) : params := fun s => if String.eqb s k then x else p s.
(** SimUnits.cpp:839-862. *)
Definition copy_units (p : params) : params :=
  fold_left (fun p q => set_param p (inkey q) (p (outkey q))) quantities p.

(** SimUnits.cpp:864-1110: one block, with the keys [ki], [ko] of the names that are looked up,
    the factor [cgs], and the size of the code unit in SI as computed from the input ([vi]) and
    from the output side ([vo]). *)
Definition block (p : params) (q : quantity) (ki ko : string) (cgs vi vo : R) : res sunit :=
  let! i := SIUnit q (p ki) in
  let! o := SIUnit q (p ko) in
  Ok (mku (vi / i) i (cgs * o) (vo / o) o (p (inkey q)) (p (outkey q))).
Definition units := quantity -> sunit.
Definition SetupUnits (p0 : params) (dimensionless ReadInputUnits : bool) (us0 : units) : res units :=
  if dimensionless then Ok us0
  else
    let p := if ReadInputUnits then p0 else copy_units p0 in
    (* length: outscale = 1, inscale = outscale*outSI/inSI *)
    let! ri := SIUnit Qr (p (inkey Qr)) in
    let! ro := SIUnit Qr (p (outkey Qr)) in
    let r := mku (1 * ro / ri) ri (100 * ro) 1 ro (p (inkey Qr)) (p (outkey Qr)) in
    let! mi := SIUnit Qm (p (inkey Qm)) in
    let! mo := SIUnit Qm (p (outkey Qm)) in
    let m := mku (1 * mo / mi) mi (1000 * mo) 1 mo (p (inkey Qm)) (p (outkey Qm)) in
    let li := inscale r * inSI r in let lo := outscale r * outSI r in
    let ki := inscale m * inSI m in let ko := outscale m * outSI m in
    let! t := block p Qt (inkey Qt) (outkey Qt) 1 (Rpower li (3 / 2) / sqrt (ki * G_const)) (Rpower lo (3 / 2) / sqrt (ko * G_const)) in
    let ti := inscale t * inSI t in let to := outscale t * outSI t in
    let std q cgs vi vo := block p q (inkey q) (outkey q) cgs vi vo in
    let! v := std Qv 100 (li / ti) (lo / to) in
    let! a := std Qa 100 (li / (ti * ti)) (lo / (to * to)) in
    let! rho := std Qrho (1 / 10 ^ 3) (ki / li ^ 3) (ko / lo ^ 3) in
    let! sigma := std Qsigma (1 / 10) (ki / li ^ 2) (ko / lo ^ 2) in
    let! press := std Qpress (1 / 10) (ki / (li * ti * ti)) (ko / (lo * to * to)) in
    let! f := block p Qf "forceinunit" "forceoutunit" (10 ^ 5) (ki * li / (ti * ti)) (ko * lo / (to * to)) in
    let! E := std QE (10 ^ 7) (ki * li ^ 2 / ti ^ 2) (ko * lo ^ 2 / to ^ 2) in
    let! mom := std Qmom (10 ^ 5) (ki * li / ti) (ko * lo / to) in
    let! angmom := std Qangmom (10 ^ 7) (ki * li ^ 2 / ti) (ko * lo ^ 2 / to) in
    let! angvel := std Qangvel 1 (1 / ti) (1 / to) in
    let! dmdt := std Qdmdt (10 ^ 3) (ki / ti) (ko / to) in
    let! L := std QL (10 ^ 7) (ki / ti) (ko / to) in
    let! kappa := std Qkappa 10 (li * li / ki) (lo * lo / ko) in
    (* magnetic field, charge and current density: only the names, those of the opacity *)
    let named q := mku (inscale (us0 q)) (inSI (us0 q)) (outcgs (us0 q)) (outscale (us0 q)) (outSI (us0 q)) (p (inkey Qkappa)) (p (outkey Qkappa)) in
    let! u := std Qu (10 ^ 4) (li ^ 2 / ti ^ 2) (lo ^ 2 / to ^ 2) in
    let! dudt := std Qdudt (10 ^ 4) (li ^ 2 / ti ^ 3) (lo ^ 2 / to ^ 3) in
    let! temp := std Qtemp 1 (m_hydrogen * (inscale u * inSI u) / k_boltzmann) (m_hydrogen * (outscale u * outSI u) / k_boltzmann) in
    Ok (fun q => match q with
      | Qr => r | Qm => m | Qt => t | Qv => v | Qa => a | Qrho => rho | Qsigma => sigma | Qpress => press | Qf => f | QE => E
      | Qmom => mom | Qangmom => angmom | Qangvel => angvel | Qdmdt => dmdt | QL => L | Qkappa => kappa
      | QB => named QB | QQ => named QQ | QJcur => named QJcur | Qu => u | Qdudt => dudt | Qtemp => temp end).

(** Parameters.cpp:192-235: the defaults. *)
Definition default_params : params := fun s =>
  match find (fun kv => String.eqb s (fst kv))
    [("routunit", "pc"); ("moutunit", "m_sun"); ("toutunit", "myr"); ("voutunit", "km_s"); ("aoutunit", "km_s2"); ("rhooutunit", "g_cm3");
     ("sigmaoutunit", "m_sun_pc2"); ("pressoutunit", "Pa"); ("foutunit", "N"); ("Eoutunit", "J"); ("momoutunit", "m_sunkm_s");
     ("angmomoutunit", "m_sunkm2_s"); ("angveloutunit", "rad_s"); ("dmdtoutunit", "m_sun_yr"); ("Loutunit", "L_sun"); ("kappaoutunit", "m2_kg");
     ("Boutunit", "tesla"); ("Qoutunit", "C"); ("Jcuroutunit", "C_s_m2"); ("uoutunit", "J_kg"); ("dudtoutunit", "J_kg_s"); ("tempoutunit", "K")] with
  | Some kv => snd kv | None => "" end.

(** SphSnapshot.cpp:510-597: the unit of an array; [None] is nounits, [Raise] an unknown name. *)
Definition array_unit (name : string) : res (option quantity) :=
  let is l := existsb (String.eqb name) l in
  if is ["x"; "y"; "z"; "h"; "sma"] then Ok (Some Qr)
  else if is ["iorig"; "ecc"; "qbin"] then Ok None
  else if is ["vx"; "vy"; "vz"] then Ok (Some Qv)
  else if is ["ax"; "ay"; "az"] then Ok (Some Qa)
  else if is ["m"; "mbin"] then Ok (Some Qm)
  else if is ["rho"] then Ok (Some Qrho)
  else if is ["u"] then Ok (Some Qu)
  else if is ["dudt"] then Ok (Some Qdudt)
  else if is ["period"] then Ok (Some Qt)
  else if is ["gpot"] then Ok (Some QE)
  else Raise.
(** SphSnapshot.cpp:613-627: name of the unit and scaling factor. *)
Definition ExtractArray (us : units) (name requested : string) : res (string * R) :=
  let! q := array_unit name in
  match q with
  | None => Ok (if String.eqb requested "default" then "" else requested, 1 * 1 / 1)
  | Some q =>
      let n := if String.eqb requested "default" then outunit (us q) else requested in
      let! x := OutputScale q (us q) n in Ok (n, x)
  end.

(** SimulationIO.hpp:695-718: the header of a snapshot; only the names are stored. *)
Definition read_header (us : units) (names : quantity -> string) : units :=
  fun q => let u := us q in mku (inscale u) (inSI u) (outcgs u) (outscale u) (outSI u) (names q) (outunit u).
(** SphSnapshot.cpp:640-653, SimulationIO.hpp:2519-2525: a value of the snapshot in code units. *)
Definition read_value (p : params) (us : units) (names : quantity -> string) (q : quantity) (x : R) : res R :=
  let! us' := SetupUnits p false false (read_header us names) in Ok (x / inscale (us' q)).

(** The density at which sinks form, given in g/cm3: SphSimulation.cpp:128-129 (and
    Hydrodynamics.cpp:75) and MeshlessFVSimulation.cpp:330-331. *)
Definition sph_rho_sink (us : units) (x : R) : R := x / (outscale (us Qrho) * outcgs (us Qrho)).
Definition mfv_rho_sink (us : units) (x : R) : R := x / (outscale (us Qrho) / outcgs (us Qrho)).
