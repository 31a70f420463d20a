(** Specification of units: dimensions, and every unit name as a product of powers of base
    units.  The only numbers are powers of ten and the constants of nature of the code. *)
From Coq Require Import Reals ZArith List String.
From Verif Require Import M_Units.
Import ListNotations.
Local Open Scope string_scope.
Local Open Scope R_scope.

(** Exponents of length, mass, time, temperature and charge. *)
Record dim := mkd { d_l : Z; d_m : Z; d_t : Z; d_k : Z; d_c : Z }.
Definition dadd (a b : dim) : dim :=
  mkd (d_l a + d_l b) (d_m a + d_m b) (d_t a + d_t b) (d_k a + d_k b) (d_c a + d_c b).
Definition dmul (n : Z) (a : dim) : dim := mkd (n * d_l a) (n * d_m a) (n * d_t a) (n * d_k a) (n * d_c a).
Definition d0 : dim := mkd 0 0 0 0 0.
Definition Length : dim := mkd 1 0 0 0 0.
Definition Mass : dim := mkd 0 1 0 0 0.
Definition Time : dim := mkd 0 0 1 0 0.
Definition Temperature : dim := mkd 0 0 0 1 0.
Definition Charge : dim := mkd 0 0 0 0 1.
Notation "a ** b" := (dadd a b) (at level 40, left associativity).
Notation "a // b" := (dadd a (dmul (-1) b)) (at level 40, left associativity).
Definition Velocity := Length // Time.
Definition Acceleration := Velocity // Time.
Definition Volume := dmul 3 Length.
Definition Area := dmul 2 Length.
Definition Force := Mass ** Acceleration.
Definition Energy := Force ** Length.
Definition Power := Energy // Time.

Definition dim_of (q : quantity) : dim :=
  match q with
  | Qr => Length | Qm => Mass | Qt => Time | Qv => Velocity | Qa => Acceleration | Qrho => Mass // Volume | Qsigma => Mass // Area
  | Qpress => Force // Area | Qf => Force | QE => Energy | Qmom => Mass ** Velocity | Qangmom => Length ** (Mass ** Velocity)
  | Qangvel => d0 // Time | Qdmdt => Mass // Time | QL => Power | Qkappa => Area // Mass
  | QB => Force // (Charge ** Velocity) | QQ => Charge | QJcur => Charge // Time // Area
  | Qu => Energy // Mass | Qdudt => Power // Mass | Qtemp => Temperature
  end.

(** Size of the unit of dimension [d] built from the units [l], [m], [t], [k] and [c]. *)
Definition size (l m t k c : R) (d : dim) : R :=
  powerRZ l (d_l d) * powerRZ m (d_m d) * powerRZ t (d_t d) * powerRZ k (d_k d) * powerRZ c (d_c d).

(** Base units: dimension and size in SI. *)
Inductive base := metre | kilometre | centimetre | parsec | kiloparsec | megaparsec | astronomical | solar_radius | earth_radius
  | kilogram | gram | solar_mass | jupiter_mass | earth_mass | second | a_day | year | megayear | gigayear | kelvin | coulomb | electron
  | newton | dyne | joule | erg_ | gigajoule | watt | solar_luminosity | pascal | bar_ | tesla_ | gauss_ | ten40.
Definition base_unit (b : base) : dim * R :=
  match b with
  | metre => (Length, 1) | kilometre => (Length, powerRZ 10 3) | centimetre => (Length, powerRZ 10 (-2))
  | parsec => (Length, r_pc) | kiloparsec => (Length, powerRZ 10 3 * r_pc) | megaparsec => (Length, powerRZ 10 6 * r_pc)
  | astronomical => (Length, r_au) | solar_radius => (Length, r_sun) | earth_radius => (Length, r_earth)
  | kilogram => (Mass, 1) | gram => (Mass, powerRZ 10 (-3)) | solar_mass => (Mass, m_sun) | jupiter_mass => (Mass, m_jup) | earth_mass => (Mass, m_earth)
  | second => (Time, 1) | a_day => (Time, 24 * 60 * 60) | year => (Time, (3652425 / 10000) * 24 * 60 * 60)
  | megayear => (Time, powerRZ 10 6 * ((3652425 / 10000) * 24 * 60 * 60)) | gigayear => (Time, powerRZ 10 9 * ((3652425 / 10000) * 24 * 60 * 60))
  | kelvin => (Temperature, 1) | coulomb => (Charge, 1) | electron => (Charge, e_charge)
  | newton => (Force, 1) | dyne => (Mass ** Length // Time // Time, powerRZ 10 (-3) * powerRZ 10 (-2))
  | joule => (Energy, 1) | erg_ => (Mass ** Area // Time // Time, powerRZ 10 (-3) * powerRZ 10 (-2) * powerRZ 10 (-2)) | gigajoule => (Energy, powerRZ 10 9)
  | watt => (Power, 1) | solar_luminosity => (Power, L_sun) | pascal => (Force // Area, 1) | bar_ => (Force // Area, powerRZ 10 5)
  | tesla_ => (Force // (Charge ** Velocity), 1) | gauss_ => (Force // (Charge ** Velocity), powerRZ 10 (-4))
  | ten40 => (d0, powerRZ 10 40)
  end.
(** A product of powers of base units. *)
Definition prod_dim (l : list (base * Z)) : dim := fold_right (fun p d => dadd (dmul (snd p) (fst (base_unit (fst p)))) d) d0 l.
Definition prod_size (l : list (base * Z)) : R := fold_right (fun p x => powerRZ (snd (base_unit (fst p))) (snd p) * x) 1 l.

(** What each name means. *)
Definition meaning : list (quantity * string * list (base * Z)) :=
  [ (Qr, "mpc", [(megaparsec, 1%Z)]); (Qr, "kpc", [(kiloparsec, 1%Z)]); (Qr, "pc", [(parsec, 1%Z)]); (Qr, "au", [(astronomical, 1%Z)]);
    (Qr, "r_sun", [(solar_radius, 1%Z)]); (Qr, "r_earth", [(earth_radius, 1%Z)]); (Qr, "km", [(kilometre, 1%Z)]); (Qr, "m", [(metre, 1%Z)]);
    (Qr, "cm", [(centimetre, 1%Z)]);
    (Qm, "m_sun", [(solar_mass, 1%Z)]); (Qm, "m_jup", [(jupiter_mass, 1%Z)]); (Qm, "m_earth", [(earth_mass, 1%Z)]); (Qm, "kg", [(kilogram, 1%Z)]);
    (Qm, "g", [(gram, 1%Z)]);
    (Qt, "gyr", [(gigayear, 1%Z)]); (Qt, "myr", [(megayear, 1%Z)]); (Qt, "yr", [(year, 1%Z)]); (Qt, "day", [(a_day, 1%Z)]); (Qt, "s", [(second, 1%Z)]);
    (Qv, "km_s", [(kilometre, 1%Z); (second, (-1)%Z)]); (Qv, "au_yr", [(astronomical, 1%Z); (year, (-1)%Z)]); (Qv, "m_s", [(metre, 1%Z); (second, (-1)%Z)]);
    (Qv, "cm_s", [(centimetre, 1%Z); (second, (-1)%Z)]);
    (Qa, "km_s2", [(kilometre, 1%Z); (second, (-2)%Z)]); (Qa, "au_yr2", [(astronomical, 1%Z); (year, (-2)%Z)]);
    (Qa, "m_s2", [(metre, 1%Z); (second, (-2)%Z)]); (Qa, "cm_s2", [(centimetre, 1%Z); (second, (-2)%Z)]);
    (Qrho, "m_sun_pc3", [(solar_mass, 1%Z); (parsec, (-3)%Z)]); (Qrho, "kg_m3", [(kilogram, 1%Z); (metre, (-3)%Z)]);
    (Qrho, "g_cm3", [(gram, 1%Z); (centimetre, (-3)%Z)]);
    (Qsigma, "m_sun_pc2", [(solar_mass, 1%Z); (parsec, (-2)%Z)]); (Qsigma, "kg_m2", [(kilogram, 1%Z); (metre, (-2)%Z)]);
    (Qsigma, "g_cm2", [(gram, 1%Z); (centimetre, (-2)%Z)]);
    (Qpress, "Pa", [(pascal, 1%Z)]); (Qpress, "bar", [(bar_, 1%Z)]);
    (Qf, "N", [(newton, 1%Z)]); (Qf, "dyn", [(dyne, 1%Z)]);
    (QE, "J", [(joule, 1%Z)]); (QE, "erg", [(erg_, 1%Z)]); (QE, "GJ", [(gigajoule, 1%Z)]);
    (QE, "eV", [(electron, 1%Z); (joule, 1%Z); (coulomb, (-1)%Z)]); (QE, "10^40erg", [(ten40, 1%Z); (erg_, 1%Z)]);
    (Qmom, "m_sunkm_s", [(solar_mass, 1%Z); (kilometre, 1%Z); (second, (-1)%Z)]);
    (Qmom, "m_sunau_yr", [(solar_mass, 1%Z); (astronomical, 1%Z); (year, (-1)%Z)]);
    (Qmom, "kgm_s", [(kilogram, 1%Z); (metre, 1%Z); (second, (-1)%Z)]); (Qmom, "gcm_s", [(gram, 1%Z); (centimetre, 1%Z); (second, (-1)%Z)]);
    (Qangmom, "m_sunkm2_s", [(solar_mass, 1%Z); (kilometre, 2%Z); (second, (-1)%Z)]);
    (Qangmom, "m_sunau2_yr", [(solar_mass, 1%Z); (astronomical, 2%Z); (year, (-1)%Z)]);
    (Qangmom, "kgm2_s", [(kilogram, 1%Z); (metre, 2%Z); (second, (-1)%Z)]); (Qangmom, "gcm2_s", [(gram, 1%Z); (centimetre, 2%Z); (second, (-1)%Z)]);
    (Qangvel, "rad_s", [(second, (-1)%Z)]);
    (Qdmdt, "m_sun_myr", [(solar_mass, 1%Z); (megayear, (-1)%Z)]); (Qdmdt, "m_sun_yr", [(solar_mass, 1%Z); (year, (-1)%Z)]);
    (Qdmdt, "kg_s", [(kilogram, 1%Z); (second, (-1)%Z)]); (Qdmdt, "g_s", [(gram, 1%Z); (second, (-1)%Z)]);
    (QL, "L_sun", [(solar_luminosity, 1%Z)]); (QL, "W", [(watt, 1%Z)]); (QL, "erg_s", [(erg_, 1%Z); (second, (-1)%Z)]);
    (Qkappa, "m2_kg", [(metre, 2%Z); (kilogram, (-1)%Z)]); (Qkappa, "cm2_g", [(centimetre, 2%Z); (gram, (-1)%Z)]);
    (QB, "tesla", [(tesla_, 1%Z)]); (QB, "gauss", [(gauss_, 1%Z)]);
    (QQ, "C", [(coulomb, 1%Z)]); (QQ, "e", [(electron, 1%Z)]);
    (QJcur, "C_s_m2", [(coulomb, 1%Z); (second, (-1)%Z); (metre, (-2)%Z)]);
    (Qu, "J_kg", [(joule, 1%Z); (kilogram, (-1)%Z)]); (Qu, "erg_g", [(erg_, 1%Z); (gram, (-1)%Z)]);
    (Qdudt, "J_kg_s", [(joule, 1%Z); (kilogram, (-1)%Z); (second, (-1)%Z)]); (Qdudt, "erg_g_s", [(erg_, 1%Z); (gram, (-1)%Z); (second, (-1)%Z)]);
    (Qtemp, "K", [(kelvin, 1%Z)]) ].

(** What an array handed to Python holds ([None]: a number). *)
Definition array_dim : list (string * option dim) :=
  [("x", Some Length); ("y", Some Length); ("z", Some Length); ("h", Some Length); ("sma", Some Length);
   ("vx", Some Velocity); ("vy", Some Velocity); ("vz", Some Velocity);
   ("ax", Some Acceleration); ("ay", Some Acceleration); ("az", Some Acceleration);
   ("m", Some Mass); ("mbin", Some Mass); ("rho", Some (Mass // Volume)); ("u", Some (Energy // Mass)); ("dudt", Some (Energy // Mass // Time));
   ("period", Some Time); ("gpot", Some (Energy // Mass)); ("iorig", None); ("ecc", None); ("qbin", None)].
