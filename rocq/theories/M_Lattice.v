(** Initial positions: Ic.cpp:440-459 AddRandomBox, 504-577 AddLatticeSphere, 629-692
    AddCubicLattice, 701-764 AddHexagonalLattice, 775-840 CutSphere, the stretching of
    EvrardCollapseIc.cpp:96-107, and 586-618 Addr2Sphere.  FLOAT is R. *)
From Verif Require Import Prelude Vec M_Box M_Matrix.
From Coq Require Import Reals.
Local Open Scope R_scope.

(** Constants.h:72-73. *)
Definition big_number : R := 99 / 10 * 10 ^ 20.
Definition small_number : R := / 10 ^ 20.

(** Ic.cpp:451-455; [rs]: the random numbers still to come. *)
Definition AddRandomBox (ndim Npart : nat) (bmin bmax : vec) (rs : nat -> R) : list vec :=
  map (fun i : nat => (fun k => bmin k + (bmax k - bmin k) * rs (ndim * i + k)%nat) : vec) (seq 0 Npart).

(** for (i=0; i<n; i++). *)
Definition zupto (n : Z) : list Z := map Z.of_nat (seq 0 (Z.to_nat n)).
(** Ic.cpp:660-687 and 727-759: the order of the loops and the particle number; the OpenMP loop
    over kk writes disjoint entries, so that its order does not matter. *)
Definition cells (ndim : nat) (N : nat -> Z) : list (Z * Z * Z) :=
  match ndim with
  | 1%nat => map (fun ii => (ii, 0, 0)%Z) (zupto (N 0%nat))
  | 2%nat => flat_map (fun jj => map (fun ii => (ii, jj, 0)%Z) (zupto (N 0%nat))) (zupto (N 1%nat))
  | 3%nat => flat_map (fun kk => flat_map (fun jj => map (fun ii => (ii, jj, kk)) (zupto (N 0%nat))) (zupto (N 1%nat))) (zupto (N 2%nat))
  | _ => []
  end.
Definition number (ndim : nat) (N : nat -> Z) (c : Z * Z * Z) : Z :=
  let '(ii, jj, kk) := c in
  match ndim with
  | 1%nat => ii
  | 2%nat => jj * N 0%nat + ii
  | _ => kk * N 0%nat * N 1%nat + jj * N 0%nat + ii
  end%Z.
(** r[ndim*i + k] = ... for all cells, one write after the other. *)
Fixpoint store (ws : list (Z * R)) (a : list R) : res (list R) :=
  match ws with
  | [] => Ok a
  | (i, x) :: l => let! a := aset a i x in store l a
  end.
Definition lattice (ndim : nat) (N : nat -> Z) (coord : Z * Z * Z -> vec) (a : list R) : res (list R) :=
  store (flat_map (fun c => map (fun k => (Z.of_nat ndim * number ndim N c + Z.of_nat k, coord c k)%Z) (seq 0 ndim)) (cells ndim N)) a.

(** Ic.cpp:644-653. *)
Definition spacing (N : nat -> Z) (bmin bmax : vec) (normalise : bool) : vec := fun k =>
  if normalise then (bmax 0%nat - bmin 0%nat) / IZR (N 0%nat) else (bmax k - bmin k) / IZR (N k).
(** Ic.cpp:658-688. *)
Definition cubic_coord (s bmin : vec) (c : Z * Z * Z) : vec := fun k =>
  let '(ii, jj, kk) := c in
  match k with
  | 0%nat => bmin 0%nat + (IZR ii + 1 / 2) * s 0%nat
  | 1%nat => bmin 1%nat + (IZR jj + 1 / 2) * s 1%nat
  | _ => bmin 2%nat + (IZR kk + 1 / 2) * s 2%nat
  end.
Definition AddCubicLattice (ndim : nat) (N : nat -> Z) (bmin bmax : vec) (normalise : bool) (a : list R) : res (list R) :=
  lattice ndim N (cubic_coord (spacing N bmin bmax normalise) bmin) a.

(** Ic.cpp:717-722. *)
Definition hex_rad (N : nat -> Z) (bmin bmax : vec) (normalise : bool) : vec := fun k =>
  if normalise then 1 / 2 * (bmax 0%nat - bmin 0%nat) / IZR (N 0%nat) else 1 / 2 * (bmax k - bmin k) / IZR (N k).
(** Ic.cpp:727-759; % of non-negative numbers. *)
Definition hex_coord (ndim : nat) (rad bmin : vec) (c : Z * Z * Z) : vec := fun k =>
  let '(ii, jj, kk) := c in
  match ndim, k with
  | 1%nat, _ => bmin 0%nat + 1 / 2 * rad 0%nat + 2 * IZR ii * rad 0%nat
  | 2%nat, 0%nat => bmin 0%nat + 1 / 2 * rad 0%nat + (2 * IZR ii + IZR (jj mod 2)) * rad 0%nat
  | 2%nat, _ => bmin 1%nat + 1 / 2 * sqrt 3 * rad 1%nat + IZR jj * sqrt 3 * rad 1%nat
  | _, 0%nat => bmin 0%nat + 1 / 2 * rad 0%nat + (2 * IZR ii + IZR (jj mod 2) + IZR ((kk + 1) mod 2)) * rad 0%nat
  | _, 1%nat => bmin 1%nat + 1 / 2 * sqrt 3 * rad 1%nat + IZR jj * sqrt 3 * rad 1%nat + IZR (kk mod 2) * rad 1%nat / sqrt 3
  | _, _ => bmin 2%nat + sqrt 6 * rad 2%nat / 3 + IZR kk * 2 * sqrt 6 * rad 2%nat / 3
  end.
Definition AddHexagonalLattice (ndim : nat) (N : nat -> Z) (bmin bmax : vec) (normalise : bool) (a : list R) : res (list R) :=
  lattice ndim N (hex_coord ndim (hex_rad N bmin bmax normalise) bmin) a.

(** *** CutSphere; the array as a list of points. *)
Definition within (ndim : nat) (rcentre : vec) (radius : R) (p : vec) : bool :=
  let dr := vsub p rcentre in rleb (dot ndim dr dr) (radius * radius).
(** Ic.cpp:807-814. *)
Definition interior (ndim : nat) (rcentre : vec) (pts : list vec) (radius : R) : Z :=
  zlen (filter (within ndim rcentre radius) pts).
(** Ic.cpp:805-825: do ... while; the radius at the end. *)
Fixpoint bisect (fuel : nat) (count : R -> Z) (Nsphere : Z) (r_low r_high : R) : res R :=
  match fuel with
  | O => NoFuel
  | S fuel =>
      let radius := 1 / 2 * (r_low + r_high) in
      let Ninterior := count radius in
      if ((Ninterior <? Nsphere)%Z && rltb (Rabs (r_high - r_low) / radius) (1 / 10 ^ 8))%bool then Ok radius
      else
        let r_high := if (Ninterior >? Nsphere)%Z then radius else r_high in
        let r_low := if (Ninterior <? Nsphere)%Z then radius else r_low in
        if (Ninterior =? Nsphere)%Z then Ok radius else bisect fuel count Nsphere r_low r_high
  end.
(** Ic.cpp:831-839: the array is packed in place and scaled; [i] and [Ninterior]. *)
Fixpoint pack (fuel ndim : nat) (rcentre : vec) (radius : R) (i Ninterior : Z) (a : list vec) : res (Z * list vec) :=
  match fuel with
  | O => Ok (Ninterior, a)
  | S fuel =>
      let! p := aget a i in
      if within ndim rcentre radius p then
        let! a := aset a Ninterior (fun k => p k / radius) in pack fuel ndim rcentre radius (i + 1)%Z (Ninterior + 1)%Z a
      else pack fuel ndim rcentre radius (i + 1)%Z Ninterior a
  end.
(** Ic.cpp:795-799. *)
Fixpoint half_edge (ndim : nat) (bmin bmax : vec) : R :=
  match ndim with O => big_number | S k => Rmin (half_edge k bmin bmax) (1 / 2 * (bmax k - bmin k)) end.
Definition box_centre (bmin bmax : vec) : vec := fun k => 1 / 2 * (bmin k + bmax k).
(** Ic.cpp:775-843. *)
Definition CutSphere (fuel ndim : nat) (Nsphere : Z) (bmin bmax : vec) (a : list vec) : res (Z * list vec) :=
  let rcentre := box_centre bmin bmax in
  let! radius := bisect fuel (interior ndim rcentre a) Nsphere 0 (half_edge ndim bmin bmax) in
  pack (length a) ndim rcentre radius 0 0 a.

(** The flat array read as points. *)
Definition point (ndim : nat) (a : list R) (p : nat) : vec := fun k => nth (ndim * p + k) a 0.
Definition points (ndim : nat) (a : list R) (n : Z) : list vec := map (point ndim a) (seq 0 (Z.to_nat n)).
(** Ic.cpp:552-566: [th], [ph], [ps] are the random angles; each point is rotated by itself
    (EulerAngleArrayRotation does this, C32). *)
Definition rotate (ndim : nat) (th ph ps : R) (p : vec) : vec :=
  match ndim with
  | 2%nat => fun k => match k with 0%nat => p 0%nat * cos th - p 1%nat * sin th | _ => p 0%nat * sin th + p 1%nat * cos th end
  | 3%nat => EulerAngleRotation ph th ps p
  | _ => p
  end.
(** Ic.cpp:504-577; [Nl] is (int) (3.0*powf(Npart, 1/ndim)), whose rounding is left open; [hex]:
    the choice of lattice; the array raux is given before it is filled. *)
Definition AddLatticeSphere (fuel ndim : nat) (Npart Nl : Z) (rcentre : vec) (radius : R) (hex : bool) (th ph ps : R) (raux : list R) :
    res (Z * list vec) :=
  let N : nat -> Z := fun _ => Nl in
  let bmin : vec := fun _ => -2 in
  let bmax : vec := fun _ => 2 in
  let Naux := (Nl ^ Z.of_nat ndim)%Z in
  let! raux := (if hex then AddHexagonalLattice ndim N bmin bmax true raux else AddCubicLattice ndim N bmin bmax true raux) in
  let! (M, pts) := CutSphere fuel ndim Npart bmin bmax (points ndim raux Naux) in
  if (M <=? Npart)%Z then
    Ok (M, map (fun p k => rcentre k + radius * rotate ndim th ph ps p k) (firstn (Z.to_nat M) pts))
  else Raise.

(** EvrardCollapseIc.cpp:96-103: the stretching of the sphere made with the same radius. *)
Definition evrard_stretch (ndim : nat) (radius : R) (ri : vec) : vec :=
  let r := sqrt (dot ndim ri ri + small_number) in
  let rnew := radius * r * sqrt r in
  fun k => ri k * rnew / r.

(** Ic.cpp:586-618 Addr2Sphere: r[ndim*i + 0], 1 and 2 are written in every dimension; [rs] are
    the random numbers, three for each particle; [rcentre] is not used. *)
Definition r2_point (radius : R) (rs : nat -> R) (i : nat) : vec := fun k =>
  let phi := 2 * PI * rs (3 * i)%nat in
  let costheta := 2 * rs (3 * i + 1)%nat - 1 in
  let sintheta := sin (acos costheta) in
  let rpart := radius * rs (3 * i + 2)%nat in
  match k with 0%nat => rpart * sintheta * cos phi | 1%nat => rpart * sintheta * sin phi | _ => rpart * costheta end.
Definition Addr2Sphere (ndim Npart : nat) (rcentre : vec) (radius : R) (rs : nat -> R) (a : list R) : res (list R) :=
  store (flat_map (fun i => map (fun k => (Z.of_nat (ndim * i + k), r2_point radius rs i k)) (seq 0 3)) (seq 0 Npart)) a.
