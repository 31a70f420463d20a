(** Model of the particle storage: growth and removal of particles.
    [P] is the particle structure; [default] an element of a freshly allocated array. *)
From Verif Require Import Prelude.
Local Open Scope Z_scope.

Section Store.
Context {P : Type} (default : P).

(** The counters of class Hydrodynamics and the particle array. *)
Record store := mkstore { Nhydro : Z; Nghost : Z; Nhydromax : Z; data : list P }.

(** GradhSph::AllocateMemory, src/GradhSph/GradhSph.cpp:80-107, and MeshlessFV::AllocateMemory,
    src/MeshlessFV/MeshlessFV.cpp:93-118, when memory has already been allocated: a larger
    array is allocated, the first Nhydromax entries are copied, the old one is freed. *)
Definition copy_into (n : Z) (src dst : list P) : res (list P) :=
  if (0 <=? n) && (n <=? zlen src) && (n <=? zlen dst)
  then Ok (firstn (Z.to_nat n) src ++ skipn (Z.to_nat n) dst) else UB.
Definition AllocateMemory (N : Z) (s : store) : res store :=
  let! s :=
    (if Nhydromax s <? N
     then let! d := copy_into (Nhydromax s) (data s) (repeat default (Z.to_nat N)) in
          Ok (mkstore (Nhydro s) (Nghost s) N d)
     else Ok s) in
  if Nhydro s <=? Nhydromax s then Ok s else Raise.

(** Hydrodynamics::CreateNewParticle, src/Hydrodynamics/Hydrodynamics.cpp:132-179; the fields
    written to the new particle are abstracted to the value [p].  (int)(1.2*Nhydromax) is
    the integer part of 6*Nhydromax/5 (rounding of the double product does not change it:
    the exact value is an integer or at least 1/5 away from the next one). *)
Definition CreateNewParticle (p : P) (s : store) : res store :=
  let! s :=
    (if Nhydromax s <=? Nhydro s
     then AllocateMemory (6 * Nhydromax s / 5) s
     else Ok s) in
  let inew := Nhydro s in
  let! d := aset (data s) inew p in
  Ok (mkstore (Nhydro s + 1) (Nghost s) (Nhydromax s) d).

(** Hydrodynamics::CreateBoundaryGhostParticle, Hydrodynamics.cpp:259-289; [f] is the change
    of position, velocity and flags of the copy; 1.1*Nhydromax+1 converted to int. *)
Definition CreateBoundaryGhostParticle (i : Z) (f : P -> P) (s : store) : res store :=
  let! s :=
    (if Nhydromax s <=? Nhydro s + Nghost s
     then AllocateMemory ((11 * Nhydromax s + 10) / 10) s
     else Ok s) in
  let id := Nhydro s + Nghost s in
  let! o := aget (data s) i in
  let! d := aset (data s) id (f o) in
  Ok (mkstore (Nhydro s) (Nghost s + 1) (Nhydromax s) d).

(** Hydrodynamics::DoDeleteDeadParticles, src/Headers/Hydrodynamics.h:157-204.  [isdead]
    reads the dead flag, [kill] sets it and zeroes the mass.  The inner loop runs while the
    particle in slot i is dead. *)
Variable isdead : P -> bool.
Variable kill : P -> P.
Fixpoint fill_slot (fuel : nat) (i ilast Ndead : Z) (d : list P) : res (list P * Z * Z) :=
  match fuel with
  | O => NoFuel
  | S fuel =>
      let! p := aget d i in
      if isdead p then
        let Ndead := Ndead + 1 in
        let ilast := ilast - 1 in
        if i <? ilast then
          let! q := aget d ilast in
          let! d := aset d i q in
          let! q' := aget d ilast in
          let! d := aset d ilast (kill q') in
          fill_slot fuel i ilast Ndead d
        else Ok (d, ilast, Ndead)
      else Ok (d, ilast, Ndead)
  end.
Fixpoint compact (fuel : nat) (i n ilast Ndead : Z) (d : list P) : res (list P * Z) :=
  match fuel with
  | O => NoFuel
  | S fuel =>
      if n <=? i then Ok (d, Ndead)
      else
        let! (d, ilast, Ndead) := fill_slot (S (Z.to_nat n)) i ilast Ndead d in
        if ilast - 1 <=? i then Ok (d, Ndead) else compact fuel (i + 1) n ilast Ndead d
  end.
(** The final assertion (no dead particle below Nhydro) is modelled. *)
Fixpoint no_dead (n : nat) (i : Z) (d : list P) : res unit :=
  match n with
  | O => Ok tt
  | S m => let! p := aget d i in if isdead p then Raise else no_dead m (i + 1) d
  end.
Definition DoDeleteDeadParticles (n : Z) (d : list P) : res (list P * Z * Z) :=
  let! (d, Ndead) := compact (S (Z.to_nat n)) 0 n n 0 d in
  if Ndead =? 0 then Ok (d, n, Ndead)
  else let! _ := no_dead (Z.to_nat (n - Ndead)) 0 d in
       Ok (d, n - Ndead, Ndead).
End Store.
Arguments mkstore {P}.
