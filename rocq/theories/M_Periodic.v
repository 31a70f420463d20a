(** Periodic and reflecting boundaries: DomainBox.h, GhostNeighbours.hpp:41-226,
    Common/Integration.cpp:11-85.  FLOAT values are reals. *)
From Verif Require Import Prelude Vec M_Box M_Util.
From Coq Require Import Reals NArith.
Local Open Scope R_scope.

(** DomainBox.h:39 boundaryEnum. *)
Inductive boundary := openB | periodicB | mirrorB | wallB.
Definition beq (a b : boundary) : bool :=
  match a, b with
  | openB, openB | periodicB, periodicB | mirrorB, mirrorB | wallB, wallB => true
  | _, _ => false
  end.

(** struct DomainBox, DomainBox.h:87-94. *)
Record dombox := { dmin : vec; dmax : vec; blhs : nat -> boundary; brhs : nat -> boundary;
                   dsize : vec; dhalf : vec }.

(** Simulation.cpp:1125-1143: size and half are computed from min and max. *)
Definition mkbox (lo hi : vec) (bl br : nat -> boundary) : dombox :=
  let size := fun k => hi k - lo k in
  {| dmin := lo; dmax := hi; blhs := bl; brhs := br; dsize := size; dhalf := fun k => 1/2 * size k |}.

(** for (int k=0; k<n; k++) s = body(k,s), and assignment to one component. *)
Definition loopk {S : Type} (n : nat) (body : nat -> S -> S) (s : S) : S :=
  fold_left (fun s k => body k s) (seq 0 n) s.
Definition vset (v : vec) (k : nat) (x : R) : vec := fun j => if Nat.eqb j k then x else v j.

(** DomainBox.h:221-237 NearestPeriodicVector: the three loops; result (dr, dr_corr).
    [junk] is the content of dr_corr before the call. *)
Definition NearestPeriodicVector (ndim : nat) (b : dombox) (dr junk : vec) : vec * vec :=
  let corr := loopk ndim (fun k c => vset c k 0) junk in
  let corr := loopk ndim (fun k c =>
    if beq (blhs b k) periodicB && beq (brhs b k) periodicB then
      if rltb (dhalf b k) (dr k) then vset c k (- dsize b k)
      else if rltb (dr k) (- dhalf b k) then vset c k (dsize b k)
      else c
    else c) corr in
  (loopk ndim (fun k d => vset d k (d k + corr k)) dr, corr).

(** class GhostNeighbourFinder, GhostNeighbours.hpp:52-66 SetBoundaryFlags.  The assertion
    that a periodic left side has a periodic right side is [Raise]. *)
Record finder := { f_dom : dombox; f_per : nat -> bool; f_mlhs : nat -> bool; f_mrhs : nat -> bool;
                   f_anyper : bool; f_anymir : bool }.
Definition mk_finder (ndim : nat) (b : dombox) : res finder :=
  if loopk ndim (fun k ok => ok && (negb (beq (blhs b k) periodicB) || beq (brhs b k) periodicB)) true
  then Ok {| f_dom := b; f_per := fun k => beq (blhs b k) periodicB;
             f_mlhs := fun k => beq (blhs b k) mirrorB; f_mrhs := fun k => beq (brhs b k) mirrorB;
             f_anyper := loopk ndim (fun k x => x || beq (blhs b k) periodicB) false;
             f_anymir := loopk ndim (fun k x => x || (beq (blhs b k) mirrorB || beq (brhs b k) mirrorB)) false |}
  else Raise.

(** periodic_bound_flags[k][side] for k < 3. *)
Definition perflag (k side : nat) : N := nth side (nth k periodic_bound_flags []) 0%N.

(** GhostNeighbours.hpp:119-138: result (bound, dr). *)
Definition GF_NearestPeriodicVector (ndim : nat) (f : finder) (dr : vec) : N * vec :=
  if f_anyper f then
    loopk ndim (fun k '(bound, dr) =>
      if f_per f k then
        if rltb (dhalf (f_dom f) k) (dr k) then (fl_set bound (perflag k 1), vset dr k (dr k - dsize (f_dom f) k))
        else if rltb (dr k) (- dhalf (f_dom f) k) then (fl_set bound (perflag k 0), vset dr k (dr k + dsize (f_dom f) k))
        else (bound, dr)
      else (bound, dr)) (flag_none, dr)
  else (flag_none, dr).

(** GhostNeighbours.hpp:146-166 ApplyPeriodicDistanceCorrection: result (bound, r, dr). *)
Definition ApplyPeriodicDistanceCorrection (ndim : nat) (f : finder) (r dr : vec) : N * vec * vec :=
  if f_anyper f then
    loopk ndim (fun k '(bound, r, dr) =>
      if f_per f k then
        if rltb (dhalf (f_dom f) k) (dr k) then
          (fl_set bound (perflag k 1), vset r k (r k + - dsize (f_dom f) k), vset dr k (dr k + - dsize (f_dom f) k))
        else if rltb (dr k) (- dhalf (f_dom f) k) then
          (fl_set bound (perflag k 0), vset r k (r k + dsize (f_dom f) k), vset dr k (dr k + dsize (f_dom f) k))
        else (bound, r, dr)
      else (bound, r, dr)) (flag_none, r, dr)
  else (flag_none, r, dr).

(** GhostNeighbours.hpp:174-195 PeriodicDistanceCorrection: result (bound, dr_corr).  The
    caller passes an uninitialised array, so components hold [None] until they are assigned. *)
Definition oset (v : nat -> option R) (k : nat) (x : R) : nat -> option R :=
  fun j => if Nat.eqb j k then Some x else v j.
Definition PeriodicDistanceCorrection (ndim : nat) (f : finder) (dr : vec) : N * (nat -> option R) :=
  if f_anyper f then
    loopk ndim (fun k '(bound, c) =>
      if f_per f k then
        if rltb (dhalf (f_dom f) k) (dr k) then (fl_set bound (perflag k 1), oset c k (- dsize (f_dom f) k))
        else if rltb (dr k) (- dhalf (f_dom f) k) then (fl_set bound (perflag k 0), oset c k (dsize (f_dom f) k))
        else (bound, oset c k 0)
      else (bound, c)) (flag_none, fun _ => None)
  else (flag_none, fun _ => None).

(** GhostNeighbours.hpp:202-226 PeriodicBoxOverlap.  Reading an unassigned component of
    dr_corr is [UB]. *)
Definition PeriodicBoxOverlap (ndim : nat) (f : finder) (min1 max1 min2 max2 : vec) : res bool :=
  if negb (f_anyper f) then Ok (BoxOverlap ndim min1 max1 min2 max2)
  else
    let dr := fun k => 1/2 * ((max2 k + min2 k) - (max1 k + min1 k)) in
    let '(bound, corr) := PeriodicDistanceCorrection ndim f dr in
    if is_periodic bound then
      let! (pmin, pmax) := loopk ndim (fun k (acc : res (vec * vec)) =>
        let! (pmin, pmax) := acc in
        match corr k with
        | None => UB
        | Some x => Ok (vset pmin k (min2 k + x), vset pmax k (max2 k + x))
        end) (Ok (fun _ => 0, fun _ => 0)) in
      Ok (BoxOverlap ndim min1 max1 pmin pmax)
    else Ok (BoxOverlap ndim min1 max1 min2 max2).

(** The fields of a particle touched at a boundary. *)
Record bpart := { br : vec; br0 : vec; bv : vec; bv0 : vec; ba : vec; ba0 : vec }.

(** Integration.cpp:34-76, one direction [k]: LHS test, then RHS test on the new position.
    Nbody.cpp:316-364 (stars) is the same text. *)
Definition shiftk (k : nat) (x : R) (p : bpart) : bpart :=
  {| br := vset (br p) k (br p k + x); br0 := vset (br0 p) k (br0 p k + x);
     bv := bv p; bv0 := bv0 p; ba := ba p; ba0 := ba0 p |}.
Definition reflk (k : nat) (x : R) (p : bpart) : bpart :=
  {| br := vset (br p) k (2 * x - br p k); br0 := vset (br0 p) k (2 * x - br0 p k);
     bv := vset (bv p) k (- bv p k); bv0 := vset (bv0 p) k (- bv0 p k);
     ba := vset (ba p) k (- ba p k); ba0 := vset (ba0 p) k (- ba0 p k) |}.
Definition check_lhs (b : dombox) (k : nat) (p : bpart) : bpart :=
  if rltb (br p k) (dmin b k) then
    let p := if beq (blhs b k) periodicB then shiftk k (dsize b k) p else p in
    if beq (blhs b k) mirrorB || beq (blhs b k) wallB then reflk k (dmin b k) p else p
  else p.
Definition check_rhs (b : dombox) (k : nat) (p : bpart) : bpart :=
  if rltb (dmax b k) (br p k) then
    let p := if beq (brhs b k) periodicB then shiftk k (- dsize b k) p else p in
    if beq (brhs b k) mirrorB || beq (brhs b k) wallB then reflk k (dmax b k) p else p
  else p.
Definition check_dir (b : dombox) (k : nat) (p : bpart) : bpart := check_rhs b k (check_lhs b k p).

(** Integration.cpp:11-85 CheckBoundaries on all particles. *)
Definition all_open (b : dombox) : bool :=
  beq (blhs b 0) openB && beq (brhs b 0) openB && beq (blhs b 1) openB && beq (brhs b 1) openB &&
  beq (blhs b 2) openB && beq (brhs b 2) openB.
Definition CheckBoundaries (ndim : nat) (b : dombox) (ps : list bpart) : list bpart :=
  if all_open b then ps else map (loopk ndim (check_dir b)) ps.
