(** Construction of ghost images: GhostNeighbours.hpp:41-109 and 228-490, the reflection of
    Particle.h:601-615. *)
From Verif Require Import Prelude Vec M_Box M_Util M_Periodic.
From Coq Require Import Reals NArith.
Local Open Scope R_scope.

(** The particle fields used; the other fields are copied and are represented by [gp_id]. *)
Record gpart := { gp_id : Z; gp_r : vec; gp_v : vec; gp_a : vec; gp_h2 : R; gp_fl : N }.

(** Particle.h:601-607 (and 609-614) reflect. *)
Definition reflect (p : gpart) (k : nat) (x : R) : gpart :=
  {| gp_id := gp_id p; gp_r := vset (gp_r p) k (2 * x - gp_r p k);
     gp_v := vset (gp_v p) k (gp_v p k * -1); gp_a := vset (gp_a p) k (gp_a p k * -1);
     gp_h2 := gp_h2 p; gp_fl := gp_fl p |}.
Definition set_flag (p : gpart) (f : N) : gpart :=
  {| gp_id := gp_id p; gp_r := gp_r p; gp_v := gp_v p; gp_a := gp_a p; gp_h2 := gp_h2 p; gp_fl := fl_set (gp_fl p) f |}.
Definition set_r (p : gpart) (r : vec) : gpart :=
  {| gp_id := gp_id p; gp_r := r; gp_v := gp_v p; gp_a := gp_a p; gp_h2 := gp_h2 p; gp_fl := gp_fl p |}.
Definition mirflag (k side : nat) : N := nth side (nth k mirror_bound_flags []) 0%N.

(** The target cell: GhostNeighbours.hpp:91-116 SetTargetCell. *)
Record target := { t_f : finder; t_centre : vec; t_cmin : vec; t_cmax : vec; t_hmin : vec; t_hmax : vec;
                   t_need : bool }.
Definition SetTargetCell (ndim : nat) (f : finder) (rcell bbmin bbmax hmin hmax : vec) : target :=
  {| t_f := f; t_centre := rcell; t_cmin := bbmin; t_cmax := bbmax; t_hmin := hmin; t_hmax := hmax;
     t_need := loopk ndim (fun k nd =>
        if f_anymir f then
          nd || ((f_mlhs f k && rltb (hmin k) (dmin (f_dom f) k)) || (f_mrhs f k && rltb (dmax (f_dom f) k) (hmax k)))
        else nd) false |}.

(** GhostNeighbours.hpp:234-243 MaxNumGhosts. *)
Definition b2z (b : bool) : Z := if b then 1%Z else 0%Z.
Definition MaxNumGhosts (ndim : nat) (f : finder) : Z :=
  if f_anymir f then loopk ndim (fun k m => (m * (1 + b2z (f_mlhs f k) + b2z (f_mrhs f k)))%Z) 1%Z else 1%Z.

(** GhostNeighbours.hpp:343-357 _MakePeriodicGhost. *)
Definition MakePeriodicGhost (ndim : nat) (t : target) (p : gpart) : gpart :=
  let dr := fun k => gp_r p k - t_centre t k in
  let '(bound, dr) := GF_NearestPeriodicVector ndim (t_f t) dr in
  let p := if is_periodic bound then set_r p (loopk ndim (fun k r => vset r k (t_centre t k + dr k)) (gp_r p)) else p in
  set_flag p bound.

(** The inner loops of GhostNeighbours.hpp:472-478 / 481-487: ngbs[nc] = reflected ngbs[n]. *)
Fixpoint refl_all (cnt : nat) (n : Z) (k : nat) (x : R) (fl : N) (ngbs : list gpart) (nc : Z) : res (list gpart * Z) :=
  match cnt with
  | O => Ok (ngbs, nc)
  | S c =>
      let! g := aget ngbs n in
      let! ngbs := aset ngbs nc (set_flag (reflect g k x) fl) in
      refl_all c (n + 1) k x fl ngbs (nc + 1)
  end.
(** GhostNeighbours.hpp:462-490 _MakeReflectedGhostsAll. *)
Definition MakeReflectedGhostsAll (ndim : nat) (t : target) (ngbs : list gpart) : res (list gpart * Z) :=
  loopk ndim (fun k acc =>
    let! (ngbs, nc) := acc in
    let Nghost := Z.to_nat nc in
    let! (ngbs, nc) := if f_mlhs (t_f t) k then refl_all Nghost 0 k (dmin (f_dom (t_f t)) k) (mirflag k 0) ngbs nc else Ok (ngbs, nc) in
    if f_mrhs (t_f t) k then refl_all Nghost 0 k (dmax (f_dom (t_f t)) k) (mirflag k 1) ngbs nc else Ok (ngbs, nc))
   (Ok (ngbs, 1%Z)).
(** GhostNeighbours.hpp:277-294 ConstructAllGhosts; [ngbs] is the caller's buffer. *)
Definition ConstructAllGhosts (ndim : nat) (t : target) (p : gpart) (ngbs : list gpart) : res (list gpart * Z) :=
  let! ngbs := aset ngbs 0 p in
  let! ngbs := if f_anyper (t_f t) then
      let! g := aget ngbs 0 in aset ngbs 0 (MakePeriodicGhost ndim t g) else Ok ngbs in
  if t_need t then MakeReflectedGhostsAll ndim t ngbs else Ok (ngbs, 1%Z).

(** std::vector: the elements, the capacity, and a counter of reallocations.  push_back on a
    full vector reallocates (any larger capacity; doubled here) and invalidates references. *)
Record vector := { vdata : list gpart; vcap : Z; vgen : Z }.
Definition push_back (v : vector) (x : gpart) : vector :=
  if (zlen (vdata v) <? vcap v)%Z then {| vdata := vdata v ++ [x]; vcap := vcap v; vgen := vgen v |}
  else {| vdata := vdata v ++ [x]; vcap := Z.max 1 (2 * vcap v); vgen := (vgen v + 1)%Z |}.
(** Reading through a reference taken at reallocation [gen] to element [i]. *)
Definition deref (v : vector) (gen i : Z) : res gpart :=
  if (gen =? vgen v)%Z then aget (vdata v) i else UB.
Definition set_back (v : vector) (x : gpart) : vector :=
  {| vdata := upd (vdata v) (length (vdata v) - 1) x; vcap := vcap v; vgen := vgen v |}.

(** GhostNeighbours.hpp:427-432 / 440-445: for n < Nghost: push_back(ngbs[n+old_size]),
    reflect and flag the new element. *)
Fixpoint refl_sg (cnt : nat) (n : Z) (k : nat) (x : R) (fl : N) (v : vector) (nc : Z) : res (vector * Z) :=
  match cnt with
  | O => Ok (v, nc)
  | S c =>
      let! g := aget (vdata v) n in
      let v := push_back v g in
      let! b := aget (vdata v) (zlen (vdata v) - 1) in
      refl_sg c (n + 1) k x fl (set_back v (set_flag (reflect b k x) fl)) (nc + 1)
  end.
(** GhostNeighbours.hpp:411-450 _MakeReflectedScatterGatherGhosts. *)
Definition MakeReflectedScatterGatherGhosts (ndim : nat) (t : target) (v : vector) : res (vector * Z) :=
  let old_size := (zlen (vdata v) - 1)%Z in
  let ref := vgen v in
  let! real := deref v ref old_size in
  let h2 := gp_h2 real in
  loopk ndim (fun k acc =>
    let! (v, nc) := acc in
    let Nghost := Z.to_nat nc in
    let! (v, nc) :=
      if f_mlhs (t_f t) k then
        let! real := deref v ref old_size in
        let x := 2 * dmin (f_dom (t_f t)) k - gp_r real k in
        let dx := x - t_cmin t k in
        if rltb (dx * dx) h2 || rltb (t_hmin t k) x
        then refl_sg Nghost old_size k (dmin (f_dom (t_f t)) k) (mirflag k 0) v nc else Ok (v, nc)
      else Ok (v, nc) in
    if f_mrhs (t_f t) k then
      let! real := deref v ref old_size in
      let x := 2 * dmax (f_dom (t_f t)) k - gp_r real k in
      let dx := x - t_cmax t k in
      if rltb (dx * dx) h2 || rltb x (t_hmax t k)
      then refl_sg Nghost old_size k (dmax (f_dom (t_f t)) k) (mirflag k 1) v nc else Ok (v, nc)
    else Ok (v, nc)) (Ok (v, 1%Z)).
(** GhostNeighbours.hpp:253-269 ConstructGhostsScatterGather. *)
Definition ConstructGhostsScatterGather (ndim : nat) (t : target) (p : gpart) (v : vector) : res (vector * Z) :=
  let v := push_back v p in
  let! v := if f_anyper (t_f t) then
      let! b := aget (vdata v) (zlen (vdata v) - 1) in Ok (set_back v (MakePeriodicGhost ndim t b)) else Ok v in
  if f_anymir (t_f t) then MakeReflectedScatterGatherGhosts ndim t v else Ok (v, 1%Z).
