(** Model of the stocking of KD-tree cells: KDTree.cpp:752-1085. *)
From Verif Require Import Prelude Vec M_KDTree M_Search.
From Coq Require Import Reals Lra.
Local Open Scope R_scope.

(** Constants.h: big_number = 9.9e20. *)
Definition big_number : R := 99 * 10 ^ 19.

(** The fields of a particle read by the tree (Particle.h:120-190). [p_grav] is
    gravmask[ptype]. *)
Record particle := mkpart {
  p_r : vec; p_v : vec; p_h : R; p_m : R; p_sound : R;
  p_dead : bool; p_active : bool; p_grav : bool }.

(** The physical fields of TreeCellBase (TreeCell.h:17-49).  Not modelled: mac, amin,
    macfactor, drmaxdt, dhmaxdt, worktot. *)
Record gcell := mkg {
  gN : Z; gNactive : Z;
  gm : R; ghmax : R; grmax : R; gmaxsound : R; gcdistsqd : R;
  gr : vec; gv : vec; grcell : vec;
  gbmin : vec; gbmax : vec; ghbmin : vec; ghbmax : vec; gvmin : vec; gvmax : vec;
  gq : vec }.

Definition zerov : vec := fun _ => 0.

(** KDTree.cpp:826-852: values before the summation. *)
Definition g_init : gcell :=
  mkg 0 0 0 0 0 0 big_number zerov zerov zerov
      (fun _ => big_number) (fun _ => - big_number) (fun _ => big_number) (fun _ => - big_number)
      (fun _ => big_number) (fun _ => - big_number) zerov.

(** [if (x < lo) lo = x] and [if (x > hi) hi = x]. *)
Definition lower (lo x : R) : R := if Rlt_dec x lo then x else lo.
Definition raise (hi x : R) : R := if Rlt_dec hi x then x else hi.

(** KDTree.cpp:877-904: contribution of one particle of a leaf. *)
Definition leaf_add (kernrange : R) (g : gcell) (p : particle) : gcell :=
  if p_dead p then g else
  let m' := if p_grav p then gm g + p_m p else gm g in
  let r' := if p_grav p then vadd (gr g) (vscal (p_m p) (p_r p)) else gr g in
  let v' := if p_grav p then vadd (gv g) (vscal (p_m p) (p_v p)) else gv g in
  mkg (gN g + 1) (if p_active p then (gNactive g + 1)%Z else gNactive g)
      m' (Rmax (ghmax g) (p_h p)) (grmax g) (Rmax (gmaxsound g) (p_sound p)) (gcdistsqd g)
      r' v' (grcell g)
      (fun k => lower (gbmin g k) (p_r p k)) (fun k => raise (gbmax g k) (p_r p k))
      (fun k => lower (ghbmin g k) (p_r p k - kernrange * p_h p))
      (fun k => raise (ghbmax g k) (p_r p k + kernrange * p_h p))
      (fun k => lower (gvmin g k) (p_v p k)) (fun k => raise (gvmax g k) (p_v p k))
      (gq g).

(** KDTree.cpp:925-944 and 1005-1055: the quadrupole terms of a mass [m] at offset [d];
    q[0..4] = xx, xy, yy, zx, zy for ndim = 3, q[0..2] for ndim = 2, q[0] for ndim = 1. *)
Definition quad_term (ndim : nat) (m : R) (d : vec) : vec := fun k =>
  let d2 := dot ndim d d in
  match ndim, k with
  | 3%nat, 0%nat | 2%nat, 0%nat | 1%nat, 0%nat => m * (3 * d 0%nat * d 0%nat - d2)
  | 3%nat, 1%nat | 2%nat, 1%nat => m * 3 * d 0%nat * d 1%nat
  | 3%nat, 2%nat | 2%nat, 2%nat => m * (3 * d 1%nat * d 1%nat - d2)
  | 3%nat, 3%nat => m * 3 * d 2%nat * d 0%nat
  | 3%nat, 4%nat => m * 3 * d 2%nat * d 1%nat
  | _, _ => 0
  end.

(** KDTree.cpp:914-919 and 994-1002. *)
Definition set_sphere (ndim : nat) (thetamaxsqd : R) (g : gcell) : gcell :=
  if (0 <? gN g)%Z then
    let dr : vec := fun k => (1/2) * (gbmax g k - gbmin g k) in
    mkg (gN g) (gNactive g) (gm g) (ghmax g) (sqrt (dot ndim dr dr)) (gmaxsound g)
        (Rmax (dot ndim dr dr) (ghmax g * ghmax g) / thetamaxsqd)
        (gr g) (gv g) (fun k => (1/2) * (gbmin g k + gbmax g k))
        (gbmin g) (gbmax g) (ghbmin g) (ghbmax g) (gvmin g) (gvmax g) (gq g)
  else g.

Definition set_q (q : vec) (g : gcell) : gcell :=
  mkg (gN g) (gNactive g) (gm g) (ghmax g) (grmax g) (gmaxsound g) (gcdistsqd g) (gr g) (gv g) (grcell g)
      (gbmin g) (gbmax g) (ghbmin g) (ghbmax g) (gvmin g) (gvmax g) q.
Definition set_rv (r v : vec) (g : gcell) : gcell :=
  mkg (gN g) (gNactive g) (gm g) (ghmax g) (grmax g) (gmaxsound g) (gcdistsqd g) r v (grcell g)
      (gbmin g) (gbmax g) (ghbmin g) (ghbmax g) (gvmin g) (gvmax g) (gq g).

(** KDTree.cpp:910-913: normalisation of the first moments. *)
Definition normalise (g : gcell) : gcell :=
  if Rlt_dec 0 (gm g) then set_rv (fun k => gr g k / gm g) (fun k => gv g k / gm g) g else g.

(** KDTree.cpp:875-948: a leaf with the particles [ps] (in list order); [quad] is
    need_quadrupole_moments. *)
Definition leaf_geo (ndim : nat) (kernrange thetamaxsqd : R) (quad : bool) (ps : list particle) : gcell :=
  let g := set_sphere ndim thetamaxsqd (normalise (fold_left (leaf_add kernrange) ps g_init)) in
  if quad then
    set_q (fold_left (fun q p => if negb (p_dead p) && p_grav p
                                 then vadd q (quad_term ndim (p_m p) (vsub (p_r p) (gr g))) else q)
                     ps (gq g)) g
  else g.

(** KDTree.cpp:958-985: bounds of a child with particles are merged into the cell. *)
Definition merge_child (g c : gcell) : gcell :=
  if (0 <? gN c)%Z then
    mkg (gN g) (gNactive g) (gm g) (Rmax (ghmax g) (ghmax c)) (grmax g)
        (Rmax (gmaxsound g) (gmaxsound c)) (gcdistsqd g) (gr g) (gv g) (grcell g)
        (fun k => Rmin (gbmin c k) (gbmin g k)) (fun k => Rmax (gbmax c k) (gbmax g k))
        (fun k => Rmin (ghbmin c k) (ghbmin g k)) (fun k => Rmax (ghbmax c k) (ghbmax g k))
        (fun k => Rmin (gvmin c k) (gvmin g k)) (fun k => Rmax (gvmax c k) (gvmax g k)) (gq g)
  else g.

(** KDTree.cpp:987-993. *)
Definition sum_children (g a b : gcell) : gcell :=
  let m := gm a + gm b in
  let g := mkg (gN a + gN b) (gNactive a + gNactive b) m (ghmax g) (grmax g) (gmaxsound g) (gcdistsqd g)
               (gr g) (gv g) (grcell g) (gbmin g) (gbmax g) (ghbmin g) (ghbmax g) (gvmin g) (gvmax g) (gq g) in
  if Rlt_dec 0 m then
    set_rv (fun k => (gm a * gr a k + gm b * gr b k) / m) (fun k => (gm a * gv a k + gm b * gv b k) / m) g
  else g.

(** KDTree.cpp:1005-1055: parallel-axis contribution of one child. *)
Definition add_quad (ndim : nat) (quad : bool) (g c : gcell) : gcell :=
  if quad then
    if Rlt_dec 0 (gm c)
    then set_q (vadd (vadd (gq g) (gq c)) (quad_term ndim (gm c) (vsub (gr c) (gr g)))) g
    else g
  else g.

(** KDTree.cpp:953-1057: an inner cell from its two children. *)
Definition node_geo (ndim : nat) (thetamaxsqd : R) (quad : bool) (a b : gcell) : gcell :=
  let g := merge_child (merge_child g_init a) b in
  let g := set_sphere ndim thetamaxsqd (sum_children g a b) in
  add_quad ndim quad (add_quad ndim quad g a) b.

(** Particle data as an array; the flags read by StockLists. *)
Fixpoint parts_of (pd : list particle) (ps : list Z) : res (list particle) :=
  match ps with
  | [] => Ok []
  | p :: ps' => let! x := aget pd p in let! l := parts_of pd ps' in Ok (x :: l)
  end.

Record tstate := mkts { ts_k : kst; ts_g : list gcell }.

(** KDTree.cpp:808- StockCellProperties(cell, partdata, true). The integer fields are
    handled by StockLists (M_KDTree.v). *)
Definition StockCellProperties (ndim : nat) (kernrange thetamaxsqd : R) (quad : bool)
    (pd : list particle) (ltot : Z) (c : Z) (s : tstate) : res tstate :=
  let! k0 := StockLists (map p_dead pd) ltot (ts_k s) c in
  let! k := aget (cells k0) c in
  let! lv := get_level k in
  if (lv =? ltot)%Z then
    let! l := read_list (S (length (inext k0))) (aget (inext k0)) (ifirst k) (ilast k) in
    let! ps := parts_of pd l in
    let! g' := aset (ts_g s) c (leaf_geo ndim kernrange thetamaxsqd quad ps) in
    Ok (mkts k0 g')
  else if negb (copen k =? -1)%Z then
    let! a := aget (ts_g s) (copen k) in
    let! k1 := aget (cells k0) (copen k) in
    let! b := aget (ts_g s) (cnext k1) in
    let! g' := aset (ts_g s) c (node_geo ndim thetamaxsqd quad a b) in
    Ok (mkts k0 g')
  else Ok (mkts k0 (ts_g s)).

(** KDTree.cpp:758-798 StockTree (the two children one after the other); one unit of
    fuel per level. *)
Fixpoint StockTree (fuel : nat) (ndim : nat) (kernrange thetamaxsqd : R) (quad : bool)
    (pd : list particle) (ltot : Z) (c : Z) (s : tstate) : res tstate :=
  match fuel with
  | O => NoFuel
  | S f =>
      let! k := aget (cells (ts_k s)) c in
      let! s' :=
        (if negb (copen k =? -1)%Z then
           let! k1 := aget (cells (ts_k s)) (copen k) in
           let! s1 := StockTree f ndim kernrange thetamaxsqd quad pd ltot (copen k) s in
           StockTree f ndim kernrange thetamaxsqd quad pd ltot (cnext k1) s1
         else Ok s) in
      StockCellProperties ndim kernrange thetamaxsqd quad pd ltot c s'
  end.

(** HydroTree.cpp:340-356: between two rebuilds the tree is re-stocked with the current
    particle data; [pds] are the particle arrays at the successive calls (particles have
    moved, changed or died in between).  The geometry left by BuildTree itself is that of
    one such call, as DivideTreeCell stocks every cell after its children
    (KDTree.cpp:471, 592). *)
Fixpoint stock_run (ndim : nat) (kernrange thetamaxsqd : R) (quad : bool) (ltot : Z)
    (pds : list (list particle)) (s : tstate) : res tstate :=
  match pds with
  | [] => Ok s
  | pd :: t =>
      let! s' := StockTree (S (Z.to_nat ltot)) ndim kernrange thetamaxsqd quad pd ltot 0 s in
      stock_run ndim kernrange thetamaxsqd quad ltot t s'
  end.
