(** Rendered images: Common/Render.cpp:98-423, and the line-of-sight table of the kernel,
    Hydrodynamics/TabulatedKernel.cpp:143-181.  SNAPFLOAT is R; conversions to int do not
    overflow; the particles are added one after the other (the OpenMP loop adds atomically). *)
From Verif Require Import Prelude M_Box.
From Coq Require Import Reals.
Local Open Scope R_scope.

(** The arrays of a snapshot that are read, for one particle. *)
Record rpart := mkrp { r_x : R; r_y : R; r_z : R; r_f : R; r_m : R; r_rho : R; r_h : R }.

(** Conversion to int: towards zero. *)
Definition trunc (r : R) : Z := if rltb r 0 then (- Int_part (- r))%Z else Int_part r.
(** Render.cpp:210-213: one of imin, imax, jmin, jmax. *)
Definition clamp (n : Z) (r : R) : Z := Z.min (n - 1) (Z.max 0 (trunc r)).
Definition zseq (lo hi : Z) : list Z := map (fun k => (lo + Z.of_nat k)%Z) (seq 0 (Z.to_nat (hi - lo + 1))).

(** Render.cpp:223. *)
Definition cell (ix iy ii jj : Z) : Z := (ii + (iy - jj - 1) * ix)%Z.
(** Render.cpp:222-237: the loop over pixels [(jj, ii)]; [w] is wnorm*wkern. *)
Fixpoint draw_pixels (ix iy : Z) (f : R) (w : Z -> Z -> R) (l : list (Z * Z)) (s : list R * list R) : res (list R * list R) :=
  match l with
  | [] => Ok s
  | (jj, ii) :: l =>
      let c := cell ix iy ii jj in
      let! v := aget (fst s) c in
      let! vs := aset (fst s) c (v + w ii jj * f) in
      let! n := aget (snd s) c in
      let! ns := aset (snd s) c (n + w ii jj) in
      draw_pixels ix iy f w l (vs, ns)
  end.
(** Render.cpp:202-241 and 369-410 for one particle: limits and pixels. *)
Definition draw (ix iy : Z) (kernrange xmin ymin dx dy : R) (w : Z -> Z -> R) (p : rpart) (s : list R * list R) : res (list R * list R) :=
  let hrange := kernrange * r_h p in
  let imin := clamp ix ((r_x p - hrange - xmin) * (1 / dx)) in
  let imax := clamp ix ((r_x p + hrange - xmin) * (1 / dx)) in
  let jmin := clamp iy ((r_y p - hrange - ymin) * (1 / dy)) in
  let jmax := clamp iy ((r_y p + hrange - ymin) * (1 / dy)) in
  draw_pixels ix iy (r_f p) w (list_prod (zseq jmin jmax) (zseq imin imax)) s.
Fixpoint draw_all (skip : rpart -> bool) (one : rpart -> list R * list R -> res (list R * list R)) (ps : list rpart) (s : list R * list R) : res (list R * list R) :=
  match ps with
  | [] => Ok s
  | p :: ps => if skip p then draw_all skip one ps s else let! s := one p s in draw_all skip one ps s
  end.
(** Render.cpp:247-249: where the weight is small the sum is left as it is. *)
Definition threshold : R := / 10 ^ 10.
Definition normalise (v n : R) : R := if rltb threshold n then v / n else v.
Definition finish (s : list R * list R) : list R := map (fun vn => normalise (fst vn) (snd vn)) (combine (fst s) (snd s)).
(** Render.cpp:205-206. *)
Definition outside (kernrange xmin xmax ymin ymax : R) (p : rpart) : bool :=
  let hrange := kernrange * r_h p in
  (rltb (r_x p + hrange) xmin || rltb xmax (r_x p - hrange) || rltb (r_y p + hrange) ymin || rltb ymax (r_y p - hrange))%bool.

(** Render.cpp:216-238; [Ngrid] = ixgrid*iygrid as allocated by analysis/commandsource.py:665. *)
Definition column_weight (ndim : nat) (w0 wLOS : R -> R) (xmin ymin dx dy : R) (p : rpart) (ii jj : Z) : R :=
  let invh := 1 / r_h p in
  let wnorm := r_m p / r_rho p * invh ^ ndim in
  let dr0 := xmin + dx * IZR ii - r_x p in
  let dr1 := ymin + dy * IZR jj - r_y p in
  let drmag := sqrt (dr0 * dr0 + dr1 * dr1) in
  let wkern := match ndim with 3%nat => wLOS (drmag * invh) | 2%nat => w0 (drmag * invh) | _ => 0 end in
  wnorm * wkern.
Definition CreateColumnRenderingGrid (ndim : nat) (kernrange : R) (w0 wLOS : R -> R) (ix iy : Z) (xmin xmax ymin ymax : R) (Ngrid : nat) (ps : list rpart) : res (list R) :=
  let dx := (xmax - xmin) / IZR ix in
  let dy := (ymax - ymin) / IZR iy in
  let! s := draw_all (outside kernrange xmin xmax ymin ymax)
              (fun p => draw ix iy kernrange xmin ymin dx dy (column_weight ndim w0 wLOS xmin ymin dx dy p) p) ps (repeat 0 Ngrid, repeat 0 Ngrid) in
  Ok (finish s).

(** Render.cpp:372-374. *)
Definition off_slice (kernrange zslice : R) (p : rpart) : bool :=
  let hrange := kernrange * r_h p in (rltb (r_z p + hrange) zslice || rltb zslice (r_z p - hrange))%bool.
(** Render.cpp:384-404. *)
Definition slice_weight (ndim : nat) (w0 : R -> R) (xmin ymin zslice dx dy : R) (p : rpart) (ii jj : Z) : R :=
  let invh := 1 / r_h p in
  let wnorm := r_m p / r_rho p * invh ^ ndim in
  let dr0 := xmin + dx * IZR ii - r_x p in
  let dr1 := ymin + dy * IZR jj - r_y p in
  let dr2 := zslice - r_z p in
  wnorm * w0 (sqrt (dr0 * dr0 + dr1 * dr1 + dr2 * dr2) * invh).
Definition CreateSliceRenderingGrid (ndim : nat) (kernrange : R) (w0 : R -> R) (ix iy : Z) (xmin xmax ymin ymax zslice : R) (Ngrid : nat) (ps : list rpart) : res (list R) :=
  let dx := (xmax - xmin) / IZR ix in
  let dy := (ymax - ymin) / IZR iy in
  let! s := draw_all (fun p => outside kernrange xmin xmax ymin ymax p || off_slice kernrange zslice p)%bool
              (fun p => draw ix iy kernrange xmin ymin dx dy (slice_weight ndim w0 xmin ymin zslice dx dy p) p) ps (repeat 0 Ngrid, repeat 0 Ngrid) in
  Ok (finish s).

(** TabulatedKernel.cpp:167-174: [n] = intsteps terms of the sum, for squared impact parameter [b2]. *)
Fixpoint los_sum (w0 : R -> R) (b2 step : R) (n : nat) : R :=
  match n with
  | O => 0
  | S j => los_sum w0 b2 step j + w0 (sqrt (step * INR j * (step * INR j) + b2)) * step
  end.
Definition intsteps : nat := 4000.
(** TabulatedKernel.cpp:158-178: entry [i] of the table. *)
Definition tableLOS (w0 : R -> R) (kernrange : R) (res : nat) (i : nat) : R :=
  let step := kernrange / INR res in
  let b2 := (INR i * step) ^ 2 in
  let dist := sqrt (kernrange * kernrange - b2) in
  2 * los_sum w0 b2 (dist / INR intsteps) intsteps.
(** SmoothingKernel.h:619-624. *)
Definition tableLookup (table : list R) (kernrange : R) (s : R) : R :=
  if rleb kernrange s then 0 else nth (Z.to_nat (trunc (s * (INR (length table) / kernrange)))) table 0.
