(** Tabulated kernels: src/Headers/SmoothingKernel.h:583-663 and src/Hydrodynamics/TabulatedKernel.cpp:58-96,
    in the arithmetic of the machine.  FLOAT is IEEE-754 binary64 (PRECISION = DOUBLE, prec = 53,
    emax = 1024) or binary32 (PRECISION = SINGLE, prec = 24, emax = 128) with rounding to nearest,
    ties to even.  The tables of the line of sight integral (TabulatedKernel.cpp:145-182) are looked up
    by the same function; how that table is filled is left out. *)
From Verif Require Import Prelude.
From Flocq Require Import Core BinarySingleNaN.
Local Open Scope Z_scope.

Section Table.
Context (prec emax : Z) {Hprec : Prec_gt_0 prec} {Hmax : Prec_lt_emax prec emax}.
Notation FLOAT := (binary_float prec emax).

(** Conversion of an int. *)
Definition of_int (n : Z) : FLOAT := binary_normalize prec emax Hprec Hmax mode_NE n 0 false.

(** TabulatedKernel.cpp:71-72: res/kernrange. *)
Definition resinv (kernrange : FLOAT) (res : Z) : FLOAT := Bdiv mode_NE (of_int res) kernrange.

(** SmoothingKernel.h:583-588 initializeTable. *)
Definition initializeTable (kernrange : FLOAT) (res : Z) (f : FLOAT -> FLOAT) : list FLOAT :=
  let step := Bdiv mode_NE kernrange (of_int res) in
  map (fun i => f (Bmult mode_NE step (of_int (Z.of_nat i)))) (seq 0 (Z.to_nat res)).
(** SmoothingKernel.h:607-612 initializeTableSqd. *)
Definition initializeTableSqd (kernrangesqd : FLOAT) (res : Z) (f : FLOAT -> FLOAT) : list FLOAT :=
  let step := Bdiv mode_NE kernrangesqd (of_int res) in
  map (fun i => f (Bsqrt mode_NE (Bmult mode_NE step (of_int (Z.of_nat i))))) (seq 0 (Z.to_nat res)).

(** [table[(int) indexf]]; the conversion of an infinity or a NaN is undefined. *)
Definition entry (table : list FLOAT) (indexf : FLOAT) : res FLOAT :=
  if is_finite indexf then aget table (Btrunc indexf) else UB.
(** SmoothingKernel.h:619-624 tableLookup and, with kernrangesqd, 632-637 tableLookupSqd. *)
Definition tableLookup (kernrange : FLOAT) (res : Z) (table : list FLOAT) (s : FLOAT) : Prelude.res FLOAT :=
  if Bleb kernrange s then Ok (of_int 0) else entry table (Bmult mode_NE s (resinv kernrange res)).
Definition tableLookupSqd (kernrangesqd : FLOAT) (res : Z) (table : list FLOAT) (s : FLOAT) : Prelude.res FLOAT :=
  if Bleb kernrangesqd s then Ok (of_int 0) else entry table (Bmult mode_NE s (resinv kernrangesqd res)).
(** SmoothingKernel.h:645-650 GravTableLookup. *)
Definition GravTableLookup (kernrange : FLOAT) (res : Z) (table : list FLOAT) (s : FLOAT) : Prelude.res FLOAT :=
  if Bleb kernrange s then Ok (Bdiv mode_NE (of_int 1) (Bmult mode_NE s s))
  else entry table (Bmult mode_NE s (resinv kernrange res)).
(** SmoothingKernel.h:658-663 GravPotTableLookup. *)
Definition GravPotTableLookup (kernrange : FLOAT) (res : Z) (table : list FLOAT) (s : FLOAT) : Prelude.res FLOAT :=
  if Bleb kernrange s then Ok (Bdiv mode_NE (of_int 1) s)
  else entry table (Bmult mode_NE s (resinv kernrange res)).
End Table.

(** Makefile:26 PRECISION and Headers/Precision.h:44-48. *)
Inductive precision := Single | Double.
Definition prec_of (p : precision) : Z := match p with Single => 24 | Double => 53 end.
Definition emax_of (p : precision) : Z := match p with Single => 128 | Double => 1024 end.
Global Instance prec_of_pos p : Prec_gt_0 (prec_of p).
Proof. destruct p; reflexivity. Defined.
Global Instance prec_of_lt p : Prec_lt_emax (prec_of p) (emax_of p).
Proof. destruct p; reflexivity. Defined.
Definition FLOAT (p : precision) : Type := binary_float (prec_of p) (emax_of p).

(** The ranges: M4Kernel.cpp:39-41, QuinticKernel.cpp:39-41, GaussianKernel.cpp:40-42; the resolution
    of every table: SmoothingKernel.h:668 with Hydrodynamics.cpp:63 and Nbody.cpp:64. *)
Inductive kernel_name := M4 | Quintic | Gaussian.
Definition kernrange (k : kernel_name) : Z := match k with M4 => 2 | Quintic => 3 | Gaussian => 3 end.
Definition kernrangesqd (k : kernel_name) : Z := match k with M4 => 4 | Quintic => 9 | Gaussian => 9 end.
Definition table_res : Z := 1000.
Section Kernel.
Variables (p : precision) (k : kernel_name) (f : FLOAT p -> FLOAT p).
Notation "'fl' n" := (of_int (prec_of p) (emax_of p) n) (at level 9).
(** The members of TabulatedKernel, SmoothingKernel.h:702-760, for the table of a function [f] of
    the kernel (TabulatedKernel.cpp:88-98): w0, w1, womega, wzeta, wdrag; w0_s2, womega_s2, wzeta_s2;
    wgrav; wpot. *)
Definition tab_w (s : FLOAT p) : res (FLOAT p) :=
  tableLookup _ _ (fl (kernrange k)) table_res (initializeTable _ _ (fl (kernrange k)) table_res f) s.
Definition tab_w_s2 (s : FLOAT p) : res (FLOAT p) :=
  tableLookupSqd _ _ (fl (kernrangesqd k)) table_res (initializeTableSqd _ _ (fl (kernrangesqd k)) table_res f) s.
Definition tab_wgrav (s : FLOAT p) : res (FLOAT p) :=
  GravTableLookup _ _ (fl (kernrange k)) table_res (initializeTable _ _ (fl (kernrange k)) table_res f) s.
Definition tab_wpot (s : FLOAT p) : res (FLOAT p) :=
  GravPotTableLookup _ _ (fl (kernrange k)) table_res (initializeTable _ _ (fl (kernrange k)) table_res f) s.
End Kernel.
