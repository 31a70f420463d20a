(** Specification of images: the smoothed value of a quantity at a point or along a line. *)
From Verif Require Import Prelude M_Render.
From Coq Require Import Reals.
Local Open Scope R_scope.

Fixpoint sum_over (l : list rpart) (f : rpart -> R) : R := match l with [] => 0 | p :: t => f p + sum_over t f end.
(** Weight of a particle at a point of the slice: its volume times its kernel. *)
Definition kernel_at (ndim : nat) (w : R -> R) (X Y Z : R) (p : rpart) : R :=
  r_m p / r_rho p * (w (sqrt ((X - r_x p) ^ 2 + (Y - r_y p) ^ 2 + (Z - r_z p) ^ 2) / r_h p) / r_h p ^ ndim).
(** The same in the plane, for images of two-dimensional runs. *)
Definition kernel2_at (w : R -> R) (X Y : R) (p : rpart) : R :=
  r_m p / r_rho p * (w (sqrt ((X - r_x p) ^ 2 + (Y - r_y p) ^ 2) / r_h p) / r_h p ^ 2).
(** Along a line of sight: the kernel integrated along the line is [los (b/h) / h^2]. *)
Definition los_at (los : R -> R) (X Y : R) (p : rpart) : R :=
  r_m p / r_rho p * (los (sqrt ((X - r_x p) ^ 2 + (Y - r_y p) ^ 2) / r_h p) / r_h p ^ 2).
Definition average (w : rpart -> R) (l : list rpart) : R := sum_over l (fun p => w p * r_f p) / sum_over l w.
(** Pixel [(ii, jj)] of an image given row by row from the top. *)
Definition pixel (ix iy : Z) (image : list R) (ii jj : Z) : R := nth (Z.to_nat ((iy - 1 - jj) * ix + ii)) image 0.
