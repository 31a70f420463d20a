(** Specifications for the utility functions. *)
From Verif Require Import Prelude M_Util.
From Coq Require Import NArith.

(** The elementary flags by name, in the order of their declaration. *)
Definition elementary : list N :=
  [dead; active; end_timestep; potmin; update_density; bad_gradients;
   x_periodic_lhs; y_periodic_lhs; z_periodic_lhs; x_periodic_rhs; y_periodic_rhs; z_periodic_rhs;
   x_mirror_lhs; y_mirror_lhs; z_mirror_lhs; x_mirror_rhs; y_mirror_rhs; z_mirror_rhs].
Definition periodic_flags : list N :=
  [x_periodic_lhs; y_periodic_lhs; z_periodic_lhs; x_periodic_rhs; y_periodic_rhs; z_periodic_rhs].
Definition mirror_flags : list N :=
  [x_mirror_lhs; y_mirror_lhs; z_mirror_lhs; x_mirror_rhs; y_mirror_rhs; z_mirror_rhs].

(** A history of calls on one flag word. *)
Inductive flag_op := SetTo (f : N) (v : bool) | Reset.
Definition run_op (x : N) (o : flag_op) : N :=
  match o with SetTo f v => fl_setv x f v | Reset => fl_reset x end.
(** What a user expects of a flag after a history: the last value written to it. *)
Fixpoint expected (f : N) (init : bool) (h : list flag_op) : bool :=
  match h with
  | [] => init
  | o :: rest =>
      expected f (match o with SetTo g v => if N.eqb g f then v else init | Reset => false end) rest
  end.

Local Open Scope Z_scope.
Fixpoint zsum (l : list Z) : Z := match l with [] => 0 | x :: t => x + zsum t end.
