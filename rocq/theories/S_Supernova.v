(** Specification for supernovae: mass, momentum and energy of a set of particles. *)
From Verif Require Import Prelude Vec M_Leapfrog M_Supernova.
From Coq Require Import Reals.
Local Open Scope R_scope.

Fixpoint total {A : Type} (f : A -> R) (l : list A) : R := match l with [] => 0 | x :: t => f x + total f t end.
Definition mass (l : list spart) : R := total s_m l.
Definition thermal (l : list spart) : R := total (fun p => s_m p * l_u (s_l p)) l.
Definition kinetic (ndim : nat) (l : list spart) : R := total (fun p => 1 / 2 * s_m p * dot ndim (l_v (s_l p)) (l_v (s_l p))) l.
Definition momentum (k : nat) (l : list spart) : R := total (fun p => s_m p * l_v (s_l p) k) l.
(** Distance to the supernova. *)
Definition away (ndim : nat) (c : vec) (p : spart) : R := norm ndim (vsub (l_r (s_l p)) c).
(** The particles at the indices [is]. *)
Fixpoint at_ (l : list spart) (is : list Z) : list spart :=
  match is with [] => [] | i :: t => match nth_error l (Z.to_nat i) with Some p => [p] | None => [] end ++ at_ l t end.
(** Number of calls that made a supernova. *)
Definition made (l : list bool) : nat := length (filter (fun b => b) l).
