(** What is asked of the forces between stars and of their integration: textbook sums and
    statements about derivatives, none of which mention the code. *)
From Verif Require Import Prelude Vec M_Periodic S_Periodic.
From Coq Require Import Reals.
From Coquelicot Require Import Coquelicot.
Local Open Scope R_scope.

(** No direction is periodic. *)
Definition no_wrap (n : nat) (b : dombox) : Prop := forall k, (k < n)%nat -> ~ periodic_dir b k.

(** Sum over all j < N other than i. *)
Definition others (N i : nat) (f : nat -> R) : R :=
  sumf N (fun j => if Nat.eqb i j then 0 else f j).

(** Point masses [m] at [X], the square of the separation increased by [e]:
    potential (with the sign that makes it positive) at [y] and attraction there due to all
    masses but number [i]. *)
Definition separation (n : nat) (e : R) (x y : vec) : R := sqrt (dot n (vsub x y) (vsub x y) + e).
Definition newton_pot (n N : nat) (e : R) (m : nat -> R) (X : nat -> vec) (i : nat) (y : vec) : R :=
  others N i (fun j => m j / separation n e (X j) y).
Definition newton_acc (n N : nat) (e : R) (m : nat -> R) (X : nat -> vec) (i k : nat) : R :=
  others N i (fun j => m j * (X j k - X i k) / separation n e (X j) (X i) ^ 3).

(** Softened: the mass of star j is spread with the mean of the two smoothing lengths;
    [grav] and [pot] are force and potential of a unit mass with unit smoothing length. *)
Definition hmean (h : nat -> R) (i j : nat) : R := (h i + h j) / 2.
Definition soft_pot (n N : nat) (pot : R -> R) (m h : nat -> R) (X : nat -> vec) (i : nat) (y : vec) : R :=
  others N i (fun j => m j * pot (separation n 0 (X j) y / hmean h i j) / hmean h i j).
Definition soft_acc (n N : nat) (grav : R -> R) (m h : nat -> R) (X : nat -> vec) (i k : nat) : R :=
  others N i (fun j => m j * grav (separation n 0 (X j) (X i) / hmean h i j) / hmean h i j ^ 2 *
                       ((X j k - X i k) / separation n 0 (X j) (X i))).

(** The point [y] with its component [k] replaced by [x]. *)
Definition with_comp (y : vec) (k : nat) (x : R) : vec := fun l => if Nat.eqb l k then x else y l.

(** [V] is the velocity of the motion [X] (of any number of bodies). *)
Definition velocity_of (X V : nat -> R -> vec) : Prop :=
  forall j k t, is_derive (fun u => X j u k) t (V j t k).

(** Total of a vector quantity weighted by mass, and total angular quantity. *)
Definition total (N : nat) (m : nat -> R) (F : nat -> vec) (k : nat) : R := sumf N (fun i => m i * F i k).
Definition torque (N : nat) (m : nat -> R) (X F : nat -> vec) (k l : nat) : R :=
  sumf N (fun i => m i * (X i k * F i l - X i l * F i k)).

(** A motion of one coordinate with all derivatives D 0 = position, D 1 = velocity, ... *)
Definition derivatives (D : nat -> R -> R) : Prop :=
  forall p t, is_derive (D p) t (D (S p) t).
(** [f] stays below [M] in absolute value between t0 and t0 + dt. *)
Definition bounded_on (f : R -> R) (t0 dt M : R) : Prop :=
  forall t, t0 <= t <= t0 + dt -> Rabs (f t) <= M.

(** Aarseth's criterion for the length of a step, from an acceleration and its first three
    derivatives. *)
Definition aarseth (n : nat) (a j s c : vec) : R :=
  sqrt ((Vec.norm n a * Vec.norm n s + Vec.norm n j ^ 2) / (Vec.norm n j * Vec.norm n c + Vec.norm n s ^ 2)).
