(** What is expected of initial positions. *)
From Verif Require Import Prelude Vec.
From Coq Require Import Reals.
Local Open Scope R_scope.

(** The number of sites of a lattice with [N k] sites along each axis. *)
Fixpoint sites (ndim : nat) (N : nat -> Z) : nat :=
  match ndim with O => 1%nat | S k => (sites k N * Z.to_nat (N k))%nat end.
(** Position [k] of particle [p] in a flat array. *)
Definition xyz (ndim : nat) (a : list R) (p : nat) : vec := fun k => nth (ndim * p + k) a 0.
(** The cells of size [s] around the [n] points fill the box, without gap or overlap, and do
    not stick out. *)
Definition tiles (ndim n : nat) (pos : nat -> vec) (s bmin bmax : vec) : Prop :=
  (forall x : vec, (forall k, (k < ndim)%nat -> bmin k <= x k < bmax k) ->
     exists! p, (p < n)%nat /\ forall k, (k < ndim)%nat -> pos p k - s k / 2 <= x k < pos p k + s k / 2) /\
  (forall p k, (p < n)%nat -> (k < ndim)%nat -> bmin k <= pos p k - s k / 2 /\ pos p k + s k / 2 <= bmax k).
Definition in_box (ndim : nat) (bmin bmax x : vec) : Prop := forall k, (k < ndim)%nat -> bmin k <= x k <= bmax k.
(** Squared distance. *)
Definition dist2 (ndim : nat) (x y : vec) : R := dot ndim (vsub x y) (vsub x y).
(** The number of points of a list no farther than [r] from [c]. *)
Inductive number_within (ndim : nat) (c : vec) (r : R) : list vec -> Z -> Prop :=
| nw_nil : number_within ndim c r [] 0
| nw_in p l n : norm ndim (vsub p c) <= r -> number_within ndim c r l n -> number_within ndim c r (p :: l) (n + 1)
| nw_out p l n : r < norm ndim (vsub p c) -> number_within ndim c r l n -> number_within ndim c r (p :: l) n.
(** [l'] is the part of [l] inside the sphere, divided by its radius. *)
Inductive cut_out (ndim : nat) (c : vec) (r : R) : list vec -> list vec -> Prop :=
| co_nil : cut_out ndim c r [] []
| co_in p l l' : norm ndim (vsub p c) <= r -> cut_out ndim c r l l' -> cut_out ndim c r (p :: l) ((fun k => p k / r) :: l')
| co_out p l l' : r < norm ndim (vsub p c) -> cut_out ndim c r l l' -> cut_out ndim c r (p :: l) l'.
