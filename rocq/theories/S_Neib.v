(** What the neighbour lists of a cell and of a particle must contain. *)
From Verif Require Import Prelude Vec M_Periodic S_Periodic M_Neib.
From Coq Require Import Reals.
Local Open Scope R_scope.

(** The copies produced for the live particles listed in [l], each with its particle index. *)
Definition copies (images : npart -> list npart) (pd : list npart) (l : list Z) : list (Z * npart) :=
  flat_map (fun i => match nth_error pd (Z.to_nat i) with
                     | Some q => if n_dead q then [] else map (pair i) (images q)
                     | None => []
                     end) l.
(** The places, counted from [k], of the elements satisfying [P]. *)
Fixpoint places {A} (P : A -> bool) (k : Z) (l : list A) : list Z :=
  match l with [] => [] | x :: l => if P x then k :: places P (k + 1) l else places P (k + 1) l end.
Definition indices_ok (pd : list npart) (l : list Z) : Prop := forall i, In i l -> (0 <= i < zlen pd)%Z.

(** Two particles interact: one is inside the kernel of the other. *)
Definition within (n : nat) (p q : npart) : Prop :=
  dot n (vsub (n_r q) (n_r p)) (vsub (n_r q) (n_r p)) < n_hr2 p \/
  dot n (vsub (n_r q) (n_r p)) (vsub (n_r q) (n_r p)) < n_hr2 q.

(** [q'] is [q] moved by whole box lengths; and if it was not further than one and a half box
    lengths in any direction, no image of it is closer to [p]. *)
Definition moved_near (n : nat) (b : dombox) (p q q' : npart) : Prop :=
  q' = n_move q (n_r q') /\
  image_of n b (vsub (n_r q) (n_r p)) (vsub (n_r q') (n_r p)) /\
  ((forall k, (k < n)%nat -> Rabs (n_r q k - n_r p k) <= 3 * dhalf b k) ->
   forall d, image_of n b (vsub (n_r q) (n_r p)) d -> norm n (vsub (n_r q') (n_r p)) <= norm n d).
