(** Gradients, and values at the faces between particles. *)
From Verif Require Import Prelude Vec M_Matrix M_Mfv.
From Coq Require Import Reals.
Local Open Scope R_scope.

(** The variable [var] is a linear function of position with gradient [g], among [p] and the neighbours [l]. *)
Definition linear_in (n : nat) (var : nat) (g : vec) (p : gpart) (l : list gpart) : Prop :=
  forall q, In q l -> g_W q var - g_W p var = dot n g (vsub (g_r q) (g_r p)).
(** [x] lies between [a] and [b]. *)
Definition amid (a b x : R) : Prop := (a <= x <= b) \/ (b <= x <= a).
(** [x] is not beyond all of the values that [p] and its neighbours have. *)
Definition amid_all (var : nat) (p : gpart) (l : list gpart) (x : R) : Prop :=
  exists a b, In a (p :: l) /\ In b (p :: l) /\ g_W a var <= x <= g_W b var.
(** The way from [p] to the face half-way to [q]. *)
Definition halfway (p q : gpart) : vec := fun k => 1 / 2 * (g_r p k + g_r q k) - g_r p k.
(** No direction is at right angles to the ways to all neighbours that have weight. *)
Definition spanning (n : nat) (weight : gpart -> R) (p : gpart) (l : list gpart) : Prop :=
  forall x : vec, (exists k, (k < n)%nat /\ x k <> 0) -> exists q, In q l /\ 0 < weight q /\ dot n x (vsub (g_r q) (g_r p)) <> 0.
(** The value of [p] at the face between [p] and [q], with given slopes. *)
Definition face (slopes : gpart -> gpart -> vec -> (nat -> vec) * vec) (p q : gpart) (var : nat) : R := g_W p var + snd (slopes p q (halfway p q)) var.
