(** What a tree and a set of sub-systems of stars should be. *)
From Verif Require Import Prelude Vec S_Diag.
From Coq Require Import Reals.
Local Open Scope R_scope.

(** [holds child N c l]: node [c] holds the stars [l]; nodes below [N] are stars, [child c] are the two children of others. *)
Inductive holds (child : nat -> option (nat * nat)) (N : nat) : nat -> list nat -> Prop :=
| holds_star : forall c, (c < N)%nat -> holds child N c [c]
| holds_node : forall c a b la lb, (N <= c)%nat -> child c = Some (a, b) -> holds child N a la -> holds child N b lb -> holds child N c (la ++ lb).
(** [made star parts e l]: the entity [e] consists of the stars [l]; an entity is a star or has parts. *)
Inductive made {E : Type} (star : E -> option nat) (parts : E -> option (list E)) : E -> list nat -> Prop :=
| made_star : forall e i, star e = Some i -> made star parts e [i]
| made_parts : forall e es ls, star e = None -> parts e = Some es -> Forall2 (made star parts) es ls -> made star parts e (concat ls).
(** Orbital elements of the relative motion [r], [v] of two bodies of total mass [M]: energy, square of the angular momentum per reduced
    mass (by Lagrange's identity in any dimension), Laplace-Runge-Lenz vector, whose length is the eccentricity. *)
Definition orb_energy (n : nat) (M : R) (r v : vec) : R := dot n v v / 2 - M / sqrt (dot n r r).
Definition orb_h2 (n : nat) (r v : vec) : R := dot n r r * dot n v v - dot n r v * dot n r v.
Definition lrl (n : nat) (M : R) (r v : vec) : vec := fun k => (dot n v v * r k - dot n r v * v k) / M - r k / sqrt (dot n r r).
(** [is_sum m x l M X]: [M] is the total mass and [X] the mass-weighted mean of the stars [l]. *)
Definition is_sum (m : nat -> R) (x : nat -> vec) (l : list nat) (M : R) (X : vec) : Prop :=
  M = lsum m l /\ forall k, M * X k = lsum (fun i => m i * x i k) l.
(** All pairs of entries of a list, in order. *)
Fixpoint pairs {A : Type} (l : list A) : list (A * A) := match l with [] => [] | x :: tl => map (pair x) tl ++ pairs tl end.
Definition is_max (h : nat -> R) (l : list nat) (H : R) : Prop := (forall i, In i l -> h i <= H) /\ exists i, In i l /\ H = h i.
(** The elements of the orbit of two bodies of masses [m1], [m2]; the distance in the potential is increased by [eps]. *)
Definition kepler (n : nat) (eps m1 m2 : R) (r1 v1 r2 v2 : vec) (M : R) (R0 V0 : vec) (binen sma period ecc q : R) : Prop :=
  let r := vsub r1 r2 in let v := vsub v1 v2 in
  M = m1 + m2 /\ (forall k, M * R0 k = m1 * r1 k + m2 * r2 k) /\ (forall k, M * V0 k = m1 * v1 k + m2 * v2 k) /\
  binen = dot n v v / 2 - M / (sqrt (dot n r r) + eps) /\ binen < 0 /\
  0 < sma /\ 2 * sma * - binen = M /\ 0 < period /\ period ^ 2 * M = 4 * PI ^ 2 * sma ^ 3 /\
  0 <= ecc <= 1 /\ ecc ^ 2 = 1 + 2 * binen * orb_h2 n r v / M ^ 2 /\ 0 < q <= 1 /\ q * Rmax m1 m2 = Rmin m1 m2.
Definition cross3 (r v : vec) : vec := fun k =>
  match k with 0%nat => r 1%nat * v 2%nat - r 2%nat * v 1%nat | 1%nat => r 2%nat * v 0%nat - r 0%nat * v 2%nat | _ => r 0%nat * v 1%nat - r 1%nat * v 0%nat end.
