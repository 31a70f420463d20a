(** What drag between gas and dust should do. *)
From Verif Require Import Prelude Vec M_Dust S_Diag.
From Coq Require Import Reals List Permutation.
Local Open Scope R_scope.

(** A relative velocity [x] damped with stopping time [ts] while other forces give the relative acceleration [da]. *)
Definition damped (ts da : R) (x : R -> R) : Prop := forall t, derivable_pt_lim x t (- (x t) / ts + da).
(** Kinetic energy per mass. *)
Definition kin (n : nat) (v : vec) : R := 1 / 2 * dot n v v.
(** Candidate lists of [N] particles at positions [r]: particle i sees particle j displaced by each of the vectors [sh i j]; j sees i
    displaced the other way. *)
Definition mutual (N : nat) (r : nat -> vec) (sh : nat -> nat -> list vec) (neibs : nat -> list (nat * vec)) : Prop :=
  (forall i, (i < N)%nat ->
     Permutation (neibs i) (flat_map (fun j => map (fun s => (j, fun k => r j k + s k)) (sh i j)) (seq 0 N))) /\
  (forall i j, (i < N)%nat -> (j < N)%nat -> Permutation (sh j i) (map (fun s k => - s k) (sh i j))).
(** The gas (dust) particles. *)
Definition of_kind (k : kind) (ps : nat -> dpt) (N : nat) : list nat := filter (fun i => kind_eqb (d_kind (ps i)) k) (seq 0 N).
(** A weighted mean. *)
Definition mean_of {A : Type} (w f : A -> R) (l : list A) (x : R) : Prop := lsum (fun a => w a * (x - f a)) l = 0.
(** Weight of the gas a dust particle at [r] sees: the drag kernels of the gas particles, each with its volume. *)
Definition gas_seen (n : nat) (wdrag : R -> R) (ps : nat -> dpt) (r : vec) (l : list (nat * vec)) : R :=
  lsum (fun x => let q := ps (fst x) in
    match d_kind q with Gas => d_m q / d_rho q * (wdrag (norm n (vsub r (snd x)) / d_h q) / d_h q ^ n) | _ => 0 end) l.
