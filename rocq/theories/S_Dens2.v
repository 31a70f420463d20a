(** Rates of change of density and potential. *)
From Verif Require Import Prelude Vec M_Force M_Dens S_Stock S_Dens.
From Coq Require Import Reals.
From Coquelicot Require Import Coquelicot.
Local Open Scope R_scope.

(** A neighbour, its distance as a function of time and the rate of change of the distance at time 0. *)
Record track := mktrack { k_nb : dneib; k_d : R -> R; k_rate : R }.
(** A star likewise. *)
Record strack := mkstrack { k_star : dstar; k_sd : R -> R; k_srate : R }.

(** Neighbours move; the length [h t] always fits the density [rho t]. *)
Record moving (n : nat) (w : R -> R) (h_fac : R) (p : dpart) (ts : list track) (h rho : R -> R) : Prop := {
  mv_start : forall k, In k ts -> k_d k 0 = far n (p_r p) (k_nb k);
  mv_rate : forall k, In k ts -> is_derive (k_d k) 0 (k_rate k);
  mv_h : h 0 = p_h p;
  mv_diff : ex_derive h 0;
  mv_dens : locally 0 (fun t => rho t = lsum (fun k => nb_m (k_nb k) * (w (k_d k t / h t) / h t ^ n)) ts);
  mv_fits : locally 0 (fun t => belongs n h_fac (p_m p) (h t) (rho t))
}.
(** Stars move. *)
Definition star_moving (n : nat) (p : dpart) (ss : list strack) : Prop :=
  forall k, In k ss -> k_sd k 0 = Vec.norm n (vsub (s_r (k_star k)) (p_r p)) /\ is_derive (k_sd k) 0 (k_srate k).

(** The length over which the attraction of a star is smoothed: the mean of both lengths, or half the particle's. *)
Definition star_length (softening : bool) (h : R) (s : dstar) : R := if softening then (h + s_h s) / 2 else h / 2.
(** Potential energy per unit mass: pairs of particles count half for each particle. *)
Definition energy (pot : R -> R) (softening : bool) (ts : list track) (ss : list strack) (h : R -> R) (t : R) : R :=
  - (1 / 2 * lsum (fun k => nb_m (k_nb k) * (pot (k_d k t / h t) / h t)) ts)
  - lsum (fun k => s_m (k_star k) * (pot (k_sd k t / star_length softening (h t) (k_star k)) / star_length softening (h t) (k_star k))) ss.
