(** Density, smoothing length and the terms that follow from their being tied together. *)
From Verif Require Import Prelude Vec M_Force M_Dens S_Stock.
From Coq Require Import Reals Permutation.
Local Open Scope R_scope.

Section Dens.
Variables (n : nat) (w : R -> R).
(** Distance of a neighbour. *)
Definition far (r : vec) (q : dneib) : R := norm n (vsub (nb_r q) r).
(** The density at [r] smoothed over the length [h]; the number density. *)
Definition dens (r : vec) (l : list dneib) (h : R) : R := lsum (fun q => nb_m q * (w (far r q / h) / h ^ n)) l.
Definition numb (r : vec) (l : list dneib) (h : R) : R := lsum (fun q => w (sqrt (far r q * far r q + small_number) / h) / h ^ n) l.
(** [h] is the length belonging to the density [rho]: a sphere of that size holds a fixed number of particles of mass [m]. *)
Definition belongs (h_fac m h rho : R) : Prop := 0 < h /\ h ^ n * rho = h_fac ^ n * m.
(** The particle is among its neighbours. *)
Definition itself (p : dpart) (l : list dneib) : Prop := exists q, In q l /\ nb_m q = p_m p /\ forall k, (k < n)%nat -> nb_r q k = p_r p k.
End Dens.

(** The smallest length allowed: that of the density at which sinks are made. *)
Definition least (n : nat) (h_fac : R) (rho_sink : option R) (m lower : R) : Prop :=
  match rho_sink with None => lower = 0 | Some rs => belongs n h_fac m lower rs end.

(** A particle of the deepest potential within a distance [d] (gpot is the negative of the potential; the tolerance is the code's). *)
Definition deepest (n : nat) (p : dpart) (l : list dneib) (d : R) : Prop :=
  forall q, In q l -> far n (p_r p) q < d -> nb_gpot q <= 1000000001 / 1000000000 * p_gpot p.

(** ** All particles of a simulation *)
Section All.
Variables (n : nat) (range : R) (hmask : Z -> Z -> bool).
(** Particles that count towards the density of [p]. *)
Definition counting (p : dpart) (all : list dneib) : list dneib := filter (fun q => hmask (p_type p) (nb_type q)) all.
(** [near] holds the particles that count except some that lie not nearer than the range of a kernel of length [H] (up to small_number, squared). *)
Definition all_near (p : dpart) (all near : list dneib) (H : R) : Prop :=
  exists far_ones, Permutation (near ++ far_ones) (counting p all) /\
    forall q, In q far_ones -> range * range * H * H < far n (p_r p) q * far n (p_r p) q + small_number.
(** A search for neighbours of the particles [act]: every particle within the range of [H] of one of them is returned once, others may be. *)
Definition finds (all : list dneib) (act : list dpart) (gather : R -> list dneib) : Prop :=
  forall H, exists others, Permutation (gather H ++ others) all /\ forall p q, In p act -> In q others -> range * H < far n (p_r p) q.
End All.

(** The correction that the meshless scheme's gravity needs because lengths follow the number density, in terms of its 1/Omega. *)
Definition zeta_needed (n : nat) (zeta : R -> R) (m h ndens invomega : R) (r : vec) (l : list dneib) : R :=
  - h / (INR n * ndens) * m * lsum (fun q => nb_m q * (zeta (sqrt (far n r q * far n r q + small_number) / h) / h ^ 2)) l * invomega.
