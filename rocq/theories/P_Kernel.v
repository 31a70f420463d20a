(** C23-C25: the smoothing kernels and their derived functions agree with one another. *)
From Verif Require Import Prelude Vec M_Box M_Kernel S_Kernel L_Kernel L_Kernel2.
From Coq Require Import Reals Lra Lia.
From Coquelicot Require Import Coquelicot.
Local Open Scope R_scope.

(** ** C23: M4 *)
Theorem C23_m4_density : forall n, (1 <= n <= 3)%nat ->
  density_kernel n m4_kernrange (m4_w0 n) (m4_w1 n) (m4_womega n).
Proof. exact m4_density. Qed.
Print Assumptions C23_m4_density.

Theorem C23_m4_gravity : gravity_kernel m4_kernrange m4_wgrav m4_wpot m4_wzeta.
Proof. exact m4_gravity. Qed.
Print Assumptions C23_m4_gravity.

Theorem C23_m4_normalised : forall n, (1 <= n <= 3)%nat ->
  normalised n m4_kernrange (m4_w0 n).
Proof. exact m4_normalised. Qed.
Print Assumptions C23_m4_normalised.

Theorem C23_m4_drag_normalised : forall n, (1 <= n <= 3)%nat ->
  normalised n m4_kernrange (m4_wdrag n).
Proof. exact m4_drag_normalised. Qed.
Print Assumptions C23_m4_drag_normalised.

(** The softened force is the force of the kernel-smeared mass. *)
Theorem C23_m4_gauss : gauss_law (m4_w0 3) m4_wgrav.
Proof. exact m4_gauss. Qed.
Print Assumptions C23_m4_gauss.

(** Case: values on both sides of the joint at s = 1. *)
Example C23_ex : m4_w0 1 (1/2) = 2/3 * (23/32) /\ m4_w0 1 1 = 1/6 /\ m4_w1 1 1 = -1/2 /\
  m4_wgrav 1 = 19/30 /\ m4_wgrav 4 = 1/16.
Proof.
  unfold m4_w0, m4_w1, m4_wgrav, m4_kernnorm. q_cases 0. repeat split; lra.
Qed.

(** ** C24: quintic *)
Theorem C24_quintic_density : forall n, (1 <= n <= 3)%nat ->
  density_kernel n q_kernrange (q_w0 n) (q_w1 n) (q_womega n).
Proof. exact q_density. Qed.
Print Assumptions C24_quintic_density.

Theorem C24_quintic_normalised : forall n, (1 <= n <= 3)%nat ->
  normalised n q_kernrange (q_w0 n) /\ normalised n q_kernrange (q_wdrag n).
Proof. intros n Hn. split; [exact (q_normalised n Hn) | exact (q_drag_normalised n Hn)]. Qed.
Print Assumptions C24_quintic_normalised.

(** Force and potential: the relation holds everywhere except at the edge s = 3; missing:
    the edge (next theorem) and wzeta (refuted below). *)
Theorem C24_quintic_gravity_partial :
  (forall s, s <> q_kernrange -> is_derive q_wpot s (- q_wgrav s)) /\
  (forall s, q_kernrange <= s -> q_wgrav s = / s^2 /\ q_wpot s = / s) /\
  (forall s, s < q_kernrange ->
     is_derive (fun x => x^2 * q_wgrav x) s (360/359 * (4 * PI * s^2 * q_w0 3 s))).
Proof. exact (conj q_pot_derive (conj q_newton q_gauss_in)). Qed.
Print Assumptions C24_quintic_gravity_partial.

(** Force and potential jump at the edge of the kernel: the prefactor is 12/359, 12/360 is
    needed for the smeared mass to be one. *)
Theorem C24_quintic_gravity_continuous_refuted :
  ~ continuous q_wgrav q_kernrange /\ ~ continuous q_wpot q_kernrange.
Proof. exact (conj q_grav_jump q_pot_jump). Qed.
Print Assumptions C24_quintic_gravity_continuous_refuted.

(** wzeta is not the h-derivative of the potential: it even has the wrong sign. *)
Theorem C24_quintic_zeta_refuted :
  (exists s, 0 <= s < q_kernrange /\ q_wzeta s <> q_wpot s + s * Derive q_wpot s) /\
  q_wzeta 0 < 0 /\ 0 < q_wpot 0 + 0 * Derive q_wpot 0.
Proof. exact (conj q_zeta_refuted q_zeta_sign). Qed.
Print Assumptions C24_quintic_zeta_refuted.

Example C24_ex : q_w0 1 0 = 11/20 /\ q_w0 1 1 = 26/120 /\ q_w0 1 2 = 1/120 /\ q_wgrav 3 = 1/9.
Proof. unfold q_w0, q_wgrav, q_kernnorm. q_cases 0. repeat split; lra. Qed.

(** ** C25: Gaussian *)

(** Away from the cut-off w1 is the derivative; non-negative, non-increasing, zero outside.
    Missing: continuity at the cut-off, womega, gravity (all refuted below). *)
Theorem C25_gaussian_partial : forall n, (1 <= n <= 3)%nat ->
  (forall s, s <> g_kernrange -> is_derive (g_w0 n) s (g_w1 n s)) /\
  (forall s, 0 <= g_w0 n s /\ (s < g_kernrange -> 0 < g_w0 n s) /\
     (g_kernrange <= s -> g_w0 n s = 0 /\ g_w1 n s = 0 /\ g_womega n s = 0)) /\
  (forall s t, 0 <= s <= t -> g_w0 n t <= g_w0 n s).
Proof.
  intros n Hn. exact (conj (g_w_derive n) (conj (fun s => g_w0_pos n s Hn) (fun s t => g_w0_decr n s t Hn))).
Qed.
Print Assumptions C25_gaussian_partial.

(** womega agrees with the h-derivative of the kernel at s = 0 and s = 1 only. *)
Theorem C25_gaussian_omega_refuted : forall n s, (1 <= n <= 3)%nat -> 0 <= s < g_kernrange ->
  (g_womega n s = - (INR n * g_w0 n s + s * g_w1 n s) <-> s = 0 \/ s = 1).
Proof. exact g_omega_where. Qed.
Print Assumptions C25_gaussian_omega_refuted.

Theorem C25_gaussian_continuous_refuted : forall n, (1 <= n <= 3)%nat ->
  ~ continuous (g_w0 n) g_kernrange.
Proof. exact g_jump. Qed.
Print Assumptions C25_gaussian_continuous_refuted.

(** The gravity functions are identically zero, also where gravity must be Newtonian. *)
Theorem C25_gaussian_gravity_refuted :
  exists s, g_kernrange <= s /\ g_wgrav s <> / s^2 /\ g_wpot s <> / s.
Proof.
  exists 4. unfold g_kernrange. destruct (g_no_gravity 4) as (-> & -> & _).
  split; [lra | split; apply Rlt_not_eq; lra].
Qed.
Print Assumptions C25_gaussian_gravity_refuted.

(** In two dimensions the truncated kernel integrates to 1 - exp(-9). *)
Theorem C25_gaussian_normalised_refuted : ~ normalised 2 g_kernrange (g_w0 2).
Proof. exact g_norm2_not1. Qed.
Print Assumptions C25_gaussian_normalised_refuted.

Example C25_ex : 0 < g_w0 3 2 /\ g_w0 3 3 = 0.
Proof.
  destruct (g_w0_pos 3 2) as (_ & H & _); [lia|]. destruct (g_w0_pos 3 3) as (_ & _ & H'); [lia|].
  split; [apply H; unfold g_kernrange; lra | apply H'; unfold g_kernrange; lra].
Qed.
