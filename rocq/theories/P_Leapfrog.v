(** C19: leapfrog integration.  A step is made of m >= 1 passes of the main loop, at each of
    which every particle is advanced; the particle finishes at the last one. *)
From Verif Require Import Prelude Vec M_Box M_Leapfrog S_Leapfrog L_Leapfrog L_Leapfrog2.
From Coq Require Import Reals ZArith Lra Lia.
Local Open Scope R_scope.

(** Before the end of its step a particle is only predicted: the saved state is unchanged and
    the predicted position and velocity depend on it alone. *)
Theorem C19_kdk_predict : forall c A U n0 t0 ts ns dtn m p, at_start n0 t0 ts m p ->
  forall j, (j < m)%nat -> let q := KDK_run c A U n0 t0 ts ns dtn j p in
  saved p q /\ ((0 < j)%nat ->
    veq (l_r q) (parabola_r (l_r0 p) (l_v0 p) (l_a0 p) (INR j * ts)) /\
    veq (l_v q) (parabola_v (l_v0 p) (l_a0 p) (INR j * ts))).
Proof. exact KDK_run_mid. Qed.
Print Assumptions C19_kdk_predict.

(** A full step is the velocity Verlet map, for any acceleration field; the internal energy is
    advanced by the trapezoidal rule, or to first order if that were not positive. *)
Theorem C19_kdk_step : forall c A U n0 t0 ts ns dtn m p, (0 < m)%nat -> at_start n0 t0 ts m p ->
  l_a0 p = A (l_r0 p) ->
  let h := INR m * ts in let q := KDK_run c A U n0 t0 ts ns dtn m p in
  l_dead q = false /\ l_end q = false /\ l_nlast q = (n0 + Z.of_nat m)%Z /\ l_tlast q = t0 + h /\
  l_dt q = dtn /\ l_nstep q = ns /\ l_a0 q = A (l_r0 q) /\
  verlet A h (l_r0 p) (l_v0 p) (l_r0 q) (l_v0 q) /\
  (c_energy c = true -> l_dudt0 p = U (l_r0 p) ->
     let u := l_u0 p + h / 2 * (U (l_r0 p) + U (l_r0 q)) in
     l_u0 q = (if Rlt_dec 0 u then u else l_u0 p + h * U (l_r0 p)) /\ l_dudt0 q = U (l_r0 q)).
Proof. exact KDK_run_full. Qed.
Print Assumptions C19_kdk_step.

(** Constant acceleration: the step follows the analytic parabola exactly. *)
Theorem C19_kdk_exact : forall c g U n0 t0 ts ns dtn m p, (0 < m)%nat -> at_start n0 t0 ts m p ->
  l_a0 p = g ->
  let h := INR m * ts in let q := KDK_run c (fun _ => g) U n0 t0 ts ns dtn m p in
  veq (l_r0 q) (parabola_r (l_r0 p) (l_v0 p) g h) /\ veq (l_v0 q) (parabola_v (l_v0 p) g h).
Proof.
  intros c g U n0 t0 ts ns dtn m p Hm Hst Ha. apply verlet_const.
  apply (KDK_run_full c (fun _ => g) U n0 t0 ts ns dtn m p Hm Hst Ha).
Qed.
Print Assumptions C19_kdk_exact.

Theorem C19_kdk_reversible : forall c A U n0 t0 ts ns dtn m p, (0 < m)%nat -> at_start n0 t0 ts m p ->
  l_a0 p = A (l_r0 p) -> proper A ->
  let h := INR m * ts in
  let q := KDK_run c A U n0 t0 ts (Z.of_nat m) h m p in
  let s := KDK_run c A U (n0 + Z.of_nat m) (t0 + h) ts ns dtn m (flip q) in
  veq (l_r0 s) (l_r0 p) /\ veq (l_v0 s) (vneg (l_v0 p)).
Proof. exact KDK_reversible. Qed.
Print Assumptions C19_kdk_reversible.

(** The same for drift-kick-drift, whose force is taken at the middle of the step. *)
Theorem C19_dkd_step : forall c A U n0 t0 ts ns dtn m p, proper A -> (0 < m)%nat ->
  at_start n0 t0 ts (2*m) p ->
  let h := INR (2*m) * ts in let q := DKD_run c A U n0 t0 ts ns dtn (2*m) p in
  l_dead q = false /\ l_end q = false /\ l_nlast q = (n0 + Z.of_nat (2*m))%Z /\ l_tlast q = t0 + h /\
  l_dt q = dtn /\ l_nstep q = ns /\ midpoint A h (l_r0 p) (l_v0 p) (l_r0 q) (l_v0 q).
Proof. exact DKD_run_full. Qed.
Print Assumptions C19_dkd_step.

Theorem C19_dkd_exact : forall c g U n0 t0 ts ns dtn m p, (0 < m)%nat -> at_start n0 t0 ts (2*m) p ->
  let h := INR (2*m) * ts in let q := DKD_run c (fun _ => g) U n0 t0 ts ns dtn (2*m) p in
  veq (l_r0 q) (parabola_r (l_r0 p) (l_v0 p) g h) /\ veq (l_v0 q) (parabola_v (l_v0 p) g h).
Proof.
  intros c g U n0 t0 ts ns dtn m p Hm Hst. apply midpoint_const.
  apply (DKD_run_full c (fun _ => g) U n0 t0 ts ns dtn m p (fun x y _ k => eq_refl) Hm Hst).
Qed.
Print Assumptions C19_dkd_exact.

Theorem C19_dkd_reversible : forall c A U n0 t0 ts ns dtn m p, proper A -> (0 < m)%nat ->
  at_start n0 t0 ts (2*m) p ->
  let h := INR (2*m) * ts in
  let q := DKD_run c A U n0 t0 ts (Z.of_nat (2*m)) h (2*m) p in
  let s := DKD_run c A U (n0 + Z.of_nat (2*m)) (t0 + h) ts ns dtn (2*m) (flip q) in
  veq (l_r0 s) (l_r0 p) /\ veq (l_v0 s) (vneg (l_v0 p)).
Proof. exact DKD_reversible. Qed.
Print Assumptions C19_dkd_reversible.

(** The viscosity parameter is advanced over every pass exactly once; inside a step the predicted
    energy changes at the saved rate, at its end it is the saved energy; without energy
    integration it does not change. *)
Theorem C19_kdk_scalars : forall c A U n0 t0 ts ns dtn m p, (0 < m)%nat -> at_start n0 t0 ts m p ->
  (forall j, (j <= m)%nat -> let q := KDK_run c A U n0 t0 ts ns dtn j p in
     l_alpha q = drifts (c_tdav c) (l_alpha p) (l_dalphadt p) (INR j * ts) /\
     (c_energy c = false -> l_u q = l_u p /\ l_u0 q = l_u0 p)) /\
  (forall j, (0 < j < m)%nat -> c_energy c = true ->
     l_u (KDK_run c A U n0 t0 ts ns dtn j p) = l_u0 p + l_dudt0 p * (INR j * ts)) /\
  (c_energy c = true -> let q := KDK_run c A U n0 t0 ts ns dtn m p in l_u q = l_u0 q).
Proof. exact KDK_scalars. Qed.
Print Assumptions C19_kdk_scalars.

(** Drift-kick-drift: the energy at the end of the step is the one at its start plus the step
    times the heating rate at the middle. *)
Theorem C19_dkd_scalars : forall c A U n0 t0 ts ns dtn m p, proper A -> (forall x y, veq x y -> U x = U y) -> (0 < m)%nat ->
  at_start n0 t0 ts (2*m) p ->
  (forall j, (j <= 2*m)%nat -> let q := DKD_run c A U n0 t0 ts ns dtn j p in
     l_alpha q = drifts (c_tdav c) (l_alpha p) (l_dalphadt p) (INR j * ts) /\
     (c_energy c = false -> l_u q = l_u p /\ l_u0 q = l_u0 p)) /\
  (forall j, (j < m)%nat -> (0 < j)%nat -> c_energy c = true ->
     l_u (DKD_run c A U n0 t0 ts ns dtn j p) = l_u0 p + l_dudt p * (INR j * ts)) /\
  (forall j, (m < j <= 2*m)%nat -> c_energy c = true ->
     l_u (DKD_run c A U n0 t0 ts ns dtn j p) = l_u0 p + U (fun k => l_r0 p k + INR m * ts * l_v0 p k) * (INR j * ts)) /\
  (c_energy c = true -> let q := DKD_run c A U n0 t0 ts ns dtn (2*m) p in l_u0 q = l_u q).
Proof. exact DKD_scalars. Qed.
Print Assumptions C19_dkd_scalars.

(** Case: a particle thrown upwards in a field of -10, step of four passes of 1/4. *)
Definition ex_up : lpart :=
  mkLP false false false (fun _ => 0) (fun _ => 5) (fun _ => -10) (fun _ => 0) (fun _ => 5) (fun _ => -10)
    1 1 0 0 0 0 8 4 2 1 0.
Example C19_ex : at_start 8 2 (1/4) 4 ex_up /\
  let q := KDK_run (mkLC false false) (fun _ _ => -10) (fun _ => 0) 8 2 (1/4) 4 1 4 ex_up in
  l_r0 q 0%nat = 0 /\ l_v0 q 0%nat = -5 /\ l_nlast q = 12%Z.
Proof.
  assert (at_start 8 2 (1/4) 4 ex_up) as H. { repeat split; cbn; lra. }
  split; [exact H|]. cbv zeta.
  destruct (C19_kdk_exact (mkLC false false) (fun _ => -10) (fun _ => 0) 8 2 (1/4) 4 1 4 ex_up ltac:(lia) H eq_refl) as [H1 H2].
  rewrite (H1 0%nat), (H2 0%nat). unfold parabola_r, parabola_v. cbn [ex_up l_r0 l_v0].
  split; [cbn; field | split; [cbn; field | reflexivity]].
Qed.
