(** C63, C64: sinks taking from gas particles, and forces, in the meshless finite-volume scheme. *)
From Verif Require Import Prelude L_Prelude Vec M_Box M_Mfv S_Stock S_Mfv L_Stock L_Mfv L_Mfv2 L_Mfv5.
From Coq Require Import Reals Lra.
Local Open Scope R_scope.

(** * C63: what a sink takes from a gas particle is gone from it *)
(** Taking [dm] lowers the mass shown and the content by [dm] and the momentum by that of [dm]. *)
Theorem C63_taken : forall ndim dm p, let p' := AccreteMassFromParticle ndim dm p in
  m_m p' = m_m p - dm /\ (forall k, m_Q0 p' k + q_dQ (m_q p') k =
    m_Q0 p k + q_dQ (m_q p) k - (if Nat.eqb k ndim then dm else if Nat.ltb k ndim then dm * m_v p k else 0)).
Proof. intros ndim dm p. split; [reflexivity|]. intros k. apply accrete_content. Qed.
Print Assumptions C63_taken.
(** From a particle at the end of its step, without forces: mass and momentum are gone and the velocity is kept; but all of the energy stays, so the gas
    left behind is heated, by more in a frame in which it moves faster. *)
Theorem C63_end : forall ndim n dm p, shows ndim p -> ends n p = true -> m_m p <> 0 -> m_m p <> dm -> (forall k, m_a p k = 0) -> (forall k, m_a0 p k = 0) -> m_cool p = 0 ->
  let p' := EndTimestep ndim n (AccreteMassFromParticle ndim dm p) in
  m_m p' = m_m p - dm /\ (forall k, (k < ndim)%nat -> m_v p' k = m_v p k) /\
  (m_m p - dm) * m_u p' = m_m p * m_u p + 1 / 2 * dm * sumf ndim (fun k => m_v p k * m_v p k).
Proof. exact accrete_end. Qed.
Print Assumptions C63_end.
(** In the middle of a step the next prediction is as if nothing had been taken. *)
Theorem C63_middle : forall ndim n ts dm p, (n - m_nlast p)%Z <> m_nstep p -> m_dead p = false ->
  let a := AdvanceParticle ndim n ts (AccreteMassFromParticle ndim dm p) in let b := AdvanceParticle ndim n ts p in
  m_m a = m_m b /\ m_v a = m_v b /\ m_u a = m_u b.
Proof. intros ndim n ts dm p H Hd. exact (accrete_middle ndim n ts dm p H Hd). Qed.
Print Assumptions C63_middle.

(** At the end of the step the prediction is without what was taken: less by [dm] and its momentum. *)
Theorem C63_last : forall ndim n ts dm p, (n - m_nlast p)%Z = m_nstep p -> m_dead p = false ->
  let a := AdvanceParticle ndim n ts (AccreteMassFromParticle ndim dm p) in let b := AdvanceParticle ndim n ts p in
  m_m a = m_m b - dm /\ ((forall k, m_a0 p k = 0) -> m_m a <> 0 -> m_m b <> 0 -> forall k, (k < ndim)%nat -> m_m a * m_v a k = m_m b * m_v b k - dm * m_v p k).
Proof. exact accrete_last. Qed.
Print Assumptions C63_last.

Definition g0 : gpart := mkgpart (fun _ => 0) (fun _ => 0) (fun _ => 0) 1 1 1 1 (fun _ _ => 3) (fun _ => 1) (fun _ _ => 0) (fun _ => 1) false.
(** One dimension, mass [m], velocity [v], internal energy [u]; the step began at time 0, is [nstep] long and of length [dt]. *)
Definition gp (m v u a : R) (nstep : Z) (dt : R) : mpart :=
  mkmpart g0 m (fun _ => v) u (fun k => match k with O => m * v | 1%nat => m | _ => m * (u + 1 / 2 * v * v) end) acc0
    (fun _ => a) (fun _ => a) 0 dt 0 true false false 0 nstep 0 0.

(** The particle ends a step of length 1 having lost half of its mass to a sink; it is four times as hot. *)
Theorem C63_heated_refuted : exists p, shows 1 p /\ ends 1 p = true /\ m_m p = 2 /\ m_u p = 1 /\ (forall k, m_a p k = 0) /\
  let p' := EndTimestep 1 1 (AccreteMassFromParticle 1 1 p) in m_m p' = 1 /\ m_u p' = 4.
Proof.
  assert (Sh : shows 1 (gp 2 2 1 0 1 1)) by (unfold shows; cbn; repeat split; [ring|intros [|k] Hk; [ring|lia]|field]).
  exists (gp 2 2 1 0 1 1). split; [exact Sh|]. split; [reflexivity|]. split; [reflexivity|]. split; [reflexivity|]. split; [reflexivity|]. cbv zeta.
  cbn. split; field.
Qed.
Print Assumptions C63_heated_refuted.
(** In a step of length 4 a sink with steps of length 1 takes half of the mass shown three times; each time the mass shown is whole again. At the end the mass
    is negative. *)
Theorem C63_reappears_refuted : exists p, m_m p = 1 /\ ends 4 p = true /\
  let step n p := EndTimestep 1 n (AccreteMassFromParticle 1 (1/2) (AdvanceParticle 1 n 1 p)) in
  let p1 := step 1%Z p in let p2 := step 2%Z p1 in let p3 := step 3%Z p2 in
  m_m p1 = 1/2 /\ m_m (AdvanceParticle 1 2 1 p1) = 1 /\ m_m p2 = 1/2 /\ m_m (AdvanceParticle 1 3 1 p2) = 1 /\ m_m p3 = 1/2 /\
  m_m (EndTimestep 1 4 (AdvanceParticle 1 4 1 p3)) = -1/2.
Proof.
  exists (gp 1 0 1 0 4 4). split; [reflexivity|]. split; [reflexivity|]. cbn. repeat split; field.
Qed.
Print Assumptions C63_reappears_refuted.
Example C63_case : shows 1 (gp 2 2 1 0 1 1) /\ ends 1 (gp 2 2 1 0 1 1) = true.
Proof. split; [unfold shows; cbn; repeat split; [ring|intros [|k] Hk; [ring|lia]|field]|reflexivity]. Qed.

(** * C64: forces move the gas and do not heat it *)
(** A particle on which only forces act ends its step with the velocity changed by the mean acceleration; it is heated by dt^2/8 times the square of
    the change of the acceleration. *)
Theorem C64_end : forall ndim n p, alone p -> ends n p = true -> m_Q0 p ndim <> 0 ->
  let p' := EndTimestep ndim n p in
  m_m p' = m_Q0 p ndim /\ (forall k, (k < ndim)%nat -> m_m p' * m_v p' k = m_Q0 p k + m_Q0 p ndim * (1 / 2 * (m_a0 p k + m_a p k) * m_dt p)) /\
  m_u p' = thermal ndim (m_Q0 p) + m_dt p * m_dt p / 8 * sumf ndim (fun k => (m_a p k - m_a0 p k) * (m_a p k - m_a0 p k)).
Proof. exact end_heat. Qed.
Print Assumptions C64_end.
(** So constant forces do not heat it. *)
Theorem C64_constant_force : forall ndim n p, alone p -> ends n p = true -> m_Q0 p ndim <> 0 -> (forall k, m_a p k = m_a0 p k) ->
  m_u (EndTimestep ndim n p) = thermal ndim (m_Q0 p).
Proof.
  intros ndim n p A E N H. destruct (end_heat ndim n p A E N) as (_ & _ & U). cbv zeta in U. rewrite U.
  rewrite (sumf_ext ndim _ (fun _ => 0)) by (intros; rewrite H; ring). rewrite sumf_zero. ring.
Qed.
Print Assumptions C64_constant_force.
(** In the middle of the step the temperature shown is too high even with constant forces. *)
Theorem C64_middle : forall ndim n ts p, alone p -> m_dead p = false -> m_Q0 p ndim <> 0 ->
  let p' := AdvanceParticle ndim n ts p in
  let t := ts * IZR (n - m_nlast p) in
  m_m p' = m_Q0 p ndim /\ (forall k, (k < ndim)%nat -> m_m p' * m_v p' k = m_Q0 p k + m_Q0 p ndim * (m_a0 p k * t)) /\
  m_u p' = thermal ndim (m_Q0 p) + 1 / 2 * t * (m_dt p - t) * sumf ndim (fun k => m_a0 p k * m_a0 p k).
Proof. exact middle_heat. Qed.
Print Assumptions C64_middle.
Theorem C64_middle_refuted : exists p, alone p /\ (forall k, m_a p k = m_a0 p k) /\ m_u p = 1 /\
  m_u (AdvanceParticle 1 2 1 p) = 3 /\ m_u (AdvanceParticle 1 4 1 p) = 1 /\ m_u (EndTimestep 1 4 p) = 1.
Proof.
  exists (gp 1 0 1 1 4 4). split; [repeat split|]. split; [reflexivity|]. split; [reflexivity|]. cbn. repeat split; field.
Qed.
Print Assumptions C64_middle_refuted.
Theorem C64_changing_force_refuted : exists p, alone p /\ m_u p = 1 /\ thermal 1 (m_Q0 p) = 1 /\ m_u (EndTimestep 1 4 p) = 3.
Proof.
  exists (mkmpart g0 1 (fun _ => 0) 1 (fun k => match k with O => 0 | _ => 1 end) acc0 (fun _ => 1) (fun _ => 0) 0 4 0 true false false 0 4 0 0).
  split; [repeat split|]. split; [reflexivity|]. unfold thermal. cbn. split; field.
Qed.
Print Assumptions C64_changing_force_refuted.
Example C64_case : alone (gp 1 0 1 1 4 4) /\ ends 4 (gp 1 0 1 1 4 4) = true /\ m_Q0 (gp 1 0 1 1 4 4) 1%nat <> 0 /\ m_v (EndTimestep 1 4 (gp 1 0 1 1 4 4)) O = 4.
Proof. split; [repeat split|]. split; [reflexivity|]. cbn. split; [lra|field]. Qed.
