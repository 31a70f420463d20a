(** A pair of neighbours on a line of particles of spacing 1. *)
From Verif Require Import Prelude L_Prelude Vec M_Box L_Box M_Force M_Kernel M_Mfv M_Riemann S_Riemann S_Mfv L_Riemann2 L_Riemann3 L_Mfv4.
From Coq Require Import Reals Lra FunctionalExtensionality.
Local Open Scope R_scope.

Definition kern (s2 : R) : R := m4_w0 1 (sqrt s2).
Definition no_slope : gpart -> gpart -> vec -> (nat -> vec) * vec := fun _ _ _ => (fun _ _ => 0, fun _ => 0).
Definition inviscid : vec -> vec -> (nat -> vec) -> (nat -> vec) -> (nat -> vec) -> nat -> vec := fun _ _ _ _ f => f.
Definition ex_hllc : vec -> vec -> vec -> vec -> nat -> vec := hllc 1 false false (2/3) (adiabatic_sound (5/3)).
(** At [x], velocity [vel], density [rho], pressure [p], velocity gradient [g]. *)
Definition ex_W (vel rho p : R) : vec := fun k => match k with O => vel | 1%nat => rho | _ => p end.
Definition ex_part (x vel rho p g : R) : gpart :=
  mkgpart (fun _ => x) (fun _ => vel) (fun _ => 0) 1 1 1 1 (fun _ _ => 3) (ex_W vel rho p) (fun k _ => match k with O => g | _ => 0 end) (fun _ => 1) false.

Lemma ex_area : forall vel rho p g vel' rho' p' g', area 1 kern (m4_w1 1) (ex_part 0 vel rho p g) (ex_part 1 vel' rho' p' g') O = 1.
Proof.
  intros. unfold area, psi_part, psi_neib, ex_part. cbn [g_ndens g_bad negb g_h g_hfactor g_B g_r]. unfold dot, vsub. cbn [sumf].
  unfold kern. replace ((0 + (1 - 0) * (1 - 0)) * (1 / 1) * (1 / 1)) with 1 by field. rewrite sqrt_1.
  assert (K : m4_w0 1 1 = 1 / 6). { unfold m4_w0, m4_kernnorm. replace (rltb 1 1) with false by (symmetry; apply rltb_false; lra). replace (rltb 1 2) with true by (symmetry; apply rltb_true; lra). field. }
  rewrite K. field.
Qed.
Lemma floor1 : forall x, 1 <= x -> Rmax x small_number = x.
Proof.
  intros x Hx. apply Rmax_left. apply Rle_trans with 1; [|exact Hx]. unfold small_number. rewrite <- Rinv_1. apply Rinv_le_contravar; [lra|]. apply pow_R1_Rle. lra.
Qed.
Lemma ex_face : forall x vel rho p g q rf vf dt, 1 <= rho -> 1 <= p ->
  face_state 1 no_slope (ex_part x vel rho p g) q rf vf dt = ex_W (vel - vf O) rho p.
Proof.
  intros x vel rho p g q rf vf dt Hr Hp. apply functional_extensionality. intros k. unfold face_state, no_slope, ex_part. cbn [g_W g_a g_sound].
  unfold CalculatePrimitiveTimeDerivative, M_Mfv.irho, M_Mfv.ipress, dot. cbn [sumf].
  destruct k as [|[|[|k]]]; cbn; unfold Rdiv; try rewrite floor1; cbn; try (ring_simplify; lra); ring.
Qed.

(** The particles moving past static faces. *)
Definition ex_flux (rho p : R) : vec := fun i => crossing 1 (gas 1 (2/3) (ex_W 1 rho p) (fun _ => 0)) (fun _ => 1) (fun _ => 0) i.
Lemma ex_pair : forall rho p dt, 1 <= rho -> 1 <= p -> exists f,
  pair_flux 1 kern (m4_w1 1) no_slope ex_hllc inviscid true (ex_part 0 1 rho p 0) (ex_part 1 1 rho p 0) dt = Some f /\ forall k, (k <= 2)%nat -> f k = ex_flux rho p k.
Proof.
  intros rho p dt Hr Hp. unfold pair_flux, inviscid. set (A := area 1 kern _ _ _).
  assert (EA : A O = 1) by apply ex_area. assert (EM : sqrt (dot 1 A A) = 1). { unfold dot. cbn [sumf]. rewrite EA. replace (0 + 1 * 1) with 1 by ring. apply sqrt_1. }
  rewrite EM. replace (rltb 0 1) with true by (symmetry; apply rltb_true; lra). eexists. split; [reflexivity|].
  intros k Hk. rewrite !ex_face by easy. replace (1 - 0) with 1 by ring. unfold dot at 1. cbn [sumf]. rewrite EA. unfold ex_hllc.
  rewrite hllc_consistent; [|lra|exact Hk| |].
  - cbv beta. rewrite EA. unfold ex_flux, crossing. cbn [sumf]. rewrite EA. destruct k as [|[|k]]; cbn; rewrite ?EA; field.
  - unfold unit. cbn [sumf]. rewrite EA. field.
  - split; [cbn; lra|]. apply adiabatic_pos; [lra|cbn; lra|]. cbn. apply Rdiv_lt_0_compat; [lra|]. apply Rmult_lt_0_compat; lra.
Qed.
Lemma ex_mass : forall rho p, ex_flux rho p 1%nat = rho.
Proof. intros. unfold ex_flux, crossing, gas. cbn. ring. Qed.
Lemma ex_mom : forall rho p, ex_flux rho p O = rho + p.
Proof. intros. unfold ex_flux, crossing, gas. cbn. ring. Qed.
Lemma ex_energy : forall rho p, ex_flux rho p 2%nat = 5 / 2 * p + 1 / 2 * rho.
Proof. intros. unfold ex_flux, crossing, gas. cbn. field. Qed.

(** At rest with a velocity gradient and viscosity. *)
Lemma ex_visc : forall dt, visc_force 1 kern (m4_w1 1) no_slope (3/4) 0 (ex_part 0 0 1 1 1) (ex_part 1 0 1 1 1) dt O = -1.
Proof.
  intros dt. unfold visc_force, dot. cbn [sumf]. rewrite ex_area. unfold visc_part, ComputeViscousFlux, M_Mfv.irho, M_Mfv.ietot. rewrite !ex_face by lra. cbn. field.
Qed.
Lemma ex_visc_some : forall V dt, exists f, pair_flux 1 kern (m4_w1 1) no_slope ex_hllc (ComputeViscousFlux 1 (3/4) 0) false (moving 1 V (ex_part 0 0 1 1 1)) (moving 1 V (ex_part 1 0 1 1 1)) dt = Some f.
Proof.
  intros V dt. unfold pair_flux. change (area 1 kern (m4_w1 1) (moving 1 V (ex_part 0 0 1 1 1)) (moving 1 V (ex_part 1 0 1 1 1))) with (area 1 kern (m4_w1 1) (ex_part 0 0 1 1 1) (ex_part 1 0 1 1 1)).
  set (A := area 1 kern _ _ _). assert (EM : sqrt (dot 1 A A) = 1). { unfold dot. cbn [sumf]. unfold A. rewrite ex_area. replace (0 + 1 * 1) with 1 by ring. apply sqrt_1. }
  rewrite EM. replace (rltb 0 1) with true by (symmetry; apply rltb_true; lra). eexists. reflexivity.
Qed.
Lemma ex_visc_some0 : forall dt, exists f, pair_flux 1 kern (m4_w1 1) no_slope ex_hllc (ComputeViscousFlux 1 (3/4) 0) false (ex_part 0 0 1 1 1) (ex_part 1 0 1 1 1) dt = Some f.
Proof.
  intros dt. unfold pair_flux. set (A := area 1 kern _ _ _). assert (EM : sqrt (dot 1 A A) = 1). { unfold dot. cbn [sumf]. unfold A. rewrite ex_area. replace (0 + 1 * 1) with 1 by ring. apply sqrt_1. }
  rewrite EM. replace (rltb 0 1) with true by (symmetry; apply rltb_true; lra). eexists. reflexivity.
Qed.
