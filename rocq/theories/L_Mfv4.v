(** A pair seen from either side; a pair seen by a moving observer. *)
From Verif Require Import Prelude Vec M_Box L_Box M_Force M_Mfv M_Riemann S_Riemann S_Mfv L_Riemann L_Riemann2 L_Riemann3.
From Coq Require Import Reals Lra Psatz FunctionalExtensionality.
Local Open Scope R_scope.

Lemma small_pos : 0 < small_number.
Proof. unfold small_number. apply Rinv_0_lt_compat. apply pow_lt. lra. Qed.

Lemma dot_vneg : forall n a, dot n (vneg a) (vneg a) = dot n a a.
Proof. intros. unfold dot, vneg. apply sumf_ext. intros; ring. Qed.
Lemma vsub_swap : forall a b, vsub a b = vneg (vsub b a).
Proof. intros. apply functional_extensionality. intros k. unfold vsub, vneg. ring. Qed.

Section Pair.
Variable ndim : nat.
Variables (w0_s2 w1 : R -> R) (limiter : gpart -> gpart -> vec -> (nat -> vec) * vec).
Notation area := (area ndim w0_s2 w1).

Lemma psi_swap : forall p d k, psi_neib ndim w0_s2 w1 p (vneg d) k = psi_part ndim w0_s2 w1 p d k /\ psi_part ndim w0_s2 w1 p (vneg d) k = psi_neib ndim w0_s2 w1 p d k.
Proof.
  intros p d k. unfold psi_part, psi_neib. rewrite dot_vneg. destruct (g_bad p); cbn [negb].
  - unfold vneg. split; unfold Rdiv; ring.
  - split.
    + rewrite Rminus_0_l. match goal with |- - sumf _ ?f = sumf _ ?g => replace (- sumf ndim f) with (-1 * sumf ndim f) by ring end. rewrite <- sumf_scal. apply sumf_ext. intros. unfold vneg. ring.
    + rewrite Rminus_0_l. match goal with |- sumf _ ?f = - sumf _ ?g => replace (- sumf ndim g) with (-1 * sumf ndim g) by ring end. rewrite <- sumf_scal. apply sumf_ext. intros. unfold vneg. ring.
Qed.
Lemma area_swap : forall p q, area q p = vneg (area p q).
Proof.
  intros p q. apply functional_extensionality. intros k. unfold M_Mfv.area, vneg at 1. rewrite (vsub_swap (g_r p) (g_r q)).
  destruct (psi_swap p (vsub (g_r q) (g_r p)) k) as (-> & _). destruct (psi_swap q (vsub (g_r q) (g_r p)) k) as (_ & ->). ring.
Qed.
(** Floors make every state at a face valid. *)
Lemma face_pos : forall p q r v dt, 0 < face_state ndim limiter p q r v dt (irho ndim) /\ 0 < face_state ndim limiter p q r v dt (ipress ndim).
Proof.
  intros p q r v dt. unfold face_state. destruct (limiter p q _) as (g, d). rewrite Nat.eqb_refl.
  replace (Nat.eqb (ipress ndim) (irho ndim)) with false by (symmetry; apply Nat.eqb_neq; unfold ipress, irho; lia). rewrite Nat.eqb_refl.
  split; apply Rlt_le_trans with small_number; try apply small_pos; apply Rmax_r.
Qed.

(** ** From either side *)
Section Swap.
Variables (riemann : vec -> vec -> vec -> vec -> nat -> vec) (viscous : vec -> vec -> (nat -> vec) -> (nat -> vec) -> (nat -> vec) -> nat -> vec) (staticParticles : bool).
Hypothesis riemann_swap : forall Wl Wr n w i j, (i <= S ndim)%nat -> 0 < Wl (irho ndim) -> 0 < Wl (ipress ndim) -> 0 < Wr (irho ndim) -> 0 < Wr (ipress ndim) ->
  riemann Wr Wl (vneg n) w i j = riemann Wl Wr n w i j.
Hypothesis viscous_swap : forall Wl Wr gl gr f f' i j, (forall i j, (i <= S ndim)%nat -> f' i j = f i j) -> (i <= S ndim)%nat -> (j < ndim)%nat -> viscous Wr Wl gr gl f' i j = viscous Wl Wr gl gr f i j.
Notation pair_flux := (pair_flux ndim w0_s2 w1 limiter riemann viscous staticParticles).
Notation exchange := (exchange ndim w0_s2 w1 limiter riemann viscous staticParticles).

Theorem pair_swap : forall p q dt,
  match pair_flux p q dt, pair_flux q p dt with
  | Some f, Some f' => forall i, (i <= S ndim)%nat -> f' i = - f i
  | None, None => True
  | _, _ => False
  end.
Proof.
  intros p q dt. unfold M_Mfv.pair_flux. rewrite (area_swap p q), dot_vneg. set (A := area p q). destruct (rltb 0 (sqrt (dot ndim A A))) eqn:E; [|exact Logic.I].
  intros i Hi.
  assert (Er : (fun k => 1 / 2 * (g_r q k + g_r p k)) = (fun k => 1 / 2 * (g_r p k + g_r q k))) by (apply functional_extensionality; intros; ring). rewrite Er.
  assert (Ev : (fun k => if staticParticles then 0 else 1 / 2 * (g_v q k + g_v p k)) = (fun k => if staticParticles then 0 else 1 / 2 * (g_v p k + g_v q k))) by (apply functional_extensionality; intros; destruct staticParticles; ring). rewrite Ev.
  set (rf := fun k => 1 / 2 * (g_r p k + g_r q k)). set (vf := fun k => if staticParticles then 0 else _). set (m := sqrt (dot ndim A A)) in *.
  assert (En : (fun k => vneg A k / m) = vneg (fun k => A k / m)) by (apply functional_extensionality; intros; unfold vneg, Rdiv; ring). rewrite En.
  unfold dot. match goal with |- sumf _ ?f = - sumf _ ?g => replace (- sumf ndim g) with (-1 * sumf ndim g) by ring end. rewrite <- sumf_scal. apply sumf_ext. intros j Hj.
  rewrite (viscous_swap _ _ (g_grad p) (g_grad q) (riemann (face_state ndim limiter p q rf vf dt) (face_state ndim limiter q p rf vf dt) (fun k => A k / m) vf)); [unfold vneg; ring| |easy|easy].
  intros i' j' Hi'. apply riemann_swap; try easy; apply face_pos.
Qed.

Theorem exchange_swap : forall p q dt x y k, let a := exchange p q dt x y in let b := exchange q p dt y x in
  (forall i, (i <= S ndim)%nat -> q_dQ (fst a) i = q_dQ (snd b) i /\ q_dQ (snd a) i = q_dQ (fst b) i /\ q_dQdt (fst a) i = q_dQdt (snd b) i /\ q_dQdt (snd a) i = q_dQdt (fst b) i) /\
  let moved := q_dQ y ndim - q_dQ (snd a) ndim in
  q_rd (fst a) k - q_rd x k = (g_r p k - g_r q k) * moved /\ q_rd (snd b) k - q_rd x k = - ((g_r p k - g_r q k) * moved).
Proof.
  intros p q dt x y k. cbv zeta. unfold M_Mfv.exchange. pose proof (pair_swap p q dt) as H. destruct (pair_flux p q dt) as [f|], (pair_flux q p dt) as [f'|]; try easy; cbn [fst snd q_dQ q_dQdt q_rd].
  - split.
    + intros i Hi. rewrite (H i Hi). repeat split; ring.
    + rewrite (H (irho ndim)) by (unfold irho; lia). unfold irho. split; ring.
  - split; [intros; repeat split; ring|split; ring].
Qed.
End Swap.

(** ** From a moving frame *)
Section Moving.
Variables (viscous : vec -> vec -> (nat -> vec) -> (nat -> vec) -> (nat -> vec) -> nat -> vec) (zmf iso : bool) (gammam1 : R) (sound : R -> R -> R).
Variable V : vec.
Hypothesis limiter_moving : forall p q d, limiter (moving ndim V p) (moving ndim V q) d = limiter p q d.
Notation riemann := (hllc ndim zmf iso gammam1 sound).
Notation pair_flux := (pair_flux ndim w0_s2 w1 limiter riemann viscous false).

Lemma face_moving : forall p q r vf dt, face_state ndim limiter (moving ndim V p) (moving ndim V q) r (fun k => vf k + V k) dt = face_state ndim limiter p q r vf dt.
Proof.
  intros p q r vf dt. unfold face_state. cbn [moving g_r g_sound g_a g_W]. rewrite limiter_moving. destruct (limiter p q _) as (g, d).
  assert (E : (fun k => if Nat.ltb k ndim then (if Nat.ltb k ndim then g_W p k + V k else g_W p k) + d k - (vf k + V k) else (if Nat.ltb k ndim then g_W p k + V k else g_W p k) + d k) =
              (fun k => if Nat.ltb k ndim then g_W p k + d k - vf k else g_W p k + d k)).
  { apply functional_extensionality. intros k. destruct (Nat.ltb k ndim); ring. }
  rewrite E. apply functional_extensionality. intros k. pose proof (equal_f E k) as Ek. cbv beta in Ek. rewrite Ek. reflexivity.
Qed.
Lemma lab_ext_w : forall z f w w' i, (forall k, w k = w' k) -> lab_frame ndim z f w i = lab_frame ndim z f w' i.
Proof. intros z f w w' i H. replace w' with w; [easy|]. now apply functional_extensionality. Qed.
Lemma lab_moving : forall z f w i, (i <= S ndim)%nat -> lab_frame ndim z f (fun k => w k + V k) i =
  lab_frame ndim z f w i + (if Nat.ltb i ndim then V i * lab_frame ndim z f w ndim else if Nat.eqb i ndim then 0
     else sumf ndim (fun k => V k * lab_frame ndim z f w k) + 1 / 2 * sumf ndim (fun k => V k * V k) * lab_frame ndim z f w ndim).
Proof.
  intros z f w i Hi. unfold lab_frame. set (g := if z then vupd f (irho ndim) 0 else f). unfold irho, ietot. rewrite Nat.eqb_refl.
  destruct (idx ndim i Hi) as [->|[->|L]].
  - rewrite Nat.eqb_refl, Nat.ltb_irrefl. ring.
  - replace (Nat.eqb (S ndim) ndim) with false by (symmetry; apply Nat.eqb_neq; lia). rewrite Nat.eqb_refl. replace (Nat.ltb (S ndim) ndim) with false by (symmetry; apply Nat.ltb_ge; lia).
    rewrite (sumf_ext ndim (fun k => V k * (if Nat.eqb k ndim then _ else _)) (fun k => V k * g k + g ndim * (V k * w k))).
    2:{ intros k Hk. replace (Nat.eqb k ndim) with false by (symmetry; apply Nat.eqb_neq; lia). replace (Nat.eqb k (S ndim)) with false by (symmetry; apply Nat.eqb_neq; lia). ring. }
    unfold dot. rewrite (sumf_ext ndim (fun k => (w k + V k) * (w k + V k)) (fun k => w k * w k + 2 * (V k * w k) + V k * V k)) by (intros; ring).
    rewrite (sumf_ext ndim (fun i => g i * (w i + V i)) (fun i => g i * w i + V i * g i)) by (intros; ring).
    rewrite !sumf_plus, !sumf_scal. field.
  - replace (Nat.eqb i ndim) with false by (symmetry; apply Nat.eqb_neq; lia). replace (Nat.eqb i (S ndim)) with false by (symmetry; apply Nat.eqb_neq; lia).
    replace (Nat.ltb i ndim) with true by (symmetry; now apply Nat.ltb_lt). ring.
Qed.
Lemma solve_moving : forall sl sr n w i, (i <= S ndim)%nat -> solve ndim zmf iso sl sr n (fun k => w k + V k) i =
  solve ndim zmf iso sl sr n w i + (if Nat.ltb i ndim then V i * solve ndim zmf iso sl sr n w ndim else if Nat.eqb i ndim then 0
     else sumf ndim (fun k => V k * solve ndim zmf iso sl sr n w k) + 1 / 2 * sumf ndim (fun k => V k * V k) * solve ndim zmf iso sl sr n w ndim).
Proof.
  intros sl sr n w i Hi. unfold solve. destruct (HLL_Speeds ndim sl sr) as (Smin, Smax). cbv zeta. set (vm := compute_central_wave_speed iso sl sr Smin Smax).
  destruct zmf; [|now apply lab_moving].
  rewrite <- lab_moving by easy. apply lab_ext_w. intros. ring.
Qed.

(** Without viscosity. *)
Theorem pair_moving : forall p q dt, (forall Wl Wr gl gr f, viscous Wl Wr gl gr f = f) ->
  match pair_flux p q dt, pair_flux (moving ndim V p) (moving ndim V q) dt with
  | Some f, Some f' => f' ndim = f ndim /\ (forall k, (k < ndim)%nat -> f' k = f k + V k * f ndim) /\
      f' (S ndim) = f (S ndim) + sumf ndim (fun k => V k * f k) + 1 / 2 * sumf ndim (fun k => V k * V k) * f ndim
  | None, None => True
  | _, _ => False
  end.
Proof.
  intros p q dt Hv. unfold M_Mfv.pair_flux. cbn [moving g_r g_v].
  change (M_Mfv.area ndim w0_s2 w1 (moving ndim V p) (moving ndim V q)) with (area p q). set (A := area p q).
  destruct (rltb 0 (sqrt (dot ndim A A))) eqn:E; [|exact Logic.I].
  assert (Ev : (fun k => 1 / 2 * (g_v p k + V k + (g_v q k + V k))) = (fun k => 1 / 2 * (g_v p k + g_v q k) + V k)) by (apply functional_extensionality; intros; field).
  rewrite Ev. set (vf := fun k => 1 / 2 * (g_v p k + g_v q k)). set (rf := fun k => 1 / 2 * (g_r p k + g_r q k)).
  rewrite !(face_moving _ _ rf vf dt). rewrite !Hv. set (n := fun k => A k / _).
  set (Wl := face_state ndim limiter p q rf vf dt). set (Wr := face_state ndim limiter q p rf vf dt). cbv zeta. unfold hllc.
  set (sl := state_of ndim gammam1 sound Wl n). set (sr := state_of ndim gammam1 sound Wr n).
  assert (D : forall w i, dot ndim (fun j => solve ndim zmf iso sl sr n w i * n j) A = solve ndim zmf iso sl sr n w i * dot ndim n A).
  { intros w i. unfold dot. rewrite (sumf_ext ndim _ (fun k => solve ndim zmf iso sl sr n w i * (n k * A k))) by (intros; ring). now rewrite sumf_scal. }
  rewrite !D, !(solve_moving sl sr n vf) by lia. rewrite Nat.ltb_irrefl, Nat.eqb_refl. replace (Nat.ltb (S ndim) ndim) with false by (symmetry; apply Nat.ltb_ge; lia).
  replace (Nat.eqb (S ndim) ndim) with false by (symmetry; apply Nat.eqb_neq; lia). split; [ring|]. split.
  - intros k Hk. rewrite !D, (solve_moving sl sr n vf) by lia. replace (Nat.ltb k ndim) with true by (symmetry; now apply Nat.ltb_lt). ring.
  - rewrite (sumf_ext ndim (fun k => V k * dot ndim _ A) (fun k => dot ndim n A * (V k * solve ndim zmf iso sl sr n vf k))) by (intros; rewrite D; ring).
    rewrite sumf_scal. ring.
Qed.
End Moving.
End Pair.

(** In terms of what a particle moving with [v] receives. *)
Lemma push_moving : forall ndim V v f f' k, (k < ndim)%nat -> f' ndim = f ndim -> (forall k, (k < ndim)%nat -> f' k = f k + V k * f ndim) ->
  push ndim (fun k => v k + V k) f' k = push ndim v f k.
Proof. intros ndim V v f f' k Hk E1 E2. unfold push. rewrite E1, E2 by easy. ring. Qed.
Lemma heat_moving : forall ndim V v f f', f' ndim = f ndim -> (forall k, (k < ndim)%nat -> f' k = f k + V k * f ndim) ->
  f' (S ndim) = f (S ndim) + sumf ndim (fun k => V k * f k) + 1 / 2 * sumf ndim (fun k => V k * V k) * f ndim ->
  heat ndim (fun k => v k + V k) f' = heat ndim v f.
Proof.
  intros ndim V v f f' E1 E2 E3. unfold heat. rewrite E1, E3.
  rewrite (sumf_ext ndim (fun k => (v k + V k) * f' k) (fun k => v k * f k + V k * f k + f ndim * (v k * V k) + f ndim * (V k * V k))) by (intros; rewrite E2 by easy; ring).
  rewrite (sumf_ext ndim (fun k => (v k + V k) * (v k + V k)) (fun k => v k * v k + 2 * (v k * V k) + V k * V k)) by (intros; ring).
  rewrite !sumf_plus, !sumf_scal. field.
Qed.

(** ** The HLLC solver and the viscous flux *)
Lemma visc_swap : forall ndim nu nub Wl Wr gl gr f f' i j, (forall i j, (i <= S ndim)%nat -> f' i j = f i j) -> (i <= S ndim)%nat -> (j < ndim)%nat ->
  ComputeViscousFlux ndim nu nub Wr Wl gr gl f' i j = ComputeViscousFlux ndim nu nub Wl Wr gl gr f i j.
Proof.
  intros ndim nu nub Wl Wr gl gr f f' i j Hf Hi Hj. unfold ComputeViscousFlux. rewrite (Hf i j Hi).
  rewrite (sumf_ext ndim (fun i => (gr i i + gl i i) / 2) (fun i => (gl i i + gr i i) / 2)) by (intros; field).
  destruct (Nat.eqb i (M_Mfv.ietot ndim)).
  - f_equal. apply sumf_ext. intros k _. destruct (Nat.eqb k j); field.
  - destruct (Nat.ltb i ndim); [|reflexivity]. f_equal. destruct (Nat.eqb i j); field.
Qed.
Lemma hllc_swap : forall ndim zmf iso gammam1 sound, 0 < gammam1 -> (forall rho u, 0 < rho -> 0 < u -> 0 < sound rho u) ->
  forall Wl Wr n w i j, (i <= S ndim)%nat -> 0 < Wl (irho ndim) -> 0 < Wl (ipress ndim) -> 0 < Wr (irho ndim) -> 0 < Wr (ipress ndim) ->
  hllc ndim zmf iso gammam1 sound Wr Wl (vneg n) w i j = hllc ndim zmf iso gammam1 sound Wl Wr n w i j.
Proof.
  intros ndim zmf iso gammam1 sound Hg Hs Wl Wr n w i j Hi A B C D.
  assert (Vd : forall W : vec, 0 < W (irho ndim) -> 0 < W (ipress ndim) -> valid ndim gammam1 sound W).
  { intros W H1 H2. unfold irho, ipress in *. split; [exact H1|]. apply Hs; [exact H1|]. apply Rdiv_lt_0_compat; [exact H2|]. now apply Rmult_lt_0_compat. }
  apply hllc_exchange; auto.
Qed.
Lemma adiabatic_pos : forall gamma rho u, 1 < gamma -> 0 < rho -> 0 < u -> 0 < adiabatic_sound gamma rho u.
Proof. intros. unfold adiabatic_sound. apply sqrt_lt_R0. apply Rmult_lt_0_compat; [apply Rmult_lt_0_compat; lra|lra]. Qed.

Section Viscous.
Variable ndim : nat.
Variables (w0_s2 w1 : R -> R) (limiter : gpart -> gpart -> vec -> (nat -> vec) * vec) (riemann : vec -> vec -> vec -> vec -> nat -> vec).
Variables (nu nub : R).
(** What the viscosity adds to the flux. *)
Definition visc_part (Wi Wj : vec) (gi gj : nat -> vec) (i j : nat) : R := ComputeViscousFlux ndim nu nub Wi Wj gi gj (fun _ _ => 0) i j.
Lemma visc_add : forall Wi Wj gi gj f i j, ComputeViscousFlux ndim nu nub Wi Wj gi gj f i j = f i j + visc_part Wi Wj gi gj i j.
Proof. intros. unfold visc_part, ComputeViscousFlux. destruct (Nat.eqb i (ietot ndim)); [ring|]. destruct (Nat.ltb i ndim); ring. Qed.
Definition visc_force (p q : gpart) (dt : R) (k : nat) : R :=
  let rf := fun k => 1 / 2 * (g_r p k + g_r q k) in
  let vf := fun k => 1 / 2 * (g_v p k + g_v q k) in
  dot ndim (visc_part (face_state ndim limiter p q rf vf dt) (face_state ndim limiter q p rf vf dt) (g_grad p) (g_grad q) k) (area ndim w0_s2 w1 p q).
End Viscous.

Section ViscousMoving.
Variable ndim : nat.
Variables (w0_s2 w1 : R -> R) (limiter : gpart -> gpart -> vec -> (nat -> vec) * vec).
Variables (zmf iso : bool) (gammam1 : R) (sound : R -> R -> R) (nu nub : R) (V : vec).
Hypothesis limiter_moving : forall p q d, limiter (moving ndim V p) (moving ndim V q) d = limiter p q d.
Notation pf v := (pair_flux ndim w0_s2 w1 limiter (hllc ndim zmf iso gammam1 sound) v false).
Notation inviscid := (fun _ _ _ _ f => f).
Notation force := (visc_force ndim w0_s2 w1 limiter nu nub).

Lemma pair_visc : forall p q dt, match pf inviscid p q dt, pf (ComputeViscousFlux ndim nu nub) p q dt with
  | Some f, Some g => forall k, g k = f k + force p q dt k
  | None, None => True | _, _ => False end.
Proof.
  intros p q dt. unfold pair_flux. destruct (rltb 0 _); [|exact Logic.I]. intros k. cbv zeta. unfold visc_force.
  unfold dot. rewrite <- sumf_plus. apply sumf_ext. intros j _. rewrite visc_add. ring.
Qed.
Lemma force_moving : forall p q dt k, force (moving ndim V p) (moving ndim V q) dt k = force p q dt k.
Proof.
  intros p q dt k. unfold visc_force. cbn [moving g_r g_v g_grad].
  assert (Ev : (fun k => 1 / 2 * (g_v p k + V k + (g_v q k + V k))) = (fun k => 1 / 2 * (g_v p k + g_v q k) + V k)) by (apply functional_extensionality; intros; field).
  rewrite Ev. rewrite !(face_moving ndim limiter V limiter_moving _ _ (fun k => 1 / 2 * (g_r p k + g_r q k)) (fun k => 1 / 2 * (g_v p k + g_v q k)) dt). reflexivity.
Qed.
Lemma force_rho : forall p q dt, force p q dt ndim = 0.
Proof.
  intros. unfold visc_force, dot. rewrite (sumf_ext ndim _ (fun _ => 0)); [apply sumf_zero|]. intros j Hj.
  unfold visc_part, ComputeViscousFlux. replace (Nat.eqb ndim (ietot ndim)) with false by (symmetry; apply Nat.eqb_neq; unfold ietot; lia). rewrite Nat.ltb_irrefl. ring.
Qed.
(** With viscosity: the heat changes by the work of the viscous force over the motion of the whole. *)
Theorem visc_moving : forall p q dt v, match pf (ComputeViscousFlux ndim nu nub) p q dt, pf (ComputeViscousFlux ndim nu nub) (moving ndim V p) (moving ndim V q) dt with
  | Some f, Some f' => f' ndim = f ndim /\ (forall k, (k < ndim)%nat -> push ndim (fun k => v k + V k) f' k = push ndim v f k) /\
      heat ndim (fun k => v k + V k) f' = heat ndim v f - sumf ndim (fun k => V k * force p q dt k)
  | None, None => True | _, _ => False end.
Proof.
  intros p q dt v. pose proof (pair_visc p q dt) as A. pose proof (pair_visc (moving ndim V p) (moving ndim V q) dt) as B.
  pose proof (pair_moving ndim w0_s2 w1 limiter inviscid zmf iso gammam1 sound V limiter_moving p q dt (fun _ _ _ _ _ => eq_refl)) as C.
  destruct (pf inviscid p q dt) as [f|], (pf (ComputeViscousFlux ndim nu nub) p q dt) as [g|]; try easy;
  destruct (pf inviscid (moving ndim V p) (moving ndim V q) dt) as [f'|], (pf (ComputeViscousFlux ndim nu nub) (moving ndim V p) (moving ndim V q) dt) as [g'|]; try easy.
  destruct C as (C1 & C2 & C3). assert (M : g' ndim = g ndim) by (rewrite A, B, force_moving, C1; ring).
  split; [exact M|]. split.
  - intros k Hk. apply push_moving; [easy|exact M|]. intros k' Hk'. rewrite A, B, force_moving, C2, A, force_rho by easy. ring.
  - transitivity (heat ndim (fun k => v k + V k) f' + (force p q dt (S ndim) - sumf ndim (fun k => (v k + V k) * force p q dt k))).
    + unfold heat. rewrite !B, !force_moving, force_rho. rewrite (sumf_ext ndim (fun k => (v k + V k) * g' k) (fun k => (v k + V k) * f' k + (v k + V k) * force p q dt k)) by (intros; rewrite B, force_moving; ring).
      rewrite sumf_plus. ring.
    + rewrite (heat_moving ndim V v f f' C1 C2 C3). unfold heat. rewrite !A, force_rho.
      rewrite (sumf_ext ndim (fun k => v k * g k) (fun k => v k * f k + v k * force p q dt k)) by (intros; rewrite A; ring).
      rewrite (sumf_ext ndim (fun k => (v k + V k) * force p q dt k) (fun k => v k * force p q dt k + V k * force p q dt k)) by (intros; ring).
      rewrite !sumf_plus. ring.
Qed.
End ViscousMoving.
