(** C75: drag between gas and dust. *)
From Verif Require Import Prelude Vec M_Box L_Box M_Dust S_Diag S_Dust L_Diag L_Dust L_Dust2 L_Dust3 L_Dust4.
From Coq Require Import Reals Lra Lia List Permutation.
Import ListNotations.
Local Open Scope R_scope.

(** The stopping time of a pair. *)
Definition pair_ts (lw : law) (Kd : R) (p q : dpt) : R :=
  match d_kind p with Gas => t_stop lw Kd (d_rho p) (d_rho q) (d_sound p) | _ => t_stop lw Kd (d_rho q) (d_rho p) (d_sound q) end.

(** Two fluids: the acceleration of a particle is a sum over its neighbours of forces along the line to each, with the kernel of the gas
    particle; the strength is the mean over the step of the damping of the relative velocity along that line, exactly if the step is more
    than a thousandth of the stopping time and else with an error below (dt/ts)^4/24. *)
Theorem C75_mean : forall ndim sch wdrag lw Kd ue p l dt,
  (forall q, In q l -> dragmask (d_kind p) (d_kind (snd q)) = true /\ d_rho (snd q) <> 0) ->
  exists (S : dpt -> R) (e : dpt -> vec),
    (forall k, x_acc (ComputeDragForces ndim sch wdrag lw Kd ue p l dt) k =
       - lsum (fun q => let q := snd q in let h := match d_kind p with Gas => d_h p | _ => d_h q end in
           INR ndim * d_m q * (wdrag (norm ndim (vsub (d_r p) (d_r q)) * (1 / h)) * (1 / h) ^ ndim) * S q * e q k) l) /\
    (forall q k, norm ndim (vsub (d_r p) (d_r q)) * e q k = if rltb 0 (norm ndim (vsub (d_r p) (d_r q))) then vsub (d_r p) (d_r q) k else 0) /\
    (forall q, In q l -> let q := snd q in
       let ts := pair_ts lw Kd p q in let rho := d_rho p + d_rho q in
       let dv := dot ndim (e q) (vdiff sch p q) in let da := dot ndim (e q) (vsub (total_accel sch p) (total_accel sch q)) in
       0 < ts -> rho <> 0 -> (dt = 0 -> S q * rho = dv / ts) /\
       forall x, dt >= 0 -> damped ts da x -> x 0 = dv ->
         Rabs (S q * rho * dt - (dv + da * dt - x dt)) <= (if rltb (1 / 1000) (dt / ts) then 0 else (dt / ts) ^ 4 / 24) * Rabs (dv - da * ts)).
Proof.
  intros ndim sch wdrag lw Kd ue p l dt H. exists (fun q => pair_S ndim sch lw Kd p q dt), (fun q => pair_dir ndim p q). split; [|split].
  - intros k. rewrite x_acc_is. f_equal. apply lsum_ext. intros q Q. destruct (H q Q) as (M & RN). cbv zeta. unfold wkern, norm.
    destruct (d_kind p), (d_kind (snd q)); try discriminate; field; exact RN.
  - intros q k. unfold pair_dir, norm. cbv zeta. set (d := sqrt _). destruct (rltb 0 d) eqn:E; [apply rltb_true in E; field; lra|apply rltb_false in E].
    assert (D : d = 0) by (pose proof (sqrt_pos (dot ndim (vsub (d_r p) (d_r q)) (vsub (d_r p) (d_r q)))); fold d in H0; lra). rewrite D. ring.
  - intros q Q. destruct (H q Q) as (M & _). cbv zeta. intros T RN.
    set (dv := dot ndim _ (vdiff sch p (snd q))). set (da := dot ndim _ (vsub _ _)). set (ts := pair_ts lw Kd p (snd q)) in *.
    assert (E : forall D, D >= 0 -> pair_S ndim sch lw Kd p (snd q) D * (d_rho p + d_rho (snd q)) =
      (dv + D * da) * fst (test_coeffs D ts) - da * snd (test_coeffs D ts)).
    { intros D DD. unfold pair_S. cbv zeta. fold dv da.
      assert (PT : (let '(gsound, grho, drho) := match d_kind p with Gas => (d_sound p, d_rho p, d_rho (snd q)) | _ => (d_sound (snd q), d_rho (snd q), d_rho p) end in
        let '(Xi, Lambda) := pair_coeffs (drho + grho) D (t_stop lw Kd grho drho gsound) in (dv + D * da) * Xi - da * Lambda) =
        (dv + D * da) * (fst (test_coeffs D ts) / (d_rho p + d_rho (snd q))) - da * (snd (test_coeffs D ts) / (d_rho p + d_rho (snd q)))).
      { unfold ts, pair_ts in *. destruct (d_kind p) eqn:K; rewrite pair_test by (lra || (rewrite Rplus_comm in RN; lra) || auto); try reflexivity.
        rewrite (Rplus_comm (d_rho (snd q))). reflexivity. }
      cbv zeta in PT. rewrite PT. field. exact RN. }
    split.
    + intros ->. rewrite E by lra. unfold test_coeffs. cbv zeta. unfold Rdiv at 1. rewrite Rmult_0_l. destruct (rltb _ _) eqn:X; [apply rltb_true in X; lra|]. cbn [fst snd].
      replace (0 / ts) with 0 by (unfold Rdiv; ring). field. lra.
    + intros x D X X0. rewrite E by auto. pose proof (coeffs_loss dt ts dv da T D) as C.
      destruct (test_coeffs dt ts) as (Xi, La). cbn [fst snd]. rewrite (damped_unique ts da x ltac:(lra) X dt), X0. rewrite (Rmult_comm dt da), C.
      replace (_ - _) with ((loss dt ts - (1 - exp (- (dt / ts)))) * (dv - da * ts)) by ring.
      rewrite Rabs_mult. apply Rmult_le_compat_r; [apply Rabs_pos|]. apply loss_exact; auto.
Qed.

(** Test particles: a step never reverses nor increases the difference to the terminal relative velocity, however long it is; over a step
    much longer than the stopping time nothing of it is left. *)
Theorem C75_stable : forall dv da dt ts k, ts > 0 -> dt >= 0 ->
  let u := dv k - da k * ts in let u' := dv k + da k * dt + test_accel dv da dt ts k * dt - da k * ts in
  0 <= u' * u /\ Rabs u' <= Rabs u /\ (1 / 1000 < dt / ts -> u' = u * exp (- (dt / ts))).
Proof.
  intros dv da dt ts k T D u u'. destruct (test_stable dv da dt ts k T D) as (f & F & E). fold u u' in E. repeat split.
  - rewrite E. replace (f * u * u) with (f * (u * u)) by ring. apply Rmult_le_pos; [lra|apply Rle_0_sqr].
  - rewrite E, Rabs_mult, (Rabs_right f) by lra. pose proof (Rabs_pos u). nra.
  - intros B. pose proof (coeffs_loss dt ts (dv k) (da k) T D) as C. unfold loss in C. cbv zeta in C.
    destruct (rltb (1 / 1000) (dt / ts)) eqn:X; [|apply rltb_false in X; lra].
    unfold u', u, test_accel. destruct (test_coeffs dt ts) as (Xi, La).
    replace (dv k + da k * dt + _ * dt - _) with ((dv k + da k * dt - ((dv k + da k * dt) * Xi - da k * La) * dt) - da k * ts) by ring. rewrite C. ring.
Qed.

Section Two.
Variables (ndim : nat) (w_tstep : R) (wdrag : R -> R) (lw : law) (Kd : R) (ue : bool).
Lemma out_sph ps neibs active i k : existsb (Nat.eqb i) active = true ->
  d_a (DoForces ndim Sph w_tstep wdrag lw Kd ue ps neibs active i) k - d_a (ps i) k = x_acc (drag_of ndim Sph w_tstep wdrag lw Kd ue ps neibs i) k.
Proof. intros A. unfold DoForces. cbv zeta. rewrite A. cbn [update_particle update_sph d_a set_gas]. ring. Qed.
Lemma out_mfv ps neibs active i k : existsb (Nat.eqb i) active = true ->
  d_dQ (DoForces ndim Mfv w_tstep wdrag lw Kd ue ps neibs active i) k - d_dQ (ps i) k =
  d_m (ps i) * x_acc (drag_of ndim Mfv w_tstep wdrag lw Kd ue ps neibs i) k * drag_timestep w_tstep (ps i).
Proof. intros A. unfold DoForces. cbv zeta. rewrite A. cbn [update_particle update_mfv d_dQ set_gas d_m]. unfold drag_timestep. cbn [set_gas d_m d_dt d_dtnext]. ring. Qed.
End Two.

(** Drag conserves momentum: whatever the candidates are, if particles see one another (also as images) and have the same steps, the
    changes of momentum of all particles, in all schemes and laws, add up to zero. *)
Theorem C75_momentum : forall ndim w_tstep wdrag lw Kd ue ps N sh neibs active dt dtn k,
  mutual N (fun i => d_r (ps i)) sh neibs -> Permutation active (seq 0 N) ->
  (forall i, (i < N)%nat -> d_rho (ps i) <> 0 /\ d_dt (ps i) = dt /\ d_dtnext (ps i) = dtn) ->
  let sph := DoForces ndim Sph w_tstep wdrag lw Kd ue ps neibs active in let mfv := DoForces ndim Mfv w_tstep wdrag lw Kd ue ps neibs active in
  lsum (fun i => d_m (ps i) * (d_a (sph i) k - d_a (ps i) k)) (seq 0 N) = 0 /\ lsum (fun i => d_dQ (mfv i) k - d_dQ (ps i) k) (seq 0 N) = 0.
Proof.
  intros ndim w_tstep wdrag lw Kd ue ps N sh neibs active dt dtn k MU AC H. cbv zeta. split.
  - rewrite (lsum_ext _ _ (fun i => d_m (ps i) * x_acc (drag_of ndim Sph w_tstep wdrag lw Kd ue ps neibs i) k)).
    + apply (momentum_sum ndim Sph w_tstep wdrag lw Kd ue ps N sh neibs dt dtn k MU H).
    + intros i I. apply in_seq in I. rewrite out_sph; auto. apply (active_in N active i AC). lia.
  - rewrite (lsum_ext _ _ (fun i => (w_tstep * dt + (1 - w_tstep) * dtn) * (d_m (ps i) * x_acc (drag_of ndim Mfv w_tstep wdrag lw Kd ue ps neibs i) k))).
    + rewrite lsum_scal, (momentum_sum ndim Mfv w_tstep wdrag lw Kd ue ps N sh neibs dt dtn k MU H). ring.
    + intros i I. apply in_seq in I. rewrite out_mfv by (apply (active_in N active i AC); lia). unfold drag_timestep. destruct (H i ltac:(lia)) as (_ & -> & ->). ring.
Qed.

(** ... and, without images, angular momentum. *)
Theorem C75_torque : forall ndim w_tstep wdrag lw Kd ue ps N neibs active dt dtn a b,
  mutual N (fun i => d_r (ps i)) (fun _ _ => [fun _ => 0]) neibs -> Permutation active (seq 0 N) ->
  (forall i, (i < N)%nat -> d_rho (ps i) <> 0 /\ d_dt (ps i) = dt /\ d_dtnext (ps i) = dtn) ->
  let sph := DoForces ndim Sph w_tstep wdrag lw Kd ue ps neibs active in let mfv := DoForces ndim Mfv w_tstep wdrag lw Kd ue ps neibs active in
  let da := fun i k => d_a (sph i) k - d_a (ps i) k in let dq := fun i k => d_dQ (mfv i) k - d_dQ (ps i) k in
  lsum (fun i => d_m (ps i) * (d_r (ps i) a * da i b - d_r (ps i) b * da i a)) (seq 0 N) = 0 /\
  lsum (fun i => d_r (ps i) a * dq i b - d_r (ps i) b * dq i a) (seq 0 N) = 0.
Proof.
  intros ndim w_tstep wdrag lw Kd ue ps N neibs active dt dtn a b MU AC H. cbv zeta. split.
  - rewrite <- (torque_sum ndim Sph w_tstep wdrag lw Kd ue ps N neibs dt dtn a b MU H). apply lsum_ext. intros i I. apply in_seq in I.
    rewrite !out_sph by (apply (active_in N active i AC); lia). reflexivity.
  - transitivity ((w_tstep * dt + (1 - w_tstep) * dtn) * 0); [|ring].
    rewrite <- (torque_sum ndim Mfv w_tstep wdrag lw Kd ue ps N neibs dt dtn a b MU H), <- lsum_scal. apply lsum_ext. intros i I. apply in_seq in I.
    rewrite !out_mfv by (apply (active_in N active i AC); lia). unfold drag_timestep. destruct (H i ltac:(lia)) as (_ & -> & ->). ring.
Qed.

Lemma seen_weight ndim wdrag ps neibs i : d_kind (ps i) = Dust -> gas_seen ndim wdrag ps (d_r (ps i)) (neibs i) = gas_weight ndim wdrag ps neibs i.
Proof.
  intros K. unfold gas_seen, gas_weight. apply lsum_ext. intros x _. cbv zeta. unfold wkern. rewrite K. cbn [set_pos d_r d_h d_kind].
  destruct (d_kind (ps (fst x))); try reflexivity. unfold norm, Rdiv. rewrite !Rmult_1_l, pow_inv. ring.
Qed.

(** The kinetic energy that drag takes out of gas and dust over a step is what it adds to the internal energy of the gas (SPH) or, for
    dust, to the energy of the gas (meshless), if no dust particle sees only gas of kernel weight zero. *)
Theorem C75_energy : forall ndim w_tstep wdrag lw Kd ps N neibs active dt,
  Permutation active (seq 0 N) -> (forall i x, (i < N)%nat -> In x (neibs i) -> (fst x < N)%nat) ->
  (forall i, (i < N)%nat -> drag_timestep w_tstep (ps i) = dt) ->
  (forall i, (i < N)%nat -> d_kind (ps i) = Gas -> d_rho (ps i) <> 0) ->
  (forall i, (i < N)%nat -> d_kind (ps i) = Dust -> gas_seen ndim wdrag ps (d_r (ps i)) (neibs i) <> 0) ->
  (let out := DoForces ndim Sph w_tstep wdrag lw Kd true ps neibs active in
   exists heat, (forall i, (i < N)%nat -> d_kind (ps i) = Gas -> d_dudt (out i) = oplus (d_dudt (ps i)) (Some (heat i))) /\
     lsum (fun i => d_m (ps i) * heat i * dt) (of_kind Gas ps N) +
     lsum (fun i => let w := fun k => init_v Sph (ps i) k + d_a (ps i) k * dt in
       d_m (ps i) * (kin ndim (fun k => w k + (d_a (out i) k - d_a (ps i) k) * dt) - kin ndim w)) (seq 0 N) = 0) /\
  ((forall i, (i < N)%nat -> d_dudt (ps i) = Some 0 /\ d_m (ps i) <> 0) ->
   let out := DoForces ndim Mfv w_tstep wdrag lw Kd true ps neibs active in
   exists heat, (forall i, (i < N)%nat -> d_kind (ps i) = Gas -> d_dQe (out i) = oplus (d_dQe (ps i)) (Some (heat i))) /\
     lsum heat (of_kind Gas ps N) +
     lsum (fun i => let w := fun k => d_v0 (ps i) k + total_accel Mfv (ps i) k * dt in
       d_m (ps i) * (kin ndim (fun k => w k + (d_dQ (out i) k - d_dQ (ps i) k) / d_m (ps i)) - kin ndim w)) (of_kind Dust ps N) = 0).
Proof.
  intros ndim w_tstep wdrag lw Kd ps N neibs active dt AC IN DT RN GS.
  assert (NZ : forall i, (i < N)%nat -> d_kind (ps i) = Dust -> gas_weight ndim wdrag ps neibs i <> 0).
  { intros i I K. rewrite <- seen_weight by exact K. apply GS; auto. }
  split.
  - set (sc := Sph). exists (fun i => own ndim sc w_tstep wdrag lw Kd ps neibs i + lsum (fun a => share ndim sc w_tstep wdrag lw Kd ps neibs a i) (seq 0 N)). split.
    + intros i I K. unfold DoForces. cbv zeta. rewrite (dudt_is ndim sc w_tstep wdrag lw Kd ps N neibs active AC IN RN NZ i I).
      rewrite (active_in N active i AC I). unfold sc. cbn [update_particle update_sph d_dudt set_gas d_kind]. rewrite K. reflexivity.
    + rewrite (lsum_ext _ _ (fun i => dt * (d_m (ps i) * own ndim sc w_tstep wdrag lw Kd ps neibs i) + dt * (d_m (ps i) * lsum (fun a => share ndim sc w_tstep wdrag lw Kd ps neibs a i) (seq 0 N)))) by (intros; ring).
      rewrite lsum_plus, !lsum_scal, (heat_received ndim sc w_tstep wdrag lw Kd ps N neibs IN RN NZ).
      match goal with |- _ + lsum ?G ?L = 0 => rewrite (lsum_ext _ G (fun i => dt * (d_m (ps i) * dEk ndim sc w_tstep wdrag lw Kd ps neibs i)) L) end.
      2:{ intros i I. apply in_seq in I. cbv zeta. pose proof (dEk_kin ndim sc w_tstep wdrag lw Kd ps neibs i) as E. rewrite (DT i ltac:(lia)) in E.
          transitivity (d_m (ps i) * (dEk ndim sc w_tstep wdrag lw Kd ps neibs i * dt)); [|ring]. rewrite E. f_equal. f_equal. unfold kin. f_equal.
          apply dot_ext; intros k _; rewrite out_sph by (apply (active_in N active i AC); lia); reflexivity. }
      rewrite lsum_scal, (all_kinds ndim wdrag ps N neibs IN RN NZ).
      2:{ intros i I K. unfold dEk. cbv zeta. transitivity (d_m (ps i) * sumf ndim (fun _ => 0)); [|rewrite sumf_zero; ring]. f_equal. apply sumf_ext. intros k _.
          rewrite (cdm_free ndim sc w_tstep wdrag lw Kd ps N neibs i I K). ring. }
      rewrite (lsum_ext _ (fun i => d_m (ps i) * own ndim sc w_tstep wdrag lw Kd ps neibs i) (fun i => - (d_m (ps i) * dEk ndim sc w_tstep wdrag lw Kd ps neibs i))).
      2:{ intros i I. unfold of_kind in I. apply filter_In in I. destruct I as (_ & K). unfold own. destruct (d_kind (ps i)); try discriminate. ring. }
      rewrite lsum_opp. ring.
  - intros ZD. set (sc := Mfv). exists (fun i => dt * (d_m (ps i) * lsum (fun a => share ndim sc w_tstep wdrag lw Kd ps neibs a i) (seq 0 N))). split.
    + intros i I K. destruct (ZD i I) as (Z & _). unfold DoForces. cbv zeta. rewrite (dudt_is ndim sc w_tstep wdrag lw Kd ps N neibs active AC IN RN NZ i I).
      rewrite (active_in N active i AC I). unfold sc. cbn [update_particle update_mfv d_dQe set_gas d_kind d_dudt d_m]. rewrite K, Z. cbn [oplus oscal option_map].
      f_equal. f_equal. unfold own. rewrite K.
      change (drag_timestep w_tstep (set_gas (ps i) _ _)) with (drag_timestep w_tstep (ps i)).
      match goal with |- context [sumf ndim ?f] => replace (sumf ndim f) with (dEk ndim Mfv w_tstep wdrag lw Kd ps neibs i) end.
      * rewrite (DT i I). ring.
      * unfold dEk. apply sumf_ext. intros k _. cbv zeta. reflexivity.
    + rewrite lsum_scal, (heat_received ndim sc w_tstep wdrag lw Kd ps N neibs IN RN NZ).
      match goal with |- _ + lsum ?G ?L = 0 => rewrite (lsum_ext _ G (fun i => dt * (d_m (ps i) * dEk ndim sc w_tstep wdrag lw Kd ps neibs i)) L) end.
      2:{ intros i I. unfold of_kind in I. apply filter_In in I. destruct I as (I & _). apply in_seq in I. cbv zeta. pose proof (dEk_kin ndim sc w_tstep wdrag lw Kd ps neibs i) as E. rewrite (DT i ltac:(lia)) in E.
          transitivity (d_m (ps i) * (dEk ndim sc w_tstep wdrag lw Kd ps neibs i * dt)); [|ring]. rewrite E. f_equal. f_equal. unfold kin. f_equal.
          destruct (ZD i ltac:(lia)) as (_ & MN).
          apply dot_ext; intros k _; rewrite out_mfv by (apply (active_in N active i AC); lia); rewrite (DT i ltac:(lia)); unfold sc; cbn [init_v]; field; exact MN. }
      rewrite lsum_scal. ring.
Qed.

(** A particle of mass and density one, at r, with smoothing length h and velocity v, without other forces. *)
Definition pt (K : kind) (r h v : R) : dpt :=
  mkd K false 1 h 0 1 1 0 0 0 (fun _ => r) (fun _ => r) (fun _ => v) (fun _ => v) (fun _ => 0) (fun _ => 0) 1 (fun _ => 0) (Some 0) (Some 0).
(** All particles as neighbours of each. *)
Definition everyone (ps : nat -> dpt) (N i : nat) : list (nat * vec) :=
  flat_map (fun j => map (fun s => (j, fun k => d_r (ps j) k + s k)) [fun _ => 0]) (seq 0 N).
Lemma everyone_mutual ps N : mutual N (fun i => d_r (ps i)) (fun _ _ => [fun _ => 0]) (everyone ps N).
Proof.
  split; [intros; apply Permutation_refl|]. intros i j _ _. cbn [map].
  replace (fun _ : nat => - 0) with (fun _ : nat => 0); [apply Permutation_refl|]. apply FunctionalExtensionality.functional_extensionality. intros; ring.
Qed.
Lemma sqrt_sq1 x : 0 <= x -> sqrt (0 + x * x) = x.
Proof. intros X. rewrite Rplus_0_l. apply sqrt_square. exact X. Qed.

Definition apart (i : nat) : dpt := match i with O => pt Gas 0 (1 / 2) 0 | _ => pt Dust (3 / 2) 1 1 end.
Lemma apart_weight wdrag : (forall q, 2 <= q -> wdrag q = 0) -> wkern 1 wdrag (pt Dust (3 / 2) 1 1) (set_pos (pt Gas 0 (1 / 2) 0) (fun k => 0 + 0)) = 0.
Proof.
  intros W. unfold wkern. cbn [pt d_kind d_r d_h set_pos]. cbv zeta. unfold dot, vsub. cbn [sumf].
  rewrite W; [ring|]. replace (0 + (3 / 2 - (0 + 0)) * (3 / 2 - (0 + 0))) with (0 + 3 / 2 * (3 / 2)) by field. rewrite sqrt_sq1 by lra. lra.
Qed.
(** The heating becomes NaN: a dust particle whose own kernel reaches a gas particle the kernel of which does not reach back. *)
Theorem C75_energy_refuted : forall wdrag, (forall q, 2 <= q -> wdrag q = 0) -> exists ps neibs,
  mutual 2 (fun i => d_r (ps i)) (fun _ _ => [fun _ => 0]) neibs /\ d_kind (ps 0%nat) = Gas /\ d_kind (ps 1%nat) = Dust /\
  (forall i, (i < 2)%nat -> d_m (ps i) = 1 /\ d_rho (ps i) = 1 /\ 0 < d_h (ps i) /\ d_dudt (ps i) = Some 0) /\
  norm 1 (vsub (d_r (ps 0%nat)) (d_r (ps 1%nat))) < 2 * d_h (ps 1%nat) /\
  d_dudt (DoForces 1 Sph (1 / 2) wdrag Fixed 1 true ps neibs [0; 1]%nat 0%nat) = None.
Proof.
  intros wdrag W. exists apart, (everyone apart 2). split; [apply everyone_mutual|]. split; [reflexivity|]. split; [reflexivity|]. split; [|split].
  - intros [|[|i]] I; [| |lia]; cbn [apart pt d_m d_rho d_h d_dudt]; repeat split; lra.
  - unfold norm, dot, vsub. cbn [sumf apart pt d_r d_h]. replace (0 + (0 - 3 / 2) * (0 - 3 / 2)) with (0 + 3 / 2 * (3 / 2)) by field. rewrite sqrt_sq1 by lra. lra.
  - unfold DoForces. cbv zeta. cbn [existsb Nat.eqb orb].
    assert (X : x_neib (drag_of 1 Sph (1 / 2) wdrag Fixed 1 true apart (everyone apart 2) 1) = [(0%nat, None)]).
    { unfold drag_of. cbv zeta. cbn [apart pt d_kind drag_forces]. unfold everyone, copies. cbn [seq flat_map map app fst snd filter].
      cbn [set_pos d_kind apart pt dragmask]. unfold ComputeDragForces. cbn [d_kind pt].
      cbv zeta. cbn [x_neib map fst snd fold_left]. f_equal. f_equal. unfold oscal, odiv, option_map.
      match goal with |- context [Req_EM_T ?y 0] => destruct (Req_EM_T y 0) as [E|E]; [reflexivity|destruct E] end.
      unfold drag_step. cbn [g_norm]. change (mkd Gas false 1 (1 / 2) 0 1 1 0 0 0 _ _ _ _ _ _ _ _ _ _) with (set_pos (pt Gas 0 (1 / 2) 0) (fun k => 0 + 0)).
      fold (pt Dust (3 / 2) 1 1). rewrite apart_weight by exact W. ring. }
    unfold dudt_of. cbn [flat_map Nat.eqb app]. rewrite X. cbn [map filter fst snd Nat.eqb app].
    set (l := map snd (filter _ _)). unfold update_particle, update_sph, set_gas. cbn [d_dudt d_kind apart pt].
    assert (Y : forall l' x, osum ((x :: l') ++ [None]) = None).
    { intros l' x. unfold osum. rewrite fold_left_app. cbn [fold_left]. destruct (fold_left oplus l' (oplus (Some 0) x)); reflexivity. }
    cbn [app] in Y. rewrite Y. reflexivity.
Qed.

(** At start-up the heating of two calls is added up while the acceleration is that of the second: energy is not conserved. *)
Definition close (i : nat) : dpt := match i with O => pt Gas 0 1 0 | _ => pt Dust 1 1 1 end.
Lemma close_weight wdrag ps : (forall i, d_kind (ps i) = d_kind (close i) /\ d_r (ps i) = d_r (close i) /\ d_h (ps i) = 1 /\ d_m (ps i) = 1 /\ d_rho (ps i) = 1) ->
  gas_seen 1 wdrag ps (d_r (ps 1%nat)) (everyone close 2 1) = wdrag 1.
Proof.
  intros H. unfold gas_seen, everyone. cbn [seq flat_map map app lsum fst snd].
  destruct (H 0%nat) as (-> & _ & -> & -> & ->), (H 1%nat) as (-> & -> & _). cbn [close pt d_kind d_r].
  unfold norm, dot, vsub. cbn [sumf]. replace (0 + (1 - (0 + 0)) * (1 - (0 + 0))) with (0 + 1 * 1) by ring. rewrite (sqrt_sq1 1) by lra. replace (1 / 1) with 1 by field. field.
Qed.
Lemma close_heat wdrag ue0 : wdrag 1 <> 0 -> ue0 = true -> dudt_of 1 Sph (1 / 2) wdrag Fixed 1 ue0 close (everyone close 2) [0; 1]%nat 0%nat = Some (wdrag 1 / 2).
Proof.
  intros W ->.
  rewrite (dudt_is 1 Sph (1 / 2) wdrag Fixed 1 close 2 (everyone close 2) [0; 1]%nat).
  - f_equal. unfold own. cbn [close pt d_kind]. cbn [seq lsum]. unfold share at 1. cbn [close pt d_kind].
    assert (GW : gas_weight 1 wdrag close (everyone close 2) 1 = wdrag 1).
    { rewrite <- seen_weight by reflexivity. apply close_weight. intros [|[|i]]; repeat split; reflexivity. }
    assert (D0 : dEk 1 Sph (1 / 2) wdrag Fixed 1 close (everyone close 2) 0 = 0).
    { unfold dEk, drag_timestep. cbv zeta. cbn [sumf close pt d_dt d_dtnext init_v total_accel d_v d_a0 d_a]. field. }
    assert (A1 : x_acc (drag_of 1 Sph (1 / 2) wdrag Fixed 1 true close (everyone close 2) 1) 0%nat = - (wdrag 1 / 2)).
    { unfold drag_of. cbv zeta. cbn [close pt d_kind drag_forces]. rewrite x_acc_is. f_equal. unfold everyone, copies. cbn [seq flat_map map app fst snd].
      rewrite lsum_filter. cbn [lsum snd set_pos d_kind close pt dragmask].
      unfold drag_timestep. cbn [pt d_dt d_dtnext]. unfold wkern, pair_S, pair_dir. cbn [set_pos pt d_kind d_r d_h d_m d_rho d_sound]. cbv zeta.
      unfold dot, vsub. cbn [sumf]. replace (0 + (1 - (0 + 0)) * (1 - (0 + 0))) with (0 + 1 * 1) by ring. rewrite (sqrt_sq1 1) by lra.
      destruct (rltb 0 1) eqn:E; [|apply rltb_false in E; lra]. unfold t_stop, pair_coeffs. cbv zeta.
      destruct (rltb (1 / 1000) _) eqn:E2; [apply rltb_true in E2; unfold Rdiv in E2; lra|].
      cbn [vdiff total_accel d_v d_dt d_a0 d_a set_pos pt INR pow]. replace (1 * (1 / 1)) with 1 by field. field. }
    assert (D1 : dEk 1 Sph (1 / 2) wdrag Fixed 1 close (everyone close 2) 1 = - (wdrag 1 / 2)).
    { unfold dEk, drag_timestep. cbv zeta. cbn [sumf]. rewrite A1. cbn [close pt d_dt d_dtnext init_v total_accel d_v d_a0 d_a]. field. }
    unfold share. cbn [close pt d_kind]. rewrite D0, D1, GW. unfold gneibs, copies, everyone. cbn [seq flat_map map app fst snd].
    rewrite lsum_filter. cbn [lsum fst snd set_pos d_kind close pt dragmask Nat.eqb]. unfold wkern. cbn [set_pos pt d_kind d_r d_h d_m d_rho]. cbv zeta. unfold dot, vsub. cbn [sumf].
    replace (0 + (1 - (0 + 0)) * (1 - (0 + 0))) with (0 + 1 * 1) by ring. rewrite (sqrt_sq1 1) by lra. replace (1 * (1 / 1)) with 1 by field. cbn [pow]. field. exact W.
  - apply Permutation_refl.
  - intros i x I X. unfold everyone in X. cbn [seq flat_map map app] in X. destruct X as [<-|[<-|[]]]; cbn; lia.
  - intros [|[|i]]; cbn; intros; lra.
  - intros i I K. rewrite <- seen_weight by exact K. destruct i as [|[|i]]; [discriminate| |lia]. rewrite close_weight; [exact W|]. intros [|[|i]]; repeat split; reflexivity.
  - lia.
Qed.
Theorem C75_startup_refuted : forall wdrag, wdrag 1 <> 0 -> exists ps neibs timestep,
  0 < timestep /\ (forall i, d_dt (ps i) = 0 /\ d_dtnext (ps i) = 0 /\ d_a (ps i) = d_a0 (ps i)) /\
  let out := startup 1 Sph (1 / 2) wdrag Fixed 1 true ps neibs [0; 1]%nat timestep in
  let dt := 1 / 2 * timestep in
  exists heat, (forall i, (i < 2)%nat -> d_kind (ps i) = Gas -> d_dudt (out i) = oplus (d_dudt (ps i)) (Some (heat i))) /\
     lsum (fun i => d_m (ps i) * heat i * dt) (of_kind Gas ps 2) +
     lsum (fun i => let w := fun k => d_v (ps i) k + d_a (ps i) k * dt in
       d_m (ps i) * (kin 1 (fun k => w k + (d_a (out i) k - d_a (ps i) k) * dt) - kin 1 w)) (seq 0 2) = wdrag 1 / 2 * dt.
Proof.
  intros wdrag W. exists close, (everyone close 2), 1. split; [lra|]. split. { intros [|i]; repeat split; reflexivity. }
  cbv zeta. set (ps2 := fun i => reset (DoForces 1 Sph (1 / 2) wdrag Fixed 1 true close (everyone close 2) [0; 1]%nat i) 1).
  assert (P2 : forall i, d_kind (ps2 i) = d_kind (close i) /\ d_r (ps2 i) = d_r (close i) /\ d_h (ps2 i) = 1 /\ d_m (ps2 i) = 1 /\ d_rho (ps2 i) = 1 /\
     d_dt (ps2 i) = 0 /\ d_dtnext (ps2 i) = 1 /\ d_v (ps2 i) = d_v (close i) /\ d_a (ps2 i) = d_a (close i)  /\ d_a0 (ps2 i) = d_a0 (close i)).
  { intros i. unfold ps2, DoForces. cbv zeta. destruct (existsb _ _), i as [|i]; repeat split; reflexivity. }
  destruct (C75_energy 1 (1 / 2) wdrag Fixed 1 ps2 2 (everyone close 2) [0; 1]%nat (1 / 2 * 1)) as ((heat & HE & EN) & _).
  - apply Permutation_refl.
  - intros i x I X. unfold everyone in X. cbn [seq flat_map map app] in X. destruct X as [<-|[<-|[]]]; cbn; lia.
  - intros i _. unfold drag_timestep. destruct (P2 i) as (_ & _ & _ & _ & _ & -> & -> & _). field.
  - intros i _ _. destruct (P2 i) as (_ & _ & _ & _ & -> & _). lra.
  - intros i I K. destruct i as [|[|i]]; [destruct (P2 0%nat) as (X & _); rewrite K in X; discriminate| |lia]. rewrite close_weight; [exact W|].
    intros j. destruct (P2 j) as (? & ? & ? & ? & ? & _). auto.
  - exists (fun i => wdrag 1 / 2 + heat i). split.
    + intros [|[|i]] I K; [|discriminate|lia]. unfold startup. cbv zeta. fold ps2. rewrite HE by (auto; destruct (P2 0%nat) as (-> & _); reflexivity).
      assert (E : d_dudt (ps2 0%nat) = Some (0 + wdrag 1 / 2)).
      { unfold ps2, DoForces. cbv zeta. cbn [existsb Nat.eqb orb]. rewrite close_heat by auto. reflexivity. }
      rewrite E. cbn [close pt d_dudt oplus]. f_equal. ring.
    + assert (OK : of_kind Gas ps2 2 = of_kind Gas close 2).
      { unfold of_kind. apply filter_ext. intros i. destruct (P2 i) as (-> & _). reflexivity. }
      rewrite OK in EN. change (of_kind Gas close 2) with [0%nat] in *. change (seq 0 2) with [0; 1]%nat in *. cbn [lsum] in *. unfold startup. cbv zeta. fold ps2.
      revert EN. cbv zeta. set (out := DoForces _ _ _ _ _ _ _ ps2 _ _).
      destruct (P2 0%nat) as (_ & _ & _ & M0 & _ & T0 & _ & V0 & A0 & B0), (P2 1%nat) as (_ & _ & _ & M1 & _ & T1 & _ & V1 & A1 & B1).
      assert (I0 : init_v Sph (ps2 0%nat) = d_v (close 0%nat)). { apply FunctionalExtensionality.functional_extensionality. intros k. cbn [init_v]. rewrite V0, T0. ring. }
      assert (I1 : init_v Sph (ps2 1%nat) = d_v (close 1%nat)). { apply FunctionalExtensionality.functional_extensionality. intros k. cbn [init_v]. rewrite V1, T1. ring. }
      rewrite I0, I1, M0, M1, A0, A1. change (d_m (close 0)) with 1. change (d_m (close 1)) with 1. intros EN. lra.
Qed.

(** The meshless update adds the momentum change to the velocity without dividing by mass: positions are right only for mass one. *)
Theorem C75_mfv_position : forall ndim p acc dudt dt k, d_m p = 1 ->
  let p' := update_mfv ndim Mfv p acc dudt dt in
  d_v p' k = d_v0 p k + d_a0 p k * dt + d_dQ p' k / d_m p /\ d_r p' k = d_r0 p k + (d_v0 p k + d_v p' k) / 2 * dt.
Proof. intros ndim p acc dudt dt k M. cbn [update_mfv d_v d_dQ d_r]. rewrite M. split; field. Qed.
Theorem C75_mfv_position_refuted : forall ndim p acc dudt dt k, d_m p <> 0 -> d_m p <> 1 -> dt <> 0 ->
  let p' := update_mfv ndim Mfv p acc dudt dt in
  d_dQ p' k <> 0 -> d_r p' k <> d_r0 p k + (d_v0 p k + (d_v0 p k + d_a0 p k * dt + d_dQ p' k / d_m p)) / 2 * dt.
Proof.
  intros ndim p acc dudt dt k M M1 D p' Q E. unfold p' in *. cbn [update_mfv d_r d_dQ] in *. set (q := d_dQ p k + _) in *.
  assert (X : dt * (q * (d_m p - 1)) = 0).
  { assert (d_m p * (d_r0 p k + 1 / 2 * (d_v0 p k + (d_v0 p k + q + d_a0 p k * dt)) * dt) = d_m p * (d_r0 p k + (d_v0 p k + (d_v0 p k + d_a0 p k * dt + q / d_m p)) / 2 * dt)) by (rewrite E; reflexivity).
    replace (d_m p * (d_r0 p k + (d_v0 p k + (d_v0 p k + d_a0 p k * dt + q / d_m p)) / 2 * dt)) with
      (d_m p * d_r0 p k + d_m p * d_v0 p k * dt + d_m p * d_a0 p k * dt * dt / 2 + q * dt / 2) in H by (field; exact M). nra. }
  apply Rmult_integral in X. destruct X as [X|X]; [auto|]. apply Rmult_integral in X. destruct X; [auto|lra].
Qed.

(** Test particles: what is gathered around the particle are the gas particles of the list within the kernel range, if neither the list
    nor the particle the index of which is the number of active ones of the cell is dead. *)
Theorem C75_copy : forall ndim sch small krs ps nl Nactive arr r hmax, d_dead (ps Nactive) = false -> (forall i, In i nl -> d_dead (ps i) = false) ->
  let '(n, arr') := copy_neibs sch ps nl Nactive arr in
  gather ndim small krs r hmax n arr' =
  map (fun j => (d_m (ps j), dot ndim (vsub (d_r (ps j)) r) (vsub (d_r (ps j)) r) + small, interp_data sch (ps j)))
    (filter (fun j => kind_eqb (d_kind (ps j)) Gas && rleb (dot ndim (vsub (d_r (ps j)) r) (vsub (d_r (ps j)) r) + small) (krs * hmax * hmax)) nl).
Proof.
  intros ndim sch small krs ps nl Nactive arr r hmax DA DN. unfold copy_neibs.
  destruct (copy_ok sch (length nl) ps nl 0 Nactive arr) as (A & B); auto. destruct (copy _ _ _ _ _ _ _ _) as (n, arr') eqn:E. cbn [fst snd] in *. subst n.
  apply gather_ok. intros x X. rewrite B. destruct (Nat.ltb_spec x (length nl)); [reflexivity|lia].
Qed.
(** If that particle is dead nothing is copied, and what an earlier cell left is used; if one of the list is dead it is used as alive and
    those behind it are lost. *)
Lemma copy_dead sch : forall fuel ps nl jj j n arr, d_dead (ps j) = true -> snd (copy sch fuel ps nl jj j n arr) = arr.
Proof.
  induction fuel as [|fuel IH]; intros ps nl jj j n arr D; cbn [copy]; [reflexivity|]. destruct (Nat.ltb jj n); [|reflexivity]. rewrite D. apply IH. exact D.
Qed.
Theorem C75_copy_refuted :
  (forall sch ps nl Nactive arr, d_dead (ps Nactive) = true -> snd (copy_neibs sch ps nl Nactive arr) = arr) /\
  (exists ps nl Nactive, (forall i, In i nl -> d_dead (ps i) = false) /\ (Nactive < length nl)%nat /\ forall sch arr, copy_neibs sch ps nl Nactive arr = (2%nat, arr)) /\
  (exists ps nl Nactive, d_dead (ps Nactive) = false /\ d_dead (ps 1%nat) = true /\ nl = [0; 1; 2; 3]%nat /\ forall sch arr,
     let '(n, arr') := copy_neibs sch ps nl Nactive arr in n = 3%nat /\ arr' 1%nat = entry_of sch (ps 1%nat) /\ arr' 2%nat = arr 2%nat).
Proof.
  set (dead := fun p => mkd (d_kind p) true (d_m p) (d_h p) (d_hdust p) (d_rho p) (d_sound p) (d_divv p) (d_dt p) (d_dtnext p) (d_r p) (d_r0 p) (d_v p) (d_v0 p)
    (d_a p) (d_a0 p) (d_Q0m p) (d_dQ p) (d_dQe p) (d_dudt p)).
  split; [|split].
  - intros sch ps nl Nactive arr D. apply copy_dead. exact D.
  - exists (fun i => if Nat.eqb i 2 then dead (pt Gas 0 1 0) else pt Gas (INR i) 1 0), [4; 5; 6; 7]%nat, 2%nat. split; [|split].
    + intros i [<-|[<-|[<-|[<-|[]]]]]; reflexivity.
    + cbn. lia.
    + intros sch arr. reflexivity.
  - exists (fun i => if Nat.eqb i 1 then dead (pt Gas 0 1 0) else pt Gas (INR i) 1 0), [0; 1; 2; 3]%nat, 2%nat. repeat split; reflexivity.
Qed.

(** Test particles: the smoothing length accepted agrees with the number density of gas to the tolerance; gas properties are means with
    the kernel as weight; the drag on each component is the mean over the step of the damping towards the gas, as above. *)
Theorem C75_test : forall ndim sch lw Kd w0_s2 h_fac h_converge rnd p l hmax dt p',
  (forall lo up, 0 <= lo < up -> lo < rnd (1 / 2 * (lo + up)) < up) -> 0 < h_fac -> 0 < Kd -> 0 < hmax -> 0 <= d_hdust p <= hmax -> dt >= 0 ->
  (forall x, In x l -> 0 < fst (fst x)) -> (forall s, 0 <= w0_s2 s) ->
  DoInterpolate ndim sch lw Kd w0_s2 h_fac h_converge rnd p l hmax dt = Ok (Some p') ->
  let h := d_hdust p' in
  let W := fun x : R * R * idata => w0_s2 (snd (fst x) / (h * h)) in
  let n := lsum W l / h ^ ndim in
  let rho := lsum (fun x => fst (fst x) * W x) l / h ^ ndim in
  0 < h <= hmax /\ 0 < n /\ Rabs (h - h_fac * Rpower n (- (1 / INR ndim))) < h_converge /\
  exists cs dv da acc, let ts := t_stop lw Kd rho 0 cs in
    mean_of (fun x => fst (fst x) * W x) (fun x => i_cs (snd x)) l cs /\
    (forall k, mean_of (fun x => fst (fst x) * W x) (fun x => ivdiff sch p (snd x) k) l (dv k)) /\
    (forall k, mean_of (fun x => fst (fst x) * W x) (fun x => total_accel sch p k - i_a (snd x) k) l (da k)) /\
    0 < rho /\ 0 < cs /\ 0 < ts /\
    (d_h p <> 0 -> d_sound p' * h = cs * d_h p /\ d_divv p' * h = norm ndim dv) /\
    (forall k, match sch with Sph => d_a p' k - d_a p k = acc k | Mfv => d_dQ p' k - d_dQ p k = d_m p * acc k * dt end) /\
    forall k x, damped ts (da k) x -> x 0 = dv k ->
      Rabs (dv k + da k * dt + acc k * dt - x dt) <= (if rltb (1 / 1000) (dt / ts) then 0 else (dt / ts) ^ 4 / 24) * Rabs (dv k - da k * ts).
Proof.
  intros ndim sch lw Kd w0_s2 h_fac h_converge rnd p l hmax dt p' MID HF KP HM HD DT MP WP. unfold DoInterpolate.
  destruct l as [|a0 l0]; [discriminate|]. set (l := a0 :: l0) in *. cbv zeta. set (h0 := if Req_EM_T _ _ then _ else _).
  destruct (hloop ndim sch w0_s2 h_fac h_converge rnd 500 p l hmax 0 h0 0 hmax) as [[(h, s)|]| | |] eqn:HL; cbn [bind]; try discriminate.
  destruct (hloop_ok ndim sch w0_s2 h_fac h_converge rnd MID HF 500 p l hmax 0 h0 0 hmax h s) as (H1 & H2 & H3 & H4); auto; try lia.
  { intros _. repeat split; auto; unfold h0; destruct (Req_EM_T _ _); lra. }
  destruct (rltb 0 h && rltb 0 (u_sound s)) eqn:B; [|discriminate]. apply andb_prop in B. destruct B as (_ & B2). apply rltb_true in B2.
  clearbody h0. destruct (Req_EM_T (t_stop lw Kd (u_rho s) 0 (u_sound s)) 0) as [TS|TS]; [discriminate|]. intros E. injection E as E.
  assert (HH : d_hdust p' = h) by (rewrite <- E; destruct sch; reflexivity). cbv zeta. rewrite HH.
  set (W := fun x : R * R * idata => w0_s2 (snd (fst x) / (h * h))).
  assert (WW : forall x : R * R * idata, w0_s2 (snd (fst x) * (1 / h * (1 / h))) = W x). { intros x. unfold W. f_equal. field. lra. }
  assert (HP : 0 < (1 / h) ^ ndim). { apply pow_lt. apply Rdiv_lt_0_compat; lra. }
  assert (PE : (1 / h) ^ ndim = / h ^ ndim). { unfold Rdiv. rewrite Rmult_1_l. apply pow_inv. }
  assert (N : u_n s = lsum W l / h ^ ndim). { rewrite H2. unfold at_h. cbn [u_n]. rewrite wsum_lsum, PE. unfold Rdiv. f_equal. apply lsum_ext. intros; apply WW. }
  assert (RH : u_rho s = lsum (fun x => fst (fst x) * W x) l / h ^ ndim). { rewrite H2. unfold at_h. cbn [u_rho]. rewrite wsum_lsum, PE. unfold Rdiv. f_equal. apply lsum_ext. intros x _. rewrite WW. reflexivity. }
  assert (SP : 0 < lsum W l). { rewrite N in H3. unfold Rdiv in H3. rewrite <- PE in H3. apply (Rmult_lt_reg_r ((1 / h) ^ ndim)); auto. lra. }
  assert (SM : 0 < lsum (fun x => fst (fst x) * W x) l). { apply sum_pos; auto. intros x X. split; [auto|apply WP]. }
  assert (RP : 0 < u_rho s). { rewrite RH. unfold Rdiv. rewrite <- PE. apply Rmult_lt_0_compat; auto. }
  change (fun x : R * R * idata => w0_s2 (snd (fst x) / (h * h))) with W.
  change (fun x : R * R * idata => fst (fst x) * w0_s2 (snd (fst x) / (h * h))) with (fun x : R * R * idata => fst (fst x) * W x).
  rewrite <- N, <- RH. split; [exact H1|]. split; [exact H3|]. split; [exact H4|].
  assert (MEAN : forall f, wsum (fun x => fst (fst x) * w0_s2 (snd (fst x) * (1 / h * (1 / h))) * f x) l * (1 / (wsum (fun x => fst (fst x) * w0_s2 (snd (fst x) * (1 / h * (1 / h)))) l * (1 / h) ^ ndim) * (1 / h) ^ ndim) =
     lsum (fun x => fst (fst x) * W x * f x) l * (1 / (lsum (fun x => fst (fst x) * W x) l * (1 / h) ^ ndim) * (1 / h) ^ ndim)).
  { intros f. rewrite !wsum_lsum. rewrite (lsum_ext _ _ (fun x => fst (fst x) * W x * f x)) by (intros; rewrite WW; reflexivity).
    rewrite (lsum_ext _ (fun x => fst (fst x) * w0_s2 _) (fun x => fst (fst x) * W x)) by (intros; rewrite WW; reflexivity). reflexivity. }
  set (ts := t_stop lw Kd (u_rho s) 0 (u_sound s)) in *.
  exists (u_sound s), (u_dv s), (u_da s), (test_accel (u_dv s) (u_da s) dt ts). fold ts.
  assert (TP : 0 < ts).
  { unfold ts, t_stop in *. destruct lw; rewrite ?Rplus_0_r.
    - apply Rdiv_lt_0_compat; lra.
    - apply Rdiv_lt_0_compat; [lra|]. apply Rmult_lt_0_compat; lra.
    - apply Rdiv_lt_0_compat; [unfold EpsteinNorm; apply Rdiv_lt_0_compat; [lra|apply pow_lt; lra]|]. repeat apply Rmult_lt_0_compat; lra.
    - destruct TS. unfold Rdiv. ring. }
  repeat match goal with |- _ /\ _ => split end; auto.
  - rewrite H2. unfold at_h. cbn [u_sound]. cbv zeta. rewrite (MEAN (fun x => i_cs (snd x))). apply mean_is; lra.
  - intros k. rewrite H2. unfold at_h. cbn [u_dv]. cbv zeta. rewrite (MEAN (fun x => ivdiff sch p (snd x) k)). apply mean_is; lra.
  - intros k. rewrite H2. unfold at_h. cbn [u_da]. cbv zeta. rewrite (MEAN (fun x => total_accel sch p k - i_a (snd x) k)). apply mean_is; lra.
  - intros HN. rewrite <- E. assert (h <> 0) by lra. destruct sch; cbn [update_particle update_sph update_mfv d_sound d_divv set_dust]; unfold norm; split; field; auto.
  - intros k. rewrite <- E. destruct sch; cbn [update_particle update_sph update_mfv d_a d_dQ set_dust d_m]; fold ts; ring.
  - intros k x X X0. apply test_damped; auto.
Qed.
(** A larger neighbour list is asked for only if there is no gas in the list, none within the kernel of the largest h, or a smoothing
    length beyond the largest is wanted. *)
Theorem C75_enlarge : forall ndim sch lw Kd w0_s2 h_fac h_converge rnd p l hmax dt,
  (forall lo up, 0 <= lo < up -> lo < rnd (1 / 2 * (lo + up)) < up) -> 0 < h_fac -> 0 < hmax -> 0 <= d_hdust p <= hmax ->
  DoInterpolate ndim sch lw Kd w0_s2 h_fac h_converge rnd p l hmax dt = Ok None ->
  let n := fun h => lsum (fun x : R * R * idata => w0_s2 (snd (fst x) / (h * h))) l / h ^ ndim in
  l = [] \/ n hmax <= 0 \/ exists h, 0 < h <= hmax /\ 0 < n h /\ hmax < h_fac * Rpower (n h) (- (1 / INR ndim)).
Proof.
  intros ndim sch lw Kd w0_s2 h_fac h_converge rnd p l hmax dt MID HF HM HD. unfold DoInterpolate.
  destruct l as [|a0 l0]; [auto|]. set (l := a0 :: l0) in *. cbv zeta. set (h0 := if Req_EM_T _ _ then _ else _).
  assert (H0 : 0 < h0 <= hmax) by (unfold h0; destruct (Req_EM_T _ _); lra). clearbody h0.
  assert (N : forall h, 0 < h -> u_n (at_h ndim sch w0_s2 p l h) = lsum (fun x : R * R * idata => w0_s2 (snd (fst x) / (h * h))) l / h ^ ndim).
  { intros h HP. unfold at_h. cbn [u_n]. rewrite wsum_lsum. replace ((1 / h) ^ ndim) with (/ h ^ ndim) by (unfold Rdiv; rewrite Rmult_1_l, pow_inv; reflexivity). unfold Rdiv at 3. f_equal. apply lsum_ext. intros x _. f_equal. field. lra. }
  destruct (hloop ndim sch w0_s2 h_fac h_converge rnd 500 p l hmax 0 h0 0 hmax) as [[(h, s)|]| | |] eqn:HL; cbn [bind]; try discriminate.
  - destruct (_ && _)%bool; [|discriminate]. destruct (Req_EM_T (t_stop lw Kd (u_rho s) 0 (u_sound s)) 0); discriminate.
  - intros _. right. destruct (hloop_none ndim sch w0_s2 h_fac h_converge rnd MID HF 500 p l hmax 0 h0 0 hmax HM) as [X|(h & H1 & H2 & H3)]; auto; try lia.
    + left. rewrite N in X by exact HM. exact X.
    + right. exists h. rewrite N in H2, H3 by lra. auto.
Qed.
(** Smoothing length by bisection: if the number of neighbours rises through its target at [hs] and lengths within [hmax] / 2^399 of it are
    accepted, the loop does not run out of iterations. *)
Lemma hloop_bisects ndim sch w0_s2 h_fac h_converge p l hmax hs : 0 < hmax ->
  (forall h, 0 < h <= hmax -> (h_fac ^ ndim < u_n (at_h ndim sch w0_s2 p l h) * h ^ ndim <-> hs < h)) ->
  (forall h, 0 < h <= hmax -> Rabs (h - hs) <= hmax / 2 ^ 399 -> 0 < u_n (at_h ndim sch w0_s2 p l h) /\
     Rabs (h - h_fac * Rpower (u_n (at_h ndim sch w0_s2 p l h)) (- (1 / INR ndim))) < h_converge) ->
  forall fuel it lo up, (1 <= fuel)%nat -> (it + Z.of_nat fuel = 500)%Z -> (100 <= it)%Z -> 0 <= lo < up -> up <= hmax -> lo <= hs <= up ->
    up - lo <= hmax / 2 ^ (400 - fuel) ->
    hloop ndim sch w0_s2 h_fac h_converge (fun x => x) fuel p l hmax it (1 / 2 * (lo + up)) lo up <> Raise.
Proof.
  intros HM MON CONV. induction fuel as [|fuel IH]; intros it lo up F1 FI I LU UM HS W; [lia|].
  cbn [hloop]. cbv zeta. set (h := 1 / 2 * (lo + up)). set (n := u_n (at_h ndim sch w0_s2 p l h)). set (hn := h_fac * Rpower n _).
  assert (HP : 0 < h <= hmax) by (unfold h; lra).
  destruct (rltb 0 n && rltb lo h && rltb (Rabs (h - hn)) h_converge)%bool eqn:C; [discriminate|].
  assert (LH : rltb lo h = true) by (apply rltb_true; unfold h; lra).
  assert (NC : ~ Rabs (h - hs) <= hmax / 2 ^ 399).
  { intros X. destruct (CONV h HP X) as [A B]. fold n in A, B. fold hn in B. apply rltb_true in A. apply rltb_true in B. rewrite A, B, LH in C. discriminate. }
  assert (NE : h <> hs).
  { intros ->. apply NC. replace (hs - hs) with 0 by lra. rewrite Rabs_R0. apply Rmult_le_pos; [lra|]. left. apply Rinv_0_lt_compat, pow_lt. lra. }
  destruct fuel as [|fuel].
  { exfalso. apply NC. change (400 - 1)%nat with 399%nat in W. apply Rabs_le. unfold h. assert (0 < hmax / 2 ^ 399) by (apply Rmult_lt_0_compat; [lra|apply Rinv_0_lt_compat, pow_lt; lra]). lra. }
  replace (it + 1 <? 100)%Z with false by (symmetry; apply Z.ltb_ge; lia).
  replace (it + 1 =? 100)%Z with false by (symmetry; apply Z.eqb_neq; lia).
  replace (it + 1 <? 500)%Z with true by (symmetry; apply Z.ltb_lt; lia).
  replace (it + 1 =? 500)%Z with false by (symmetry; apply Z.eqb_neq; lia).
  assert (W2 : (up - lo) / 2 <= hmax / 2 ^ (400 - S fuel)).
  { replace (400 - S fuel)%nat with (S (400 - S (S fuel))) by lia. cbn [pow]. unfold Rdiv in *. rewrite Rinv_mult. lra. }
  pose proof (MON h HP) as MH. fold n in MH.
  destruct (rltb (h_fac ^ ndim) (n * h ^ ndim)) eqn:SG.
  - apply rltb_true in SG. apply MH in SG.
    rewrite (proj2 (rltb_false hmax _)) by (unfold h; lra). rewrite (proj2 (rltb_true lo _)) by (unfold h; lra). rewrite (proj2 (rleb_true _ h)) by (unfold h; lra).
    cbn [andb]. apply IH; try lia; try lra; unfold h in *; lra.
  - apply rltb_false in SG. assert (h < hs) by (destruct (Rle_or_lt h hs) as [X|X]; [lra|apply MH in X; lra]).
    rewrite (proj2 (rltb_false hmax _)) by (unfold h; lra). rewrite (proj2 (rltb_true h _)) by (unfold h; lra). rewrite (proj2 (rleb_true _ up)) by (unfold h; lra).
    cbn [andb]. apply IH; try lia; try lra; unfold h in *; lra.
Qed.
Lemma hloop_converges ndim sch w0_s2 h_fac h_converge p l hmax hs : 0 < hmax -> 0 <= hs <= hmax ->
  (forall h, 0 < h <= hmax -> (h_fac ^ ndim < u_n (at_h ndim sch w0_s2 p l h) * h ^ ndim <-> hs < h)) ->
  (forall h, 0 < h <= hmax -> Rabs (h - hs) <= hmax / 2 ^ 399 -> 0 < u_n (at_h ndim sch w0_s2 p l h) /\
     Rabs (h - h_fac * Rpower (u_n (at_h ndim sch w0_s2 p l h)) (- (1 / INR ndim))) < h_converge) ->
  forall fuel it h, (401 <= fuel)%nat -> (it + Z.of_nat fuel = 500)%Z -> 0 < h <= hmax ->
    hloop ndim sch w0_s2 h_fac h_converge (fun x => x) fuel p l hmax it h 0 hmax <> Raise.
Proof.
  intros HM HS MON CONV. induction fuel as [|fuel IH]; intros it h F FI HP; [lia|].
  cbn [hloop]. cbv zeta. set (n := u_n (at_h ndim sch w0_s2 p l h)). set (hn := h_fac * Rpower n _).
  destruct (rltb 0 n && rltb 0 h && rltb (Rabs (h - hn)) h_converge)%bool; [discriminate|].
  replace (it + 1 =? 500)%Z with false by (symmetry; apply Z.eqb_neq; lia).
  destruct (Nat.eq_dec fuel 400) as [->|NE].
  - replace (it + 1 <? 100)%Z with false by (symmetry; apply Z.ltb_ge; lia). replace (it + 1 =? 100)%Z with true by (symmetry; apply Z.eqb_eq; lia).
    rewrite (proj2 (rltb_false hmax _)) by lra. rewrite (proj2 (rltb_true 0 _)) by lra. rewrite (proj2 (rleb_true _ hmax)) by lra. cbn [andb].
    apply (hloop_bisects ndim sch w0_s2 h_fac h_converge p l hmax hs HM MON CONV); try lia; try lra.
    change (400 - 400)%nat with 0%nat. cbn [pow]. lra.
  - replace (it + 1 <? 100)%Z with true by (symmetry; apply Z.ltb_lt; lia).
    destruct (rltb 0 n).
    + destruct (rltb hmax hn) eqn:A; [discriminate|]. destruct (rltb 0 hn && rleb hn hmax)%bool eqn:B; [|discriminate].
      apply andb_true_iff in B. destruct B as [B1 B2]. apply rltb_true in B1. apply rleb_true in B2. apply IH; try lia. lra.
    + destruct (rltb h hmax); [|discriminate]. rewrite (proj2 (rltb_false hmax _)) by lra. rewrite (proj2 (rltb_true 0 _)) by lra.
      rewrite (proj2 (rleb_true hmax hmax)) by lra. cbn [andb]. apply IH; try lia. lra.
Qed.
Theorem C75_converges : forall ndim sch w0_s2 h_fac h_converge p l hmax hs h0, 0 < hmax -> 0 <= hs <= hmax -> 0 < h0 <= hmax ->
  let n := fun h => lsum (fun x : R * R * idata => w0_s2 (snd (fst x) / (h * h))) l / h ^ ndim in
  (forall h, 0 < h <= hmax -> (h_fac ^ ndim < n h * h ^ ndim <-> hs < h)) ->
  (forall h, 0 < h <= hmax -> Rabs (h - hs) <= hmax / 2 ^ 399 -> 0 < n h /\ Rabs (h - h_fac * Rpower (n h) (- (1 / INR ndim))) < h_converge) ->
  hloop ndim sch w0_s2 h_fac h_converge (fun x => x) 500 p l hmax 0 h0 0 hmax <> Raise.
Proof.
  intros ndim sch w0_s2 h_fac h_converge p l hmax hs h0 HM HS H0 n MON CONV.
  assert (N : forall h, 0 < h -> u_n (at_h ndim sch w0_s2 p l h) = n h).
  { intros h HP. unfold at_h, n. cbn [u_n]. rewrite wsum_lsum. replace ((1 / h) ^ ndim) with (/ h ^ ndim) by (unfold Rdiv; rewrite Rmult_1_l, pow_inv; reflexivity). unfold Rdiv at 3. f_equal. apply lsum_ext. intros x _. f_equal. field. lra. }
  apply (hloop_converges ndim sch w0_s2 h_fac h_converge p l hmax hs HM HS); try lia; try lra.
  - intros h HP. rewrite N by lra. now apply MON.
  - intros h HP X. rewrite N by lra. now apply CONV.
Qed.
(** One gas particle at the place of the dust under a flat kernel: the count n h * h is 1, its target, at every h and never above it,
    and every length is accepted. *)
Example ex_C75_converges : let n := fun h => lsum (fun x : R * R * idata => (fun _ => 1) (snd (fst x) / (h * h)))
     [(1, 0, mki 1 (fun _ => 0) (fun _ => 0) (fun _ => 0) (fun _ => 0))] / h ^ 1 in
  forall h, 0 < h <= 1 -> (1 ^ 1 < n h * h ^ 1 <-> 1 < h) /\ 0 < n h /\ Rabs (h - 1 * Rpower (n h) (- (1 / INR 1))) < 1 / 100.
Proof.
  intros n h H. assert (N : n h = / h). { unfold n, lsum. cbn. field. lra. }
  rewrite N. split; [split; intros X; exfalso|split].
  - rewrite !pow_1, Rinv_l in X by lra. lra.
  - lra.
  - apply Rinv_0_lt_compat. lra.
  - rewrite Rmult_1_l. replace (- (1 / INR 1)) with (Ropp 1) by (cbn; lra). rewrite Rpower_Ropp, Rpower_1, Rinv_inv by (apply Rinv_0_lt_compat; lra).
    replace (h - h) with 0 by lra. rewrite Rabs_R0. lra.
Qed.
(** In a uniform stream the interpolated velocity is that of the gas. *)
Theorem C75_uniform : forall (l : list (R * R * idata)) w f c x, (forall a, In a l -> 0 < fst (fst a) /\ 0 <= w a) -> 0 < lsum w l ->
  (forall a, In a l -> f a = c) -> mean_of (fun a => fst (fst a) * w a) f l x -> x = c.
Proof. intros l w f c x H P C M. apply (mean_const l (fun a => fst (fst a) * w a) f c x); auto. pose proof (sum_pos l w H P). lra. Qed.

Lemma hloop_first ndim sch w0_s2 h_fac h_converge rnd fuel p l hmax h up : 0 < u_n (at_h ndim sch w0_s2 p l h) -> 0 < h ->
  Rabs (h - h_fac * Rpower (u_n (at_h ndim sch w0_s2 p l h)) (- (1 / INR ndim))) < h_converge ->
  hloop ndim sch w0_s2 h_fac h_converge rnd (S fuel) p l hmax 0 h 0 up = Ok (Some (h, at_h ndim sch w0_s2 p l h)).
Proof.
  intros A B C. cbn [hloop]. cbv zeta. apply rltb_true in A. apply rltb_true in B. apply rltb_true in C. rewrite A, B, C. reflexivity.
Qed.
(** The tolerance is absolute: where lengths are small a first guess more than ten times too large is accepted. *)
Theorem C75_tolerance_refuted : forall w0_s2, (forall s, 0 <= s <= 1 / 100 -> 1 / 2 <= w0_s2 s) -> exists p l hmax p', 0 < hmax /\ d_hdust p = 0 /\
  DoInterpolate 1 Sph Fixed 1 w0_s2 (6 / 5) (1 / 100) (fun x => x) p l hmax 0 = Ok (Some p') /\
  (forall x, In x l -> 0 < fst (fst x) /\ 0 <= snd (fst x) <= hmax * hmax) /\
  let h := d_hdust p' in 0 < h /\ 8 * (6 / 5 * / (lsum (fun x => w0_s2 (snd (fst x) / (h * h))) l / h)) < h.
Proof.
  intros w0_s2 WK. set (g := mki 1 (fun _ => 0) (fun _ => 0) (fun _ => 0) (fun _ => 0)). set (x0 := (1, 0, g) : R * R * idata).
  set (l := repeat x0 20). set (hm := 1 / 1000). set (h := 1 / 2 * hm).
  set (p := pt Dust 0 1 1). set (w := w0_s2 0). assert (WP : 1 / 2 <= w) by (apply WK; lra).
  assert (HP : 0 < h) by (unfold h, hm; lra).
  assert (WZ : w0_s2 (0 * (1 / h * (1 / h))) = w) by (unfold w; f_equal; ring).
  assert (WZ2 : w0_s2 (0 / (h * h)) = w) by (unfold w; f_equal; unfold Rdiv; ring).
  assert (SUM : forall f : R * R * idata -> R, wsum f l = 20 * f x0). { intros f. unfold l. cbn [repeat wsum]. ring. }
  assert (NN : u_n (at_h 1 Sph w0_s2 p l h) = 20 * w / h). { unfold at_h. cbn [u_n]. rewrite SUM. cbn [x0 fst snd]. rewrite WZ. cbn [pow]. field. lra. }
  assert (NP : 0 < 20 * w / h) by (apply Rdiv_lt_0_compat; lra).
  assert (RW : Rpower (20 * w / h) (- (1 / INR 1)) = h / (20 * w)).
  { cbn [INR]. replace (- (1 / 1)) with (- (1)) by field. rewrite Rpower_Ropp, Rpower_1 by exact NP. field. lra. }
  assert (HB : 0 < h / (20 * w) <= h / 10). { split; [apply Rdiv_lt_0_compat; lra|]. apply Rmult_le_compat_l; [lra|]. apply Rinv_le_contravar; lra. }
  assert (HL : hloop 1 Sph w0_s2 (6 / 5) (1 / 100) (fun x => x) 500 p l hm 0 h 0 hm = Ok (Some (h, at_h 1 Sph w0_s2 p l h))).
  { apply (hloop_first 1 Sph w0_s2 (6 / 5) (1 / 100) (fun x => x) 499); rewrite ?NN, ?RW; auto. apply Rabs_def1; unfold h, hm in *; lra. }
  eexists p, l, hm, _. split; [unfold hm; lra|]. split; [reflexivity|]. split; [|split].
  - unfold DoInterpolate. change (match l with [] => Ok None | _ => ?X end) with X. cbv zeta.
    destruct (Req_EM_T (d_hdust p) 0) as [_|X]; [|destruct X; reflexivity]. fold h. rewrite HL. cbn [bind].
    assert (US : u_sound (at_h 1 Sph w0_s2 p l h) = 1). { unfold at_h. cbn [u_sound]. rewrite !SUM. cbn [x0 fst snd g i_cs]. rewrite WZ. cbn [pow]. field. lra. }
    rewrite US. replace (rltb 0 h) with true by (symmetry; apply rltb_true; exact HP). replace (rltb 0 1) with true by (symmetry; apply rltb_true; lra). cbn [andb].
    destruct (Req_EM_T _ 0) as [X|_]; [unfold t_stop in X; lra|]. reflexivity.
  - intros x X. apply repeat_spec in X. subst x. cbn [x0 fst snd]. unfold hm. lra.
  - cbn [d_hdust update_particle update_sph set_dust]. split; [exact HP|].
    assert (E : lsum (fun x : R * R * idata => w0_s2 (snd (fst x) / (h * h))) l = 20 * w). { rewrite <- wsum_lsum, SUM. cbn [x0 fst snd]. rewrite WZ2. ring. }
    rewrite E. replace (/ (20 * w / h)) with (h / (20 * w)) by (field; lra). lra.
Qed.

(** The drag law of Laibe and Price (2012) cannot be used with test particles: no interpolation succeeds. *)
Theorem C75_lp12_refuted : forall ndim sch Kd w0_s2 h_fac h_converge rnd p l hmax dt p',
  DoInterpolate ndim sch LP12 Kd w0_s2 h_fac h_converge rnd p l hmax dt <> Ok (Some p').
Proof.
  intros ndim sch Kd w0_s2 h_fac h_converge rnd p l hmax dt p'. unfold DoInterpolate. destruct l as [|a l]; [discriminate|]. cbv zeta.
  destruct (hloop _ _ _ _ _ _ _ _ _ _ _ _ _ _) as [[(h, s)|]| | |]; cbn [bind]; try discriminate.
  destruct (_ && _)%bool; [|discriminate]. destruct (Req_EM_T _ 0) as [X|X]; [discriminate|]. destruct X. unfold t_stop. unfold Rdiv. ring.
Qed.

(** What is taken as velocity, acceleration and step.  In SPH, with v = v0 + a0 dt predicted for the end of the step, the velocity is that
    at its middle; in the meshless scheme the acceleration is that of all momentum changes; the drag acts over half of this step and half
    of the next, or over this step. *)
Theorem C75_start : forall p q v0 w0 k, (forall k, d_v p k = v0 k + d_a0 p k * d_dt p) -> (forall k, d_v q k = w0 k + d_a0 q k * d_dt q) -> d_dt q = d_dt p ->
  init_v Sph p k = v0 k + d_a0 p k * (d_dt p / 2) /\ init_v Mfv p k = d_v0 p k /\
  (forall sch, vdiff sch p q k = init_v sch p k - init_v sch q k) /\ total_accel Sph p k = d_a p k /\
  (0 < d_dt p -> d_m p <> 0 -> d_m p * total_accel Mfv p k * d_dt p = d_dQ p k + (d_m p * d_a p k + d_Q0m p * d_a0 p k) / 2 * d_dt p) /\
  drag_timestep (1 / 2) p = (d_dt p + d_dtnext p) / 2 /\ drag_timestep 1 p = d_dt p.
Proof.
  intros p q v0 w0 k V W D. split; [|split; [|split; [|split; [|split; [|split]]]]].
  - cbn [init_v]. rewrite V. field.
  - reflexivity.
  - intros [|]; cbn [vdiff init_v]; [rewrite D; ring|reflexivity].
  - reflexivity.
  - intros T M. cbn [total_accel]. assert (E : rltb 0 (d_dt p) = true) by (apply rltb_true; exact T). rewrite E. field. lra.
  - unfold drag_timestep. field.
  - unfold drag_timestep. ring.
Qed.
(** A test particle compares itself with gas as a particle of a pair does. *)
Theorem C75_start_test : forall sch p q k, ivdiff sch p (interp_data sch q) k = vdiff sch p q k /\ i_a (interp_data sch q) k = total_accel sch q k /\ i_cs (interp_data sch q) = d_sound q.
Proof. intros [|] p q k; repeat split; reflexivity. Qed.
(** Stopping times. *)
Theorem C75_laws : forall Kd g d cs, 0 < Kd -> 0 < g -> 0 <= d -> 0 < cs ->
  t_stop Fixed Kd g d cs * Kd = 1 /\ t_stop Density Kd g d cs * (Kd * (g + d)) = 1 /\ t_stop Epstein Kd g d cs * (Kd * (g + d) * cs) = EpsteinNorm /\
  t_stop LP12 Kd g d cs * Kd = g * d / (g + d) /\ (0 < d -> forall l, 0 < t_stop l Kd g d cs).
Proof.
  intros Kd g d cs K G D C. repeat split; try (unfold t_stop; field; repeat split; lra).
  intros DP l. unfold t_stop, EpsteinNorm. destruct l; repeat (apply Rdiv_lt_0_compat || apply Rmult_lt_0_compat || apply pow_lt); lra.
Qed.
(** Nothing else is touched, and particles that are neither gas nor dust feel nothing. *)
Theorem C75_only : forall ndim w_tstep wdrag lw Kd ue ps neibs active i,
  let p := ps i in let p' := DoForces ndim Sph w_tstep wdrag lw Kd ue ps neibs active i in
  (d_kind p', d_m p', d_h p', d_rho p', d_r p', d_v p', d_a0 p', d_dt p') = (d_kind p, d_m p, d_h p, d_rho p, d_r p, d_v p, d_a0 p, d_dt p) /\
  (d_kind p <> Gas -> d_dudt p' = d_dudt p) /\ (d_kind p = Cdm -> forall k, d_a p' k = d_a p k).
Proof.
  intros ndim w_tstep wdrag lw Kd ue ps neibs active i p p'. unfold p', p, DoForces. cbv zeta. split; [|split].
  - destruct (existsb _ _); reflexivity.
  - destruct (existsb _ _); cbn [update_particle update_sph d_dudt set_gas d_kind]; destruct (d_kind (ps i)); congruence.
  - intros K k. unfold drag_of. cbv zeta. rewrite K. cbn [drag_forces x_acc x_sound x_divv]. destruct (existsb _ _); cbn [update_particle update_sph d_a set_gas]; ring.
Qed.
(** The sound speed and velocity gradient a dust particle keeps for its time step are the largest among its gas neighbours. *)
Theorem C75_signal : forall ndim sch wdrag lw Kd ue p l dt, d_kind p = Dust ->
  let x := ComputeDragForces ndim sch wdrag lw Kd ue p l dt in
  (forall q, In q l -> d_sound (snd q) <= x_sound x /\ norm ndim (vdiff sch p (snd q)) / d_h p <= x_divv x) /\
  (x_sound x = 0 \/ exists q, In q l /\ x_sound x = d_sound (snd q)) /\
  (x_divv x = 0 \/ exists q, In q l /\ x_divv x = norm ndim (vdiff sch p (snd q)) / d_h p).
Proof.
  intros ndim sch wdrag lw Kd ue p l dt K. cbv zeta.
  assert (X : forall s, let e := fold_left (fun s q => drag_step ndim sch wdrag lw Kd p dt s (snd q)) l s in
    g_sound s <= g_sound e /\ g_divv s <= g_divv e /\
    (forall q, In q l -> d_sound (snd q) <= g_sound e /\ norm ndim (vdiff sch p (snd q)) / d_h p <= g_divv e) /\
    (g_sound e = g_sound s \/ exists q, In q l /\ g_sound e = d_sound (snd q)) /\
    (g_divv e = g_divv s \/ exists q, In q l /\ g_divv e = norm ndim (vdiff sch p (snd q)) / d_h p)).
  { induction l as [|q l IH]; intros s; cbn [fold_left].
    - repeat split; auto; try lra; destruct H.
    - destruct (IH (drag_step ndim sch wdrag lw Kd p dt s (snd q))) as (A & B & C & D & E).
      assert (GS : g_sound (drag_step ndim sch wdrag lw Kd p dt s (snd q)) = Rmax (g_sound s) (d_sound (snd q))) by (unfold drag_step; cbn [g_sound]; rewrite K; reflexivity).
      assert (GD : g_divv (drag_step ndim sch wdrag lw Kd p dt s (snd q)) = Rmax (g_divv s) (sqrt (dot ndim (vdiff sch p (snd q)) (vdiff sch p (snd q))) / d_h p)) by (unfold drag_step; cbn [g_divv]; rewrite K; reflexivity).
      rewrite GS in A, D. rewrite GD in B, E.
      pose proof (Rmax_l (g_sound s) (d_sound (snd q))). pose proof (Rmax_r (g_sound s) (d_sound (snd q))).
      set (dd := sqrt (dot ndim (vdiff sch p (snd q)) (vdiff sch p (snd q))) / d_h p) in *.
      pose proof (Rmax_l (g_divv s) dd). pose proof (Rmax_r (g_divv s) dd).
      split; [lra|]. split; [lra|]. split; [|split].
      + intros q' [<-|Q]; [|apply C; exact Q]. unfold norm. fold dd. lra.
      + destruct D as [D|(q' & Q & D)]; [|right; exists q'; split; [right|]; auto].
        destruct (Rle_dec (g_sound s) (d_sound (snd q))); [right; exists q; split; [left; reflexivity|]; rewrite D; apply Rmax_right; auto|left; rewrite D; apply Rmax_left; lra].
      + destruct E as [D'|(q' & Q & D')]; [|right; exists q'; split; [right|]; auto].
        destruct (Rle_dec (g_divv s) dd); [right; exists q; split; [left; reflexivity|]; rewrite D'; apply Rmax_right; auto|left; rewrite D'; apply Rmax_left; lra]. }
  destruct (X (mkdrag 0 (fun _ => 0) 0 0)) as (_ & _ & C & D & E). unfold ComputeDragForces. cbv zeta. rewrite K. destruct ue; cbn [x_sound x_divv]; auto.
Qed.

(** The two particles used above meet the hypotheses of the theorems on pairs. *)
Example C75_example : forall wdrag, wdrag 1 <> 0 ->
  mutual 2 (fun i => d_r (close i)) (fun _ _ => [fun _ => 0]) (everyone close 2) /\
  (forall i, (i < 2)%nat -> d_rho (close i) <> 0 /\ d_dt (close i) = 0 /\ d_dtnext (close i) = 0) /\
  (forall i, (i < 2)%nat -> d_kind (close i) = Dust -> gas_seen 1 wdrag close (d_r (close i)) (everyone close 2 i) <> 0) /\
  d_dudt (DoForces 1 Sph (1 / 2) wdrag Fixed 1 true close (everyone close 2) [0; 1]%nat 0%nat) = Some (0 + wdrag 1 / 2).
Proof.
  intros wdrag W. split; [apply everyone_mutual|]. split; [|split].
  - intros [|[|i]] I; [| |lia]; cbn; repeat split; lra.
  - intros [|[|i]] I K; [discriminate| |lia]. rewrite close_weight; [exact W|]. intros [|[|i']]; repeat split; reflexivity.
  - unfold DoForces. cbv zeta. cbn [existsb Nat.eqb orb]. rewrite close_heat by auto. reflexivity.
Qed.
Example C75_example_damped : damped 2 3 (fun t => 6 + (5 - 6) * exp (- (t / 2))) /\ 1 / 1000 < 1 / 2 /\ 0 / 2 <= 1 / 1000.
Proof.
  split; [|lra]. intros t. eapply dpoly.
  - apply derivable_pt_lim_plus; [apply derivable_pt_lim_const|]. apply derivable_pt_lim_scal.
    apply (derivable_pt_lim_comp (fun u => u / 2) (fun s => exp (- s))).
    + apply (derivable_pt_lim_ext (fun u => / 2 * u)); [intros; field|]. apply dlin.
    + apply dexpn.
  - field.
Qed.
(** The witness of the tolerance is a case of the theorem on test particles. *)
Example C75_example_test : exists p l hmax p', 0 < hmax /\ 0 <= d_hdust p <= hmax /\ (forall x, In x l -> 0 < fst (fst x)) /\
  DoInterpolate 1 Sph Fixed 1 (fun _ => 1 / 2) (6 / 5) (1 / 100) (fun x => x) p l hmax 0 = Ok (Some p').
Proof.
  destruct (C75_tolerance_refuted (fun _ => 1 / 2)) as (p & l & hmax & p' & HM & HD & E & M & _); [intros; lra|].
  exists p, l, hmax, p'. rewrite HD. repeat split; auto; try lra. apply M.
Qed.

Print Assumptions C75_mean.
Print Assumptions C75_stable.
Print Assumptions C75_momentum.
Print Assumptions C75_torque.
Print Assumptions C75_energy.
Print Assumptions C75_energy_refuted.
Print Assumptions C75_startup_refuted.
Print Assumptions C75_mfv_position.
Print Assumptions C75_mfv_position_refuted.
Print Assumptions C75_copy.
Print Assumptions C75_copy_refuted.
Print Assumptions C75_test.
Print Assumptions C75_uniform.
Print Assumptions C75_tolerance_refuted.
Print Assumptions C75_lp12_refuted.
Print Assumptions C75_enlarge.
Print Assumptions C75_converges.
Print Assumptions C75_start.
Print Assumptions C75_start_test.
Print Assumptions C75_laws.
Print Assumptions C75_only.
Print Assumptions C75_signal.
