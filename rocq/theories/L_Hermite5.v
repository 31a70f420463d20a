(** Sums over all stars: momentum, torque and power of the forces. *)
From Verif Require Import Prelude Vec M_Box M_Periodic L_Box L_Periodic S_Periodic M_Hermite S_Hermite L_Hermite L_Hermite2 L_Hermite3 L_Hermite4 S_Kernel.
From Coq Require Import Reals.
From Coquelicot Require Import Coquelicot.
Local Open Scope R_scope.

(** ** Double sums *)
Lemma sumf_swap : forall n m (F : nat -> nat -> R), sumf n (fun i => sumf m (F i)) = sumf m (fun j => sumf n (fun i => F i j)).
Proof.
  induction n; intros m F; cbn [sumf]; [now rewrite sumf_zero|]. now rewrite IHn, sumf_plus.
Qed.
Lemma others_swap : forall N (F : nat -> nat -> R),
  sumf N (fun i => others N i (F i)) = sumf N (fun i => others N i (fun j => F j i)).
Proof.
  intros. unfold others. rewrite sumf_swap. apply sumf_ext. intros i _. apply sumf_ext. intros j _.
  rewrite Nat.eqb_sym. reflexivity.
Qed.
Lemma others_anti : forall N (F : nat -> nat -> R),
  (forall i j, (i < N)%nat -> (j < N)%nat -> F i j = - F j i) -> sumf N (fun i => others N i (F i)) = 0.
Proof.
  intros N F H. pose proof (others_swap N F) as E.
  assert (sumf N (fun i => others N i (fun j => F j i)) = - sumf N (fun i => others N i (F i))).
  { replace (- sumf N (fun i => others N i (F i))) with ((-1) * sumf N (fun i => others N i (F i))) by ring.
    rewrite <- sumf_scal. apply sumf_ext. intros i Hi. rewrite <- others_scal. apply others_ext.
    intros j Hj _. rewrite (H j i Hj Hi). ring. }
  lra.
Qed.
Lemma total_anti : forall N (m : nat -> R) (F : nat -> nat -> R),
  (forall i j, (i < N)%nat -> (j < N)%nat -> m i * F i j = - (m j * F j i)) ->
  sumf N (fun i => m i * others N i (F i)) = 0.
Proof.
  intros. rewrite (sumf_ext N _ (fun i => others N i (fun j => m i * F i j))).
  - apply (others_anti N (fun i j => m i * F i j)). exact H.
  - intros i _. now rewrite others_scal.
Qed.

(** ** Pairs are odd *)
Section odd.
Variables (n : nat) (b : dombox).
Hypothesis Hb : forall k, 0 <= dhalf b k.
Lemma dr_odd : forall pi pj k, pair_dr n b pj pi k = - pair_dr n b pi pj k.
Proof. intros. now apply pair_dr_odd. Qed.
Lemma dv_odd : forall pi pj k, pair_dv pj pi k = - pair_dv pi pj k.
Proof. intros. unfold pair_dv, vsub. ring. Qed.
Lemma dot_neg2 : forall x y x' y', (forall k, x' k = - x k) -> (forall k, y' k = - y k) -> dot n x' y' = dot n x y.
Proof. intros. apply sumf_ext. intros. rewrite H, H0. ring. Qed.
Lemma drdr_even : forall pi pj, dot n (pair_dr n b pj pi) (pair_dr n b pj pi) = dot n (pair_dr n b pi pj) (pair_dr n b pi pj).
Proof. intros. apply dot_neg2; intros; apply dr_odd. Qed.
Lemma dvdr_even : forall pi pj, dot n (pair_dv pj pi) (pair_dr n b pj pi) = dot n (pair_dv pi pj) (pair_dr n b pi pj).
Proof. intros. apply dot_neg2; intros; [apply dv_odd|apply dr_odd]. Qed.
Lemma inv_even : forall e pi pj, gp_inv n b e pj pi = gp_inv n b e pi pj.
Proof. intros. unfold gp_inv. now rewrite drdr_even. Qed.
Lemma gp_a_odd : forall e pi pj k, s_m pj * gp_a n b e pj pi k = - (s_m pi * gp_a n b e pi pj k).
Proof. intros. unfold gp_a. rewrite inv_even, (dr_odd pi pj). ring. Qed.
Lemma gp_adot_odd : forall e pi pj k, s_m pj * gp_adot n b e pj pi k = - (s_m pi * gp_adot n b e pi pj k).
Proof. intros. unfold gp_adot. rewrite inv_even, (dr_odd pi pj), (dv_odd pi pj), dvdr_even. ring. Qed.
Lemma mag_even : forall e pi pj, sp_mag n b e pj pi = sp_mag n b e pi pj.
Proof. intros. unfold sp_mag. now rewrite drdr_even. Qed.
Lemma ih_even : forall pi pj, sp_ih pj pi = sp_ih pi pj.
Proof. intros. unfold sp_ih. now rewrite Rplus_comm. Qed.
Lemma sp_a_odd : forall K e pi pj k, s_m pj * sp_a n b K e pj pi k = - (s_m pi * sp_a n b K e pi pj k).
Proof. intros. unfold sp_a, sp_paux. rewrite mag_even, ih_even, (dr_odd pi pj). ring. Qed.
Lemma sp_adot_odd : forall K e pi pj k, s_m pj * sp_adot n b K e pj pi k = - (s_m pi * sp_adot n b K e pi pj k).
Proof.
  intros. unfold sp_adot, sp_paux, sp_drdt. rewrite mag_even, ih_even, (dr_odd pi pj), (dv_odd pi pj), dvdr_even. ring.
Qed.
Lemma vsub_odd : forall (x y : vec) k, vsub x y k = - vsub y x k.
Proof. intros. unfold vsub. ring. Qed.
Lemma st_inv2_even : forall pi pj, st_inv2 n b pj pi = st_inv2 n b pi pj.
Proof. intros. unfold st_inv2. now rewrite drdr_even. Qed.
Lemma st_af_even : forall pi pj, st_af n b pj pi = st_af n b pi pj.
Proof. intros. unfold st_af. now rewrite st_inv2_even, dvdr_even. Qed.
Lemma st_bf_even : forall pi pj, st_bf n b pj pi = st_bf n b pi pj.
Proof.
  intros. unfold st_bf. rewrite st_inv2_even, st_af_even.
  rewrite (dot_neg2 (pair_dv pi pj) (pair_dv pi pj) (pair_dv pj pi) (pair_dv pj pi)) by (intros; apply dv_odd).
  rewrite (dot_neg2 (vsub (s_a pj) (s_a pi)) (pair_dr n b pi pj) (vsub (s_a pi) (s_a pj)) (pair_dr n b pj pi))
    by (intros; apply vsub_odd || apply dr_odd). reflexivity.
Qed.
Lemma st_cf_even : forall pi pj, st_cf n b pj pi = st_cf n b pi pj.
Proof.
  intros. unfold st_cf. rewrite st_inv2_even, st_af_even, st_bf_even.
  rewrite (dot_neg2 (pair_dv pi pj) (vsub (s_a pj) (s_a pi)) (pair_dv pj pi) (vsub (s_a pi) (s_a pj)))
    by (intros; apply dv_odd || apply vsub_odd).
  rewrite (dot_neg2 (pair_dr n b pi pj) (vsub (s_adot pj) (s_adot pi)) (pair_dr n b pj pi) (vsub (s_adot pi) (s_adot pj)))
    by (intros; apply vsub_odd || apply dr_odd). reflexivity.
Qed.
Lemma st_a_odd : forall pi pj k, s_m pj * st_a n b pj pi k = - (s_m pi * st_a n b pi pj k).
Proof. intros. unfold st_a. rewrite st_inv2_even, (dr_odd pi pj). ring. Qed.
Lemma st_j_odd : forall pi pj k, s_m pj * st_j n b pj pi k = - (s_m pi * st_j n b pi pj k).
Proof. intros. unfold st_j. rewrite st_inv2_even, dvdr_even, (dr_odd pi pj), (dv_odd pi pj). ring. Qed.
Lemma st_2_odd : forall pi pj k, s_m pj * st_2 n b pj pi k = - (s_m pi * st_2 n b pi pj k).
Proof.
  intros. pose proof (st_a_odd pi pj k) as EA. pose proof (st_j_odd pi pj k) as EJ. unfold st_2.
  rewrite st_inv2_even, st_af_even, st_bf_even, (vsub_odd (s_a pi) (s_a pj)).
  set (a := st_a n b pj pi k) in *. set (j := st_j n b pj pi k) in *.
  replace (s_m pj * (s_m pi * - vsub (s_a pj) (s_a pi) k * st_inv2 n b pi pj * sqrt (st_inv2 n b pi pj) - 6 * st_af n b pi pj * j - 3 * st_bf n b pi pj * a))
    with (s_m pj * (s_m pi * - vsub (s_a pj) (s_a pi) k * st_inv2 n b pi pj * sqrt (st_inv2 n b pi pj)) - 6 * st_af n b pi pj * (s_m pj * j) - 3 * st_bf n b pi pj * (s_m pj * a)) by ring.
  rewrite EA, EJ. ring.
Qed.
Lemma st_3_odd : forall pi pj k, s_m pj * st_3 n b pj pi k = - (s_m pi * st_3 n b pi pj k).
Proof.
  intros. pose proof (st_a_odd pi pj k) as EA. pose proof (st_j_odd pi pj k) as EJ. pose proof (st_2_odd pi pj k) as E2. unfold st_3.
  rewrite st_inv2_even, st_af_even, st_bf_even, st_cf_even, (vsub_odd (s_adot pi) (s_adot pj)).
  set (a := st_a n b pj pi k) in *. set (j := st_j n b pj pi k) in *. set (d := st_2 n b pj pi k) in *.
  replace (s_m pj * (s_m pi * - vsub (s_adot pj) (s_adot pi) k * st_inv2 n b pi pj * sqrt (st_inv2 n b pi pj) - 9 * st_af n b pi pj * d - 9 * st_bf n b pi pj * j - 3 * st_cf n b pi pj * a))
    with (s_m pj * (s_m pi * - vsub (s_adot pj) (s_adot pi) k * st_inv2 n b pi pj * sqrt (st_inv2 n b pi pj)) - 9 * st_af n b pi pj * (s_m pj * d) - 9 * st_bf n b pi pj * (s_m pj * j) - 3 * st_cf n b pi pj * (s_m pj * a)) by ring.
  rewrite EA, EJ, E2. ring.
Qed.
End odd.

(** ** Totals *)
Definition mass (S : stars) : nat -> R := fun i => s_m (S i).
Lemma forces_total : forall P A J N S S',
  (forall i, (i < N)%nat -> forces_are P A J N S i (S' i)) ->
  (forall pi pj k, s_m pj * A pj pi k = - (s_m pi * A pi pj k)) ->
  (forall pi pj k, s_m pj * J pj pi k = - (s_m pi * J pi pj k)) ->
  forall k, total N (mass S) (fun i => s_a (S' i)) k = 0 /\ total N (mass S) (fun i => s_adot (S' i)) k = 0.
Proof.
  intros P A J N S S' HF HA HJ k. unfold total, mass. split.
  - rewrite (sumf_ext N _ (fun i => s_m (S i) * others N i (fun j => A (S i) (S j) k))).
    + apply (total_anti N (fun i => s_m (S i)) (fun i j => A (S i) (S j) k)). intros. apply HA.
    + intros i Hi. destruct (HF i Hi) as (_ & _ & E & _). now rewrite E.
  - rewrite (sumf_ext N _ (fun i => s_m (S i) * others N i (fun j => J (S i) (S j) k))).
    + apply (total_anti N (fun i => s_m (S i)) (fun i j => J (S i) (S j) k)). intros. apply HJ.
    + intros i Hi. destruct (HF i Hi) as (_ & _ & _ & E). now rewrite E.
Qed.
Lemma startup_total : forall n b N S, (forall k, 0 <= dhalf b k) -> forall k,
  total N (mass S) (fun i => s_a2dot (Startup n b N S i)) k = 0 /\ total N (mass S) (fun i => s_a3dot (Startup n b N S i)) k = 0.
Proof.
  intros n b N S Hb k. unfold total, mass. split.
  - rewrite (sumf_ext N _ (fun i => s_m (S i) * others N i (fun j => st_2 n b (S i) (S j) k))).
    + apply (total_anti N (fun i => s_m (S i)) (fun i j => st_2 n b (S i) (S j) k)). intros. now apply st_2_odd.
    + intros i Hi. destruct (startup_star n b N S i Hi) as (a2 & a3 & E & E2 & _). rewrite E. cbn. now rewrite E2.
  - rewrite (sumf_ext N _ (fun i => s_m (S i) * others N i (fun j => st_3 n b (S i) (S j) k))).
    + apply (total_anti N (fun i => s_m (S i)) (fun i j => st_3 n b (S i) (S j) k)). intros. now apply st_3_odd.
    + intros i Hi. destruct (startup_star n b N S i Hi) as (a2 & a3 & E & _ & E3). rewrite E. cbn. now rewrite E3.
Qed.

(** Torque: forces along the line of separation without periodic boundaries. *)
Lemma torque_zero : forall N m (X F : nat -> vec) (c : nat -> nat -> R),
  (forall i k, (i < N)%nat -> F i k = others N i (fun j => m j * c i j * (X j k - X i k))) ->
  (forall i j, c i j = c j i) -> forall k l, torque N m X F k l = 0.
Proof.
  intros N m X F c HF Hc k l. unfold torque.
  rewrite (sumf_ext N _ (fun i => others N i (fun j => m i * m j * c i j * (X i k * X j l - X i l * X j k)))).
  - apply (others_anti N (fun i j => m i * m j * c i j * (X i k * X j l - X i l * X j k))). intros i j _ _. rewrite (Hc j i). ring.
  - intros i Hi. rewrite !HF by assumption. rewrite <- !others_scal.
    replace (others N i (fun j => X i k * (m j * c i j * (X j l - X i l))) - others N i (fun j => X i l * (m j * c i j * (X j k - X i k))))
      with (others N i (fun j => X i k * (m j * c i j * (X j l - X i l)) + (-1) * (X i l * (m j * c i j * (X j k - X i k))))).
    + rewrite <- others_scal. apply others_ext. intros. ring.
    + rewrite others_plus, (others_scal N i (-1)). ring.
Qed.
(** Power: the potential energy of central forces changes at the rate at which they do work. *)
Lemma power_is : forall n N m (X V F : nat -> vec) (c : nat -> nat -> R),
  (forall i k, (i < N)%nat -> F i k = others N i (fun j => m j * c i j * (X j k - X i k))) ->
  (forall i j, c i j = c j i) ->
  (1/2) * sumf N (fun i => m i * others N i (fun j => - (m j * c i j * dot n (vsub (V j) (V i)) (vsub (X j) (X i))))) =
  sumf N (fun i => m i * dot n (V i) (F i)).
Proof.
  intros n N m X V F c HF Hc.
  set (G := fun i j => m i * m j * c i j * dot n (V i) (vsub (X j) (X i))).
  assert (E1 : sumf N (fun i => m i * dot n (V i) (F i)) = sumf N (fun i => others N i (G i))).
  { apply sumf_ext. intros i Hi. unfold dot. rewrite <- sumf_scal.
    rewrite (sumf_ext n _ (fun k => others N i (fun j => m i * m j * c i j * (V i k * (X j k - X i k))))).
    - unfold others, G, dot. rewrite sumf_swap. apply sumf_ext. intros j _. destruct (i =? j)%nat; [apply sumf_zero|].
      rewrite <- sumf_scal. apply sumf_ext. intros. reflexivity.
    - intros k _. rewrite HF by assumption. rewrite <- !others_scal. apply others_ext. intros. ring. }
  assert (E2 : sumf N (fun i => m i * others N i (fun j => - (m j * c i j * dot n (vsub (V j) (V i)) (vsub (X j) (X i))))) =
               sumf N (fun i => others N i (fun j => G j i)) + sumf N (fun i => others N i (G i))).
  { rewrite <- sumf_plus. apply sumf_ext. intros i _. rewrite <- others_scal, <- others_plus. apply others_ext. intros j _ _.
    unfold G. rewrite dot_sub_l, (Hc j i).
    replace (dot n (V j) (vsub (X i) (X j))) with (- dot n (V j) (vsub (X j) (X i))); [ring|].
    unfold dot. replace (- sumf n (fun k => V j k * vsub (X j) (X i) k)) with ((-1) * sumf n (fun k => V j k * vsub (X j) (X i) k)) by ring.
    rewrite <- sumf_scal. apply sumf_ext. intros. unfold vsub. ring. }
  rewrite E1, E2, <- (others_swap N G). lra.
Qed.
Lemma newton_power : forall n N e m (X V : nat -> R -> vec) t0, velocity_of X V ->
  (forall i j, (i < N)%nat -> (j < N)%nat -> i <> j -> 0 < separation n e (X j t0) (X i t0)) ->
  is_derive (fun t => (1/2) * sumf N (fun i => m i * newton_pot n N e m (fun j => X j t) i (X i t))) t0
    (sumf N (fun i => m i * dot n (V i t0) (fun k => newton_acc n N e m (fun j => X j t0) i k))).
Proof.
  intros n N e m X V t0 HX Hs.
  rewrite <- (power_is n N m (fun i => X i t0) (fun i => V i t0) _ (fun i j => / separation n e (X j t0) (X i t0) ^ 3)).
  3: { intros. now rewrite sep_sym. }
  2: { intros i k Hi. unfold newton_acc. apply others_ext. intros. unfold Rdiv. ring. }
  apply (is_derive_scal (fun t => sumf N (fun i => m i * newton_pot n N e m (fun j => X j t) i (X i t))) t0 (1/2)).
  apply (der_sumf N (fun i t => m i * newton_pot n N e m (fun j => X j t) i (X i t))). intros i Hi.
  apply (is_derive_scal (fun t => newton_pot n N e m (fun j => X j t) i (X i t)) t0 (m i)).
  unfold newton_pot. apply (der_others N i (fun j t => m j / separation n e (X j t) (X i t))). intros j Hj Hne.
  assert (H : 0 < rr n e (X j) (X i) t0) by (apply Hs; auto).
  assert (D : is_derive (rr n e (X j) (X i)) t0 (PP n (X j) (X i) (V j) (V i) t0 / rr n e (X j) (X i) t0))
    by (apply der_rr; [intros; apply HX|intros; apply HX|exact H]).
  set (f := rr n e (X j) (X i)) in *.
  change (is_derive (fun t => m j / f t) t0 (- (m j * / f t0 ^ 3 * dot n (vsub (V j t0) (V i t0)) (vsub (X j t0) (X i t0))))).
  auto_derive; [split; [eexists; exact D|split; [lra|exact I]]|].
  rewrite (is_derive_unique _ _ _ D : Derive (fun x : R => f x) _ = _). unfold PP, rel. field. lra.
Qed.
Lemma soft_power : forall n N range grav pot zeta m h (X V : nat -> R -> vec) t0, gravity_kernel range grav pot zeta ->
  velocity_of X V ->
  (forall i j, (i < N)%nat -> (j < N)%nat -> i <> j -> 0 < separation n 0 (X j t0) (X i t0)) ->
  is_derive (fun t => (1/2) * sumf N (fun i => m i * soft_pot n N pot m h (fun j => X j t) i (X i t))) t0
    (sumf N (fun i => m i * dot n (V i t0) (fun k => soft_acc n N grav m h (fun j => X j t0) i k))).
Proof.
  intros n N range grav pot zeta m h X V t0 G HX Hs.
  rewrite <- (power_is n N m (fun i => X i t0) (fun i => V i t0) _
    (fun i j => grav (separation n 0 (X j t0) (X i t0) / hmean h i j) / hmean h i j ^ 2 / separation n 0 (X j t0) (X i t0))).
  3: { intros. rewrite sep_sym. unfold hmean. now rewrite (Rplus_comm (h i)). }
  2: { intros i k Hi. unfold soft_acc. apply others_ext. intros. unfold Rdiv. ring. }
  apply (is_derive_scal (fun t => sumf N (fun i => m i * soft_pot n N pot m h (fun j => X j t) i (X i t))) t0 (1/2)).
  apply (der_sumf N (fun i t => m i * soft_pot n N pot m h (fun j => X j t) i (X i t))). intros i Hi.
  apply (is_derive_scal (fun t => soft_pot n N pot m h (fun j => X j t) i (X i t)) t0 (m i)).
  unfold soft_pot. apply (der_others N i (fun j t => m j * pot (separation n 0 (X j t) (X i t) / hmean h i j) / hmean h i j)). intros j Hj Hne.
  assert (H : 0 < rr n 0 (X j) (X i) t0) by (apply Hs; auto).
  assert (D : is_derive (rr n 0 (X j) (X i)) t0 (PP n (X j) (X i) (V j) (V i) t0 / rr n 0 (X j) (X i) t0))
    by (apply der_rr; [intros; apply HX|intros; apply HX|exact H]).
  set (f := rr n 0 (X j) (X i)) in *. set (hh := hmean h i j).
  pose proof (gk_force _ _ _ _ G (f t0 * / hh)) as DP.
  change (is_derive (fun t => m j * pot (f t / hh) / hh) t0
    (- (m j * (grav (f t0 / hh) / hh ^ 2 / f t0) * dot n (vsub (V j t0) (V i t0)) (vsub (X j t0) (X i t0))))).
  auto_derive; [split; [eexists; exact DP|split; [eexists; exact D|exact I]]|].
  rewrite (is_derive_unique _ _ _ D : Derive (fun x : R => f x) _ = _).
  rewrite (is_derive_unique _ _ _ DP : Derive (fun x : R => pot x) _ = _).
  unfold PP, rel. unfold Rdiv. simpl. rewrite Rinv_mult, Rmult_1_r. ring.
Qed.
