(** Jerk and higher derivatives, energy, momentum and torque of the star forces. *)
From Verif Require Import Prelude Vec M_Box M_Periodic L_Box L_Periodic S_Periodic M_Hermite S_Hermite L_Hermite L_Hermite2 L_Hermite3 S_Kernel.
From Coq Require Import Reals.
From Coquelicot Require Import Coquelicot.
Local Open Scope R_scope.

(** ** Jerk *)
(** Relative quantities of a pair at a state that agrees with a motion at time [t0]. *)
Definition at_time (N : nat) (S : stars) (X V : nat -> R -> vec) (t0 : R) : Prop :=
  forall j k, (j < N)%nat -> s_r (S j) k = X j t0 k /\ s_v (S j) k = V j t0 k.

Section jerk.
Variables (n : nat) (b : dombox) (N : nat) (S : stars) (X V : nat -> R -> vec) (t0 : R).
Hypothesis Hb : no_wrap n b.
Hypothesis HX : velocity_of X V.
Hypothesis H0 : at_time N S X V t0.

Lemma at_sep : forall e i j, (i < N)%nat -> (j < N)%nat ->
  separation n e (s_r (S j)) (s_r (S i)) = rr n e (X j) (X i) t0.
Proof. intros e i j Hi Hj. apply sep_ext; intros k _; apply H0; assumption. Qed.
Lemma at_P : forall i j, (i < N)%nat -> (j < N)%nat ->
  dot n (pair_dv (S i) (S j)) (pair_dr n b (S i) (S j)) = PP n (X j) (X i) (V j) (V i) t0.
Proof.
  intros i j Hi Hj. rewrite open_dot_v by assumption. apply dot_ext; intros k _; unfold pair_dv, rel, vsub.
  - rewrite (proj2 (H0 j k Hj)), (proj2 (H0 i k Hi)). reflexivity.
  - rewrite (proj1 (H0 j k Hj)), (proj1 (H0 i k Hi)). reflexivity.
Qed.
Lemma at_dr : forall i j k, (i < N)%nat -> (j < N)%nat -> pair_dr n b (S i) (S j) k = X j t0 k - X i t0 k.
Proof. intros. rewrite pair_dr_open by assumption. now rewrite (proj1 (H0 j k H1)), (proj1 (H0 i k H)). Qed.
Lemma at_dv : forall i j k, (i < N)%nat -> (j < N)%nat -> pair_dv (S i) (S j) k = V j t0 k - V i t0 k.
Proof. intros. unfold pair_dv, vsub. now rewrite (proj2 (H0 j k H1)), (proj2 (H0 i k H)). Qed.

Lemma newton_acc_is : forall e i k, (i < N)%nat ->
  others N i (fun j => gp_a n b e (S i) (S j) k) = newton_acc n N e (fun j => s_m (S j)) (fun j => s_r (S j)) i k.
Proof.
  intros e i k Hi. apply others_ext. intros j Hj Hne. unfold gp_a.
  rewrite open_inv by assumption. rewrite pair_dr_open by assumption.
  unfold Rdiv. now rewrite pow_inv.
Qed.
Lemma newton_acc_at : forall e i k, (i < N)%nat ->
  newton_acc n N e (fun j => s_m (S j)) (fun j => s_r (S j)) i k =
  newton_acc n N e (fun j => s_m (S j)) (fun j => X j t0) i k.
Proof.
  intros e i k Hi. apply others_ext. intros j Hj Hne.
  rewrite at_sep by assumption. unfold rr. now rewrite (proj1 (H0 j k Hj)), (proj1 (H0 i k Hi)).
Qed.
Lemma newton_pot_is : forall e i, (i < N)%nat ->
  others N i (fun j => gp_pot n b e (S i) (S j)) = newton_pot n N e (fun j => s_m (S j)) (fun j => s_r (S j)) i (s_r (S i)).
Proof.
  intros e i Hi. apply others_ext. intros j Hj Hne. unfold gp_pot. now rewrite open_inv by assumption.
Qed.
Lemma newton_jerk : forall e i k, (i < N)%nat ->
  (forall j, (j < N)%nat -> j <> i -> 0 < separation n e (s_r (S j)) (s_r (S i))) ->
  is_derive (fun t => newton_acc n N e (fun j => s_m (S j)) (fun j => X j t) i k) t0
    (others N i (fun j => gp_adot n b e (S i) (S j) k)).
Proof.
  intros e i k Hi Hs. unfold newton_acc.
  apply (der_others N i (fun j t => s_m (S j) * (X j t k - X i t k) / separation n e (X j t) (X i t) ^ 3)).
  intros j Hj Hne. specialize (Hs j Hj Hne). rewrite at_sep in Hs by assumption.
  eapply der_val.
  - apply (der_acc0 (rr n e (X j) (X i)) (PP n (X j) (X i) (V j) (V i)) (fun t => rel (X j) (X i) t k)
      (fun t => rel (V j) (V i) t k) t0 (s_m (S j)) Hs).
    + apply der_rr; [intros; apply HX|intros; apply HX|exact Hs].
    + apply der_rel; intros; apply HX.
  - eqR. unfold gp_adot. rewrite open_inv by assumption. rewrite at_P, at_dr, at_dv, at_sep by assumption.
    unfold acc1, rel, vsub. field. lra.
Qed.

(** Softened, three dimensions. *)
Lemma grav_derive : forall w grav s, gauss_law w grav -> 0 < s -> is_derive grav s (4 * PI * w s - 2 * grav s / s).
Proof.
  intros w grav s G Hs. pose proof (G s) as D.
  set (H := fun x => x ^ 2 * grav x) in *.
  apply (is_derive_ext_loc (fun x => H x / x ^ 2)).
  - exists (mkposreal s Hs). intros y Hy. unfold H. eqR. field.
    apply Rabs_lt_between' in Hy. cbn in Hy. lra.
  - auto_derive; [split; [eexists; exact D|split; [nz|exact I]]|].
    rewrite (is_derive_unique _ _ _ D : Derive (fun x : R => H x) _ = _). unfold H. field. lra.
Qed.
Lemma soft_acc_is : forall K i k, (i < N)%nat -> (forall j, (j < N)%nat -> 0 < s_h (S j)) ->
  others N i (fun j => sp_a n b K 0 (S i) (S j) k) =
  soft_acc n N (k_wgrav K) (fun j => s_m (S j)) (fun j => s_h (S j)) (fun j => s_r (S j)) i k.
Proof.
  intros K i k Hi Hh. apply others_ext. intros j Hj Hne. unfold sp_a, sp_paux, sp_ih, hmean.
  rewrite open_mag, pair_dr_open by assumption. pose proof (Hh i Hi). pose proof (Hh j Hj).
  replace (separation n 0 (s_r (S j)) (s_r (S i)) / ((s_h (S i) + s_h (S j)) / 2))
    with (separation n 0 (s_r (S j)) (s_r (S i)) * (2 / (s_h (S i) + s_h (S j)))) by (field; lra).
  set (r := separation n 0 (s_r (S j)) (s_r (S i))).
  replace (1 / r) with (/ r) by (unfold Rdiv; ring).
  replace ((s_r (S j) k - s_r (S i) k) / r) with ((s_r (S j) k - s_r (S i) k) * / r) by reflexivity.
  generalize (k_wgrav K (r * (2 / (s_h (S i) + s_h (S j))))) (/ r). intros. field. lra.
Qed.
Lemma soft_acc_at : forall K i k, (i < N)%nat ->
  soft_acc n N (k_wgrav K) (fun j => s_m (S j)) (fun j => s_h (S j)) (fun j => s_r (S j)) i k =
  soft_acc n N (k_wgrav K) (fun j => s_m (S j)) (fun j => s_h (S j)) (fun j => X j t0) i k.
Proof.
  intros K i k Hi. apply others_ext. intros j Hj Hne. rewrite at_sep by assumption. unfold rr.
  now rewrite (proj1 (H0 j k Hj)), (proj1 (H0 i k Hi)).
Qed.
Lemma soft_pot_is : forall K i, (i < N)%nat -> (forall j, (j < N)%nat -> 0 < s_h (S j)) ->
  others N i (fun j => sp_pot n b K 0 (S i) (S j)) =
  soft_pot n N (k_wpot K) (fun j => s_m (S j)) (fun j => s_h (S j)) (fun j => s_r (S j)) i (s_r (S i)).
Proof.
  intros K i Hi Hh. apply others_ext. intros j Hj Hne. unfold sp_pot, sp_ih, hmean.
  rewrite open_mag by assumption. pose proof (Hh i Hi). pose proof (Hh j Hj).
  replace (separation n 0 (s_r (S j)) (s_r (S i)) / ((s_h (S i) + s_h (S j)) / 2))
    with (separation n 0 (s_r (S j)) (s_r (S i)) * (2 / (s_h (S i) + s_h (S j)))) by (field; lra).
  field. lra.
Qed.
(** The derivative for any w such that 4 pi w is the divergence of the force. *)
Lemma soft_jerk_true : forall w grav i k, gauss_law w grav -> (i < N)%nat ->
  (forall j, (j < N)%nat -> 0 < s_h (S j)) ->
  (forall j, (j < N)%nat -> j <> i -> 0 < separation n 0 (s_r (S j)) (s_r (S i))) ->
  is_derive (fun t => soft_acc n N grav (fun j => s_m (S j)) (fun j => s_h (S j)) (fun j => X j t) i k) t0
    (others N i (fun j =>
      let r := separation n 0 (s_r (S j)) (s_r (S i)) in
      let h := hmean (fun j => s_h (S j)) i j in
      let rd := dot n (pair_dv (S i) (S j)) (pair_dr n b (S i) (S j)) / r in
      s_m (S j) * grav (r / h) / h ^ 2 / r * (pair_dv (S i) (S j) k - 3 * rd / r * pair_dr n b (S i) (S j) k) +
      s_m (S j) * (4 * PI * w (r / h)) / h ^ 3 * rd / r * pair_dr n b (S i) (S j) k)).
Proof.
  intros w grav i k G Hi Hh Hs. unfold soft_acc.
  apply (der_others N i (fun j t => s_m (S j) * grav (separation n 0 (X j t) (X i t) / hmean (fun j => s_h (S j)) i j) /
    hmean (fun j => s_h (S j)) i j ^ 2 * ((X j t k - X i t k) / separation n 0 (X j t) (X i t)))).
  intros j Hj Hne. specialize (Hs j Hj Hne). rewrite at_sep in * by assumption.
  rewrite at_P, at_dr, at_dv by assumption. cbv zeta.
  assert (HH : 0 < hmean (fun j => s_h (S j)) i j).
  { unfold hmean. pose proof (Hh i Hi). pose proof (Hh j Hj). lra. }
  set (h := hmean (fun j => s_h (S j)) i j) in *.
  set (f := rr n 0 (X j) (X i)) in *. set (P := PP n (X j) (X i) (V j) (V i)) in *.
  assert (Df : is_derive f t0 (P t0 / f t0)) by (apply der_rr; [intros; apply HX|intros; apply HX|exact Hs]).
  assert (Dd : is_derive (fun t => rel (X j) (X i) t k) t0 (rel (V j) (V i) t0 k)) by (apply der_rel; intros; apply HX).
  set (d := fun t => rel (X j) (X i) t k) in *.
  assert (HS : 0 < f t0 * / h) by (apply Rmult_lt_0_compat; [exact Hs|apply Rinv_0_lt_compat, HH]).
  pose proof (grav_derive w grav _ G HS) as Dg.
  change (is_derive (fun t => s_m (S j) * grav (f t / h) / h ^ 2 * (d t / f t)) t0
   (s_m (S j) * grav (f t0 / h) / h ^ 2 / f t0 * (V j t0 k - V i t0 k - 3 * (P t0 / f t0) / f t0 * (X j t0 k - X i t0 k)) +
    s_m (S j) * (4 * PI * w (f t0 / h)) / h ^ 3 * (P t0 / f t0) / f t0 * (X j t0 k - X i t0 k))).
  auto_derive; [repeat split; try (eexists; eassumption); lra|].
  rewrite (is_derive_unique _ _ _ Dg : Derive (fun x : R => grav x) _ = _),
    (is_derive_unique _ _ _ Df : Derive (fun x : R => f x) _ = _),
    (is_derive_unique _ _ _ Dd : Derive (fun x : R => d x) _ = _).
  unfold d, rel, vsub. change (f t0 / h) with (f t0 * / h). field. split; lra.
Qed.
Lemma soft_jerk : forall K i k, n = 3%nat -> gauss_law (k_w0 K) (k_wgrav K) -> (i < N)%nat ->
  (forall j, (j < N)%nat -> 0 < s_h (S j)) ->
  (forall j, (j < N)%nat -> j <> i -> 0 < separation n 0 (s_r (S j)) (s_r (S i))) ->
  is_derive (fun t => soft_acc n N (k_wgrav K) (fun j => s_m (S j)) (fun j => s_h (S j)) (fun j => X j t) i k) t0
    (others N i (fun j => sp_adot n b K 0 (S i) (S j) k)).
Proof.
  intros K i k Hn G Hi Hh Hs. eapply der_val; [apply (soft_jerk_true _ _ i k G Hi Hh Hs)|].
  eqR. apply others_ext. intros j Hj Hne. cbv zeta. unfold sp_adot, sp_paux, sp_drdt, sp_ih, hmean.
  rewrite open_mag by assumption. pose proof (Hh i Hi). pose proof (Hh j Hj). specialize (Hs j Hj Hne).
  set (r := separation n 0 (s_r (S j)) (s_r (S i))) in *.
  replace (r / ((s_h (S i) + s_h (S j)) / 2)) with (r * (2 / (s_h (S i) + s_h (S j)))) by (field; lra).
  replace ((2 / (s_h (S i) + s_h (S j))) ^ n) with ((2 / (s_h (S i) + s_h (S j))) ^ 3) by (now rewrite Hn).
  field. split; lra.
Qed.
End jerk.

(** ** Second and third derivatives *)
Lemma small_dp_pos : 0 < small_number_dp.
Proof. unfold small_number_dp. apply Rinv_0_lt_compat, pow_lt. lra. Qed.
Lemma sep_pos : forall n e x y, 0 < e -> 0 < separation n e x y.
Proof. intros. unfold separation. apply sqrt_lt_R0. pose proof (dot_nonneg n (vsub x y)). lra. Qed.

Section startup.
Variables (n : nat) (b : dombox) (N : nat) (S : stars) (X V A J : nat -> R -> vec) (t0 : R).
Hypothesis Hb : no_wrap n b.
Hypothesis HX : velocity_of X V.
Hypothesis HV : velocity_of V A.
Hypothesis HA : velocity_of A J.
Hypothesis H0 : at_time N S X V t0.
Hypothesis H1 : forall j k, (j < N)%nat -> s_a (S j) k = A j t0 k.
Let e := small_number_dp.
Lemma st_inv2_is : forall i j, (i < N)%nat -> (j < N)%nat -> st_inv2 n b (S i) (S j) = / rr n e (X j) (X i) t0 ^ 2.
Proof.
  intros i j Hi Hj. unfold st_inv2. rewrite open_dot by assumption.
  rewrite <- (at_sep n N S X V t0 H0 e i j Hi Hj). unfold separation. rewrite <- Rsqr_pow2, Rsqr_sqrt; [unfold Rdiv, e; ring|].
  pose proof (dot_nonneg n (vsub (s_r (S j)) (s_r (S i)))). pose proof small_dp_pos. unfold e. lra.
Qed.
Lemma st_inv_is : forall i j, (i < N)%nat -> (j < N)%nat -> sqrt (st_inv2 n b (S i) (S j)) = / rr n e (X j) (X i) t0.
Proof.
  intros i j Hi Hj. rewrite st_inv2_is by assumption. rewrite <- pow_inv, <- Rsqr_pow2. apply sqrt_Rsqr.
  apply Rlt_le, Rinv_0_lt_compat, sep_pos, small_dp_pos.
Qed.
Lemma at_da : forall i j k, (i < N)%nat -> (j < N)%nat -> vsub (s_a (S j)) (s_a (S i)) k = rel (A j) (A i) t0 k.
Proof. intros. unfold vsub, rel, vsub. now rewrite !H1 by assumption. Qed.
Lemma at_dot3 : forall i j, (i < N)%nat -> (j < N)%nat ->
  dot n (pair_dv (S i) (S j)) (pair_dv (S i) (S j)) = dot n (rel (V j) (V i) t0) (rel (V j) (V i) t0) /\
  dot n (vsub (s_a (S j)) (s_a (S i))) (pair_dr n b (S i) (S j)) = dot n (rel (A j) (A i) t0) (rel (X j) (X i) t0) /\
  dot n (pair_dv (S i) (S j)) (vsub (s_a (S j)) (s_a (S i))) = dot n (rel (V j) (V i) t0) (rel (A j) (A i) t0).
Proof.
  intros i j Hi Hj.
  repeat split; apply dot_ext; intros k _; rewrite ?(at_da i j k Hi Hj), ?(at_dv N S X V t0 H0 i j k Hi Hj),
    ?(at_dr n b N S X V t0 Hb H0 i j k Hi Hj); reflexivity.
Qed.
Lemma st_af_is : forall i j, (i < N)%nat -> (j < N)%nat ->
  st_af n b (S i) (S j) = PP n (X j) (X i) (V j) (V i) t0 / rr n e (X j) (X i) t0 ^ 2.
Proof. intros i j Hi Hj. unfold st_af. rewrite (at_P n b N S X V t0 Hb H0), st_inv2_is by assumption. reflexivity. Qed.
Lemma st_bf_is : forall i j, (i < N)%nat -> (j < N)%nat ->
  st_bf n b (S i) (S j) = bf (rr n e (X j) (X i)) (PP n (X j) (X i) (V j) (V i))
    (QQ n (X j) (X i) (V j) (V i) (A j) (A i)) t0.
Proof.
  intros i j Hi Hj. unfold st_bf, bf, QQ. rewrite st_af_is, st_inv2_is by assumption.
  destruct (at_dot3 i j Hi Hj) as (-> & -> & _). unfold Rdiv. ring.
Qed.
Lemma st_a_is : forall i j k, (i < N)%nat -> (j < N)%nat ->
  st_a n b (S i) (S j) k = acc0 (rr n e (X j) (X i)) (fun t => rel (X j) (X i) t k) (s_m (S j)) t0.
Proof.
  intros i j k Hi Hj. unfold st_a, acc0. rewrite st_inv_is, (at_dr n b N S X V t0 Hb H0) by assumption.
  unfold rel, vsub, Rdiv. rewrite pow_inv. ring.
Qed.
Lemma st_j_is : forall i j k, (i < N)%nat -> (j < N)%nat ->
  st_j n b (S i) (S j) k = acc1 (rr n e (X j) (X i)) (PP n (X j) (X i) (V j) (V i)) (fun t => rel (X j) (X i) t k)
    (fun t => rel (V j) (V i) t k) (s_m (S j)) t0.
Proof.
  intros i j k Hi Hj. unfold st_j, acc1.
  rewrite st_inv_is, (at_P n b N S X V t0 Hb H0), (at_dr n b N S X V t0 Hb H0), (at_dv N S X V t0 H0) by assumption.
  assert (0 < rr n e (X j) (X i) t0) by (apply sep_pos, small_dp_pos). unfold rel, vsub. field. lra.
Qed.
Lemma st_2_is : forall i j k, (i < N)%nat -> (j < N)%nat ->
  st_2 n b (S i) (S j) k = acc2 (rr n e (X j) (X i)) (PP n (X j) (X i) (V j) (V i)) (QQ n (X j) (X i) (V j) (V i) (A j) (A i))
    (fun t => rel (X j) (X i) t k) (fun t => rel (V j) (V i) t k) (fun t => rel (A j) (A i) t k) (s_m (S j)) t0.
Proof.
  intros i j k Hi Hj. unfold st_2, acc2.
  rewrite st_af_is, st_bf_is, st_a_is, st_j_is, st_inv_is, st_inv2_is, at_da by assumption.
  assert (0 < rr n e (X j) (X i) t0) by (apply sep_pos, small_dp_pos). field. lra.
Qed.
Lemma second_derivative : forall i k, (i < N)%nat ->
  is_derive_n (fun t => newton_acc n N e (fun j => s_m (S j)) (fun j => X j t) i k) 2 t0
    (others N i (fun j => st_2 n b (S i) (S j) k)).
Proof.
  intros i k Hi.
  rewrite (others_ext N i _ (fun j => acc2 (rr n e (X j) (X i)) (PP n (X j) (X i) (V j) (V i)) (QQ n (X j) (X i) (V j) (V i) (A j) (A i))
    (fun t => rel (X j) (X i) t k) (fun t => rel (V j) (V i) t k) (fun t => rel (A j) (A i) t k) (s_m (S j)) t0)).
  2: { intros. now apply st_2_is. }
  apply (der2 _
    (fun t => others N i (fun j => acc1 (rr n e (X j) (X i)) (PP n (X j) (X i) (V j) (V i)) (fun t => rel (X j) (X i) t k)
       (fun t => rel (V j) (V i) t k) (s_m (S j)) t))
    (fun t => others N i (fun j => acc2 (rr n e (X j) (X i)) (PP n (X j) (X i) (V j) (V i)) (QQ n (X j) (X i) (V j) (V i) (A j) (A i))
       (fun t => rel (X j) (X i) t k) (fun t => rel (V j) (V i) t k) (fun t => rel (A j) (A i) t k) (s_m (S j)) t))).
  - intros t. unfold newton_acc.
    apply (der_others N i (fun j t => s_m (S j) * (X j t k - X i t k) / separation n e (X j t) (X i t) ^ 3)).
    intros j Hj Hne. apply (der_acc0 (rr n e (X j) (X i)) (PP n (X j) (X i) (V j) (V i)) (fun t => rel (X j) (X i) t k)
      (fun t => rel (V j) (V i) t k) t (s_m (S j))).
    + apply sep_pos, small_dp_pos.
    + apply der_rr; [intros; apply HX|intros; apply HX|apply sep_pos, small_dp_pos].
    + apply der_rel; intros; apply HX.
  - intros t. apply (der_others N i (fun j t => acc1 (rr n e (X j) (X i)) (PP n (X j) (X i) (V j) (V i)) (fun t => rel (X j) (X i) t k)
       (fun t => rel (V j) (V i) t k) (s_m (S j)) t)).
    intros j Hj Hne. apply der_acc1.
    + apply sep_pos, small_dp_pos.
    + apply der_rr; [intros; apply HX|intros; apply HX|apply sep_pos, small_dp_pos].
    + apply der_rel; intros; apply HX.
    + apply der_PP; intros; (apply HX || apply HV).
    + apply der_rel; intros; apply HV.
Qed.
Hypothesis H2 : forall j k, (j < N)%nat -> s_adot (S j) k = J j t0 k.
Lemma st_cf_is : forall i j, (i < N)%nat -> (j < N)%nat ->
  st_cf n b (S i) (S j) = cf (rr n e (X j) (X i)) (PP n (X j) (X i) (V j) (V i)) (QQ n (X j) (X i) (V j) (V i) (A j) (A i))
    (TT n (X j) (X i) (V j) (V i) (A j) (A i) (J j) (J i) t0) t0.
Proof.
  intros i j Hi Hj. unfold st_cf, cf, TT. rewrite st_af_is, st_bf_is, st_inv2_is by assumption.
  destruct (at_dot3 i j Hi Hj) as (_ & _ & ->).
  replace (dot n (pair_dr n b (S i) (S j)) (vsub (s_adot (S j)) (s_adot (S i)))) with (dot n (rel (X j) (X i) t0) (rel (J j) (J i) t0)).
  2: { apply dot_ext; intros k _; [now rewrite (at_dr n b N S X V t0 Hb H0 i j k Hi Hj)|].
       unfold rel, vsub. now rewrite !H2 by assumption. }
  unfold Rdiv. ring.
Qed.
Lemma st_3_is : forall i j k, (i < N)%nat -> (j < N)%nat ->
  st_3 n b (S i) (S j) k = acc3 (rr n e (X j) (X i)) (PP n (X j) (X i) (V j) (V i)) (QQ n (X j) (X i) (V j) (V i) (A j) (A i))
    (fun t => rel (X j) (X i) t k) (fun t => rel (V j) (V i) t k) (fun t => rel (A j) (A i) t k)
    (TT n (X j) (X i) (V j) (V i) (A j) (A i) (J j) (J i) t0) (rel (J j) (J i) t0 k) (s_m (S j)) t0.
Proof.
  intros i j k Hi Hj. unfold st_3, acc3.
  rewrite st_af_is, st_bf_is, st_cf_is, st_a_is, st_j_is, st_2_is, st_inv_is, st_inv2_is by assumption.
  assert (0 < rr n e (X j) (X i) t0) by (apply sep_pos, small_dp_pos).
  replace (vsub (s_adot (S j)) (s_adot (S i)) k) with (rel (J j) (J i) t0 k) by (unfold rel, vsub; now rewrite !H2 by assumption).
  field. lra.
Qed.
Lemma third_derivative : forall i k, (i < N)%nat ->
  is_derive_n (fun t => newton_acc n N e (fun j => s_m (S j)) (fun j => X j t) i k) 3 t0
    (others N i (fun j => st_3 n b (S i) (S j) k)).
Proof.
  intros i k Hi.
  rewrite (others_ext N i _ (fun j => acc3 (rr n e (X j) (X i)) (PP n (X j) (X i) (V j) (V i)) (QQ n (X j) (X i) (V j) (V i) (A j) (A i))
    (fun t => rel (X j) (X i) t k) (fun t => rel (V j) (V i) t k) (fun t => rel (A j) (A i) t k)
    (TT n (X j) (X i) (V j) (V i) (A j) (A i) (J j) (J i) t0) (rel (J j) (J i) t0 k) (s_m (S j)) t0)).
  2: { intros. now apply st_3_is. }
  apply (der3 _
    (fun t => others N i (fun j => acc1 (rr n e (X j) (X i)) (PP n (X j) (X i) (V j) (V i)) (fun t => rel (X j) (X i) t k)
       (fun t => rel (V j) (V i) t k) (s_m (S j)) t))
    (fun t => others N i (fun j => acc2 (rr n e (X j) (X i)) (PP n (X j) (X i) (V j) (V i)) (QQ n (X j) (X i) (V j) (V i) (A j) (A i))
       (fun t => rel (X j) (X i) t k) (fun t => rel (V j) (V i) t k) (fun t => rel (A j) (A i) t k) (s_m (S j)) t))
    (fun t => others N i (fun j => acc3 (rr n e (X j) (X i)) (PP n (X j) (X i) (V j) (V i)) (QQ n (X j) (X i) (V j) (V i) (A j) (A i))
       (fun t => rel (X j) (X i) t k) (fun t => rel (V j) (V i) t k) (fun t => rel (A j) (A i) t k)
       (TT n (X j) (X i) (V j) (V i) (A j) (A i) (J j) (J i) t) (rel (J j) (J i) t k) (s_m (S j)) t))).
  - intros t. unfold newton_acc.
    apply (der_others N i (fun j t => s_m (S j) * (X j t k - X i t k) / separation n e (X j t) (X i t) ^ 3)).
    intros j Hj Hne. apply (der_acc0 (rr n e (X j) (X i)) (PP n (X j) (X i) (V j) (V i)) (fun t => rel (X j) (X i) t k)
      (fun t => rel (V j) (V i) t k) t (s_m (S j))).
    + apply sep_pos, small_dp_pos.
    + apply der_rr; [intros; apply HX|intros; apply HX|apply sep_pos, small_dp_pos].
    + apply der_rel; intros; apply HX.
  - intros t. apply (der_others N i (fun j t => acc1 (rr n e (X j) (X i)) (PP n (X j) (X i) (V j) (V i)) (fun t => rel (X j) (X i) t k)
       (fun t => rel (V j) (V i) t k) (s_m (S j)) t)).
    intros j Hj Hne. apply der_acc1.
    + apply sep_pos, small_dp_pos.
    + apply der_rr; [intros; apply HX|intros; apply HX|apply sep_pos, small_dp_pos].
    + apply der_rel; intros; apply HX.
    + apply der_PP; intros; (apply HX || apply HV).
    + apply der_rel; intros; apply HV.
  - intros t. apply (der_others N i (fun j t => acc2 (rr n e (X j) (X i)) (PP n (X j) (X i) (V j) (V i)) (QQ n (X j) (X i) (V j) (V i) (A j) (A i))
       (fun t => rel (X j) (X i) t k) (fun t => rel (V j) (V i) t k) (fun t => rel (A j) (A i) t k) (s_m (S j)) t)).
    intros j Hj Hne. apply der_acc2.
    + apply sep_pos, small_dp_pos.
    + apply der_rr; [intros; apply HX|intros; apply HX|apply sep_pos, small_dp_pos].
    + apply der_rel; intros; apply HX.
    + apply der_PP; intros; (apply HX || apply HV).
    + apply der_rel; intros; apply HV.
    + apply der_QQ; intros; (apply HX || apply HV || apply HA).
    + apply der_rel; intros; apply HA.
Qed.
End startup.
