(** Orbital elements. *)
From Verif Require Import Prelude Vec M_Box L_Box M_Hermite M_NNTree S_Diag L_Diag S_NNTree L_NNTree L_NNTree2 L_NNTree3.
From Coq Require Import Reals Permutation Psatz.
Local Open Scope R_scope.

Section Lrl.
Variable n : nat.
Variables (M : R) (r v : vec).
Hypothesis HM : 0 < M.
Lemma dot_lin2 : forall a b c d (x y : vec), dot n (fun k => a * x k + b * y k) (fun k => c * x k + d * y k) = a * c * dot n x x + (a * d + b * c) * dot n x y + b * d * dot n y y.
Proof. intros. unfold dot. rewrite <- !sumf_scal, <- !sumf_plus. apply sumf_ext. intros; ring. Qed.
Lemma dot_nn : forall x, 0 <= dot n x x.
Proof. intros. unfold dot. apply sumf_nonneg. intros. apply Rle_0_sqr. Qed.
Lemma lrl_sq : 0 < dot n r r -> dot n (lrl n M r v) (lrl n M r v) = 1 + 2 * orb_energy n M r v * orb_h2 n r v / M ^ 2.
Proof.
  intros Hr. assert (Hs : 0 < sqrt (dot n r r)) by (apply sqrt_lt_R0, Hr). pose proof (sqrt_sqrt (dot n r r) (Rlt_le _ _ Hr)) as SS.
  set (s := sqrt (dot n r r)) in *. set (a := dot n v v / M - 1 / s). set (b := - (dot n r v / M)).
  rewrite (dot_ext n (lrl n M r v) (fun k => a * r k + b * v k) (lrl n M r v) (fun k => a * r k + b * v k)).
  2, 3: intros k _; unfold lrl; fold s; unfold a, b; field; split; lra.
  rewrite dot_lin2. unfold a, b, orb_energy, orb_h2. fold s. rewrite <- SS. set (d := dot n r v). set (w := dot n v v). field. split; lra.
Qed.
Lemma h2_nn : 0 <= orb_h2 n r v.
Proof.
  unfold orb_h2. pose proof (dot_nn r) as Hr. destruct (Rle_lt_or_eq_dec _ _ Hr) as [L|E].
  - pose proof (dot_nn (fun k => (- dot n r v) * r k + dot n r r * v k)) as S. rewrite dot_lin2 in S.
    set (d := dot n r v) in *. set (w := dot n v v) in *. set (q := dot n r r) in *. assert (0 <= q * (q * w - d * d)) by (eapply Rle_trans; [exact S|right; ring]).
    apply Rmult_le_reg_l with q; [exact L|]. rewrite Rmult_0_r. assumption.
  - assert (Z : dot n r v = 0).
    { pose proof (dot_nn (fun k => (1) * r k + 1 * v k)) as S1. clear S1.
      assert (Q : forall t, 0 <= 2 * t * dot n r v + t * t * dot n v v).
      { intros t. pose proof (dot_nn (fun k => 1 * r k + t * v k)) as S. rewrite dot_lin2, <- E in S. lra. }
      pose proof (dot_nn v) as Hw. set (w := dot n v v) in *. set (d := dot n r v) in *. pose proof (Q (- d / (1 + w))) as Q1.
      assert (P : 0 < 1 + w) by lra. assert (EQ : 2 * (- d / (1 + w)) * d + - d / (1 + w) * (- d / (1 + w)) * w = - (d * d) * ((2 + w) / (1 + w) ^ 2)) by (field; lra).
      rewrite EQ in Q1. assert (PP : 0 < (2 + w) / (1 + w) ^ 2) by (apply Rdiv_lt_0_compat; [lra|apply pow_lt, P]). assert (0 <= d * d) by apply Rle_0_sqr. assert (d * d = 0) by nra. nra. }
    rewrite <- E, Z. lra.
Qed.
Lemma h2_zero : dot n r r = 0 -> orb_h2 n r v = 0.
Proof. intros E. pose proof h2_nn as H. unfold orb_h2 in *. rewrite E in *. pose proof (Rle_0_sqr (dot n r v)) as S. unfold Rsqr in S. lra. Qed.
End Lrl.

Section Orbit.
Variable ndim : nat.
Hypothesis Hdim : (1 <= ndim <= 3)%nat.
Lemma ang_h2 : forall mu r v, orb_angmomsqd ndim (orb_angmom ndim mu r v) = mu * mu * orb_h2 ndim r v.
Proof.
  intros mu r v. destruct ndim as [|[|[|[|k]]]] eqn:E; try lia; unfold orb_angmomsqd, orb_angmom, orb_h2, dot, sumf; ring.
Qed.
Definition tosum (c l1 l2 : cell) : Prop := l_m c = l_m l1 + l_m l2 /\ forall q k, l_m c * l_x c q k = l_m l1 * l_x l1 q k + l_m l2 * l_x l2 q k.
Lemma small_pos : 0 < small_number_dp.
Proof. unfold small_number_dp. lra. Qed.
Lemma orbit_ok : forall c1 c2 N c l1 l2 o, 0 < l_m l1 -> 0 < l_m l2 -> tosum c l1 l2 -> ComputeNewBinaryOrbit ndim c1 c2 N c l1 l2 = Some o ->
  o_c1 o = c1 /\ o_c2 o = c2 /\
  kepler ndim small_number_dp (l_m l1) (l_m l2) (l_x l1 Qr) (l_x l1 Qv) (l_x l2 Qr) (l_x l2 Qv) (o_m o) (o_r o) (o_v o) (o_binen o) (o_sma o) (o_period o) (o_ecc o) (o_q o) /\
  (ndim = 3%nat -> forall k, (k < 3)%nat -> o_angmom o k = l_m l1 * l_m l2 / (l_m l1 + l_m l2) * cross3 (vsub (l_x l1 Qr) (l_x l2 Qr)) (vsub (l_x l1 Qv) (l_x l2 Qv)) k) /\
  (ndim = 2%nat -> o_angmom o 2%nat = l_m l1 * l_m l2 / (l_m l1 + l_m l2) * cross3 (vsub (l_x l1 Qr) (l_x l2 Qr)) (vsub (l_x l1 Qv) (l_x l2 Qv)) 2%nat) /\
  (o_type o = Binary <-> (c1 < N)%nat /\ (c2 < N)%nat) /\ (o_type o = Quadruple <-> (N <= c1)%nat /\ (N <= c2)%nat).
Proof.
  intros c1 c2 N c l1 l2 o H1 H2 (HM & HX) H. unfold ComputeNewBinaryOrbit in H. rewrite ang_h2 in H.
  set (r := vsub (l_x l1 Qr) (l_x l2 Qr)) in *. set (v := vsub (l_x l1 Qv) (l_x l2 Qv)) in *.
  set (mu := l_m l1 * l_m l2 / l_m c) in *. pose proof small_pos as He. set (eps := small_number_dp) in *.
  set (E := 1 / 2 * dot ndim v v - l_m c * (1 / (sqrt (dot ndim r r) + eps))) in *.
  destruct (rleb 0 E) eqn:EB; [discriminate|]. apply rleb_false in EB. injection H as <-. cbn [o_c1 o_c2 o_m o_r o_v o_binen o_sma o_period o_ecc o_q o_angmom o_type].
  assert (MP : 0 < l_m c) by lra. assert (Hmu : 0 < mu) by (unfold mu; apply Rdiv_lt_0_compat; [apply Rmult_lt_0_compat|]; lra).
  assert (SP : 0 <= sqrt (dot ndim r r)) by apply sqrt_pos.
  set (a := - (1 / 2) * l_m c / E). assert (Ha : 0 < a).
  { replace a with ((1 / 2) * l_m c / (- E)) by (unfold a; field; lra). apply Rdiv_lt_0_compat; lra. }
  assert (EC : 1 - mu * mu * orb_h2 ndim r v / (l_m c * a * mu * mu) = 1 + 2 * E * orb_h2 ndim r v / l_m c ^ 2) by (unfold a; field; repeat split; lra).
  assert (EN : 0 <= 1 + 2 * E * orb_h2 ndim r v / l_m c ^ 2).
  { destruct (Rle_lt_or_eq_dec _ _ (dot_nn ndim r)) as [L|Z].
    - pose proof (lrl_sq ndim (l_m c) r v MP L) as LS. pose proof (dot_nn ndim (lrl ndim (l_m c) r v)) as LN. rewrite LS in LN.
      assert (EE : orb_energy ndim (l_m c) r v <= E).
      { unfold orb_energy, E. assert (0 < sqrt (dot ndim r r)) by (apply sqrt_lt_R0, L).
        assert (/ (sqrt (dot ndim r r) + eps) <= / sqrt (dot ndim r r)) by (apply Rinv_le_contravar; lra). unfold Rdiv. nra. }
      pose proof (h2_nn ndim r v) as Hh. assert (0 < / l_m c ^ 2) by (apply Rinv_0_lt_compat, pow_lt, MP).
      assert (0 <= orb_h2 ndim r v * / l_m c ^ 2) by (apply Rmult_le_pos; lra). unfold Rdiv in *. rewrite Rmult_assoc in *. nra.
    - rewrite (h2_zero ndim r v) by auto. unfold Rdiv. lra. }
  assert (E1 : 1 + 2 * E * orb_h2 ndim r v / l_m c ^ 2 <= 1).
  { pose proof (h2_nn ndim r v) as Hh. assert (0 < / l_m c ^ 2) by (apply Rinv_0_lt_compat, pow_lt, MP).
      assert (0 <= orb_h2 ndim r v * / l_m c ^ 2) by (apply Rmult_le_pos; lra). unfold Rdiv in *. rewrite Rmult_assoc. nra. }
  split; [reflexivity|]. split; [reflexivity|]. split; [|split; [|split; [|split]]].
  - unfold kepler. cbv zeta. rewrite EC, Rmax_right by exact EN. fold r v eps.
    split; [exact HM|]. split; [intros k; apply HX|]. split; [intros k; apply HX|]. split; [unfold E; field; lra|]. split; [exact EB|].
    split; [exact Ha|]. split; [unfold a; field; lra|].
    assert (A3 : 0 < a ^ 3 / l_m c) by (apply Rdiv_lt_0_compat; [apply pow_lt, Ha|lra]). assert (S3 : 0 < sqrt (a ^ 3 / l_m c)) by (apply sqrt_lt_R0, A3).
    split; [pose proof PI_RGT_0; apply Rmult_lt_0_compat; [lra|exact S3]|]. split.
    { assert (SS : sqrt (a ^ 3 / l_m c) * sqrt (a ^ 3 / l_m c) = a ^ 3 / l_m c) by (apply sqrt_sqrt; lra). fold a. change (a * (a * (a * 1))) with (a ^ 3). set (w := sqrt (a ^ 3 / l_m c)) in *.
      transitivity (4 * PI ^ 2 * (w * w) * l_m c); [ring|]. rewrite SS. field. lra. }
    split; [split; [apply sqrt_pos|apply Rle_trans with (sqrt 1); [apply sqrt_le_1_alt, E1|rewrite sqrt_1; lra]]|]. split; [rewrite <- Rsqr_pow2; apply Rsqr_sqrt, EN|].
    destruct (rltb (l_m l2) (l_m l1)) eqn:EQ.
    + apply rltb_true in EQ. rewrite Rmax_left, Rmin_right by lra. split; [|field; lra]. split; [apply Rdiv_lt_0_compat; lra|]. apply Rmult_le_reg_r with (l_m l1); [lra|]. unfold Rdiv. rewrite Rmult_assoc, Rinv_l by lra. lra.
    + apply rltb_false in EQ. rewrite Rmax_right, Rmin_left by lra. split; [|field; lra]. split; [apply Rdiv_lt_0_compat; lra|]. apply Rmult_le_reg_r with (l_m l2); [lra|]. unfold Rdiv. rewrite Rmult_assoc, Rinv_l by lra. lra.
  - intros D k Hk. clear -D Hk HM. unfold orb_angmom. rewrite D. unfold mu. rewrite HM. destruct k as [|[|[|k]]]; [reflexivity..|lia].
  - intros D. clear -D HM. unfold orb_angmom. rewrite D. unfold mu. rewrite HM. reflexivity.
  - destruct (Nat.ltb_spec c1 N), (Nat.ltb_spec c2 N); cbn; split; intros; try discriminate; try reflexivity; lia.
  - destruct (Nat.ltb_spec c1 N), (Nat.ltb_spec c2 N); cbn; split; intros; try discriminate; try reflexivity; lia.
Qed.
End Orbit.
(** The eccentricity is that of the Laplace-Runge-Lenz vector up to the number added to the distance. *)
Lemma ecc_lrl : forall n eps M r v binen ecc, 0 < eps -> 0 < M -> 0 < dot n r r -> binen = dot n v v / 2 - M / (sqrt (dot n r r) + eps) ->
  ecc ^ 2 = 1 + 2 * binen * orb_h2 n r v / M ^ 2 ->
  0 <= ecc ^ 2 - dot n (lrl n M r v) (lrl n M r v) <= 2 * eps * orb_h2 n r v / (M * (sqrt (dot n r r) * (sqrt (dot n r r) + eps))).
Proof.
  intros n eps M r v binen ecc He HM Hr HB HE. rewrite (lrl_sq n M r v HM Hr), HE, HB. unfold orb_energy. assert (Hs : 0 < sqrt (dot n r r)) by (apply sqrt_lt_R0, Hr). set (s := sqrt (dot n r r)) in *.
  pose proof (h2_nn n r v) as Hh. set (h := orb_h2 n r v) in *. set (w := dot n v v).
  assert (EQ : 1 + 2 * (w / 2 - M / (s + eps)) * h / M ^ 2 - (1 + 2 * (w / 2 - M / s) * h / M ^ 2) = 2 * eps * h / (M * (s * (s + eps)))) by (field; repeat split; lra).
  rewrite EQ. split; [|lra]. apply Rmult_le_pos; [nra|]. apply Rlt_le, Rinv_0_lt_compat. apply Rmult_lt_0_compat; [lra|]. apply Rmult_lt_0_compat; lra.
Qed.
