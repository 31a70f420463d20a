(** The functions that join a side to the pressure between the waves: slope, concavity, convexity in the logarithm. *)
From Verif Require Import Prelude Vec M_Box L_Box M_Exact L_Diag3 L_Eos.
From Coq Require Import Reals Lra Psatz.
From Coquelicot Require Import Coquelicot.
Local Open Scope R_scope.

Lemma small_pos : 0 < small_number.
Proof. unfold small_number. apply Rinv_0_lt_compat, pow_lt. lra. Qed.

(** Mean values. *)
Section Mvt.
Variables (F F' : R -> R) (a b : R).
Hypotheses (Ha : 0 < a) (Hab : a <= b) (Hd : forall x, a <= x <= b -> is_derive F x (F' x)).
Lemma mvt_concave : (forall x y, a <= x -> x <= y -> y <= b -> F' y <= F' x) -> F' b * (b - a) <= F b - F a <= F' a * (b - a).
Proof.
  intros H. destruct (MVT_gen F a b F') as [c [Hc He]].
  - intros x Hx. rewrite Rmin_left, Rmax_right in Hx by lra. apply Hd. lra.
  - intros x Hx. rewrite Rmin_left, Rmax_right in Hx by lra. apply derivable_continuous_pt. exists (F' x). apply is_derive_Reals, Hd. lra.
  - rewrite Rmin_left, Rmax_right in Hc by lra. rewrite He.
    pose proof (H a c ltac:(lra) ltac:(lra) ltac:(lra)). pose proof (H c b ltac:(lra) ltac:(lra) ltac:(lra)). split; apply Rmult_le_compat_r; lra.
Qed.
Lemma mvt_log : (forall x, a <= x <= b -> a * F' a <= x * F' x) -> a * F' a * ln (b / a) <= F b - F a.
Proof.
  intros H. set (k := a * F' a).
  destruct (MVT_gen (fun x => F x - k * ln x) a b (fun x => F' x - k / x)) as [c [Hc He]].
  - intros x Hx. rewrite Rmin_left, Rmax_right in Hx by lra. auto_derive; [split; [|split; [lra|auto]]|].
    + exists (F' x). apply Hd. lra.
    + replace (Derive (fun x0 => F x0) x) with (F' x) by (symmetry; apply is_derive_unique, Hd; lra). field. lra.
  - intros x Hx. rewrite Rmin_left, Rmax_right in Hx by lra. apply continuity_pt_minus.
    + apply derivable_continuous_pt. exists (F' x). apply is_derive_Reals, Hd. lra.
    + apply continuity_pt_scal. apply derivable_continuous_pt. exists (/ x). apply derivable_pt_lim_ln. lra.
  - rewrite Rmin_left, Rmax_right in Hc by lra. rewrite ln_div by lra.
    assert (0 <= F' c - k / c).
    { specialize (H c Hc). fold k in H. assert (k / c <= F' c); [|lra]. apply Rmult_le_reg_r with c; [lra|].
      replace (k / c * c) with k by (field; lra). lra. }
    assert (0 <= (F' c - k / c) * (b - a)) by (apply Rmult_le_pos; lra). lra.
Qed.
End Mvt.

Section Side.
Variables (gamma p d c : R).
Hypotheses (Hg : 1 < gamma) (Hp : 0 < p) (Hdd : 0 < d) (Hc : c = sqrt (gamma * p / d)).
Local Notation fs := (fside gamma p d c).
Local Notation fp := (fprime gamma p d c).
Local Notation A := (g5 gamma / d).
Local Notation B := (p * g6 gamma).
Local Notation rar := (fun x => g4 gamma * c * (Rpower (x / p) (g1 gamma) - 1)).
Local Notation rar' := (fun x => Rpower (x / p) (- g2 gamma) / (d * c)).
Local Notation sh := (fun x => (x - p) * sqrt (A / (x + B))).
Local Notation sh' := (fun x => sqrt (A / (x + B)) * (1 - 1 / 2 * (x - p) / (x + B))).

Lemma c_pos : 0 < c.
Proof. rewrite Hc. apply sqrt_lt_R0. apply Rdiv_lt_0_compat; [nra|lra]. Qed.
Lemma c_sqr : c * c = gamma * p / d.
Proof. rewrite Hc. apply sqrt_sqrt. left. apply Rdiv_lt_0_compat; [nra|lra]. Qed.
Lemma c_gp : d * (c * c) = gamma * p.
Proof. rewrite c_sqr. field. lra. Qed.
Lemma A_pos : 0 < A.
Proof. unfold g5. apply Rdiv_lt_0_compat; [apply Rdiv_lt_0_compat; lra|lra]. Qed.
Lemma g6_pos : 0 < g6 gamma < 1.
Proof. unfold g6. split; [apply Rdiv_lt_0_compat; lra|]. apply Rmult_lt_reg_r with (gamma + 1); [lra|]. replace ((gamma - 1) / (gamma + 1) * (gamma + 1)) with (gamma - 1) by (field; lra). lra. Qed.
Lemma B_pos : 0 < B < p.
Proof. pose proof g6_pos. nra. Qed.
Lemma g1_pos : 0 < g1 gamma.
Proof. unfold g1. apply Rdiv_lt_0_compat; lra. Qed.
Lemma g2_pos : 0 < g2 gamma.
Proof. unfold g2. apply Rdiv_lt_0_compat; lra. Qed.
Lemma g4_pos : 0 < g4 gamma.
Proof. unfold g4. apply Rdiv_lt_0_compat; lra. Qed.

(** At the pressure of the side both branches meet. *)
Lemma sh_p : sqrt (A / (p + B)) = / (d * c).
Proof.
  pose proof c_pos. pose proof c_gp.
  replace (A / (p + B)) with (/ (d * c) * / (d * c)). { apply sqrt_square. left. apply Rinv_0_lt_compat. nra. }
  rewrite <- Rinv_mult_distr by nra. replace (d * c * (d * c)) with (d * (d * (c * c))) by ring. rewrite H0.
  unfold g5, g6. field. repeat split; nra.
Qed.
Lemma fs_lo x : x <= p -> fs x = rar x.
Proof. intros. unfold fside. rewrite (proj2 (rltb_false _ _)) by lra. reflexivity. Qed.
Lemma fs_hi x : p <= x -> fs x = sh x.
Proof.
  intros [G|G]. - unfold fside. rewrite (proj2 (rltb_true _ _)) by lra. reflexivity.
  - subst x. rewrite fs_lo by lra. cbv beta. replace (p / p) with 1 by (field; lra). unfold Rpower. rewrite ln_1, Rmult_0_r, exp_0. ring.
Qed.
Lemma fp_lo x : x <= p -> fp x = rar' x.
Proof. intros. unfold fprime. rewrite (proj2 (rltb_false _ _)) by lra. reflexivity. Qed.
Lemma fp_hi x : p <= x -> fp x = sh' x.
Proof.
  intros [G|G]. - unfold fprime. rewrite (proj2 (rltb_true _ _)) by lra. reflexivity.
  - subst x. rewrite fp_lo by lra. cbv beta. rewrite sh_p. replace (p / p) with 1 by (field; lra). unfold Rpower. rewrite ln_1, Rmult_0_r, exp_0.
    pose proof c_pos. pose proof B_pos. field. repeat split; nra.
Qed.
Lemma fs_p : fs p = 0.
Proof. rewrite fs_hi by lra. cbv beta. ring. Qed.

Lemma rar_der x : 0 < x -> is_derive rar x (rar' x).
Proof.
  intros Hx. pose proof c_pos. pose proof c_gp.
  evar_last. { apply (is_derive_scal (fun x => Rpower (x / p) (g1 gamma) - 1)). apply (is_derive_minus (fun x => Rpower (x / p) (g1 gamma)) (fun _ => 1)).
    - apply (der_rpower (fun x => x / p) x (/ p)); [apply Rdiv_lt_0_compat; lra|]. auto_derive; [exact I|]. field. lra.
    - apply is_derive_const. }
  unfold minus, plus, opp, zero; simpl. replace (g1 gamma - 1) with (- g2 gamma) by (unfold g1, g2; field; lra).
  cbv beta. assert (E : / (d * c) = c / (gamma * p)) by (rewrite <- H0; field; split; lra).
  replace (Rpower (x / p) (- g2 gamma) / (d * c)) with (Rpower (x / p) (- g2 gamma) * (c / (gamma * p))) by (rewrite <- E; reflexivity).
  unfold g4, g1. set (X := Rpower _ _). field. repeat split; lra.
Qed.
Lemma sh_der_gen a b x : 0 < a -> 0 < x + b ->
  is_derive (fun x => (x - p) * sqrt (a / (x + b))) x (sqrt (a / (x + b)) * (1 - 1 / 2 * (x - p) / (x + b))).
Proof.
  intros Ha Hx. assert (H1 : 0 < a / (x + b)) by (apply Rdiv_lt_0_compat; lra).
  assert (D : is_derive (fun x => sqrt (a / (x + b))) x (- (1 / 2) * sqrt (a / (x + b)) / (x + b))).
  { evar_last. { apply (is_derive_comp sqrt (fun x => a / (x + b)) x (/ (2 * sqrt (a / (x + b)))) (- a / ((x + b) * (x + b)))).
      - apply is_derive_Reals, derivable_pt_lim_sqrt. exact H1.
      - auto_derive; [lra|]. field. lra. }
    unfold scal; simpl; unfold mult; simpl. pose proof (sqrt_lt_R0 _ H1) as Q. assert (Q2 : sqrt (a / (x + b)) * sqrt (a / (x + b)) = a / (x + b)) by (apply sqrt_sqrt; lra).
    set (q := sqrt (a / (x + b))) in *. replace (- a / ((x + b) * (x + b))) with (- (q * q) / (x + b)) by (rewrite Q2; field; lra). field. split; lra. }
  evar_last. { apply (is_derive_mult (fun x => x - p) (fun x => sqrt (a / (x + b))) x 1 (- (1 / 2) * sqrt (a / (x + b)) / (x + b))); [auto_derive; [exact I|ring]|exact D|intros; apply Rmult_comm]. }
  unfold plus, mult; simpl. field. lra.
Qed.
Lemma sh_der x : 0 < x -> is_derive sh x (sh' x).
Proof. intros. pose proof A_pos. pose proof B_pos. apply (sh_der_gen A B x); lra. Qed.

(** Slopes. *)
Lemma sh'_form x : 0 < x -> sh' x = 1 / 2 * (sqrt (A / (x + B)) * (1 + (B + p) / (x + B))).
Proof. intros. pose proof B_pos. cbv beta. set (q := sqrt _). clearbody q. set (b := B) in *. clearbody b. field. lra. Qed.
Lemma fp_pos x : 0 < x -> 0 < fp x.
Proof.
  intros. pose proof c_pos. pose proof B_pos. destruct (Rle_dec x p).
  - rewrite fp_lo by lra. apply Rdiv_lt_0_compat; [apply rpower_pos|nra].
  - rewrite fp_hi by lra; cbv beta; rewrite sh'_form by lra. pose proof A_pos.
    apply Rmult_lt_0_compat; [lra|apply Rmult_lt_0_compat; [apply sqrt_lt_R0, Rdiv_lt_0_compat; lra|]].
    assert (0 < (B + p) / (x + B)) by (apply Rdiv_lt_0_compat; lra). lra.
Qed.
Lemma rar'_anti x y : 0 < x -> x <= y -> rar' y <= rar' x.
Proof.
  intros. pose proof c_pos. pose proof g2_pos. apply Rmult_le_compat_r; [left; apply Rinv_0_lt_compat; nra|].
  rewrite !Rpower_Ropp. apply Rinv_le_contravar; [apply rpower_pos|]. apply Rle_Rpower_l; [lra|]. split; [apply Rdiv_lt_0_compat; lra|].
  apply Rmult_le_compat_r; [left; apply Rinv_0_lt_compat; lra|lra].
Qed.
Lemma sh'_anti x y : 0 < x -> x <= y -> sh' y <= sh' x.
Proof.
  intros. pose proof A_pos. pose proof B_pos. cbv beta; rewrite !sh'_form by lra. apply Rmult_le_compat_l; [lra|].
  assert (/ (y + B) <= / (x + B)) by (apply Rinv_le_contravar; lra).
  assert (0 < / (y + B)) by (apply Rinv_0_lt_compat; lra).
  apply Rmult_le_compat.
  - apply sqrt_pos.
  - assert (0 < (B + p) / (y + B)) by (apply Rmult_lt_0_compat; lra). lra.
  - apply sqrt_le_1_alt. apply Rmult_le_compat_l; lra.
  - apply Rplus_le_compat_l. apply Rmult_le_compat_l; lra.
Qed.
Lemma rar'_mono x y : 0 < x -> x <= y -> x * rar' x <= y * rar' y.
Proof.
  intros. pose proof c_pos. pose proof g1_pos.
  assert (E : forall x, 0 < x -> x * rar' x = p / (d * c) * Rpower (x / p) (g1 gamma)).
  { intros z Hz. cbv beta. replace (g1 gamma) with (- g2 gamma + 1) by (unfold g1, g2; field; lra). rewrite rpower_succ by (apply Rdiv_lt_0_compat; lra). field. repeat split; lra. }
  rewrite !E by lra. apply Rmult_le_compat_l; [left; apply Rdiv_lt_0_compat; nra|].
  apply Rle_Rpower_l; [lra|]. split; [apply Rdiv_lt_0_compat; lra|]. apply Rmult_le_compat_r; [left; apply Rinv_0_lt_compat; lra|lra].
Qed.
Lemma sh'_mono x y : p <= x -> x <= y -> x * sh' x <= y * sh' y.
Proof.
  intros. pose proof A_pos. pose proof B_pos.
  assert (E : forall x, p <= x -> x * sh' x = sqrt A / 2 * ((1 - B / (x + B)) * (sqrt (x + B) + (B + p) / sqrt (x + B)))).
  { intros z Hz. cbv beta. rewrite sh'_form by lra. rewrite sqrt_div_alt by lra. assert (Q : 0 < sqrt (z + B)) by (apply sqrt_lt_R0; lra).
    assert (Q2 : sqrt (z + B) * sqrt (z + B) = z + B) by (apply sqrt_sqrt; lra). set (t := sqrt (z + B)) in *.
    rewrite <- Q2. assert (Ez : z = t * t - B) by lra. rewrite Ez at 1. set (b := B) in *. clearbody t b. field. lra. }
  rewrite !E by lra. apply Rmult_le_compat_l; [pose proof (sqrt_pos A); lra|].
  assert (I1 : / (y + B) <= / (x + B)) by (apply Rinv_le_contravar; lra).
  assert (I2 : B * / (x + B) < 1). { apply Rmult_lt_reg_r with (x + B); [lra|]. rewrite Rmult_assoc, Rinv_l by lra. lra. }
  assert (S1 : sqrt (x + B) <= sqrt (y + B)) by (apply sqrt_le_1_alt; lra).
  assert (Q : 0 < sqrt (x + B)) by (apply sqrt_lt_R0; lra).
  assert (Q2 : sqrt (x + B) * sqrt (x + B) = x + B) by (apply sqrt_sqrt; lra).
  set (t := sqrt (x + B)) in *. set (s := sqrt (y + B)) in *.
  apply Rmult_le_compat.
  - unfold Rdiv. lra.
  - assert (0 < (B + p) / t) by (apply Rdiv_lt_0_compat; lra). lra.
  - unfold Rdiv. apply Rplus_le_compat_l, Ropp_le_contravar, Rmult_le_compat_l; lra.
  - assert (0 <= (s - t) * (1 - (B + p) / (s * t))).
    { apply Rmult_le_pos; [lra|]. assert ((B + p) / (s * t) <= 1); [|lra]. apply Rmult_le_reg_r with (s * t); [nra|].
      replace ((B + p) / (s * t) * (s * t)) with (B + p) by (field; split; lra). nra. }
    replace ((s - t) * (1 - (B + p) / (s * t))) with (s + (B + p) / s - (t + (B + p) / t)) in H3 by (field; split; lra). lra.
Qed.
Lemma fp_anti x y : 0 < x -> x <= y -> fp y <= fp x.
Proof.
  intros. destruct (Rle_dec y p); [rewrite !fp_lo by lra; apply rar'_anti; lra|].
  destruct (Rle_dec p x); [rewrite !fp_hi by lra; apply sh'_anti; lra|].
  apply Rle_trans with (fp p). - rewrite !fp_hi by lra. apply sh'_anti; lra. - rewrite !fp_lo by lra. apply rar'_anti; lra.
Qed.
Lemma fp_mono x y : 0 < x -> x <= y -> x * fp x <= y * fp y.
Proof.
  intros. destruct (Rle_dec y p); [rewrite !fp_lo by lra; apply rar'_mono; lra|].
  destruct (Rle_dec p x); [rewrite !fp_hi by lra; apply sh'_mono; lra|].
  apply Rle_trans with (p * fp p). - rewrite !fp_lo by lra. apply rar'_mono; lra. - rewrite !fp_hi by lra. apply sh'_mono; lra.
Qed.
Lemma fs_lo_mvt a b : 0 < a -> a <= b -> b <= p -> fp b * (b - a) <= fs b - fs a <= fp a * (b - a) /\ a * fp a * ln (b / a) <= fs b - fs a.
Proof.
  intros. rewrite !fp_lo, !fs_lo by lra. split.
  - apply (mvt_concave rar rar'); try lra. { intros. apply rar_der. lra. } intros. apply rar'_anti; lra.
  - apply (mvt_log rar rar'); try lra. { intros. apply rar_der. lra. } intros. apply rar'_mono; lra.
Qed.
Lemma fs_hi_mvt a b : p <= a -> a <= b -> fp b * (b - a) <= fs b - fs a <= fp a * (b - a) /\ a * fp a * ln (b / a) <= fs b - fs a.
Proof.
  intros. rewrite !fp_hi, !fs_hi by lra. split.
  - apply (mvt_concave sh sh'); try lra. { intros. apply sh_der. lra. } intros. apply sh'_anti; lra.
  - apply (mvt_log sh sh'); try lra. { intros. apply sh_der. lra. } intros. apply sh'_mono; lra.
Qed.
(** The function of a side is concave and, in the logarithm of the pressure, convex. *)
Lemma fs_mvt a b : 0 < a -> a <= b -> fp b * (b - a) <= fs b - fs a <= fp a * (b - a) /\ a * fp a * ln (b / a) <= fs b - fs a.
Proof.
  intros. destruct (Rle_dec b p); [apply fs_lo_mvt; lra|]. destruct (Rle_dec p a); [apply fs_hi_mvt; lra|].
  destruct (fs_lo_mvt a p) as [[L1 L2] L3]; try lra. destruct (fs_hi_mvt p b) as [[H1 H2] H3]; try lra.
  pose proof (fp_anti a p ltac:(lra) ltac:(lra)). pose proof (fp_anti p b ltac:(lra) ltac:(lra)). pose proof (fp_mono a p ltac:(lra) ltac:(lra)).
  split; [split; nra|].
  assert (ln (b / a) = ln (p / a) + ln (b / p)) as ->. { rewrite !ln_div by lra. ring. }
  assert (0 <= ln (b / p)). { rewrite <- ln_1. destruct (Req_dec b p) as [->|]; [replace (p / p) with 1 by (field; lra); lra|]. left. apply ln_increasing; [lra|].
    apply Rmult_lt_reg_r with p; [lra|]. replace (b / p * p) with b by (field; lra). lra. }
  nra.
Qed.
Lemma fs_incr a b : 0 < a -> a < b -> fs a < fs b.
Proof. intros. destruct (fs_mvt a b) as [[H1 _] _]; try lra. pose proof (fp_pos b ltac:(lra)). nra. Qed.
Lemma fp_bound x : 0 < x -> x * fp x <= Rmax x p / (d * c).
Proof.
  intros. pose proof c_pos. assert (E : fp p = / (d * c)). { rewrite fp_hi by lra. cbv beta. rewrite sh_p. pose proof B_pos. field. repeat split; nra. }
  destruct (Rle_dec x p).
  - rewrite Rmax_right by lra. unfold Rdiv. rewrite <- E. apply fp_mono; lra.
  - rewrite Rmax_left by lra. unfold Rdiv. rewrite <- E. apply Rmult_le_compat_l; [lra|]. apply fp_anti; lra.
Qed.
End Side.
