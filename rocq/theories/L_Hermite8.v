(** Errors of one step of the integrators. *)
From Verif Require Import Prelude Vec M_Box M_Periodic L_Box L_Periodic M_Hermite S_Hermite L_Hermite L_Hermite3 L_Hermite4 L_Hermite6 L_Hermite7.
From Coq Require Import Reals.
From Coquelicot Require Import Coquelicot.
Local Open Scope R_scope.

Lemma abs_split : forall c x X, 0 <= c -> Rabs x <= X -> - (c * X) <= c * x <= c * X.
Proof.
  intros c x X Hc H. pose proof (Rle_abs x). pose proof (Rle_abs (- x)). rewrite Rabs_Ropp in *.
  split; [replace (- (c * X)) with (c * - X) by ring|]; apply Rmult_le_compat_l; lra.
Qed.
Ltac tb D p q t0 dt M HD Hdt HM H :=
  pose proof (taylor_bound D p q t0 dt M HD Hdt HM) as H;
  cbn [taylor fact Nat.add Nat.mul INR] in H.

Section err.
Variables (D : nat -> R -> R) (t0 dt : R).
Hypothesis HD : derivatives D.
Hypothesis Hdt : 0 <= dt.
Let t1 := t0 + dt.
Variables (p q : star) (k : nat).
Hypothesis E0 : s_r p k = D 0%nat t0.
Hypothesis E1 : s_v p k = D 1%nat t0.
Hypothesis E2 : s_a p k = D 2%nat t0.
Variables (da dj ds : R).
Hypothesis Ha : Rabs (s_a q k - D 2%nat t1) <= da.

Lemma pw : forall m, 0 <= dt ^ m.
Proof. intros. now apply pow_le. Qed.

Lemma kdk_err : forall M, bounded_on (D 3%nat) t0 dt M -> Rabs (step_r LeapKDK dt p q k - D 0%nat t1) <= M * dt ^ 3 / 6.
Proof.
  intros M HM. unfold step_r. rewrite E0, E1, E2.
  tb D 0%nat 2%nat t0 dt M HD Hdt HM H.
  apply Rabs_le_between in H. fold t1 in H. apply Rabs_le_between.
  replace (M * dt ^ 3 / 6) with (M * dt ^ 3 / (1 + 1 + 1 + 1 + 1 + 1)) by (f_equal; lra). lra.
Qed.
Lemma kdk_err_v : forall M, bounded_on (D 4%nat) t0 dt M ->
  Rabs (step_v LeapKDK dt p q k - D 1%nat t1) <= 5 / 12 * M * dt ^ 3 + da * dt / 2.
Proof.
  intros M HM. unfold step_v. rewrite E1, E2.
  tb D 1%nat 2%nat t0 dt M HD Hdt HM H1. tb D 2%nat 1%nat t0 dt M HD Hdt HM H2. fold t1 in H1, H2.
  apply Rabs_le_between in H1.
  pose proof (abs_split dt _ _ Hdt H2). pose proof (abs_split dt _ _ Hdt Ha).
  apply Rabs_le_between. lra.
Qed.
Hypothesis E3 : s_adot p k = D 3%nat t0.
Hypothesis Hj : Rabs (s_adot q k - D 3%nat t1) <= dj.
Lemma h4_err_v : forall c M, c = Hermite4 \/ c = Hermite4TS -> bounded_on (D 6%nat) t0 dt M ->
  Rabs (step_v c dt p q k - D 1%nat t1) <= 31 / 720 * M * dt ^ 5 + da * dt / 2 + dj * dt ^ 2 / 12.
Proof.
  intros c M Hc HM. replace (step_v c dt p q k) with (step_v Hermite4 dt p q k) by (destruct Hc; subst; reflexivity).
  unfold step_v. rewrite E1, E2, E3.
  tb D 1%nat 4%nat t0 dt M HD Hdt HM H1. tb D 2%nat 3%nat t0 dt M HD Hdt HM H2. tb D 3%nat 2%nat t0 dt M HD Hdt HM H3. fold t1 in H1, H2, H3.
  apply Rabs_le_between in H1.
  pose proof (abs_split dt _ _ Hdt H2). pose proof (abs_split dt _ _ Hdt Ha).
  pose proof (abs_split (dt ^ 2) _ _ (pw 2) H3). pose proof (abs_split (dt ^ 2) _ _ (pw 2) Hj).
  apply Rabs_le_between. lra.
Qed.
Lemma h4_err_r : forall M, bounded_on (D 6%nat) t0 dt M ->
  Rabs (step_r Hermite4 dt p q k - D 0%nat t1) <= 19 / 1440 * M * dt ^ 6 + 3 / 20 * da * dt ^ 2 + dj * dt ^ 3 / 30.
Proof.
  intros M HM. unfold step_r. rewrite E0, E1, E2, E3.
  tb D 0%nat 5%nat t0 dt M HD Hdt HM H0. tb D 2%nat 3%nat t0 dt M HD Hdt HM H2. tb D 3%nat 2%nat t0 dt M HD Hdt HM H3. fold t1 in H0, H2, H3.
  apply Rabs_le_between in H0.
  pose proof (abs_split (dt ^ 2) _ _ (pw 2) H2). pose proof (abs_split (dt ^ 2) _ _ (pw 2) Ha).
  pose proof (abs_split (dt ^ 3) _ _ (pw 3) H3). pose proof (abs_split (dt ^ 3) _ _ (pw 3) Hj).
  apply Rabs_le_between. lra.
Qed.
Lemma h4ts_err_r : forall M, bounded_on (D 5%nat) t0 dt M ->
  Rabs (step_r Hermite4TS dt p q k - D 0%nat t1) <= 41 / 720 * M * dt ^ 5 + da * dt ^ 2 / 6 + dj * dt ^ 3 / 24.
Proof.
  intros M HM. unfold step_r, step_v. rewrite E0, E1, E2, E3.
  tb D 0%nat 4%nat t0 dt M HD Hdt HM H0. tb D 2%nat 2%nat t0 dt M HD Hdt HM H2. tb D 3%nat 1%nat t0 dt M HD Hdt HM H3. fold t1 in H0, H2, H3.
  apply Rabs_le_between in H0.
  pose proof (abs_split (dt ^ 2) _ _ (pw 2) H2). pose proof (abs_split (dt ^ 2) _ _ (pw 2) Ha).
  pose proof (abs_split (dt ^ 3) _ _ (pw 3) H3). pose proof (abs_split (dt ^ 3) _ _ (pw 3) Hj).
  apply Rabs_le_between. lra.
Qed.
(** Positions of NbodyHermite4TS are wrong in fifth order. *)
Lemma h4ts_low_r : forall M, bounded_on (D 6%nat) t0 dt M ->
  Rabs (D 5%nat t0) * dt ^ 5 / 720 - (11 / 720 * M * dt ^ 6 + da * dt ^ 2 / 6 + dj * dt ^ 3 / 24) <=
  Rabs (step_r Hermite4TS dt p q k - D 0%nat t1).
Proof.
  intros M HM. unfold step_r, step_v. rewrite E0, E1, E2, E3.
  tb D 0%nat 5%nat t0 dt M HD Hdt HM H0. tb D 2%nat 3%nat t0 dt M HD Hdt HM H2. tb D 3%nat 2%nat t0 dt M HD Hdt HM H3. fold t1 in H0, H2, H3.
  apply Rabs_le_between in H0.
  pose proof (abs_split (dt ^ 2) _ _ (pw 2) H2). pose proof (abs_split (dt ^ 2) _ _ (pw 2) Ha).
  pose proof (abs_split (dt ^ 3) _ _ (pw 3) H3). pose proof (abs_split (dt ^ 3) _ _ (pw 3) Hj).
  set (x := D 0%nat t0 + 1 / 2 * (D 1%nat t0 + (D 1%nat t0 + 1 / 2 * (D 2%nat t0 + s_a q k) * dt - 1 / 12 * (s_adot q k - D 3%nat t0) * dt ^ 2)) * dt -
    1 / 12 * (s_a q k - D 2%nat t0) * dt ^ 2 - D 0%nat t1).
  assert (B : - (11 / 720 * M * dt ^ 6 + da * dt ^ 2 / 6 + dj * dt ^ 3 / 24) <= x + D 5%nat t0 * dt ^ 5 / 720 <=
               11 / 720 * M * dt ^ 6 + da * dt ^ 2 / 6 + dj * dt ^ 3 / 24) by (unfold x; lra).
  pose proof (Rle_abs x). pose proof (Rle_abs (- x)). rewrite Rabs_Ropp in *.
  assert (T : Rabs (D 5%nat t0) * dt ^ 5 <= Rabs (D 5%nat t0 * dt ^ 5)).
  { rewrite Rabs_mult, (Rabs_right (dt ^ 5)); [lra|]. apply Rle_ge, pw. }
  destruct (Rle_dec 0 (D 5%nat t0 * dt ^ 5)) as [P|P].
  - rewrite (Rabs_right (D 5%nat t0 * dt ^ 5)) in T by lra. lra.
  - rewrite (Rabs_left (D 5%nat t0 * dt ^ 5)) in T by lra. lra.
Qed.
(** The softened sixth-order scheme: no second derivatives. *)
Lemma soft6_err : forall M, s_a2dot p k = 0 -> s_a2dot q k = 0 -> bounded_on (D 5%nat) t0 dt M ->
  Rabs (D 4%nat t0) * dt ^ 3 / 60 - (7 / 40 * M * dt ^ 4 + da * dt / 2 + dj * dt ^ 2 / 10) <=
  Rabs (step_v Hermite6TS dt p q k - D 1%nat t1).
Proof.
  intros M Z1 Z2 HM. unfold step_v. rewrite E1, E2, E3, Z1, Z2.
  tb D 1%nat 3%nat t0 dt M HD Hdt HM H1. tb D 2%nat 2%nat t0 dt M HD Hdt HM H2. tb D 3%nat 1%nat t0 dt M HD Hdt HM H3. fold t1 in H1, H2, H3.
  apply Rabs_le_between in H1.
  pose proof (abs_split dt _ _ Hdt H2). pose proof (abs_split dt _ _ Hdt Ha).
  pose proof (abs_split (dt ^ 2) _ _ (pw 2) H3). pose proof (abs_split (dt ^ 2) _ _ (pw 2) Hj).
  set (x := D 1%nat t0 + 1/2 * (D 2%nat t0 + s_a q k) * dt - 1/10 * (s_adot q k - D 3%nat t0) * dt ^ 2 + 1/120 * (0 + 0) * dt ^ 3 - D 1%nat t1).
  assert (B : - (7 / 40 * M * dt ^ 4 + da * dt / 2 + dj * dt ^ 2 / 10) <= x + D 4%nat t0 * dt ^ 3 / 60 <=
               7 / 40 * M * dt ^ 4 + da * dt / 2 + dj * dt ^ 2 / 10) by (unfold x; lra).
  pose proof (Rle_abs x). pose proof (Rle_abs (- x)). rewrite Rabs_Ropp in *.
  assert (T : Rabs (D 4%nat t0) * dt ^ 3 <= Rabs (D 4%nat t0 * dt ^ 3)).
  { rewrite Rabs_mult, (Rabs_right (dt ^ 3)); [lra|]. apply Rle_ge, pw. }
  destruct (Rle_dec 0 (D 4%nat t0 * dt ^ 3)) as [P|P].
  - rewrite (Rabs_right (D 4%nat t0 * dt ^ 3)) in T by lra. lra.
  - rewrite (Rabs_left (D 4%nat t0 * dt ^ 3)) in T by lra. lra.
Qed.
Hypothesis E4 : s_a2dot p k = D 4%nat t0.
Hypothesis Hs : Rabs (s_a2dot q k - D 4%nat t1) <= ds.
Lemma h6_err_v : forall M, bounded_on (D 8%nat) t0 dt M ->
  Rabs (step_v Hermite6TS dt p q k - D 1%nat t1) <= (1/1440 + 1/1200 + 1/2880 + 1/5040) * M * dt ^ 7 + da * dt / 2 + dj * dt ^ 2 / 10 + ds * dt ^ 3 / 120.
Proof.
  intros M HM. unfold step_v. rewrite E1, E2, E3, E4.
  tb D 1%nat 6%nat t0 dt M HD Hdt HM H1. tb D 2%nat 5%nat t0 dt M HD Hdt HM H2. tb D 3%nat 4%nat t0 dt M HD Hdt HM H3. tb D 4%nat 3%nat t0 dt M HD Hdt HM H4. fold t1 in H1, H2, H3, H4.
  apply Rabs_le_between in H1.
  pose proof (abs_split dt _ _ Hdt H2). pose proof (abs_split dt _ _ Hdt Ha).
  pose proof (abs_split (dt ^ 2) _ _ (pw 2) H3). pose proof (abs_split (dt ^ 2) _ _ (pw 2) Hj).
  pose proof (abs_split (dt ^ 3) _ _ (pw 3) H4). pose proof (abs_split (dt ^ 3) _ _ (pw 3) Hs).
  apply Rabs_le_between. lra.
Qed.
Lemma h6_err_r : forall M, bounded_on (D 7%nat) t0 dt M ->
  Rabs (step_r Hermite6TS dt p q k - D 0%nat t1) <= (1/800 + 1/576 + 1/1440 + 1/5040) * M * dt ^ 7 + 3 / 20 * da * dt ^ 2 + dj * dt ^ 3 / 24 + ds * dt ^ 4 / 240.
Proof.
  intros M HM. unfold step_r, step_v. rewrite E0, E1, E2, E3, E4.
  tb D 0%nat 6%nat t0 dt M HD Hdt HM H1. tb D 2%nat 4%nat t0 dt M HD Hdt HM H2. tb D 3%nat 3%nat t0 dt M HD Hdt HM H3. tb D 4%nat 2%nat t0 dt M HD Hdt HM H4. fold t1 in H1, H2, H3, H4.
  apply Rabs_le_between in H1.
  pose proof (abs_split (dt ^ 2) _ _ (pw 2) H2). pose proof (abs_split (dt ^ 2) _ _ (pw 2) Ha).
  pose proof (abs_split (dt ^ 3) _ _ (pw 3) H3). pose proof (abs_split (dt ^ 3) _ _ (pw 3) Hj).
  pose proof (abs_split (dt ^ 4) _ _ (pw 4) H4). pose proof (abs_split (dt ^ 4) _ _ (pw 4) Hs).
  apply Rabs_le_between. lra.
Qed.
End err.
