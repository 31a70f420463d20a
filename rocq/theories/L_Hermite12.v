(** Three stars on a line with the sixth-order scheme: momentum appears from nothing. *)
From Verif Require Import Prelude Vec M_Box M_Periodic L_Box L_Periodic S_Periodic M_Hermite S_Hermite L_Hermite L_Hermite3 L_Hermite4 L_Hermite5 L_Hermite6 L_Hermite7 L_Hermite9 L_Hermite11.
From Coq Require Import Reals.
Local Open Scope R_scope.

Section three.
Variable b : dombox.
Hypothesis Hb : no_wrap 1 b.
Notation e := small_number_dp.
Notation F S := (Forces 1 b None Hermite6TS 3 (Zero 3 S)).
(** Masses 1 at 0, -x, x with velocities 0, -w, w. *)
Record sym3 (x w : R) (S : stars) : Prop := {
  y_act : all_active 3 S;
  y_m : forall i, (i < 3)%nat -> s_m (S i) = 1;
  y_r : s_r (S 0%nat) 0%nat = 0 /\ s_r (S 1%nat) 0%nat = - x /\ s_r (S 2%nat) 0%nat = x;
  y_v : s_v (S 0%nat) 0%nat = 0 /\ s_v (S 1%nat) 0%nat = - w /\ s_v (S 2%nat) 0%nat = w }.
Definition uu (d : R) : R := 1 / sqrt (d * d + e).
Definition gg (x : R) : R := x * uu x ^ 3 + 2 * x * uu (2 * x) ^ 3.
Definition jj (x w : R) : R := uu x ^ 3 * (w - 3 * (w * x * uu x) * uu x * x) + uu (2 * x) ^ 3 * (2 * w - 3 * (2 * w * (2 * x) * uu (2 * x)) * uu (2 * x) * (2 * x)).

Lemma uu_pos : forall d, 0 < uu d.
Proof.
  intros. unfold uu. apply Rdiv_lt_0_compat; [lra|]. apply sqrt_lt_R0. pose proof small_dp_pos. pose proof (Rle_0_sqr d). unfold Rsqr in *. lra.
Qed.
Lemma dr1 : forall p q, pair_dr 1 b p q 0%nat = s_r q 0%nat - s_r p 0%nat.
Proof. intros. now apply pair_dr_open. Qed.
Lemma dot1 : forall x y, dot 1 x y = x 0%nat * y 0%nat.
Proof. intros. unfold dot. cbn [sumf]. ring. Qed.
Lemma inv1 : forall p q d, s_r q 0%nat - s_r p 0%nat = d \/ s_r q 0%nat - s_r p 0%nat = - d -> gp_inv 1 b e p q = uu d.
Proof. intros p q d H. unfold gp_inv, uu. rewrite dot1, dr1. do 3 f_equal. destruct H as [-> | ->]; ring. Qed.

Lemma three_forces : forall x w S, sym3 x w S -> let P := pass1 1 b 3 S in
  (s_a (P 0%nat) 0%nat = 0 /\ s_a (P 1%nat) 0%nat = gg x /\ s_a (P 2%nat) 0%nat = - gg x) /\
  (s_adot (P 0%nat) 0%nat = 0 /\ s_adot (P 1%nat) 0%nat = jj x w /\ s_adot (P 2%nat) 0%nat = - jj x w).
Proof.
  intros x w S [HA HM (r0 & r1 & r2) (v0 & v1 & v2)]. cbv zeta.
  pose proof (HM 0%nat ltac:(lia)) as m0. pose proof (HM 1%nat ltac:(lia)) as m1. pose proof (HM 2%nat ltac:(lia)) as m2.
  destruct (pass1_is 1 b 3 S 0 ltac:(lia) (HA 0%nat ltac:(lia))) as (_ & _ & A0 & J0).
  destruct (pass1_is 1 b 3 S 1 ltac:(lia) (HA 1%nat ltac:(lia))) as (_ & _ & A1 & J1).
  destruct (pass1_is 1 b 3 S 2 ltac:(lia) (HA 2%nat ltac:(lia))) as (_ & _ & A2 & J2).
  rewrite A0, A1, A2, J0, J1, J2. unfold others. cbn [sumf Nat.eqb]. unfold gp_a, gp_adot, gg, jj, pair_dv, vsub.
  rewrite !(dot1), !dr1.
  rewrite (inv1 (S 0%nat) (S 1%nat) x), (inv1 (S 0%nat) (S 2%nat) x), (inv1 (S 1%nat) (S 0%nat) x), (inv1 (S 1%nat) (S 2%nat) (2 * x)),
    (inv1 (S 2%nat) (S 0%nat) x), (inv1 (S 2%nat) (S 1%nat) (2 * x)) by (rewrite ?r0, ?r1, ?r2; (left; lra) || (right; lra)).
  rewrite r0, r1, r2, v0, v1, v2, m0, m1, m2. repeat split; ring.
Qed.
Lemma sqrt_inv : forall d, sqrt (1 / (d * d + e)) = uu d.
Proof.
  intros. unfold uu. pose proof small_dp_pos. pose proof (Rle_0_sqr d). unfold Rsqr in *. rewrite sqrt_div_alt by lra. now rewrite sqrt_1.
Qed.
Lemma uu2 : forall d, 1 / (d * d + e) = uu d ^ 2.
Proof. intros. rewrite <- sqrt_inv. rewrite <- Rsqr_pow2, Rsqr_sqrt; [reflexivity|]. apply Rlt_le, Rdiv_lt_0_compat; [lra|]. pose proof small_dp_pos. pose proof (Rle_0_sqr d). unfold Rsqr in *. lra. Qed.
(** What star q at distance d does to the second derivative of star p. *)
Definition aa (d g w : R) : R := uu d ^ 3 * g * (1 - 3 * (d ^ 2 * uu d ^ 2)) + w ^ 2 * d * uu d ^ 5 * (15 * (d ^ 2 * uu d ^ 2) - 9).
Lemma a2_1 : forall p q d g w, s_m q = 1 -> s_r q 0%nat - s_r p 0%nat = d -> s_v q 0%nat - s_v p 0%nat = w -> s_a q 0%nat - s_a p 0%nat = g ->
  a2_c 1 p q 0%nat = aa d g w.
Proof.
  intros p q d g w Hm Hr Hv Ha. unfold a2_c, a2_pair. cbv zeta. cbn [set_a23 s_a2dot]. rewrite !dot1. unfold pair_dv, vsub.
  rewrite Hr, Hv, Ha, Hm, sqrt_inv, uu2. unfold aa. ring.
Qed.
Lemma uu_sym : forall d, uu (- d) = uu d.
Proof. intros. unfold uu. do 3 f_equal. ring. Qed.
Lemma aa_odd : forall d g w, aa (- d) (- g) (- w) = - aa d g w.
Proof. intros. unfold aa. rewrite uu_sym. ring. Qed.

Lemma three_F : forall x w S, sym3 x w S ->
  (s_a (F S 0%nat) 0%nat = 0 /\ s_a (F S 1%nat) 0%nat = gg x /\ s_a (F S 2%nat) 0%nat = - gg x) /\
  (s_adot (F S 0%nat) 0%nat = 0 /\ s_adot (F S 1%nat) 0%nat = jj x w /\ s_adot (F S 2%nat) 0%nat = - jj x w) /\
  (s_a2dot (F S 0%nat) 0%nat = aa x (- gg x) w /\ s_a2dot (F S 1%nat) 0%nat = aa (2 * x) (- (2 * gg x)) (2 * w) /\
   s_a2dot (F S 2%nat) 0%nat = - aa (2 * x) (- (2 * gg x)) (2 * w)).
Proof.
  intros x w S HS. pose proof (three_forces x w S HS) as ((a0 & a1 & a2) & (j0 & j1 & j2)). cbv zeta in *.
  pose proof HS as [HA HM (r0 & r1 & r2) (v0 & v1 & v2)].
  destruct (direct6_is 1 b 3 S 0 ltac:(lia) (HA 0%nat ltac:(lia))) as (b0 & D0 & E0).
  destruct (direct6_is 1 b 3 S 1 ltac:(lia) (HA 1%nat ltac:(lia))) as (b1 & D1 & E1).
  destruct (direct6_is 1 b 3 S 2 ltac:(lia) (HA 2%nat ltac:(lia))) as (b2 & D2 & E2).
  assert (KK : forall i, (i < 3)%nat -> same_kin (S i) (pass1 1 b 3 S i)) by (intros i Hi; apply (pass1_is 1 b 3 S i Hi (HA i Hi))).
  destruct (KK 0%nat ltac:(lia)) as (m0 & _ & R0 & V0). destruct (KK 1%nat ltac:(lia)) as (m1 & _ & R1 & V1). destruct (KK 2%nat ltac:(lia)) as (m2 & _ & R2 & V2).
  rewrite (HM 0%nat) in m0 by lia. rewrite (HM 1%nat) in m1 by lia. rewrite (HM 2%nat) in m2 by lia.
  unfold Forces. rewrite D0, D1, D2. cbn [set_a23 s_a s_adot s_a2dot].
  rewrite E0, E1, E2 by lia. unfold last_other. cbn [Nat.eqb Nat.sub].
  split; [auto|]. split; [auto|]. split; [|split].
  - apply a2_1; [assumption| | |]; rewrite ?R0, ?R2, ?V0, ?V2, ?r0, ?r2, ?v0, ?v2, ?a0, ?a2; ring.
  - apply a2_1; [assumption| | |]; rewrite ?R1, ?R2, ?V1, ?V2, ?r1, ?r2, ?v1, ?v2, ?a1, ?a2; ring.
  - rewrite <- aa_odd. apply a2_1; [assumption| | |]; rewrite ?R1, ?R2, ?V1, ?V2, ?r1, ?r2, ?v1, ?v2, ?a1, ?a2; ring.
Qed.

(** Second derivatives computed once at the beginning are right. *)
Lemma three_startup : forall x w S, sym3 x w S ->
  let T := Startup 1 b 3 (F S) in let s := aa x (- gg x) w + aa (2 * x) (- (2 * gg x)) (2 * w) in
  s_a2dot (T 0%nat) 0%nat = 0 /\ s_a2dot (T 1%nat) 0%nat = s /\ s_a2dot (T 2%nat) 0%nat = - s.
Proof.
  intros x w S HS. cbv zeta. pose proof (three_F x w S HS) as ((a0 & a1 & a2) & _).
  pose proof HS as [HA HM (r0 & r1 & r2) (v0 & v1 & v2)].
  assert (KK : forall i, (i < 3)%nat -> same_kin (S i) (F S i)).
  { intros i Hi. apply (hist_trans _ _ _ (hist_zero 3 S i) (forces_hist 1 b None Hermite6TS 3 (Zero 3 S) i Hi)). }
  destruct (KK 0%nat ltac:(lia)) as (m0 & _ & R0 & V0). destruct (KK 1%nat ltac:(lia)) as (m1 & _ & R1 & V1). destruct (KK 2%nat ltac:(lia)) as (m2 & _ & R2 & V2).
  rewrite (HM 0%nat) in m0 by lia. rewrite (HM 1%nat) in m1 by lia. rewrite (HM 2%nat) in m2 by lia.
  destruct (startup_star 1 b 3 (F S) 0 ltac:(lia)) as (? & ? & -> & E0 & _).
  destruct (startup_star 1 b 3 (F S) 1 ltac:(lia)) as (? & ? & -> & E1 & _).
  destruct (startup_star 1 b 3 (F S) 2 ltac:(lia)) as (? & ? & -> & E2 & _).
  cbn [set_a23 s_a2dot]. rewrite E0, E1, E2. unfold others. cbn [sumf Nat.eqb]. rewrite <- !a2_c_open by exact Hb.
  rewrite (a2_1 (F S 0%nat) (F S 1%nat) (- x) (gg x) (- w)), (a2_1 (F S 0%nat) (F S 2%nat) x (- gg x) w),
    (a2_1 (F S 1%nat) (F S 0%nat) x (- gg x) w), (a2_1 (F S 1%nat) (F S 2%nat) (2 * x) (- (2 * gg x)) (2 * w)),
    (a2_1 (F S 2%nat) (F S 0%nat) (- x) (- - gg x) (- w)), (a2_1 (F S 2%nat) (F S 1%nat) (- (2 * x)) (- - (2 * gg x)) (- (2 * w)))
    by (assumption || (rewrite ?R0, ?R1, ?R2, ?V0, ?V1, ?V2, ?r0, ?r1, ?r2, ?v0, ?v1, ?v2, ?a0, ?a1, ?a2; ring)).
  rewrite !aa_odd. split; [|split]; [|ring|ring].
  replace (aa (- x) (gg x) (- w)) with (aa (- x) (- - gg x) (- w)) by (f_equal; ring). rewrite aa_odd. ring.
Qed.
End three.
