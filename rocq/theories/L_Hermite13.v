(** Three stars on a line with the sixth-order scheme: momentum appears from nothing. *)
From Verif Require Import Prelude Vec M_Box M_Periodic L_Box L_Periodic S_Periodic M_Hermite S_Hermite L_Hermite L_Hermite3 L_Hermite4 L_Hermite5 L_Hermite6 L_Hermite7 L_Hermite9 L_Hermite11 L_Hermite12.
From Coq Require Import Reals Lra.
From Coquelicot Require Import Rcomplements.
Local Open Scope R_scope.

Lemma e_small : small_number_dp <= 1 / 10.
Proof.
  unfold small_number_dp, Rdiv. rewrite Rmult_1_l. apply Rinv_le_contravar; [lra|].
  rewrite <- (pow_1 10) at 1. apply Rle_pow; [lra|lia].
Qed.
Lemma uu_q : forall d, 1 / 2 <= d -> 3 / 5 <= d ^ 2 * uu d ^ 2 <= 1.
Proof.
  intros d Hd. rewrite <- uu2. pose proof e_small. pose proof small_dp_pos.
  assert (1 / 4 <= d * d) by (apply Rle_trans with (1/2 * (1/2)); [lra|]; apply Rmult_le_compat; lra).
  replace (d ^ 2 * (1 / (d * d + small_number_dp))) with (d * d / (d * d + small_number_dp)) by (field; lra).
  assert (Hd' : 0 < d * d + small_number_dp) by lra.
  split; [apply (proj1 (Rle_div_r _ _ _ Hd')); lra|apply (proj2 (Rle_div_l _ _ _ Hd')); lra].
Qed.
Lemma uu_le : forall d x, 0 < d -> d * x = 1 -> uu d <= x.
Proof.
  intros d x Hd E. assert (0 < x) by (apply (Rmult_lt_reg_l d); lra). unfold uu. replace x with (1 / d) by (field_simplify; [|lra]; apply (Rmult_eq_reg_l d); [field_simplify; lra|lra]).
  unfold Rdiv. apply Rmult_le_compat_l; [lra|]. apply Rinv_le_contravar; [assumption|].
  rewrite <- (sqrt_square d) at 1 by lra. apply sqrt_le_1_alt. pose proof small_dp_pos. lra.
Qed.
Lemma gg_pos : forall x, 0 < x -> 0 < gg x.
Proof.
  intros x Hx. unfold gg. pose proof (pow_lt _ 3 (uu_pos x)). pose proof (pow_lt _ 3 (uu_pos (2 * x))).
  apply Rplus_lt_0_compat; apply Rmult_lt_0_compat; lra.
Qed.
Lemma gg1 : gg 1 <= 5 / 4.
Proof.
  unfold gg. rewrite Rmult_1_r. pose proof (uu_pos 1). pose proof (uu_pos 2).
  pose proof (pow_incr (uu 1) 1 3 (conj (Rlt_le _ _ (uu_pos 1)) (uu_le 1 1 ltac:(lra) ltac:(lra)))).
  pose proof (pow_incr (uu 2) (1/2) 3 (conj (Rlt_le _ _ (uu_pos 2)) (uu_le 2 (1/2) ltac:(lra) ltac:(lra)))). lra.
Qed.
Lemma aa_bound : forall d g, 1 <= d -> 0 <= g -> - g <= aa d (- g) 0 <= 2 * g.
Proof.
  intros d g Hd Hg. unfold aa. pose proof (uu_q d ltac:(lra)) as Hq. set (q := d ^ 2 * uu d ^ 2) in *.
  assert (U : uu d <= 1).
  { apply Rle_trans with (1 / d); [apply uu_le; [lra|field; lra]|]. assert (Hd0 : 0 < d) by lra. apply (proj2 (Rle_div_l _ _ _ Hd0)); lra. }
  pose proof (pow_incr (uu d) 1 3 (conj (Rlt_le _ _ (uu_pos d)) U)). pose proof (pow_lt _ 3 (uu_pos d)). set (u := uu d ^ 3) in *.
  replace (u * - g * (1 - 3 * q) + 0 ^ 2 * d * uu d ^ 5 * (15 * q - 9)) with (u * g * (3 * q - 1)) by ring.
  assert (0 <= u * g <= g) by (split; [apply Rmult_le_pos; lra|]; rewrite <- (Rmult_1_l g) at 2; apply Rmult_le_compat_r; lra).
  nra.
Qed.
Lemma aa_pos : forall d g w, 1 / 2 <= d -> 0 < g -> 0 < aa d (- g) w.
Proof.
  intros d g w Hd Hg. unfold aa. pose proof (uu_q d Hd) as Hq. set (q := d ^ 2 * uu d ^ 2) in *.
  pose proof (pow_lt _ 3 (uu_pos d)). pose proof (pow_lt _ 5 (uu_pos d)). set (u := uu d ^ 3) in *. set (u5 := uu d ^ 5) in *.
  assert (0 < u * g * (3 * q - 1)) by (apply Rmult_lt_0_compat; [apply Rmult_lt_0_compat; lra|lra]).
  assert (0 <= w ^ 2 * d * u5 * (15 * q - 9)) by (apply Rmult_le_pos; [apply Rmult_le_pos; [apply Rmult_le_pos; [apply pow2_ge_0|lra]|lra]|lra]).
  lra.
Qed.

Section run.
Variable b : dombox.
Hypothesis Hb : no_wrap 1 b.
Variable mult : R.
Hypothesis Hm : 0 < mult.
(** A star of mass 1 at rest. *)
Definition at_rest (x : R) : star :=
  mkStar 1 1 (fun _ => x) (fun _ => 0) (fun _ => 0) (fun _ => 0) (fun _ => 0) (fun _ => 0) 0
    (fun _ => 0) (fun _ => 0) (fun _ => 0) (fun _ => 0) (fun _ => 0) false false 0 0 0 0 0 (1/10).
Definition three : stars := fun i => at_rest (match i with O => 0 | 1%nat => -1 | _ => 1 end).
Notation s0 := (Setup 1 b None Hermite6TS mult 3 0 three).
Let I := upd 3 (fun _ p => init_star 0 p) three.
Notation FI := (Forces 1 b None Hermite6TS 3 (Zero 3 I)).

Lemma setup3 : forall i, (i < 3)%nat -> s_r (m_S s0 i) = s_r (three i) /\ s_v (m_S s0 i) = s_v (three i) /\ s_m (m_S s0 i) = 1 /\
  s_a (m_S s0 i) = s_a (FI i) /\ s_adot (m_S s0 i) = s_adot (FI i) /\ s_a2dot (m_S s0 i) = s_a2dot (Startup 1 b 3 FI i).
Proof.
  intros i Hi. destruct (setup_state 1 b None Hermite6TS mult 3 0 three) as (_ & H). destruct (H i Hi) as (H1 & _ & H2 & H3 & _).
  split; [exact H2|]. split; [exact H3|]. split; [rewrite H1; reflexivity|].
  unfold Setup. fold I. replace (Zero 3 I) with I by (symmetry; apply zero_init). cbn [GlobalTimestep m_S]. unfold EndTimestep. rewrite !upd_in by assumption. cbn [set_step end_star s_end s_a s_adot s_a2dot].
  destruct (startup_star 1 b 3 (Forces 1 b None Hermite6TS 3 I) i Hi) as (a2 & a3 & -> & _). cbn. repeat split.
Qed.
Lemma symI : sym3 1 0 I.
Proof.
  split.
  - intros i Hi. unfold I. now rewrite upd_in.
  - intros i Hi. unfold I. now rewrite upd_in.
  - unfold I. rewrite !upd_in by lia. cbn. repeat split; lra.
  - unfold I. rewrite !upd_in by lia. cbn. repeat split; lra.
Qed.
Lemma dt3 : 0 < m_dt s0 <= 1 / 10.
Proof.
  destruct (run_dt 1 b None Hermite6TS 1 mult 3 0 0 three Hm) as (H1 & H2).
  - intros i _. cbn. lra.
  - change (Run 1 b None Hermite6TS 1 mult 3 0 0 three) with s0 in *. split; [exact H1|]. apply (H2 0%nat). lia.
Qed.
Theorem three_drift : 0 < tot 3 (m_S (Run 1 b None Hermite6TS 1 mult 3 0 1 three)) s_v 0%nat.
Proof.
  change (Run 1 b None Hermite6TS 1 mult 3 0 1 three) with (MainLoop 1 b None Hermite6TS 1 mult 3 s0).
  pose proof dt3 as Hdt. assert (Hs : started Hermite6TS 3 s0) by apply setup_started.
  pose proof (three_F b Hb 1 0 I symI) as ((a0 & a1 & a2) & (j0 & j1 & j2) & _).
  pose proof (three_startup b Hb 1 0 I symI) as (s0' & s1 & s2). cbv zeta in *.
  assert (J : jj 1 0 = 0) by (unfold jj; ring). rewrite J in *.
  set (G := gg 1) in *. assert (HG : 0 < G) by (apply gg_pos; lra). assert (HG' : G <= 5 / 4) by apply gg1.
  set (sd := aa 1 (- G) 0 + aa (2 * 1) (- (2 * G)) (2 * 0)) in *.
  assert (Hsd : -4 <= sd <= 8).
  { unfold sd. rewrite Rmult_0_r. pose proof (aa_bound 1 G ltac:(lra) ltac:(lra)). pose proof (aa_bound (2 * 1) (2 * G) ltac:(lra) ltac:(lra)). lra. }
  destruct (setup3 0 ltac:(lia)) as (r0 & v0 & m0 & A0 & J0 & D0). destruct (setup3 1 ltac:(lia)) as (r1 & v1 & m1 & A1 & J1 & D1). destruct (setup3 2 ltac:(lia)) as (r2 & v2 & m2 & A2 & J2 & D2).
  assert (MS : forall i, (i < 3)%nat -> s_m (m_S s0 i) = 1) by (intros i Hi; apply (setup3 i Hi)).
  assert (NS : m_n s0 = 0%Z) by apply Hs.
  set (s := s0) in *. clearbody s. set (dt := m_dt s) in *.
  set (x := 1 - (1/2) * G * (dt * dt) - (1/2) * (1/12) * sd * (dt * dt) * (dt * dt)).
  set (w := - (G * dt) - (1/6) * sd * (dt * dt) * dt).
  set (T := Advance Hermite6TS (m_n s + 1) 3 (m_t s + m_dt s) (m_S s)).
  assert (HT : forall i, (i < 3)%nat -> T i = set_active (advance_rv Hermite6TS dt (m_S s i)) true) by (intros i Hi; now apply adv_star).
  assert (IT : inflight Hermite6TS 3 s T) by now apply adv_inflight.
  assert (ST : sym3 x w T).
  { assert (H0 : forall i, (i < 3)%nat -> s_r0 (m_S s i) = s_r (m_S s i) /\ s_v0 (m_S s i) = s_v (m_S s i) /\ s_a0 (m_S s i) = s_a (m_S s i) /\
        s_adot0 (m_S s i) = s_adot (m_S s i) /\ s_a2dot0 (m_S s i) = s_a2dot (m_S s i)).
    { intros i Hi. destruct (proj2 Hs i Hi) as (? & ? & ? & ? & E & _). repeat split; auto. }
    split.
    - intros i Hi. now rewrite HT.
    - intros i Hi. rewrite HT by assumption. cbn [set_active advance_rv set_rv s_m]. now apply MS.
    - rewrite !HT by lia. cbn [set_active advance_rv set_rv s_r].
      destruct (H0 0%nat ltac:(lia)) as (-> & -> & -> & -> & ->). destruct (H0 1%nat ltac:(lia)) as (-> & -> & -> & -> & ->). destruct (H0 2%nat ltac:(lia)) as (-> & -> & -> & -> & ->).
      rewrite r0, r1, r2, v0, v1, v2, A0, A1, A2, J0, J1, J2, D0, D1, D2, a0, a1, a2, j0, j1, j2, s0', s1, s2. cbn [three at_rest s_r s_v]. unfold x. repeat split; ring.
    - rewrite !HT by lia. cbn [set_active advance_rv set_rv s_v].
      destruct (H0 0%nat ltac:(lia)) as (_ & -> & -> & -> & ->). destruct (H0 1%nat ltac:(lia)) as (_ & -> & -> & -> & ->). destruct (H0 2%nat ltac:(lia)) as (_ & -> & -> & -> & ->).
      rewrite v0, v1, v2, A0, A1, A2, J0, J1, J2, D0, D1, D2, a0, a1, a2, j0, j1, j2, s0', s1, s2. cbn [three at_rest s_v]. unfold w. repeat split; ring. }
  pose proof (three_F b Hb x w T ST) as ((p0 & p1 & p2) & (k0 & k1 & k2) & (d0 & d1 & d2)).
  assert (Q : forall i, (i < 3)%nat -> let q := m_S (MainLoop 1 b None Hermite6TS 1 mult 3 s) i in
    s_m q = 1 /\ s_a q = s_a (Forces 1 b None Hermite6TS 3 (Zero 3 T) i) /\ s_adot q = s_adot (Forces 1 b None Hermite6TS 3 (Zero 3 T) i) /\ s_a2dot q = s_a2dot (Forces 1 b None Hermite6TS 3 (Zero 3 T) i)).
  { intros i Hi. cbv zeta. pose proof (main_star 1 b None Hermite6TS 1 mult 3 s i Hi) as (E1 & _ & _ & _ & E5 & E6 & E7 & _). cbv zeta in *.
    change (Nat.iter (Npec Hermite6TS 1) (pec 1 b None Hermite6TS (m_n s + 1) 3 (m_t s + m_dt s)) (Advance Hermite6TS (m_n s + 1) 3 (m_t s + m_dt s) (m_S s)))
      with (pec 1 b None Hermite6TS (m_n s + 1) 3 (m_t s + m_dt s) T) in *.
    rewrite pec_star in * by assumption. rewrite E1, E5, E6, E7. cbn [correct_rv set_rv set_a23 s_m s_a s_adot s_a2dot].
    destruct (force_inflight 1 b None Hermite6TS 3 s T IT i Hi) as (-> & _). repeat split. now apply MS. }
  destruct (Q 0%nat ltac:(lia)) as (M0 & X0 & Y0 & Z0). destruct (Q 1%nat ltac:(lia)) as (M1 & X1 & Y1 & Z1). destruct (Q 2%nat ltac:(lia)) as (M2 & X2 & Y2 & Z2). cbv zeta in *.
  assert (Nz : m_dt s <> 0) by (fold dt; lra).
  destruct (step_formula 1 b None Hermite6TS 1 mult 3 s 0 0 Hs ltac:(lia) Nz ltac:(cbn; lia)) as (_ & B0).
  destruct (step_formula 1 b None Hermite6TS 1 mult 3 s 1 0 Hs ltac:(lia) Nz ltac:(cbn; lia)) as (_ & B1).
  destruct (step_formula 1 b None Hermite6TS 1 mult 3 s 2 0 Hs ltac:(lia) Nz ltac:(cbn; lia)) as (_ & B2).
  unfold tot. cbn [sumf]. rewrite M0, M1, M2, B0, B1, B2. cbn [step_v].
  rewrite X0, X1, X2, Y0, Y1, Y2, Z0, Z1, Z2, p0, p1, p2, k0, k1, k2, d0, d1, d2.
  rewrite v0, v1, v2, A0, A1, A2, J0, J1, J2, D0, D1, D2, a0, a1, a2, j0, j1, j2, s0', s1, s2. cbn [three at_rest s_v]. fold dt.
  match goal with |- 0 < ?E => replace E with (dt ^ 3 / 120 * aa x (- gg x) w) by field end.
  assert (Hx : 1 / 2 <= x).
  { unfold x. assert (0 <= dt * dt <= 1 / 100) by (split; [nra|]; replace (1/100) with (1/10 * (1/10)) by field; apply Rmult_le_compat; lra).
    assert (0 <= (dt * dt) * (dt * dt) <= 1 / 100) by (split; [nra|]; replace (1/100) with (1/100 * 1) by field; apply Rmult_le_compat; lra).
    set (d2' := dt * dt) in *. set (d4 := d2' * d2') in *.
    replace (1 / 2 * (1 / 12) * sd * d2' * d2') with (1 / 24 * (sd * d4)) by (unfold d4; field).
    assert (G * d2' <= 5 / 4 * (1/100)) by (apply Rmult_le_compat; lra). assert (sd * d4 <= 8 * (1/100)) by nra. lra. }
  apply Rmult_lt_0_compat; [|apply aa_pos; [exact Hx|apply gg_pos; lra]]. assert (0 < dt ^ 3) by (apply pow_lt; lra). lra.
Qed.
End run.
