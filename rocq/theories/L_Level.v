(** Proofs about ComputeTimestepLevel. *)
From Verif Require Import Prelude M_Level.
From Coq Require Import Reals ZArith Lra Lia Psatz.
From Coquelicot Require Import Coquelicot.
Local Open Scope R_scope.

(** ** ln 2 to sixteen digits: series of ln((1+x)/(1-x)) at x = 1/3. *)
Definition ath (x : R) : R :=
  2*(x + x^3/3 + x^5/5 + x^7/7 + x^9/9 + x^11/11 + x^13/13 + x^15/15 + x^17/17 + x^19/19
     + x^21/21 + x^23/23 + x^25/25 + x^27/27 + x^29/29 + x^31/31 + x^33/33).
Definition ath' (x : R) : R :=
  2*(1 + x^2 + x^4 + x^6 + x^8 + x^10 + x^12 + x^14 + x^16 + x^18
     + x^20 + x^22 + x^24 + x^26 + x^28 + x^30 + x^32).

Lemma pow_lt_base : forall a b n, 0 <= a < b -> a^(S n) < b^(S n).
Proof.
  intros a b n H. induction n as [|n IH]; [cbn; lra|].
  assert (0 <= a^(S n)) by (apply pow_le; lra). assert (0 < b^(S n)) by (apply pow_lt; lra).
  change (a * a^(S n) < b * b^(S n)). nra.
Qed.

Lemma ath_gap : forall x, -1 < x < 1 -> 2/(1 - x^2) - ath' x = 2*x^34/(1-x^2).
Proof. intros x Hx. unfold ath'. field. nra. Qed.

Lemma ath_derive : forall x, is_derive ath x (ath' x).
Proof. intros x. unfold ath, ath'. auto_derive; [exact I | field]. Qed.

Lemma ln2_near : 0 < ln 2 - ath (1/3) < (3/4) * (1/3)^34.
Proof.
  set (f := fun x => ln (1 + x) - ln (1 - x) - ath x).
  set (f' := fun x => 2*x^34/(1-x^2)).
  assert (forall c, 0 <= c <= 1/3 -> derivable_pt_lim f c (f' c)) as Hd.
  { intros c Hc. apply is_derive_Reals. unfold f, f'. rewrite <- ath_gap by lra.
    apply (is_derive_ext (fun x => (ln (1+x) - ln (1-x)) - ath x)); [reflexivity|].
    apply (is_derive_minus (V:=R_NormedModule)); [|apply ath_derive].
    auto_derive; [repeat split; lra | field; repeat split; nra]. }
  destruct (MVT_cor2 f f' 0 (1/3)) as [c [Ec Hc]]; [lra | exact Hd |].
  assert (f 0 = 0) as E0. { unfold f, ath. rewrite Rplus_0_r, Rminus_0_r, ln_1. field. }
  assert (f (1/3) = ln 2 - ath (1/3)) as E1.
  { unfold f. f_equal. replace (1 + 1/3) with (2 * (1 - 1/3)) by field. rewrite ln_mult by lra. ring. }
  rewrite E0, E1, Rminus_0_r in Ec. rewrite Ec. unfold f'.
  assert (0 < c^34) by (apply pow_lt; lra).
  assert (c^34 < (1/3)^34). { apply pow_lt_base; lra. }
  assert (c^2 < 1/9) by nra. assert (0 < c^2) by nra.
  assert (1 < / (1 - c^2) < 9/8) as [Hi1 Hi2].
  { split; [rewrite <- Rinv_1 at 1; apply Rinv_lt_contravar; lra |].
    replace (9/8) with (/ (8/9)) by field. apply Rinv_lt_contravar; nra. }
  unfold Rdiv. split; [nra|]. nra.
Qed.

Lemma inv_near : 1/10^15 < / invlogetwo - ln 2 < 3/10^15.
Proof.
  pose proof ln2_near as [H1 H2]. unfold invlogetwo.
  replace (/ (144269504088896 / 100000000000000)) with (100000000000000/144269504088896) by field.
  unfold ath in *. lra.
Qed.

Lemma ztrunc_pos : forall x, 0 <= x -> (0 <= ztrunc x)%Z /\ IZR (ztrunc x) <= x < IZR (ztrunc x) + 1.
Proof.
  intros x Hx. unfold ztrunc. destruct (Rle_dec 0 x); [|lra].
  destruct (base_Int_part x) as [H1 H2]. split; [|split; lra].
  assert (-1 < Int_part x)%Z; [|lia]. apply lt_IZR. lra.
Qed.
Lemma ztrunc_neg : forall x, x <= 0 -> (ztrunc x <= 0)%Z /\ IZR (ztrunc x) - 1 < x <= IZR (ztrunc x).
Proof.
  intros x Hx. unfold ztrunc. destruct (Rle_dec 0 x) as [H|H].
  - assert (x = 0) as -> by lra. destruct (base_Int_part 0) as [H1 H2].
    assert (-1 < Int_part 0)%Z by (apply lt_IZR; lra).
    assert (Int_part 0 < 1)%Z by (apply lt_IZR; lra).
    assert (Int_part 0 = 0)%Z as -> by lia. split; [lia | lra].
  - destruct (base_Int_part (-x)) as [H1 H2]. rewrite opp_IZR.
    split; [|lra]. assert (-1 < Int_part (-x))%Z; [|lia]. apply lt_IZR. lra.
Qed.

Lemma pow2_exp : forall n, 2^n = exp (INR n * ln 2).
Proof.
  induction n as [|n IH]; [cbn [pow INR]; rewrite Rmult_0_l, exp_0; reflexivity|].
  rewrite S_INR, Rmult_plus_distr_r, Rmult_1_l, exp_plus, exp_ln, <- IH by lra. cbn [pow]. ring.
Qed.

Definition eps : R := 1/10^14.
Lemma ln_eps : 3/10^15 < ln (1 + eps).
Proof.
  assert (- ln (1 + eps) = ln (/ (1 + eps))) as E. { rewrite ln_Rinv; [reflexivity | unfold eps; lra]. }
  pose proof (exp_ineq1_le (- ln (1 + eps))) as H. rewrite E in H at 2. rewrite exp_ln in H.
  - unfold eps in *. assert (/ (1 + 1/10^14) < 1 - 3/10^15); [|lra].
    apply Rmult_lt_reg_l with (1 + 1/10^14); [lra|]. rewrite Rinv_r by lra. lra.
  - apply Rinv_0_lt_compat. unfold eps. lra.
Qed.

Lemma CTL_level : forall dt dt_max, 0 < dt -> 0 < dt_max ->
  (0 <= ComputeTimestepLevel dt dt_max)%Z.
Proof. intros. unfold ComputeTimestepLevel. lia. Qed.

Lemma eps_pow_ge1 : forall n, 1 <= (1 + eps)^n.
Proof. intros n. apply pow_R1_Rle. unfold eps. lra. Qed.

(** The step of the level is not longer than dt, up to (1 + 1e-14)^level. *)
Lemma CTL_upper : forall dt dt_max, 0 < dt -> 0 < dt_max ->
  let l := Z.to_nat (ComputeTimestepLevel dt dt_max) in dt_max / 2^l < dt * (1 + eps)^l.
Proof.
  intros dt dm Hd Hm. cbv zeta. set (x := dm/dt). assert (0 < x) as Hx by (apply Rdiv_lt_0_compat; assumption).
  pose proof inv_near as [Hc1 Hc2]. pose proof ln_eps as He.
  assert (0 < invlogetwo) as Hcp by (unfold invlogetwo; lra).
  unfold ComputeTimestepLevel. fold x. destruct (Rle_lt_dec 0 (ln x)) as [Hl|Hl].
  - assert (0 <= invlogetwo * ln x) as Hp by (apply Rmult_le_pos; lra).
    destruct (ztrunc_pos _ Hp) as [Hz [_ H2]]. rewrite Z.max_l by lia.
    set (z := ztrunc (invlogetwo * ln x)) in *.
    set (l := Z.to_nat (z + 1)). assert (IZR z + 1 = INR l) as El.
    { unfold l. rewrite INR_IZR_INZ, Z2Nat.id, plus_IZR by lia. reflexivity. }
    rewrite El in H2.
    assert (x < 2^l * (1 + eps)^l) as Hlt.
    { rewrite <- Rpow_mult_distr. assert (0 < 2 * (1 + eps)) by (unfold eps; lra).
      rewrite <- (exp_ln x Hx). replace ((2 * (1+eps))^l) with (exp (INR l * (ln (2 * (1 + eps))))).
      - apply exp_increasing. rewrite ln_mult by (unfold eps; lra).
        assert (ln x < INR l * / invlogetwo).
        { apply Rmult_lt_reg_l with invlogetwo; [exact Hcp|].
          replace (invlogetwo * (INR l * / invlogetwo)) with (INR l) by (field; lra). exact H2. }
        assert (0 < INR l). { rewrite <- El. apply (IZR_le 0) in Hz. lra. }
        assert (/ invlogetwo < ln 2 + ln (1 + eps)) by lra. nra.
      - rewrite <- (exp_ln (2 * (1+eps))) at 2 by assumption. clear.
        induction l as [|l IH]; [cbn [pow INR]; rewrite Rmult_0_l, exp_0; reflexivity|].
        rewrite S_INR, Rmult_plus_distr_r, Rmult_1_l, exp_plus, IH. cbn [pow]. ring. }
    assert (0 < 2^l) by (apply pow_lt; lra).
    apply Rmult_lt_reg_r with (2^l / dt); [apply Rdiv_lt_0_compat; assumption|].
    replace (dm / 2^l * (2^l / dt)) with x by (unfold x; field; lra).
    replace (dt * (1+eps)^l * (2^l/dt)) with (2^l * (1+eps)^l) by (field; lra). exact Hlt.
  - assert (x < 1) as Hx1. { apply ln_lt_inv; try lra. rewrite ln_1. exact Hl. }
    assert (dm < dt) as Hlt. { unfold x in Hx1. apply Rmult_lt_reg_r with (/ dt); [apply Rinv_0_lt_compat; lra|]. rewrite Rinv_r by lra. exact Hx1. }
    set (l := Z.to_nat _). assert (0 < 2^l) by (apply pow_lt; lra).
    pose proof (eps_pow_ge1 l). assert (1 <= 2^l) by (apply pow_R1_Rle; lra).
    assert (dm / 2^l <= dm).
    { unfold Rdiv. rewrite <- (Rmult_1_r dm) at 2. apply Rmult_le_compat_l; [lra|].
      rewrite <- Rinv_1. apply Rinv_le_contravar; lra. }
    nra.
Qed.

(** The level is not too fine when dt <= dt_max. *)
Lemma CTL_lower : forall dt dt_max, 0 < dt <= dt_max ->
  let l := ComputeTimestepLevel dt dt_max in (1 <= l)%Z /\ dt <= dt_max / 2^(Z.to_nat (l - 1)).
Proof.
  intros dt dm [Hd Hm]. cbv zeta. set (x := dm/dt). assert (0 < x) as Hx by (apply Rdiv_lt_0_compat; lra).
  assert (1 <= x) as Hx1. { unfold x. apply Rmult_le_reg_r with dt; [exact Hd|]. replace (dm/dt*dt) with dm by (field; lra). lra. }
  assert (0 <= ln x) as Hl. { rewrite <- ln_1. destruct Hx1 as [H| <-]; [left; apply ln_increasing; lra | lra]. }
  pose proof inv_near as [Hc1 Hc2]. assert (0 < invlogetwo) as Hcp by (unfold invlogetwo; lra).
  unfold ComputeTimestepLevel. fold x.
  assert (0 <= invlogetwo * ln x) as Hp by (apply Rmult_le_pos; lra).
  destruct (ztrunc_pos _ Hp) as [Hz [H1 _]]. rewrite Z.max_l by lia.
  set (z := ztrunc (invlogetwo * ln x)) in *. split; [lia|].
  replace (z + 1 - 1)%Z with z by ring. set (l := Z.to_nat z).
  assert (IZR z = INR l) as El. { unfold l. rewrite INR_IZR_INZ, Z2Nat.id by lia. reflexivity. }
  rewrite El in H1. assert (0 < 2^l) by (apply pow_lt; lra).
  assert (2^l <= x) as Hle.
  { rewrite pow2_exp, <- (exp_ln x Hx). 
    assert (INR l * ln 2 <= ln x) as [H3|H3].
    { assert (INR l * / invlogetwo <= ln x).
      { apply Rmult_le_reg_l with invlogetwo; [exact Hcp|].
        replace (invlogetwo * (INR l * / invlogetwo)) with (INR l) by (field; lra). exact H1. }
      pose proof (pos_INR l). nra. }
    - left. apply exp_increasing. exact H3.
    - right. rewrite H3. reflexivity. }
  apply Rmult_le_reg_r with (2^l / dt); [apply Rdiv_lt_0_compat; assumption|].
  replace (dm / 2^l * (2^l / dt)) with x by (unfold x; field; lra).
  replace (dt * (2^l/dt)) with (2^l) by (field; lra). exact Hle.
Qed.

Lemma CTL_unique : forall dt dt_max z, (0 <= z)%Z -> IZR z <= invlogetwo * ln (dt_max/dt) < IZR z + 1 ->
  ComputeTimestepLevel dt dt_max = (z + 1)%Z.
Proof.
  intros dt dm z Hz H. unfold ComputeTimestepLevel. apply (IZR_le 0) in Hz as Hz'.
  destruct (ztrunc_pos (invlogetwo * ln (dm/dt))) as [H0 [H1 H2]]; [lra|].
  set (y := ztrunc _) in *. assert (y < z + 1)%Z by (apply lt_IZR; rewrite plus_IZR; lra).
  assert (z < y + 1)%Z by (apply lt_IZR; rewrite plus_IZR; lra). lia.
Qed.

(** At the exact binary fractions dt_max/2^k (1 <= k < 10^14) the level is k, so the step
    equals dt and is not below it. *)
Lemma CTL_pow2 : forall dt_max k, 0 < dt_max -> (1 <= k)%nat -> (Z.of_nat k < 10^14)%Z ->
  ComputeTimestepLevel (dt_max / 2^k) dt_max = Z.of_nat k.
Proof.
  intros dm k Hm Hk Hb. pose proof inv_near as [Hc1 Hc2].
  assert (0 < 2^k) by (apply pow_lt; lra).
  replace (Z.of_nat k) with ((Z.of_nat k - 1) + 1)%Z by ring.
  apply CTL_unique; [lia|].
  replace (dm / (dm/2^k)) with (2^k) by (field; lra).
  rewrite pow2_exp, ln_exp, minus_IZR, <- INR_IZR_INZ.
  assert (0 < invlogetwo) as Hcp by (unfold invlogetwo; lra).
  assert (1 - 5/10^15 < invlogetwo * ln 2 < 1) as [Ha Hb'].
  { assert (invlogetwo * / invlogetwo = 1) as E by (apply Rinv_r; lra).
    assert (invlogetwo < 3/2) by (unfold invlogetwo; lra). split; nra. }
  assert (1 <= INR k) by (apply (le_INR 1); exact Hk).
  assert (INR k < 10^14).
  { rewrite INR_IZR_INZ. replace (10^14) with (IZR (10^14)); [apply IZR_lt; exact Hb|].
    change (10^14)%Z with 100000000000000%Z. lra. }
  split; nra.
Qed.

(** Slightly longer requested steps are shortened by up to a factor of three at least. *)
Lemma CTL_above : forall dt_max, 0 < dt_max -> ComputeTimestepLevel (3/2 * dt_max) dt_max = 1%Z.
Proof.
  intros dm Hm. unfold ComputeTimestepLevel.
  replace (dm / (3/2*dm)) with (/ (3/2)) by (field; lra). rewrite ln_Rinv by lra.
  assert (0 < ln (3/2)). { rewrite <- ln_1. apply ln_increasing; lra. }
  assert (ln (3/2) < ln 2) by (apply ln_increasing; lra).
  pose proof inv_near as [Hc1 Hc2]. assert (0 < invlogetwo) as Hcp by (unfold invlogetwo; lra).
  assert (invlogetwo * ln 2 < 1).
  { assert (invlogetwo * / invlogetwo = 1) as E by (apply Rinv_r; lra). nra. }
  destruct (ztrunc_neg (invlogetwo * - ln (3/2))) as [Hy0 [Hy1 Hy2]]; [nra|].
  set (y := ztrunc _) in *. assert (-1 < y)%Z by (apply lt_IZR; nra). lia.
Qed.

(** A requested step just below dt_max/2 is given the step dt_max/2, which is longer. *)
Lemma CTL_longer : exists dt dt_max, 0 < dt < dt_max /\ ComputeTimestepLevel dt dt_max = 1%Z /\ dt < dt_max / 2.
Proof.
  pose proof inv_near as [Hc1 Hc2]. set (y := ln 2 + 5/10^16).
  exists (exp (- y)), 1. assert (0 < ln 2) by (rewrite <- ln_1; apply ln_increasing; lra).
  pose proof (exp_pos (-y)). assert (exp (- y) < 1/2) as Hlt.
  { replace (1/2) with (exp (- ln 2)); [apply exp_increasing; unfold y; lra|].
    rewrite exp_Ropp, exp_ln by lra. lra. }
  assert (0 < invlogetwo) as Hcp by (unfold invlogetwo; lra).
  assert (invlogetwo * / invlogetwo = 1) as E by (apply Rinv_r; lra).
  repeat split; try lra. change 1%Z with (0 + 1)%Z. apply CTL_unique; [lia|].
  unfold Rdiv. rewrite Rmult_1_l, <- exp_Ropp, ln_exp, Ropp_involutive. unfold y. split; nra.
Qed.
