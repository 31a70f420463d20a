(** Look-ups in tabulated kernels stay inside the tables. *)
From Verif Require Import Prelude L_Prelude M_Table S_Table.
From Coq Require Import Reals Lra Psatz.
From Flocq Require Import Core BinarySingleNaN.
Local Open Scope R_scope.

Section Any.
Context (prec emax : Z) {Hprec : Prec_gt_0 prec} {Hmax : Prec_lt_emax prec emax}.
Hypothesis big : (24 <= prec /\ 128 <= emax)%Z.
Notation FLOAT := (binary_float prec emax).
Notation fexp := (FLT_exp (3 - emax - prec) prec).
Notation rnd := (round radix2 fexp ZnearestE).
Local Instance vexp : Valid_exp fexp := FLT_exp_valid _ _.
Local Instance mexp : Monotone_exp fexp := FLT_exp_monotone _ _.

(** Absolute error of one rounding. *)
Lemma rnd_err x e : Rabs x <= bpow radix2 e -> (-20 <= e)%Z -> Rabs (rnd x - x) <= bpow radix2 (e - 24).
Proof.
  intros H He.
  apply Rle_trans with (/2 * ulp radix2 fexp x); [apply error_le_half_ulp; typeclasses eauto|].
  assert (U : ulp radix2 fexp x <= ulp radix2 fexp (bpow radix2 e)).
  { apply ulp_le; [typeclasses eauto..|]. rewrite (Rabs_pos_eq (bpow radix2 e)) by apply bpow_ge_0. exact H. }
  rewrite ulp_bpow in U.
  assert (V : (fexp (e + 1) <= e - 24 + 1)%Z) by (unfold FLT_exp; lia).
  apply Rle_trans with (/2 * bpow radix2 (e - 24 + 1)).
  - apply Rmult_le_compat_l; [lra|]. apply Rle_trans with (1 := U). apply bpow_le, V.
  - rewrite bpow_plus_1. change (IZR radix2) with 2. lra.
Qed.
Lemma rnd_small x : Rabs x <= 2048 -> Rabs (rnd x) < bpow radix2 emax.
Proof.
  intros H. apply Rle_lt_trans with (bpow radix2 11).
  - apply abs_round_le_generic; [typeclasses eauto..| |exact H].
    apply generic_format_bpow. unfold FLT_exp. lia.
  - apply bpow_lt. lia.
Qed.
Lemma mult_ok (x y : FLOAT) : is_finite x = true -> is_finite y = true -> Rabs (B2R x * B2R y) <= 2048 ->
  is_finite (Bmult mode_NE x y) = true /\ B2R (Bmult mode_NE x y) = rnd (B2R x * B2R y).
Proof.
  intros Fx Fy H. pose proof (Bmult_correct prec emax _ _ mode_NE x y) as B.
  rewrite Rlt_bool_true in B by (apply rnd_small, H). destruct B as [B [C _]]. rewrite Fx, Fy in C. split; [exact C|exact B].
Qed.
Lemma div_ok (x y : FLOAT) : is_finite x = true -> B2R y <> 0 -> Rabs (B2R x / B2R y) <= 2048 ->
  is_finite (Bdiv mode_NE x y) = true /\ B2R (Bdiv mode_NE x y) = rnd (B2R x / B2R y).
Proof.
  intros Fx Hy H. pose proof (Bdiv_correct prec emax _ _ mode_NE x y Hy) as B.
  rewrite Rlt_bool_true in B by (apply rnd_small, H). destruct B as [B [C _]]. rewrite Fx in C. split; [exact C|exact B].
Qed.
Lemma int_ok n : (0 <= n <= 1000)%Z -> is_finite (of_int prec emax n) = true /\ B2R (of_int prec emax n) = IZR n.
Proof.
  intros H. pose proof (binary_normalize_correct prec emax _ _ mode_NE n 0 false) as B. cbv zeta in B.
  assert (E : F2R (Float radix2 n 0) = IZR n) by (unfold F2R; cbn; lra).
  assert (A : Rabs (IZR n) <= 2048). { rewrite Rabs_pos_eq by (apply IZR_le; lia). apply IZR_le. lia. }
  rewrite E in B. rewrite Rlt_bool_true in B by (apply rnd_small, A). destruct B as [B [C _]].
  split; [exact C|]. fold (of_int prec emax n) in B. rewrite B. apply round_generic; [typeclasses eauto|].
  rewrite <- E. apply generic_format_FLT. exists (Float radix2 n 0); [reflexivity| |cbn [Fexp]; unfold SpecFloat.emin; lia].
  cbn [Fnum]. apply Z.le_lt_trans with 1000%Z; [lia|]. change (Z.pow radix2 prec) with (2 ^ prec)%Z.
  apply Z.lt_le_trans with (2 ^ 24)%Z; [reflexivity|]. apply Z.pow_le_mono_r; lia.
Qed.

Variables (kr : FLOAT) (K : R).
Hypothesis Kk : is_finite kr = true /\ B2R kr = K.
Hypothesis K2 : 2 <= K <= 9.
(** The two facts that depend on the numbers: the greatest separation below the range gives an
    index below 1000, and the last point of the grid is below the range. *)
Hypothesis top : Bltb (Bmult mode_NE (Bpred kr) (resinv prec emax kr 1000)) (of_int prec emax 1000) = true.
Hypothesis last : Bltb (Bmult mode_NE (Bdiv mode_NE kr (of_int prec emax 1000)) (of_int prec emax 999)) kr = true.

Lemma pred_ok : is_finite (Bpred kr) = true /\ B2R (Bpred kr) = pred radix2 fexp K.
Proof.
  destruct Kk as [F E]. pose proof (Bpred_correct prec emax _ _ kr F) as B. rewrite E in B.
  rewrite Rlt_bool_true in B; [tauto|].
  apply Rlt_le_trans with 0. { pose proof (bpow_gt_0 radix2 emax). lra. }
  apply pred_ge_0; [typeclasses eauto|lra|]. rewrite <- E. apply generic_format_B2R.
Qed.
Lemma c_ok : is_finite (resinv prec emax kr 1000) = true /\ B2R (resinv prec emax kr 1000) = rnd (1000 / K)
  /\ Rabs (B2R (resinv prec emax kr 1000) - 1000 / K) <= / 32768 /\ 0 <= B2R (resinv prec emax kr 1000).
Proof.
  destruct Kk as [F E]. destruct (int_ok 1000 ltac:(lia)) as [F1 E1].
  assert (A : 0 < 1000 / K <= 500). { split; [apply Rdiv_lt_0_compat; lra|]. apply Rmult_le_reg_r with K; [lra|]. unfold Rdiv. rewrite Rmult_assoc, Rinv_l by lra. lra. }
  destruct (div_ok (of_int prec emax 1000) kr F1) as [F2 E2]; [rewrite E; lra| |].
  { rewrite E, E1. rewrite Rabs_pos_eq; lra. }
  rewrite E, E1 in E2. split; [exact F2|]. split; [exact E2|]. unfold resinv. rewrite E2. split.
  - change (/ 32768) with (bpow radix2 (9 - 24)). apply rnd_err; [|lia]. rewrite Rabs_pos_eq by lra.
    change (bpow radix2 9) with 512. lra.
  - apply Rle_trans with (rnd 0); [rewrite round_0; [lra|typeclasses eauto]|]. apply round_le; [typeclasses eauto..|lra].
Qed.
Lemma step_ok : is_finite (Bdiv mode_NE kr (of_int prec emax 1000)) = true
  /\ Rabs (B2R (Bdiv mode_NE kr (of_int prec emax 1000)) - K / 1000) <= / 1073741824
  /\ 0 <= B2R (Bdiv mode_NE kr (of_int prec emax 1000)).
Proof.
  destruct Kk as [F E]. destruct (int_ok 1000 ltac:(lia)) as [F1 E1].
  destruct (div_ok kr (of_int prec emax 1000) F) as [F2 E2]; [rewrite E1; lra| |].
  { rewrite E, E1. rewrite Rabs_pos_eq; lra. }
  rewrite E, E1 in E2. split; [exact F2|]. rewrite E2. split.
  - change (/ 1073741824) with (bpow radix2 (-6 - 24)). apply rnd_err; [|lia]. rewrite Rabs_pos_eq by lra.
    change (bpow radix2 (-6)) with (/64). lra.
  - apply Rle_trans with (rnd 0); [rewrite round_0; [lra|typeclasses eauto]|]. apply round_le; [typeclasses eauto..|lra].
Qed.
(** Every point of the grid. *)
Lemma point_ok i : (0 <= i < 1000)%Z ->
  let a := Bmult mode_NE (Bdiv mode_NE kr (of_int prec emax 1000)) (of_int prec emax i) in
  is_finite a = true /\ 0 <= B2R a < K /\ Rabs (B2R a - K / 1000 * IZR i) <= / 500000.
Proof.
  intros H a. destruct Kk as [F E]. destruct step_ok as [F1 [E1 P1]]. set (st := Bdiv _ _ _) in *.
  destruct (int_ok i ltac:(lia)) as [Fi Ei]. destruct (int_ok 999 ltac:(lia)) as [F9 E9].
  assert (Hi : 0 <= IZR i <= 999) by (split; apply IZR_le; lia).
  apply Rabs_le_inv in E1.
  assert (B : forall x, 0 <= x <= 999 -> Rabs (B2R st * x - K / 1000 * x) <= / 1000000).
  { intros x Hx. rewrite <- Rmult_minus_distr_r, Rabs_mult, (Rabs_pos_eq x) by lra.
    apply Rle_trans with (/ 1073741824 * 999); [|lra]. apply Rmult_le_compat; try apply Rabs_pos; try lra.
    apply Rabs_le. lra. }
  assert (S1 : B2R st <= 1/100) by lra.
  assert (M : forall x, 0 <= x <= 999 -> 0 <= B2R st * x <= 16).
  { intros x Hx. split; [apply Rmult_le_pos; lra|]. apply Rle_trans with (1/100 * 999); [apply Rmult_le_compat; lra|lra]. }
  destruct (mult_ok st (of_int prec emax i) F1 Fi) as [Fa Ea].
  { rewrite Ei. pose proof (M _ Hi). rewrite Rabs_pos_eq; lra. }
  destruct (mult_ok st (of_int prec emax 999) F1 F9) as [Fl El].
  { rewrite E9. assert (Q : 0 <= 999 <= 999) by lra. pose proof (M _ Q). rewrite Rabs_pos_eq; lra. }
  fold a in Fa, Ea. rewrite Ei in Ea. rewrite E9 in El.
  split; [exact Fa|]. split; [split|].
  - rewrite Ea. apply Rle_trans with (rnd 0); [rewrite round_0; [lra|typeclasses eauto]|]. apply round_le; [typeclasses eauto..|]. apply M, Hi.
  - rewrite Bltb_correct in last by assumption.
    apply Rle_lt_trans with (rnd (B2R st * 999)).
    + rewrite Ea. apply round_le; [typeclasses eauto..|]. apply Rmult_le_compat_l; lra.
    + rewrite <- El, <- E. revert last. now case Rlt_bool_spec.
  - rewrite Ea. pose proof (B _ Hi) as B1. pose proof (M _ Hi) as M1.
    assert (B2 : Rabs (rnd (B2R st * IZR i) - B2R st * IZR i) <= / 1048576).
    { change (/ 1048576) with (bpow radix2 (4 - 24)). apply rnd_err; [|lia]. rewrite Rabs_pos_eq by lra.
      change (bpow radix2 4) with 16. lra. }
    apply Rabs_le_inv in B1. apply Rabs_le_inv in B2. apply Rabs_le. lra.
Qed.

(** The index of a separation below the range. *)
Lemma index_ok (s : FLOAT) : is_finite s = true -> 0 <= B2R s < K ->
  let x := Bmult mode_NE s (resinv prec emax kr 1000) in
  is_finite x = true /\ (0 <= Btrunc x < 1000)%Z /\ Rabs (IZR (Btrunc x) - B2R s * (1000 / K)) <= 1001/1000.
Proof.
  intros Fs Hs x. destruct Kk as [F E]. destruct c_ok as [Fc [Ec [Dc Pc]]]. set (c := resinv prec emax kr 1000) in *.
  destruct pred_ok as [Fp Ep].
  apply Rabs_le_inv in Dc.
  assert (A : 0 < 1000 / K <= 500). { split; [apply Rdiv_lt_0_compat; lra|]. apply Rmult_le_reg_r with K; [lra|]. unfold Rdiv. rewrite Rmult_assoc, Rinv_l by lra. lra. }
  assert (Q : 0 <= B2R s * (1000 / K) <= 1000).
  { split; [apply Rmult_le_pos; lra|]. apply Rle_trans with (K * (1000 / K)); [apply Rmult_le_compat_r; lra|].
    unfold Rdiv. rewrite (Rmult_comm 1000), <- Rmult_assoc, Rinv_r by lra. lra. }
  assert (D : forall y, 0 <= y <= 9 -> Rabs (y * B2R c - y * (1000 / K)) <= 9 / 32768).
  { intros y Hy. rewrite <- Rmult_minus_distr_l, Rabs_mult, (Rabs_pos_eq y) by lra.
    apply Rle_trans with (9 * / 32768); [|lra]. apply Rmult_le_compat; try apply Rabs_pos; try lra. apply Rabs_le. lra. }
  assert (Hs9 : 0 <= B2R s <= 9) by lra. pose proof (D _ Hs9) as Ds. apply Rabs_le_inv in Ds.
  assert (Hp : B2R s <= pred radix2 fexp K).
  { apply pred_ge_gt; [typeclasses eauto|apply generic_format_B2R| |lra]. rewrite <- E. apply generic_format_B2R. }
  assert (Hp9 : 0 <= pred radix2 fexp K <= K). { split; [lra|]. apply pred_le_id. }
  assert (Pk : pred radix2 fexp K * (1000 / K) <= 1000).
  { apply Rle_trans with (K * (1000 / K)); [apply Rmult_le_compat_r; lra|].
    unfold Rdiv. rewrite (Rmult_comm 1000), <- Rmult_assoc, Rinv_r by lra. lra. }
  assert (Dp : 0 <= pred radix2 fexp K <= 9) by lra. pose proof (D _ Dp) as Dq. apply Rabs_le_inv in Dq.
  assert (SC : 0 <= B2R s * B2R c <= pred radix2 fexp K * B2R c).
  { split; [apply Rmult_le_pos; lra|apply Rmult_le_compat_r; lra]. }
  destruct (mult_ok s c Fs Fc) as [Fx Ex]; [rewrite Rabs_pos_eq; lra|].
  destruct (mult_ok (Bpred kr) c Fp Fc) as [Ft Et]; [rewrite Ep, Rabs_pos_eq; lra|].
  fold x in Fx, Ex. destruct (int_ok 1000 ltac:(lia)) as [F1 E1].
  assert (X : 0 <= B2R x < 1000).
  { split.
    - rewrite Ex. apply Rle_trans with (rnd 0); [rewrite round_0; [lra|typeclasses eauto]|]. apply round_le; [typeclasses eauto..|lra].
    - apply Rle_lt_trans with (rnd (pred radix2 fexp K * B2R c)).
      + rewrite Ex. apply round_le; [typeclasses eauto..|lra].
      + rewrite <- Ep, <- Et. revert top. rewrite Bltb_correct by assumption. rewrite E1. now case Rlt_bool_spec. }
  assert (Tr : IZR (Btrunc x) = IZR (Zfloor (B2R x))).
  { rewrite Btrunc_correct by assumption. rewrite <- Ztrunc_floor by lra. unfold round, scaled_mantissa, cexp, FIX_exp, F2R. cbn.
    now rewrite !Rmult_1_r. }
  apply eq_IZR in Tr. split; [exact Fx|]. rewrite Tr. split.
  - split; [apply Zfloor_lub; lra|]. apply lt_IZR. apply Rle_lt_trans with (B2R x); [apply Zfloor_lb|lra].
  - pose proof (Zfloor_lb (B2R x)) as L. pose proof (Zfloor_ub (B2R x)) as Ub. rewrite plus_IZR in Ub || idtac.
    assert (R1 : Rabs (B2R x - B2R s * B2R c) <= / 8192).
    { rewrite Ex. change (/ 8192) with (bpow radix2 (11 - 24)). apply rnd_err; [|lia]. rewrite Rabs_pos_eq by lra.
      change (bpow radix2 11) with 2048. lra. }
    apply Rabs_le_inv in R1. apply Rabs_le. lra.
Qed.

Lemma entry_ok (f : FLOAT -> FLOAT) (s : FLOAT) : is_finite s = true -> 0 <= B2R s < K ->
  exists a, entry prec emax (map (fun i => f (Bmult mode_NE (Bdiv mode_NE kr (of_int prec emax 1000)) (of_int prec emax (Z.of_nat i)))) (seq 0 (Z.to_nat 1000)))
              (Bmult mode_NE s (resinv prec emax kr 1000)) = Ok (f a) /\ grid_point K s a.
Proof.
  intros Fs Hs. destruct (index_ok s Fs Hs) as [Fx [Hi Di]]. set (x := Bmult _ s _) in *. set (i := Btrunc x) in *.
  destruct (point_ok i Hi) as [Fa [Ha Da]]. set (a := Bmult _ (Bdiv _ _ _) (of_int prec emax i)) in *.
  exists a. split.
  - unfold entry. rewrite Fx. fold i. unfold aget. rewrite (proj2 (Z.ltb_ge i 0)) by lia.
    rewrite nth_error_map. rewrite nth_error_nth' with (d := O) by (rewrite seq_length; lia).
    rewrite seq_nth by lia. cbn [option_map]. rewrite Nat.add_0_l, Z2Nat.id by lia. reflexivity.
  - split; [exact Fa|]. split; [exact Ha|].
    assert (N : B2R s * (1000 / K) * (K / 1000) = B2R s) by (field; lra).
    assert (M : Rabs (IZR i * (K / 1000) - B2R s) <= 1001 / 1000 * (K / 1000)).
    { rewrite <- N at 1. rewrite <- Rmult_minus_distr_r, Rabs_mult, (Rabs_pos_eq (K / 1000)) by lra.
      apply Rmult_le_compat_r; lra. }
    apply Rabs_le_inv in M. apply Rabs_le_inv in Da. apply Rabs_le. lra.
Qed.
Lemma outside_ok (s : FLOAT) : is_finite s = true -> Bleb kr s = true <-> K <= B2R s.
Proof.
  clear big K2 top last. intros Fs. destruct Kk as [F E]. rewrite Bleb_correct by assumption. rewrite E. case Rle_bool_spec; intros; split; intros; try easy; lra.
Qed.
End Any.

(** The hypotheses of the section for the two formats and the four ranges. *)
Local Open Scope Z_scope.
Definition ranges : list Z := [2; 3; 4; 9].
Definition good (p : precision) (K : Z) : Prop :=
  Bltb (Bmult mode_NE (Bpred (of_int (prec_of p) (emax_of p) K)) (resinv (prec_of p) (emax_of p) (of_int (prec_of p) (emax_of p) K) 1000)) (of_int (prec_of p) (emax_of p) 1000) = true
  /\ Bltb (Bmult mode_NE (Bdiv mode_NE (of_int (prec_of p) (emax_of p) K) (of_int (prec_of p) (emax_of p) 1000)) (of_int (prec_of p) (emax_of p) 999)) (of_int (prec_of p) (emax_of p) K) = true.
Lemma good_all p K : In K ranges -> good p K.
Proof. intros [<-|[<-|[<-|[<-|[]]]]]; destruct p; split; vm_compute; reflexivity. Qed.
Lemma big_all p : 24 <= prec_of p /\ 128 <= emax_of p.
Proof. destruct p; cbn; lia. Qed.
Lemma range_real p K : In K ranges ->
  is_finite (of_int (prec_of p) (emax_of p) K) = true /\ B2R (of_int (prec_of p) (emax_of p) K) = IZR K.
Proof. intros H. apply int_ok; [apply big_all|]. unfold ranges in H. cbn in H. lia. Qed.
Lemma range_le K : In K ranges -> (2 <= IZR K <= 9)%R.
Proof. intros H. unfold ranges in H. cbn in H. split; apply IZR_le; lia. Qed.
Lemma inside_entry p K f s : In K ranges -> is_finite s = true -> (0 <= B2R s < IZR K)%R ->
  exists a, entry (prec_of p) (emax_of p)
     (map (fun i => f (Bmult mode_NE (Bdiv mode_NE (of_int (prec_of p) (emax_of p) K) (of_int (prec_of p) (emax_of p) 1000)) (of_int (prec_of p) (emax_of p) (Z.of_nat i)))) (seq 0 (Z.to_nat 1000)))
     (Bmult mode_NE s (resinv (prec_of p) (emax_of p) (of_int (prec_of p) (emax_of p) K) 1000)) = Ok (f a) /\ grid_point (IZR K) s a.
Proof.
  intros H F S. destruct (good_all p K H) as [T L].
  apply (entry_ok _ _ (big_all p) (of_int _ _ K) (IZR K) (range_real p K H) (range_le K H) T L f s F S).
Qed.
Lemma outside_iff p K s : In K ranges -> is_finite s = true ->
  Bleb (of_int (prec_of p) (emax_of p) K) s = true <-> (IZR K <= B2R s)%R.
Proof. intros H F. apply (outside_ok _ _ (of_int _ _ K) (IZR K) (range_real p K H) s F). Qed.
