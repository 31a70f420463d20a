(** The iteration for the pressure between the waves. *)
From Verif Require Import Prelude Vec M_Box L_Box M_Exact L_Exact L_Eos L_Level.
From Coq Require Import Reals Lra Lia Psatz.
From Coquelicot Require Import Coquelicot.
Local Open Scope R_scope.

Lemma ln_quad b : 0 <= b -> b - b * b / 2 <= ln (1 + b).
Proof.
  intros [Hb|<-]. 2:{ rewrite Rplus_0_r, ln_1. lra. }
  destruct (MVT_gen (fun x => ln (1 + x) - x + x * x / 2) 0 b (fun x => x * x / (1 + x))) as [c [Hc He]].
  - intros x Hx. rewrite Rmin_left, Rmax_right in Hx by lra. auto_derive; [lra|]. field. lra.
  - intros x Hx. rewrite Rmin_left, Rmax_right in Hx by lra. apply derivable_continuous_pt.
    exists (x * x / (1 + x)). apply is_derive_Reals. auto_derive; [lra|]. field. lra.
  - rewrite Rmin_left, Rmax_right in Hc by lra. rewrite Rplus_0_r, ln_1 in He.
    assert (0 <= c * c / (1 + c)) by (apply Rmult_le_pos; [nra|left; apply Rinv_0_lt_compat; lra]). nra.
Qed.
Lemma ln_le_mono a b : 0 < a -> a <= b -> ln a <= ln b.
Proof. intros Ha [H|<-]; [left; apply ln_increasing; lra|lra]. Qed.
(** x - ln(1+x) does not fall. *)
Lemma gap_mono a b : 0 <= a -> a <= b -> a - ln (1 + a) <= b - ln (1 + b).
Proof.
  intros Ha Hab. assert (ln (1 + b) - ln (1 + a) <= b - a); [|lra].
  rewrite <- ln_div by lra. replace ((1 + b) / (1 + a)) with (1 + (b - a) / (1 + a)) by (field; lra).
  assert (0 <= (b - a) / (1 + a) <= b - a).
  { assert (0 < / (1 + a) <= 1). { split; [apply Rinv_0_lt_compat; lra|]. rewrite <- Rinv_1. apply Rinv_le_contravar; lra. }
    unfold Rdiv. nra. }
  apply Rle_trans with ((b - a) / (1 + a)); [|lra]. rewrite <- (ln_exp ((b - a) / (1 + a))) at 2. apply ln_le_mono; [lra|]. apply exp_ineq1_le.
Qed.
Lemma ln2_lo : 69 / 100 < ln 2.
Proof. pose proof ln2_near as [G _]. unfold ath in G. lra. Qed.
Lemma ln2_hi : ln 2 < 7 / 10.
Proof. pose proof ln2_near as [_ G]. unfold ath in G. lra. Qed.

Section Newton.
Variables (gamma pl pr dl dr cl cr ul ur : R).
Hypotheses (Hg : 1 < gamma) (Hpl : 0 < pl) (Hpr : 0 < pr) (Hdl : 0 < dl) (Hdr : 0 < dr)
  (Hcl : cl = sqrt (gamma * pl / dl)) (Hcr : cr = sqrt (gamma * pr / dr)).
Local Notation fl := (fside gamma pl dl cl).
Local Notation fr := (fside gamma pr dr cr).
Local Notation fl' := (fprime gamma pl dl cl).
Local Notation fr' := (fprime gamma pr dr cr).
Definition F (x : R) : R := fl x + fr x + ur - ul.
Definition F' (x : R) : R := fl' x + fr' x.
Lemma F'_pos x : 0 < x -> 0 < F' x.
Proof. intros. unfold F'. pose proof (fp_pos gamma pl dl cl Hg Hpl Hdl Hcl x H). pose proof (fp_pos gamma pr dr cr Hg Hpr Hdr Hcr x H). lra. Qed.
Lemma F_mvt a b : 0 < a -> a <= b -> F' b * (b - a) <= F b - F a <= F' a * (b - a) /\ a * F' a * ln (b / a) <= F b - F a.
Proof.
  intros. unfold F, F'. pose proof (fs_mvt gamma pl dl cl Hg Hpl Hdl Hcl a b H H0). pose proof (fs_mvt gamma pr dr cr Hg Hpr Hdr Hcr a b H H0).
  repeat split; lra.
Qed.
Lemma F_incr a b : 0 < a -> a < b -> F a < F b.
Proof. intros. unfold F. pose proof (fs_incr gamma pl dl cl Hg Hpl Hdl Hcl a b H H0). pose proof (fs_incr gamma pr dr cr Hg Hpr Hdr Hcr a b H H0). lra. Qed.
Lemma root_unique a b : 0 < a -> 0 < b -> F a = 0 -> F b = 0 -> a = b.
Proof. intros. destruct (Rtotal_order a b) as [G|[G|G]]; [|exact G|]; [pose proof (F_incr a b)|pose proof (F_incr b a)]; lra. Qed.

Variable r : R.
Hypotheses (Hr : small_number <= r) (Fr : F r = 0).
Definition step (x : R) : R := x - F x / F' x.
Lemma step_le x : 0 < x -> step x <= r.
Proof.
  intros Hx. pose proof (F'_pos x Hx). pose proof small_pos. unfold step.
  assert (x - r <= F x / F' x); [|lra]. apply Rmult_le_reg_r with (F' x); [lra|]. replace (F x / F' x * F' x) with (F x) by (field; lra).
  destruct (Rle_dec x r).
  - destruct (F_mvt x r ltac:(lra) ltac:(lra)) as [[_ G] _]. rewrite Fr in G. lra.
  - destruct (F_mvt r x ltac:(lra) ltac:(lra)) as [[G _] _]. rewrite Fr in G. lra.
Qed.
Lemma step_ge x : 0 < x -> x <= r -> x * (1 + ln (r / x)) <= step x.
Proof.
  intros Hx Hxr. pose proof (F'_pos x Hx). unfold step. destruct (F_mvt x r ltac:(lra) ltac:(lra)) as [_ G]. rewrite Fr in G.
  assert (x * ln (r / x) <= - (F x / F' x)); [|lra]. apply Rmult_le_reg_r with (F' x); [lra|].
  replace (- (F x / F' x) * F' x) with (- F x) by (field; lra). lra.
Qed.
(** What the iteration returns: a pressure below the solution and close to it; the functions at a pressure close to it. *)
Definition close (x : R * R * R) : Prop :=
  let '(q, a, b) := x in q <= r /\ r <= q * (1 + 2 / 10 ^ 6) /\ 0 < q /\
  exists po, 0 < po /\ a = fl po /\ b = fr po /\ Rabs (po - r) <= 2 / 10 ^ 6 * r.

Lemma newton_eq k x : newton gamma pl pr dl dr cl cr ul ur k x =
  if rltb (step x) small_number then match k with 0%nat => (small_number, fl x, fr x) | S k => newton gamma pl pr dl dr cl cr ul ur k small_number end
  else if rltb (2 * Rabs (step x - x) / (step x + x)) tol then (step x, fl x, fr x)
  else match k with 0%nat => (step x, fl x, fr x) | S k => newton gamma pl pr dl dr cl cr ul ur k (step x) end.
Proof. destruct k; reflexivity. Qed.
Lemma tol_ratio a b : 0 < a -> a <= b -> 2 * (b - a) / (b + a) < tol -> (b - a) / a <= 11 / 10 ^ 7.
Proof.
  intros Ha Hab G. apply Rmult_le_reg_r with a; [lra|]. replace ((b - a) / a * a) with (b - a) by (field; lra).
  assert (2 * (b - a) < tol * (b + a)). { apply Rmult_lt_reg_r with (/ (b + a)); [apply Rinv_0_lt_compat; lra|]. rewrite (Rmult_assoc tol), Rinv_r by lra. unfold Rdiv in G. lra. }
  unfold tol in H. lra.
Qed.
Lemma break_close x : 0 < x -> small_number <= step x -> 2 * Rabs (step x - x) / (step x + x) < tol -> close (step x, fl x, fr x).
Proof.
  intros Hx Hs G. pose proof small_pos. pose proof (step_le x Hx) as Hle. destruct (Rle_dec x r) as [Hxr|Hxr].
  - pose proof (step_ge x Hx Hxr) as Hge.
    assert (1 <= r / x). { apply Rmult_le_reg_r with x; [lra|]. replace (r / x * x) with r by (field; lra). lra. }
    assert (0 <= ln (r / x)) by (rewrite <- ln_1; apply ln_le_mono; lra).
    assert (x <= step x) by nra. rewrite Rabs_pos_eq in G by lra. apply tol_ratio in G; [|lra|lra].
    assert (L : ln (r / x) <= 11 / 10 ^ 7). { apply Rle_trans with ((step x - x) / x); [|exact G]. apply Rmult_le_reg_r with x; [lra|].
      replace ((step x - x) / x * x) with (step x - x) by (field; lra). lra. }
    assert (r / x <= 1 + 2 / 10 ^ 6).
    { rewrite <- (exp_ln (r / x)) by lra. set (l := ln (r / x)) in *.
      assert (exp l * (1 - l) <= 1). { replace 1 with (exp l * exp (- l)) at 2 by (rewrite <- exp_plus, Rplus_opp_r, exp_0; reflexivity).
        apply Rmult_le_compat_l; [left; apply exp_pos|]. pose proof (exp_ineq1_le (- l)). lra. }
      pose proof (exp_pos l). assert (exp l * (1 - 11 / 10 ^ 7) <= 1) by nra. lra. }
    assert (r <= x * (1 + 2 / 10 ^ 6)). { apply Rmult_le_reg_r with (/ x); [apply Rinv_0_lt_compat; lra|]. replace (x * (1 + 2 / 10 ^ 6) * / x) with (1 + 2 / 10 ^ 6) by (field; lra). exact H3. }
    repeat split; try lra; try nra. exists x. repeat split; try lra. rewrite Rabs_left1 by lra. nra.
  - rewrite Rabs_left1 in G by lra. replace (- (step x - x)) with (x - step x) in G by ring. rewrite (Rplus_comm (step x)) in G.
    apply tol_ratio in G; [|lra|lra].
    assert (x - step x <= 11 / 10 ^ 7 * step x). { apply Rmult_le_reg_r with (/ step x); [apply Rinv_0_lt_compat; lra|]. replace (11 / 10 ^ 7 * step x * / step x) with (11 / 10 ^ 7) by (field; lra). exact G. }
    repeat split; try lra. exists x. repeat split; try lra. rewrite Rabs_pos_eq by lra. lra.
Qed.

(** [K] further iterations suffice from below when ln(r/x) is at most [b]. *)
Definition enough (b : R) (K : nat) : Prop :=
  forall x k, small_number <= x -> x <= r -> ln (r / x) <= b -> (K <= k)%nat -> close (newton gamma pl pr dl dr cl cr ul ur k x).
Lemma enough_start : enough (9 / 10 ^ 7) 0.
Proof.
  intros x k Hx Hxr Hl _. pose proof small_pos. assert (Hx0 : 0 < x) by lra. pose proof (step_le x Hx0). pose proof (step_ge x Hx0 Hxr).
  assert (1 <= r / x). { apply Rmult_le_reg_r with x; [lra|]. replace (r / x * x) with r by (field; lra). lra. }
  assert (0 <= ln (r / x)) by (rewrite <- ln_1; apply ln_le_mono; lra).
  assert (x <= step x) by nra. rewrite newton_eq. rewrite (proj2 (rltb_false _ _)) by lra.
  assert (G : 2 * Rabs (step x - x) / (step x + x) < tol).
  { rewrite Rabs_pos_eq by lra. apply Rmult_lt_reg_r with (step x + x); [lra|].
    replace (2 * (step x - x) / (step x + x) * (step x + x)) with (2 * (step x - x)) by (field; lra).
    assert (r / x * (1 - 9 / 10 ^ 7) <= 1).
    { rewrite <- (exp_ln (r / x)) by lra. set (l := ln (r / x)) in *.
      assert (exp l * (1 - l) <= 1). { replace 1 with (exp l * exp (- l)) at 2 by (rewrite <- exp_plus, Rplus_opp_r, exp_0; reflexivity).
        apply Rmult_le_compat_l; [left; apply exp_pos|]. pose proof (exp_ineq1_le (- l)). lra. }
      pose proof (exp_pos l). nra. }
    assert (r * (1 - 9 / 10 ^ 7) <= x). { apply Rmult_le_reg_r with (/ x); [apply Rinv_0_lt_compat; lra|]. rewrite Rinv_r by lra. unfold Rdiv in H5. lra. }
    unfold tol. lra. }
  rewrite (proj2 (rltb_true _ _) G). apply break_close; lra.
Qed.
Lemma enough_step b b' K : 0 <= b -> b - b' <= ln (1 + b) -> enough b' K -> enough b (S K).
Proof.
  intros Hb Hbb En x k Hx Hxr Hl Hk. pose proof small_pos. assert (Hx0 : 0 < x) by lra. pose proof (step_le x Hx0). pose proof (step_ge x Hx0 Hxr).
  assert (1 <= r / x). { apply Rmult_le_reg_r with x; [lra|]. replace (r / x * x) with r by (field; lra). lra. }
  assert (0 <= ln (r / x)) by (rewrite <- ln_1; apply ln_le_mono; lra).
  assert (x <= step x) by nra. rewrite newton_eq. rewrite (proj2 (rltb_false _ _)) by lra.
  destruct (rltb (2 * Rabs (step x - x) / (step x + x)) tol) eqn:G; [apply rltb_true in G; apply break_close; lra|].
  destruct k as [|k]; [lia|]. apply En; [lra|lra| |lia].
  set (l := ln (r / x)) in *.
  apply Rle_trans with (l - ln (1 + l)); [|pose proof (gap_mono l b); lra].
  apply Rle_trans with (ln (r / (x * (1 + l)))).
  - apply ln_le_mono; [apply Rdiv_lt_0_compat; lra|]. apply Rmult_le_compat_l; [lra|]. apply Rinv_le_contravar; nra.
  - assert (Hl2 : ln (r / x) = l) by reflexivity. rewrite ln_div in Hl2 by lra. rewrite ln_div by nra. rewrite ln_mult by lra. lra.
Qed.
Lemma enough_weaken b b' K K' : b <= b' -> (K' <= K)%nat -> enough b' K' -> enough b K.
Proof. intros Hb HK En x k Hx Hxr Hl Hk. apply En; try lra. lia. Qed.
Lemma enough_small b b' K : 0 <= b -> b * b / 2 <= b' -> enough b' K -> enough b (S K).
Proof. intros. apply enough_step with b'; [lra| |exact H1]. pose proof (ln_quad b H). lra. Qed.
Lemma enough_pow m b K : 2 ^ m <= 1 + (b + 69 / 100 * INR m) -> 0 <= b -> enough b K -> enough (b + 69 / 100 * INR m) (S K).
Proof.
  intros Hm Hb En. pose proof (pos_INR m). apply enough_step with b; [lra| |exact En].
  apply Rle_trans with (ln (2 ^ m)); [|apply ln_le_mono; [apply pow_lt; lra|lra]].
  rewrite ln_pow by lra. pose proof ln2_lo. nra.
Qed.
Lemma enough_many m n b K : 2 ^ m <= 1 + (b + 69 / 100 * INR m) -> 0 <= b -> enough b K -> enough (b + 69 / 100 * INR m * INR n) (n + K).
Proof.
  intros Hm Hb En. induction n as [|n IH]. - simpl INR. rewrite Rmult_0_r, Rplus_0_r. exact En.
  - pose proof (pos_INR m). pose proof (pos_INR n). rewrite S_INR. replace (b + 69 / 100 * INR m * (INR n + 1)) with (b + 69 / 100 * INR m * INR n + 69 / 100 * INR m) by ring.
    change (S n + K)%nat with (S (n + K)). assert (0 <= INR m * INR n) by (apply Rmult_le_pos; lra). apply enough_pow; [lra|lra|exact IH].
Qed.
Ltac nn := rewrite ?INR_IZR_INZ; simpl Z.of_nat; lra.
(** 98 iterations from below cover 121 powers of ten. *)
Lemma enough_98 : enough 280 98.
Proof.
  assert (E : enough (11 / 10) 5).
  { apply enough_small with (7 / 10); [lra|lra|]. apply enough_small with (3 / 10); [lra|lra|]. apply enough_small with (1 / 20); [lra|lra|].
    apply enough_small with (13 / 10 ^ 4); [lra|lra|]. apply enough_small with (9 / 10 ^ 7); [lra|lra|]. apply enough_start. }
  apply (enough_many 1 3) in E; [|nn|lra].
  apply (enough_weaken 3 _ 8) in E; [|nn|lia].
  apply (enough_many 2 4) in E; [|nn|lra]. apply (enough_weaken (17 / 2) _ 12) in E; [|nn|lia].
  apply (enough_many 3 4) in E; [|nn|lra]. apply (enough_weaken 16 _ 16) in E; [|nn|lia].
  apply (enough_many 4 6) in E; [|nn|lra]. apply (enough_weaken 32 _ 22) in E; [|nn|lia].
  apply (enough_many 5 10) in E; [|nn|lra]. apply (enough_weaken 66 _ 32) in E; [|nn|lia].
  apply (enough_many 6 52) in E; [|nn|lra]. apply (enough_weaken 280 _ 98) in E; [exact E| |lia].
  nn.
Qed.
(** From any start. *)
Lemma newton_close x : r <= 10 ^ 100 -> small_number <= x -> close (newton gamma pl pr dl dr cl cr ul ur (Niterationmax - 1) x).
Proof.
  intros Hr2 Hx. pose proof small_pos. assert (Hx0 : 0 < x) by lra.
  assert (L : forall y, small_number <= y -> y <= r -> ln (r / y) <= 280).
  { intros y Hy Hyr. apply Rle_trans with (ln (2 ^ 400)).
    - apply ln_le_mono; [apply Rdiv_lt_0_compat; lra|]. apply Rmult_le_reg_r with y; [lra|]. replace (r / y * y) with r by (field; lra).
      apply Rle_trans with (2 ^ 400 * small_number); [|apply Rmult_le_compat_l; [apply pow_le; lra|lra]].
      apply Rle_trans with (10 ^ 100); [lra|]. unfold small_number. lra.
    - rewrite ln_pow by lra. rewrite INR_IZR_INZ. replace (Z.of_nat 400) with 400%Z by reflexivity. pose proof ln2_hi. lra. }
  rewrite newton_eq. pose proof (step_le x Hx0). change (Niterationmax - 1)%nat with 99%nat.
  destruct (rltb (step x) small_number) eqn:G1.
  - apply enough_98; [lra|lra|apply L; lra|lia].
  - apply rltb_false in G1. destruct (rltb (2 * Rabs (step x - x) / (step x + x)) tol) eqn:G.
    + apply rltb_true in G. apply break_close; lra.
    + apply enough_98; [lra|lra|apply L; lra|lia].
Qed.
End Newton.
