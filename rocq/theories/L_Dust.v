From Verif Require Import Prelude Vec M_Box L_Box M_Dust S_Diag S_Dust.
From Coq Require Import Reals Lra Lia.
Local Open Scope R_scope.

(** * exp near zero *)
Definition T3 (x : R) := 1 - x + x ^ 2 / 2 - x ^ 3 / 6.
Definition T4 (x : R) := T3 x + x ^ 4 / 24.
(** f(0)=0, f' >= 0 on [0,inf) gives f >= 0 *)
Lemma nonneg_from_deriv : forall f f' : R -> R, (forall x, derivable_pt_lim f x (f' x)) -> f 0 = 0 -> (forall x, 0 <= x -> 0 <= f' x) -> forall x, 0 <= x -> 0 <= f x.
Proof.
  intros f f' D Z P x X. destruct (Req_dec x 0) as [->|NX]; [lra|].
  assert (X' : 0 < x) by lra.
  destruct (MVT_cor2 f f' 0 x X') as (c & E & C). { intros c _. apply D. }
  rewrite Z in E. assert (0 <= f' c * (x - 0)) by (apply Rmult_le_pos; [apply P; lra|lra]). lra.
Qed.
Lemma dexpn x : derivable_pt_lim (fun t => exp (- t)) x (- exp (- x)).
Proof.
  assert (H : derivable_pt_lim (comp exp (fun t => - t)) x (exp (- x) * (- 1))).
  { apply derivable_pt_lim_comp.
    - apply (derivable_pt_lim_opp (fun t => t)). apply derivable_pt_lim_id.
    - apply derivable_pt_lim_exp. }
  replace (- exp (- x)) with (exp (- x) * -1) by ring. exact H.
Qed.
Lemma dpoly (f : R -> R) x l l' : derivable_pt_lim f x l -> l = l' -> derivable_pt_lim f x l'.
Proof. intros H <-. exact H. Qed.
Lemma dpow n x : derivable_pt_lim (fun t => t ^ n) x (INR n * x ^ pred n).
Proof. apply derivable_pt_lim_pow. Qed.
Lemma dlin c x : derivable_pt_lim (fun t => c * t) x c.
Proof. eapply dpoly; [apply (derivable_pt_lim_scal (fun t => t)); apply derivable_pt_lim_id|ring]. Qed.
Lemma dmon c n x : derivable_pt_lim (fun t => c * t ^ n) x (c * (INR n * x ^ pred n)).
Proof. apply (derivable_pt_lim_scal (fun t => t ^ n)). apply dpow. Qed.
Lemma dconst c x : derivable_pt_lim (fun _ => c) x 0.
Proof. apply derivable_pt_lim_const. Qed.

Lemma e0 x : 0 <= x -> exp (- x) <= 1.
Proof. intros X. rewrite <- exp_0. destruct X as [X|<-]; [left; apply exp_increasing; lra|right; f_equal; ring]. Qed.
Lemma e1 x : 0 <= x -> 1 - x <= exp (- x).
Proof.
  intros X. enough (0 <= exp (- x) - 1 + x) by lra.
  apply (nonneg_from_deriv (fun t => exp (- t) - 1 + t) (fun t => - exp (- t) - 0 + 1)); auto.
  - intros t. apply derivable_pt_lim_plus; [|apply derivable_pt_lim_id]. apply derivable_pt_lim_minus; [apply dexpn|apply dconst].
  - rewrite Ropp_0, exp_0. ring.
  - intros t T. pose proof (e0 t T). lra.
Qed.
Lemma e2 x : 0 <= x -> exp (- x) <= 1 - x + x ^ 2 / 2.
Proof.
  intros X. enough (0 <= 1 - x + 1 / 2 * x ^ 2 - exp (- x)) by lra.
  apply (nonneg_from_deriv (fun t => 1 - t + 1 / 2 * t ^ 2 - exp (- t)) (fun t => 0 - 1 + 1 / 2 * (INR 2 * t ^ 1) - - exp (- t))); auto.
  - intros t. apply derivable_pt_lim_minus; [|apply dexpn]. apply derivable_pt_lim_plus; [|apply (dmon (1 / 2) 2)].
    apply derivable_pt_lim_minus; [apply dconst|apply derivable_pt_lim_id].
  - rewrite Ropp_0, exp_0. ring.
  - intros t T. pose proof (e1 t T). cbn. lra.
Qed.
Lemma e3 x : 0 <= x -> T3 x <= exp (- x).
Proof.
  intros X. unfold T3. enough (0 <= exp (- x) - (1 - x + 1 / 2 * x ^ 2 - 1 / 6 * x ^ 3)) by lra.
  apply (nonneg_from_deriv (fun t => exp (- t) - (1 - t + 1 / 2 * t ^ 2 - 1 / 6 * t ^ 3))
    (fun t => - exp (- t) - (0 - 1 + 1 / 2 * (INR 2 * t ^ 1) - 1 / 6 * (INR 3 * t ^ 2)))); auto.
  - intros t. apply derivable_pt_lim_minus; [apply dexpn|]. apply derivable_pt_lim_minus; [|apply (dmon (1 / 6) 3)].
    apply derivable_pt_lim_plus; [|apply (dmon (1 / 2) 2)]. apply derivable_pt_lim_minus; [apply dconst|apply derivable_pt_lim_id].
  - rewrite Ropp_0, exp_0. ring.
  - intros t T. pose proof (e2 t T). cbn in *. lra.
Qed.
Lemma e4 x : 0 <= x -> exp (- x) <= T4 x.
Proof.
  intros X. unfold T4, T3. enough (0 <= 1 - x + 1 / 2 * x ^ 2 - 1 / 6 * x ^ 3 + 1 / 24 * x ^ 4 - exp (- x)) by lra.
  apply (nonneg_from_deriv (fun t => 1 - t + 1 / 2 * t ^ 2 - 1 / 6 * t ^ 3 + 1 / 24 * t ^ 4 - exp (- t))
    (fun t => 0 - 1 + 1 / 2 * (INR 2 * t ^ 1) - 1 / 6 * (INR 3 * t ^ 2) + 1 / 24 * (INR 4 * t ^ 3) - - exp (- t))); auto.
  - intros t. apply derivable_pt_lim_minus; [|apply dexpn]. apply derivable_pt_lim_plus; [|apply (dmon (1 / 24) 4)].
    apply derivable_pt_lim_minus; [|apply (dmon (1 / 6) 3)].
    apply derivable_pt_lim_plus; [|apply (dmon (1 / 2) 2)]. apply derivable_pt_lim_minus; [apply dconst|apply derivable_pt_lim_id].
  - rewrite Ropp_0, exp_0. ring.
  - intros t T. pose proof (e3 t T). unfold T3 in *. cbn in *. lra.
Qed.

(** * The damped relative velocity *)
Lemma damped_unique ts da x : ts <> 0 -> damped ts da x -> forall t, x t = da * ts + (x 0 - da * ts) * exp (- (t / ts)).
Proof.
  intros T D t.
  set (g := fun s => (x s - da * ts) * exp (s / ts)).
  assert (G : forall s, derivable_pt_lim g s 0).
  { intros s. eapply dpoly.
    - apply derivable_pt_lim_mult.
      + apply derivable_pt_lim_minus; [apply D|apply dconst].
      + apply (derivable_pt_lim_comp (fun u => u / ts) exp).
        * eapply dpoly; [|symmetry; apply Rmult_1_l]. instantiate (1 := / ts).
          eapply dpoly; [|apply Rmult_1_l]. apply (derivable_pt_lim_ext (fun u => / ts * u)); [intros; unfold Rdiv; ring|].
          eapply dpoly; [apply dlin|ring].
        * apply derivable_pt_lim_exp.
    - unfold comp. cbn beta. field. exact T. }
  assert (C : forall s, g s = g 0).
  { intros s. destruct (Rtotal_order 0 s) as [L|[<-|L]]; auto.
    - destruct (MVT_cor2 g (fun _ => 0) 0 s L (fun c _ => G c)) as (c & E & _). lra.
    - destruct (MVT_cor2 g (fun _ => 0) s 0 L (fun c _ => G c)) as (c & E & _). lra. }
  specialize (C t). unfold g in C. replace (0 / ts) with 0 in C by (unfold Rdiv; ring). rewrite exp_0, Rmult_1_r in C.
  rewrite <- C, Rmult_assoc, <- exp_plus. replace (t / ts + - (t / ts)) with 0 by ring. rewrite exp_0. ring.
Qed.

(** Fraction of the relative velocity lost. *)
Definition loss dt ts := let tau := dt / ts in if rltb (1 / 1000) tau then 1 - exp (- tau) else 1 - T3 tau.
Lemma coeffs_loss dt ts dv da : ts > 0 -> dt >= 0 -> let '(Xi, La) := test_coeffs dt ts in
  ((dv + da * dt) * Xi - da * La) * dt = loss dt ts * (dv - da * ts) + da * dt.
Proof.
  intros T D. unfold test_coeffs, loss. cbv zeta. destruct (rltb _ _) eqn:E.
  - apply rltb_true in E. assert (dt <> 0). { intros ->. unfold Rdiv in E. rewrite Rmult_0_l in E. lra. }
    field. lra.
  - unfold T3. field. lra.
Qed.
Lemma loss_range dt ts : ts > 0 -> dt >= 0 -> 0 <= loss dt ts <= 1.
Proof.
  intros T D. assert (X : 0 <= dt / ts) by (apply Rmult_le_pos; [lra|left; apply Rinv_0_lt_compat; lra]).
  unfold loss. cbv zeta. set (tau := dt / ts) in *. clearbody tau. destruct (rltb _ _) eqn:E.
  - pose proof (exp_pos (- tau)). pose proof (e0 tau X). lra.
  - apply rltb_false in E. unfold T3. assert (0 <= tau ^ 2 <= tau) by (cbn; split; nra).
    assert (0 <= tau ^ 3 <= tau ^ 2). { cbn in *. split; [|nra]. apply Rmult_le_pos; nra. } lra.
Qed.
Lemma loss_exact dt ts : ts > 0 -> dt >= 0 -> Rabs (loss dt ts - (1 - exp (- (dt / ts)))) <= (if rltb (1 / 1000) (dt / ts) then 0 else (dt / ts) ^ 4 / 24).
Proof.
  intros T D. assert (X : 0 <= dt / ts) by (apply Rmult_le_pos; [lra|left; apply Rinv_0_lt_compat; lra]).
  unfold loss. cbv zeta. set (tau := dt / ts) in *. clearbody tau. destruct (rltb _ _).
  - replace (_ - _) with 0 by ring. rewrite Rabs_R0. lra.
  - pose proof (e3 tau X). pose proof (e4 tau X). unfold T4 in *. apply Rabs_le. lra.
Qed.
