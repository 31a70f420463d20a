(** C17: ComputeTimestepLevel. *)
From Verif Require Import Prelude M_Level L_Level.
From Coq Require Import Reals ZArith Lra Lia.
Local Open Scope R_scope.

(** The level is non-negative and its step is not longer than dt, up to a relative error of
    1e-14 per level.  Missing: the exact bound, which is false (refuted below: the literal
    for 1/ln 2 is rounded down, so the step can equal or just exceed dt). *)
Theorem C17_step_not_longer_partial : forall dt dt_max, 0 < dt -> 0 < dt_max ->
  let l := ComputeTimestepLevel dt dt_max in
  (0 <= l)%Z /\ dt_max / 2^(Z.to_nat l) < dt * (1 + 1/10^14)^(Z.to_nat l).
Proof. intros dt dm H1 H2. exact (conj (CTL_level dt dm H1 H2) (CTL_upper dt dm H1 H2)). Qed.
Print Assumptions C17_step_not_longer_partial.

(** A timestep of at most dt_max is shortened by at most a factor of two.
    Missing: dt between dt_max and 2 dt_max (refuted below). *)
Theorem C17_not_too_short_partial : forall dt dt_max, 0 < dt <= dt_max ->
  let l := ComputeTimestepLevel dt dt_max in (1 <= l)%Z /\ dt <= dt_max / 2^(Z.to_nat (l - 1)).
Proof. exact CTL_lower. Qed.
Print Assumptions C17_not_too_short_partial.

(** Exact binary fractions: the step equals dt, it is not less than dt. *)
Theorem C17_strict_refuted : forall dt_max k, 0 < dt_max -> (1 <= k)%nat -> (Z.of_nat k < 10^14)%Z ->
  ComputeTimestepLevel (dt_max / 2^k) dt_max = Z.of_nat k.
Proof. exact CTL_pow2. Qed.
Print Assumptions C17_strict_refuted.

(** The cast rounds toward zero, so a timestep of 1.5 dt_max gets level 1, a third of it. *)
Theorem C17_above_refuted : exists dt dt_max, 0 < dt_max /\ dt_max < dt /\
  (0 < ComputeTimestepLevel dt dt_max)%Z /\
  ~ dt <= dt_max / 2^(Z.to_nat (ComputeTimestepLevel dt dt_max - 1)).
Proof.
  exists (3/2 * 4), 4. rewrite CTL_above by lra. repeat split; try lra; try lia.
  cbn [Z.sub Z.to_nat Z.pos_sub Z.opp Z.add pow]. cbn. lra.
Qed.
Print Assumptions C17_above_refuted.

(** Case: a quarter of dt_max is level 2; dt_max/3 is level 2 as well. *)
Example C17_ex : ComputeTimestepLevel (8 / 2^2) 8 = 2%Z.
Proof. apply CTL_pow2; [lra | lia | lia]. Qed.

Theorem C17_longer_refuted : exists dt dt_max, 0 < dt < dt_max /\
  ComputeTimestepLevel dt dt_max = 1%Z /\ dt < dt_max / 2.
Proof. exact CTL_longer. Qed.
Print Assumptions C17_longer_refuted.
