(** C31: the xorshift random number generator. *)
From Verif Require Import Prelude M_Rand L_Rand.
From Coq Require Import NArith Reals Lra.

Theorem C31_state_bijective : forall y, (y < w64)%N ->
  exists x, (x < w64)%N /\ rng_state x = y /\ forall x', (x' < w64)%N -> rng_state x' = y -> x' = x.
Proof. exact rng_bijective. Qed.
Print Assumptions C31_state_bijective.
Theorem C31_never_zero : forall n x, (x < w64)%N -> x <> 0%N -> N.iter n rng_state x <> 0%N.
Proof. exact iter_nonzero. Qed.
Print Assumptions C31_never_zero.
(** Full period: a nonzero state comes back after 2^64-1 steps and not before. *)
Theorem C31_period : forall x, (x < w64)%N -> N.iter period rng_state x = x.
Proof. exact rng_period_returns. Qed.
Print Assumptions C31_period.
Theorem C31_no_shorter_period : forall x n, (x < w64)%N -> x <> 0%N -> (0 < n < period)%N -> N.iter n rng_state x <> x.
Proof. exact rng_full_period. Qed.
Print Assumptions C31_no_shorter_period.
Theorem C31_output_bijective : forall w, (w < w64)%N -> exists x, (x < w64)%N /\ snd (xorshiftrand x) = w /\
  forall x', (x' < w64)%N -> snd (xorshiftrand x') = w -> x' = x.
Proof. exact output_bijective. Qed.
Print Assumptions C31_output_bijective.
(** Uniform deviates are positive and at most 1 + 3e-15 ... *)
Theorem C31_floatrand_partial : forall seed, (seed < w64)%N -> seed <> 0%N -> forall n,
  (0 < snd (floatrand (N.iter n rng_state seed)) <= 1 + 3 / 1000000000000000)%R.
Proof. intros seed H N0 n. split; [now apply floatrand_positive|apply floatrand_range]. Qed.
Print Assumptions C31_floatrand_partial.
(** ... but not below one. *)
Theorem C31_floatrand_refuted : exists seed, (0 < seed < w64)%N /\ (1 < snd (floatrand (rng_seed seed)))%R.
Proof. exists bad_seed. exact floatrand_exceeds_one. Qed.
Print Assumptions C31_floatrand_refuted.
(** Mean and width are ignored by gaussrand. *)
Theorem C31_gaussrand_refuted : forall seed, (seed < w64)%N -> seed <> 0%N -> forall fuel x g,
  gaussrand (S fuel) 10000000000 0 seed = Ok (x, g) -> g <> 10000000000%R.
Proof. exact gaussrand_ignores. Qed.
Print Assumptions C31_gaussrand_refuted.
Example C31_example : rng_state 1 = 36507222017%N /\ rng_state 0 = 0%N /\ (1 < w64)%N.
Proof. split; [|split]; reflexivity. Qed.
Example C31_gauss_runs : exists x g, gaussrand 1 10000000000 0 1 = Ok (x, g).
Proof. eexists. eexists. apply (gauss_eq 1 10000000000 0); [reflexivity|discriminate]. Qed.
