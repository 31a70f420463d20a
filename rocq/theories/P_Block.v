(** C16, C18, C43: block timesteps. *)
From Verif Require Import Prelude M_Level M_Block S_Block L_Block L_Block4 L_Block5 L_Block6 L_Block7 L_BlockEx.
From Coq Require Import Reals ZArith List Lia Lra.
Import ListNotations.
Local Open Scope Z_scope.

(** ** C16 *)

(** In every state of every run every live particle and every star is inside its own step: a power
    of two that starts at one of its multiples and ends by the resynchronisation. *)
Theorem C16_in_step : forall c st, conf_ok c -> run c KDK_Check st ->
  0 <= s_n st < s_nresync st /\
  forall p, In p (s_s st) \/ In p (s_h st) /\ b_dead p = false -> in_step (s_n st) (s_nresync st) p.
Proof. exact run_in_step. Qed.
Print Assumptions C16_in_step.

(** When new steps are chosen nobody has been carried past the end of their step, and at the
    resynchronisation everybody is exactly at the end. *)
Theorem C16_finish_together : forall c st st3, conf_ok c -> run c KDK_Check st -> choosing c KDK_Check st st3 ->
  forall p, In p (s_s st3) \/ In p (s_h st3) /\ b_dead p = false ->
    not_past_end (s_n st3) p /\ (s_n st3 = s_nresync st3 -> at_end (s_n st3) p).
Proof. exact choosing_not_past. Qed.
Print Assumptions C16_finish_together.

(** A step that has just been chosen is not longer than the request (up to the rounding of the
    constant 1/ln 2 in ComputeTimestepLevel, see C17). *)
Theorem C16_not_longer_than_requested : forall c st, conf_ok c -> run c KDK_Check st ->
  forall p, In p (s_s st) \/ In p (s_h st) /\ b_dead p = false -> b_nlast p = s_n st ->
  (IZR (b_nstep p) * s_ts st <= b_req p * (1 + 1/10^14) ^ Z.to_nat (b_level p))%R.
Proof. exact run_request. Qed.
Print Assumptions C16_not_longer_than_requested.

(** Adding or removing levels does not move the physical clock nor any particle's step; a whole
    block lasts exactly dt_max. *)
Theorem C16_time : forall c st st3, conf_ok c -> run c KDK_Check st -> choosing c KDK_Check st st3 ->
  let st' := ComputeBlockTimesteps c st3 in
  (s_n st3 = s_nresync st3 -> s_n st' = 0 /\ (s_t st' = s_t st - IZR (s_n st) * s_ts st + s_dtmax st)%R) /\
  (s_n st3 <> s_nresync st3 ->
     (s_t st' - IZR (s_n st') * s_ts st' = s_t st - IZR (s_n st) * s_ts st)%R /\
     Forall2 (fun p q => b_dead p = false -> ~ at_end (s_n st3) p ->
       b_level q = b_level p /\ t_start (s_ts st') q = t_start (s_ts st3) p /\ t_end (s_ts st') q = t_end (s_ts st3) p)
       (s_h st3) (s_h st') /\
     Forall2 (fun p q => ~ at_end (s_n st3) p ->
       b_level q = b_level p /\ t_start (s_ts st') q = t_start (s_ts st3) p /\ t_end (s_ts st') q = t_end (s_ts st3) p)
       (s_s st3) (s_s st')).
Proof. exact run_time. Qed.
Print Assumptions C16_time.

(** Stars that start a step are on a level at least as deep as every live hydro particle. *)
Theorem C16_stars_finest : forall c st st3, conf_ok c -> run c KDK_Check st -> choosing c KDK_Check st st3 -> s_n st3 <> s_nresync st3 ->
  let st' := ComputeBlockTimesteps c st3 in
  Forall2 (fun p q => at_end (s_n st3) p -> forall r, In r (s_h st') -> b_dead r = false -> b_level r <= b_level q) (s_s st3) (s_s st').
Proof. exact stars_finest. Qed.
Print Assumptions C16_stars_finest.

(** At the resynchronisation the smallest request of all becomes the length of a step on the
    deepest level, every hydro particle gets the level its request calls for (with
    hydro_single_timestep all get the same), and a star gets the deeper one of the level its own
    request calls for and the level the smallest hydro request calls for; so no star is coarser
    than a hydro particle. *)
Theorem C16_resync_levels : forall c st st3, conf_ok c -> run c KDK_Check st -> choosing c KDK_Check st st3 -> s_n st3 = s_nresync st3 ->
  let st' := ComputeBlockTimesteps c st3 in
  exists mh ms, least_request (s_h st3) big_number mh /\ least_request (s_s st3) big_number ms /\
    s_lmax st' = k_Nlevels c - 1 /\ (s_dtmax st' = Rmin mh ms * 2 ^ Z.to_nat (s_lmax st'))%R /\
    (k_single c = false ->
       Forall2 (fun p q => b_dead p = false -> calls_for (s_dtmax st') (b_req p) (s_lmax st') (b_level q)) (s_h st3) (s_h st')) /\
    (k_single c = true -> exists l, forall q, In q (s_h st') -> b_dead q = false -> b_level q = l) /\
    Forall2 (fun p q => exists l1 l2, calls_for (s_dtmax st') (b_req p) (s_lmax st') l1 /\ calls_for (s_dtmax st') mh (s_lmax st') l2 /\
       b_level q = Z.max l1 l2) (s_s st3) (s_s st') /\
    (k_single c = false -> forall r q, In r (s_h st') -> b_dead r = false -> In q (s_s st') -> b_level r <= b_level q).
Proof. exact resync_levels. Qed.
Print Assumptions C16_resync_levels.

(** In between, a particle at the end of its step wants the level its request calls for, but at
    most level_diff_max above the deepest of its neighbours.  It moves to a deeper level at once; it
    moves up one level if a coarser one is wanted and the clock is at a multiple of the longer step,
    unless its step was cut by the limiter; otherwise it stays.  Stars are not coarser than the
    deepest hydro level [top], and do not move up at all unless the level they want is strictly
    deeper than [top]. *)
Theorem C16_next_levels : forall c st st3, conf_ok c -> run c KDK_Check st -> choosing c KDK_Check st st3 -> s_n st3 <> s_nresync st3 ->
  let st' := ComputeBlockTimesteps c st3 in
  let n := s_n st3 in
  exists top, deepest (s_h st') top /\
  (k_single c = false ->
     Forall2 (fun p q => b_dead p = false -> at_end n p -> exists w0,
       calls_for (s_dtmax st3) (b_req p) (w0 + 1) w0 /\
       let w := Z.max w0 (b_neib p - k_ldm c) in
       let cut := b_nstep p <> 2 ^ (s_lstep st3 - b_level p) in
       moves w (b_level p) (b_level q) (~ cut /\ w < b_level p /\ 1 < b_level p /\ (2 * b_nstep p | n)) /\
       (cut -> b_neib q = b_level q) /\ (~ cut -> b_neib q = w)) (s_h st3) (s_h st')) /\
  (k_single c = true ->
     Forall2 (fun p q => b_dead p = false -> at_end n p -> b_level q = top) (s_h st3) (s_h st')) /\
  Forall2 (fun p q => at_end n p -> exists w0,
       calls_for (s_dtmax st3) (b_req p) (w0 + 1) w0 /\
       let w := Z.max w0 top in
       moves w (b_level p) (b_level q) (top < w < b_level p /\ 1 < b_level p /\ (2 * b_nstep p | n))) (s_s st3) (s_s st').
Proof. exact next_levels. Qed.
Print Assumptions C16_next_levels.

(** With the limiter of the drift-kick-drift scheme the claim is false: a step can start at a
    time that is not its multiple, and a particle can be in the middle of its step at the
    resynchronisation. *)
Theorem C16_DKD_refuted :
  (exists c st p, conf_ok c /\ run c DKD_Check st /\ In p (s_h st) /\ b_dead p = false /\
     b_nlast p = s_n st /\ ~ (b_nstep p | b_nlast p)) /\
  (exists c st st3 p, conf_ok c /\ run c DKD_Check st /\ choosing c DKD_Check st st3 /\ In p (s_h st3) /\ b_dead p = false /\
     s_n st3 = s_nresync st3 /\ ~ at_end (s_n st3) p).
Proof. exact (conj DKD_misaligned DKD_resync). Qed.
Print Assumptions C16_DKD_refuted.

(** ** C18 *)

(** The limiter never fails (no division by zero), does exactly what [limiter_spec] says to every
    particle, and closes as many steps as it reports; hence the loop around it ends after at most
    one round per live particle. *)
Theorem C18_limiter : forall c st st1, conf_ok c -> run c KDK_Check st -> checking c KDK_Check st st1 ->
  exists h k, Checks (KDK_Check (k_ldm c) (s_lstep st1) (s_n st1)) (s_h st1) = Some (h, k) /\
    Forall2 (limiter_spec (k_ldm c) (s_lstep st1) (s_lmax st1) (s_n st1)) (s_h st1) h /\
    Z.of_nat (open_steps (s_n st1) h) + k = Z.of_nat (open_steps (s_n st1) (s_h st1)).
Proof. exact limiter_ok. Qed.
Print Assumptions C18_limiter.

(** The limiter of the drift-kick-drift scheme ends a step at a time that is not a multiple of the
    new step. *)
Theorem C18_DKD_refuted : exists c st st1 h k p, conf_ok c /\ run c DKD_Check st /\ checking c DKD_Check st st1 /\
  Checks (DKD_Check (k_ldm c) (s_lstep st1) (s_n st1)) (s_h st1) = Some (h, k) /\
  In p h /\ b_dead p = false /\ ~ In p (s_h st1) /\ ~ (2 ^ (s_lstep st1 - b_level p) | b_nlast p + b_nstep p).
Proof. exact DKD_limiter. Qed.
Print Assumptions C18_DKD_refuted.

(** With level_diff_max = 0 (outside [conf_ok]) and a sink the limiter divides by zero. *)
Theorem C18_level_diff_zero_refuted : exists c st st1, 2 <= k_Nlevels c /\ k_istep c = 1 /\ k_ldm c = 0 /\ run c KDK_Check st /\
  checking c KDK_Check st st1 /\ Checks (KDK_Check (k_ldm c) (s_lstep st1) (s_n st1)) (s_h st1) = None.
Proof. exact ldm0_divides_by_zero. Qed.
Print Assumptions C18_level_diff_zero_refuted.

(** ** C43 *)

(** Missing for the full claim (dt is the length of the step for every particle): jumps above the
    deepest level so far, steps ended by the limiter, hydro_single_timestep and integration_step = 2;
    in each of these cases it is false (next theorem). *)
Theorem C43_stored_dt_partial : forall c st st3, conf_ok c -> k_single c = false -> run c KDK_Check st -> choosing c KDK_Check st st3 ->
  let st' := EndTimesteps (ComputeBlockTimesteps c st3) in
  (s_n st3 = s_nresync st3 -> k_istep c = 1 ->
     (forall q, In q (s_h st') -> b_dead q = false -> stored_ok (s_ts st') q) /\ (forall q, In q (s_s st') -> stored_ok (s_ts st') q)) /\
  (s_n st3 <> s_nresync st3 ->
     Forall2 (fun p q => b_dead p = false ->
        (at_end (s_n st3) p -> b_level q <= s_lstep st3 -> stored_ok (s_ts st') q) /\
        (~ at_end (s_n st3) p -> stored_ok (s_ts st3) p -> stored_ok (s_ts st') q)) (s_h st3) (s_h st') /\
     Forall2 (fun p q =>
        (at_end (s_n st3) p -> b_level q <= s_lstep st3 -> stored_ok (s_ts st') q) /\
        (~ at_end (s_n st3) p -> stored_ok (s_ts st3) p -> stored_ok (s_ts st') q)) (s_s st3) (s_s st')).
Proof. exact stored_partial. Qed.
Print Assumptions C43_stored_dt_partial.

Theorem C43_limiter_refuted : exists c st st3 p, conf_ok c /\ k_istep c = 1 /\ k_single c = false /\ run c KDK_Check st /\ choosing c KDK_Check st st3 /\
  In p (s_h st3) /\ b_dead p = false /\ at_end (s_n st3) p /\
  (b_dt p = 4 /\ t_end (s_ts st3) p - t_start (s_ts st3) p = 2)%R.
Proof. exact limiter_dt. Qed.
Theorem C43_new_level_refuted : exists c st p, conf_ok c /\ k_istep c = 1 /\ k_single c = false /\ run c KDK_Check st /\
  In p (s_h st) /\ b_dead p = false /\ b_nlast p = s_n st /\ (b_dt p = 0 /\ t_end (s_ts st) p - t_start (s_ts st) p = 1 / 2)%R.
Proof. exact jump_dt. Qed.
Theorem C43_single_timestep_refuted : exists c st p, conf_ok c /\ k_istep c = 1 /\ k_single c = true /\ run c KDK_Check st /\
  In p (s_h st) /\ b_dead p = false /\ b_nlast p = s_n st /\ (b_dt p = 1 /\ t_end (s_ts st) p - t_start (s_ts st) p = 1 / 2)%R.
Proof. exact single_dt. Qed.
Theorem C43_integration_step_refuted : exists c st p, conf_ok c /\ k_istep c = 2 /\ k_single c = false /\ run c KDK_Check st /\
  In p (s_h st) /\ b_dead p = false /\ b_nlast p = s_n st /\ (b_dt p = 8 /\ t_end (s_ts st) p - t_start (s_ts st) p = 4)%R.
Proof. exact istep2_dt. Qed.
Print Assumptions C43_limiter_refuted.
Print Assumptions C43_new_level_refuted.
Print Assumptions C43_single_timestep_refuted.
Print Assumptions C43_integration_step_refuted.

(** Non-trivial runs: a level is added in the middle of a block (n goes from 1 to 2 because the
    clock is rescaled) and the two particles end up on different levels; the limiter acts. *)
Example C16_example : exists t, run (cJ false) KDK_Check (mkS 2 8 3 3 4 (4 / 8) t
   [P0 2 2 2 2 (1 * (4 / 4)) 0 false 1; P0 3 3 1 2 (0 * (4 / 4)) 0 false (1 / 2)] []) /\
   in_step 2 8 (P0 2 2 2 2 (1 * (4 / 4)) 0 false 1).
Proof.
  destruct (J2 false) as [t H]. exists t. split; [exact H|].
  apply (proj2 (C16_in_step (cJ false) _ ltac:(unfold conf_ok, cJ; cbn; lia) H)). right. split; [left; reflexivity | reflexivity].
Qed.
Example C18_example : limiter_spec 1 2 2 2 (P0 0 2 4 0 4 0 false 16) (P0 1 2 2 0 4 0 false 16).
Proof.
  left. unfold must_limit, limited, at_end; cbn. repeat split; try lia; try (exists 1; lia); exists 0; lia.
Qed.
