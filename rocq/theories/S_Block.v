(** What the block timestep scheme promises about one particle, in terms of the integer clock. *)
From Verif Require Import Prelude M_Block.
From Coq Require Import Reals ZArith List.
Local Open Scope Z_scope.

(** Between two passes of the main loop the clock [n] is inside the particle's own step, which is a
    power of two, starts at one of its multiples and ends no later than the resynchronisation. *)
Definition in_step (n nresync : Z) (p : bpart) : Prop :=
  (exists k, 0 <= k /\ b_nstep p = 2 ^ k) /\ (b_nstep p | b_nlast p) /\
  0 <= b_nlast p /\ b_nlast p <= n < b_nlast p + b_nstep p /\ b_nlast p + b_nstep p <= nresync.
(** After the clock has advanced: not past the end of the step. *)
Definition not_past_end (n : Z) (p : bpart) : Prop := b_nlast p < n <= b_nlast p + b_nstep p.
Definition at_end (n : Z) (p : bpart) : Prop := n = b_nlast p + b_nstep p.

(** Sensible configurations: at least two levels, one or two ticks per smallest step
    (integration_step), neighbours at least one level apart (level_diff_max). *)
Definition conf_ok (c : bconf) : Prop :=
  2 <= k_Nlevels c /\ (k_istep c = 1 \/ k_istep c = 2) /\ 1 <= k_ldm c.

(** Live particles that have not reached the end of their step. *)
Definition open_step (n : Z) (p : bpart) : bool := negb (b_dead p) && negb (n - b_nlast p =? b_nstep p).
Definition open_steps (n : Z) (l : list bpart) : nat := length (filter (open_step n) l).

(** What the limiter must do to a particle, given the levels of its neighbours: if the largest of
    them is more than [ldm] above its own, it has not finished its step and the clock is at a
    multiple of the step it should have, its step ends now and it moves to the level that is
    exactly [ldm] below; in all other cases nothing changes. *)
Definition must_limit (ldm lstep n : Z) (p : bpart) : Prop :=
  b_dead p = false /\ b_neib p - b_level p > ldm /\ n <> b_nlast p + b_nstep p /\
  (2 ^ (lstep - (b_neib p - ldm)) | n).
Definition limited (ldm lstep lmax n : Z) (p q : bpart) : Prop :=
  b_nlast q = b_nlast p /\ at_end n q /\ 0 < b_nstep q < b_nstep p /\
  b_level p < b_level q <= lmax /\ b_neib q - b_level q = ldm /\ b_neib q = b_neib p /\
  (2 ^ (lstep - b_level q) | n) /\ (2 ^ (lstep - b_level q) | b_nlast q) /\
  b_dead q = false /\ b_dt q = b_dt p /\ b_dtnext q = b_dtnext p /\ b_end q = b_end p /\ b_req q = b_req p /\ b_sink q = b_sink p.
Definition limiter_spec (ldm lstep lmax n : Z) (p q : bpart) : Prop :=
  (must_limit ldm lstep n p /\ limited ldm lstep lmax n p q) \/ (~ must_limit ldm lstep n p /\ q = p).

(** Start and end of the particle's step in physical time (since the last resynchronisation). *)
Definition t_start (ts : R) (p : bpart) : R := (IZR (b_nlast p) * ts)%R.
Definition t_end (ts : R) (p : bpart) : R := (IZR (b_nlast p + b_nstep p) * ts)%R.
(** The stored length of the step is its length. *)
Definition stored_ok (ts : R) (p : bpart) : Prop := b_dt p = (t_end ts p - t_start ts p)%R.

(** The smallest of the requests of the live particles in [l], at most [big]. *)
Definition least_request (l : list bpart) (big m : R) : Prop :=
  (m <= big)%R /\ (forall p, In p l -> b_dead p = false -> (m <= b_req p)%R) /\
  (m = big \/ exists p, In p l /\ b_dead p = false /\ b_req p = m).
(** [l] is the level, at most [lmax], that a request of [r] calls for when level 0 has steps of
    length [dtmax]: the step is not longer than [r] (up to 1e-14 per level, see C17), unless the
    levels run out, and it is not shorter than half of [r]; level 1 at most if [r] exceeds [dtmax]. *)
Definition calls_for (dtmax r : R) (lmax l : Z) : Prop :=
  0 <= l <= lmax /\
  (l < lmax -> (dtmax / 2 ^ Z.to_nat l <= r * (1 + 1/10^14) ^ Z.to_nat l)%R) /\
  ((r <= dtmax)%R -> 0 < lmax -> 1 <= l /\ (r <= 2 * (dtmax / 2 ^ Z.to_nat l))%R) /\
  ((dtmax < r)%R -> l <= 1).
(** [t] is the deepest level among the live particles (0 if there is none). *)
Definition deepest (l : list bpart) (t : Z) : Prop :=
  0 <= t /\ (forall p, In p l -> b_dead p = false -> b_level p <= t) /\
  (t = 0 \/ exists p, In p l /\ b_dead p = false /\ b_level p = t).
(** How the level moves at the end of a step when level [w] is wanted: down in one go, up by one
    level at a time and only if [up] holds. *)
Definition moves (w old new : Z) (up : Prop) : Prop :=
  (old < w -> new = w) /\ (w <= old -> up -> new = old - 1) /\ (w <= old -> ~ up -> new = old).
