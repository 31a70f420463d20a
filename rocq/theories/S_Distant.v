(** What a limit from distant particles must guarantee. *)
From Verif Require Import Prelude Vec M_Stock.
From Coq Require Import Reals.
Local Open Scope R_scope.

(** Two bodies at [r1], [r2] with velocities [v1], [v2]: the speed at which they approach each
    other (negative when they recede), softened by [s]. *)
Definition closing (ndim : nat) (s : R) (r1 v1 r2 v2 : vec) : R :=
  - dot ndim (vsub r1 r2) (vsub v1 v2) / (norm ndim (vsub r1 r2) + s).

(** The signal speed of the pair, with sound speeds [c1], [c2]. *)
Definition signal (ndim : nat) (s : R) (r1 v1 : vec) (c1 : R) (r2 v2 : vec) (c2 : R) : R :=
  c1 + c2 + closing ndim s r1 v1 r2 v2.

(** The particle of size [h] may take a step of at most (some multiple of) h/V, and the signal
    of the other one needs the time distance/signal to arrive, so V must be at least this. *)
Definition needed (ndim : nat) (s : R) (r1 v1 : vec) (c1 h : R) (r2 v2 : vec) (c2 : R) : R :=
  signal ndim s r1 v1 c1 r2 v2 c2 * h / Rmax (norm ndim (vsub r1 r2)) h.

(** The two are at different places. *)
Definition apart_from (ndim : nat) (r1 r2 : vec) : Prop := exists k, (k < ndim)%nat /\ r1 k <> r2 k.
