(** What the processes must know about the sinks after the update. *)
From Verif Require Import Prelude Vec M_Balance S_Balance M_Sync.
From Coq Require Import Reals.
Local Open Scope Z_scope.

(** The arrays have their declared sizes. *)
Definition sized (ndim : nat) (x : sinkd) : Prop :=
  length (angmom x) = 3%nat /\ length (st_r x) = ndim /\ length (st_v x) = ndim /\ length (st_a x) = ndim /\
  length (st_r0 x) = ndim /\ length (st_v0 x) = ndim /\ length (st_a0 x) = ndim.
(** Process [r] finds its copy of sink [s] in its own domain. *)
Definition claimed (ndim : nat) (doms : list box) (sinks : list (list sinkd)) (s r : Z) : Prop :=
  exists d l x, aget doms r = Ok d /\ aget sinks r = Ok l /\ aget l s = Ok x /\ inside ndim d (vec_of (st_r x)).
(** The copy of a sink after the update: everything of the owner's copy that other processes need, the rest as before. *)
Definition adopt (x y : sinkd) : sinkd :=
  mksink (menc y) (trad y) (tvisc y) (ketot y) (rotketot y) (gpetot y) (taccrete y) (trot y) (utot y) (dmdt y)
    (angmom y) (st_r y) (st_v y) (st_a y) (st_m y) (st_r0 y) (st_v0 y) (st_a0 y) (dt_internal y) (others x).
