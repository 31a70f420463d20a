(** Where ghosts of other processes come from and what must come back. *)
From Verif Require Import Prelude Vec M_Store M_Return.
From Coq Require Import Reals.
Local Open Scope Z_scope.

(** [E]: for each process, for each process it exports to, the indices of the exported particles. *)
Definition square {A} (n : Z) (E : list (list A)) : Prop := zlen E = n /\ forall e, In e E -> zlen e = n.
(** Number of particles that the processes of rank lower than [q] export to [r]. *)
Fixpoint before (E : list (list (list Z))) (r : Z) (q : nat) : Z :=
  match E, q with
  | e :: E, S q => (match aget e r with Ok l => zlen l | _ => 0 end) + before E r q
  | _, _ => 0
  end.
(** The exported particles exist: real particles and ghosts at the boundary of the box. *)
Definition exports_ok (E : list (list (list Z))) (procs : list proc) : Prop :=
  forall q r l p i, aget2 E q r = Ok l -> aget procs q = Ok p -> In i l -> 0 <= i < Nhydro (store_of p) + nper p.
(** Ghost [i] of process [r] is the copy of particle [e] of process [q]. *)
Definition copy_of (E : list (list (list Z))) (procs : list proc) (r i q e : Z) : Prop :=
  exists p l t, aget procs r = Ok p /\ aget2 E q r = Ok l /\ aget l t = Ok e /\ i = Nhydro (store_of p) + nper p + before E r (Z.to_nat q) + t.
(** The real particle behind a ghost at the boundary of the box. *)
Inductive stands_for (d : list part) (Nh : Z) : Z -> Z -> Prop :=
| real : forall j, 0 <= j < Nh -> stands_for d Nh j j
| image : forall j p k, Nh <= j -> aget d j = Ok p -> stands_for d Nh (piorig p) k -> stands_for d Nh j k.
(** Ghost [i] of process [r] is a copy of the real particle [j] of process [q], perhaps beyond the boundary of the box. *)
Definition comes_from (E : list (list (list Z))) (procs : list proc) (r i q j : Z) : Prop :=
  exists e p, copy_of E procs r i q e /\ aget procs q = Ok p /\ stands_for (data (store_of p)) (Nhydro (store_of p)) e j.
