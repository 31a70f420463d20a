(** Totals of gas and sinks. *)
From Verif Require Import Prelude Vec M_Box M_Sink S_Stock.
From Coq Require Import Reals.
Local Open Scope R_scope.

Definition total_mass (ps : list gas) (sks : list sink) : R := lsum g_m ps + lsum s_m sks.
Definition total_momentum (k : nat) (ps : list gas) (sks : list sink) : R :=
  lsum (fun p => g_m p * g_v p k) ps + lsum (fun s => s_m s * s_v s k) sks.
(** Total mass times centre of mass. *)
Definition total_moment (k : nat) (ps : list gas) (sks : list sink) : R :=
  lsum (fun p => g_m p * g_r p k) ps + lsum (fun s => s_m s * s_r s k) sks.
(** The component of the angular momentum in the plane (k,l): of the motion of gas and stars,
    plus the component [c] of the spin stored with the sinks. *)
Definition total_angmom (k l c : nat) (ps : list gas) (sks : list sink) : R :=
  lsum (fun p => g_m p * (g_r p k * g_v p l - g_r p l * g_v p k)) ps +
  lsum (fun s => s_m s * (s_r s k * s_v s l - s_r s l * s_v s k) + s_angmom s c) sks.
(** The planes in which [ndim] dimensions have angular momentum, with the component of the spin
    perpendicular to them. *)
Definition plane (ndim k l c : nat) : Prop :=
  ndim = 3%nat /\ ((k, l, c) = (0, 1, 2)%nat \/ (k, l, c) = (1, 2, 0)%nat \/ (k, l, c) = (2, 0, 1)%nat) \/
  ndim = 2%nat /\ (k, l, c) = (0, 1, 2)%nat.
(** Total of mass times acceleration, and total internal energy. *)
Definition total_force (k : nat) (ps : list gas) (sks : list sink) : R :=
  lsum (fun p => g_m p * g_a p k) ps + lsum (fun s => s_m s * s_a s k) sks.
Definition total_heat (ps : list gas) (sks : list sink) : R :=
  lsum (fun p => g_m p * g_u p) ps + lsum s_utot sks.

(** Masses are possible. *)
Definition masses_ok (ps : list gas) (sks : list sink) : Prop :=
  (forall p, In p ps -> 0 <= g_m p) /\ (forall s, In s sks -> 0 < s_m s).
(** The particles in a list of numbers. *)
Definition valid_ids (ps : list gas) (l : list Z) : Prop := NoDup l /\ forall i, In i l -> (0 <= i < zlen ps)%Z.
