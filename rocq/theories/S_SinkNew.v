(** When a gas particle may become a sink, and what it then is. *)
From Verif Require Import Prelude Vec M_Box M_Sink.
From Coq Require Import Reals.
Local Open Scope R_scope.

Definition dist2 (ndim : nat) (x y : vec) : R := dot ndim (vsub x y) (vsub x y).
(** The candidate is not disturbed by the sink: its density exceeds the one set by the sink's tide
    (Hill sphere), and spheres of [radius] and of the sink's radius around the two do not overlap. *)
Definition undisturbed (ndim : nat) (radius : R) (p : gas) (sk : sink) : Prop :=
  let dr := vsub (g_r p) (s_r sk) in
  let dvdr := dot ndim dr (vsub (g_v p) (s_v sk)) in
  ~ (0 < dvdr /\ dist2 ndim (g_r p) (s_r sk) / dvdr < (1/2) / sqrt (g_rho p)) /\
  - dot ndim dr (vsub (g_a p) (s_a sk)) / dist2 ndim (g_r p) (s_r sk) <= g_rho p /\
  (radius + s_radius sk)² <= dist2 ndim (g_r p) (s_r sk).
Definition eligible (ndim : nat) (rho_sink sink_radius : R) (n : Z) (sks : list sink) (p : gas) : Prop :=
  g_dead p = false /\ g_potmin p = true /\ rho_sink <= g_rho p /\ 0 < g_rho p /\ Z.rem n (g_nstep p) = 0%Z /\
  forall sk, In sk sks -> undisturbed ndim (sink_radius * g_h p) p sk.
(** The sink has taken over the particle's mass and motion. *)
Definition took_over (p : gas) (sk : sink) : Prop :=
  s_m sk = g_m p /\ s_r sk = g_r p /\ s_v sk = g_v p /\ s_a sk = g_a p /\ s_nstep sk = g_nstep p /\ s_level sk = g_level p /\
  (forall k, s_angmom sk k = 0) /\ s_utot sk = 0.
(** What is left of the particle. *)
Definition gone (p p' : gas) : Prop := g_m p' = 0 /\ g_dead p' = true /\ g_active p' = false /\ g_r p' = g_r p /\ g_v p' = g_v p.
(** Number of live particles. *)
Definition live (ps : list gas) : Z := zlen (filter (fun p => negb (g_dead p)) ps).
(** Sinks do not overlap. *)
Definition apart (ndim : nat) (a b : sink) : Prop := (s_radius a + s_radius b)² <= dist2 ndim (s_r a) (s_r b).
