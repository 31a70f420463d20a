(** Creation of sinks: src/Nbody/Sinks.cpp:118-355, built without MPI_PARALLEL.  hmin_sink and
    the output are left out; of the star, the fields of [sink] in M_Sink are kept. *)
From Verif Require Import Prelude Vec M_Box M_Sink.
From Coq Require Import Reals.
Local Open Scope R_scope.

(** sink_radius_mode, lines 311-319. *)
Inductive radius_mode := Fixed | Hmult | Kernel.

Section New.
Variables (ndim : nat) (mode : radius_mode) (rho_sink sink_radius kernrange invkernrange : R).
Variables (Nsinkfixed Nsinkmax Nstarmax : Z).

(** Lines 177-199: a sink that excludes the candidate. *)
Definition excludes (p : gas) (sk : sink) : bool :=
  let dr := vsub (g_r p) (s_r sk) in
  let da := vsub (g_a p) (s_a sk) in
  let dv := vsub (g_v p) (s_v sk) in
  let drsqd := dot ndim dr dr in
  let dadr := dot ndim dr da in
  let dvdr := dot ndim dr dv in
  let tff := (1/2) / sqrt (g_rho p) in
  rltb (drsqd / dvdr) tff && rltb 0 dvdr || rltb (g_rho p) (- dadr / drsqd)
  || rltb drsqd ((sink_radius * g_h p + s_radius sk) * (sink_radius * g_h p + s_radius sk)).

(** Lines 157-210: the loop over the particles; [best] is (isink, rho_max). *)
Fixpoint search (n : Z) (sks : list sink) (ps : list gas) (i : Z) (best : Z * R) : res (Z * R) :=
  match ps with
  | [] => Ok best
  | p :: r =>
      if g_dead p then search n sks r (i + 1) best
      else if negb (g_potmin p) then search n sks r (i + 1) best
      else if rltb (g_rho p) rho_sink || rltb (g_rho p) (snd best) then search n sks r (i + 1) best
      else if (g_nstep p =? 0)%Z then UB
      else if negb (Z.rem n (g_nstep p) =? 0)%Z then search n sks r (i + 1) best
      else if negb (existsb (excludes p) sks) && rltb (snd best) (g_rho p) then search n sks r (i + 1) (i, g_rho p)
      else search n sks r (i + 1) best
  end.

(** Lines 311-346 (and mmax, see [mmax] below). *)
Definition new_radius (p : gas) : R :=
  match mode with Fixed => sink_radius | Hmult => sink_radius * g_h p | Kernel => kernrange * g_h p end.
Definition new_sink (p : gas) (mm : R) : sink :=
  {| s_m := g_m p; s_r := g_r p; s_v := g_v p; s_a := g_a p; s_h := invkernrange * new_radius p; s_invh := 1 / g_h p;
     s_nstep := g_nstep p; s_level := g_level p; s_radius := new_radius p; s_angmom := fun _ => 0; s_Ngas := 0; s_mmax := mm;
     s_trot := 0; s_dmdt := 0; s_utot := 0 |}.
(** Lines 245-252. *)
Definition mmax (r : vec) (radius : R) (ps : list gas) : R :=
  fold_left (fun m p => if g_dead p then m else
    let dr := vsub r (g_r p) in if rltb (dot ndim dr dr) (radius * radius) then m + g_m p else m) ps 0.
(** CreateNewSinkParticle, lines 288-355, and lines 245-252, 268-272.  The star is written at
    index Nstar, the sink at index Nsink; the counters are increased afterwards. *)
Definition create (isink : Z) (ps : list gas) (sks : list sink) (Nstar : Z) : res (list gas * list sink * Z) :=
  if ((zlen sks =? Nsinkmax) || (Nstar =? Nstarmax))%Z then Raise
  else
    let! p := aget ps isink in
    let! ps := aset ps isink (swallow p) in
    Ok (ps, sks ++ [new_sink p (mmax (g_r p) (new_radius p) ps)], (Nstar + 1)%Z).
(** The do-while loop, lines 148-275. *)
Fixpoint new_sinks (fuel : nat) (n : Z) (ps : list gas) (sks : list sink) (Nstar : Z) : res (list gas * list sink * Z) :=
  match fuel with
  | O => NoFuel
  | S f =>
      let! (isink, _) := search n sks ps 0 ((-1)%Z, 0) in
      if (0 <=? isink)%Z then let! (ps, sks, Nstar) := create isink ps sks Nstar in new_sinks f n ps sks Nstar
      else Ok (ps, sks, Nstar)
  end.
Definition SearchForNewSinkParticles (n : Z) (ps : list gas) (sks : list sink) (Nstar : Z) : res (list gas * list sink * Z) :=
  if ((Nsinkfixed <=? zlen sks) && negb (Nsinkfixed =? -1))%Z then Ok (ps, sks, Nstar)
  else new_sinks (S (length ps)) n ps sks Nstar.
End New.
