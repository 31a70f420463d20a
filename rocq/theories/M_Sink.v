(** Sink particles: src/Nbody/Sinks.cpp:118-769, built without MPI_PARALLEL.  FLOAT values are
    reals.  A star that belongs to a sink is stored in the sink's record. *)
From Verif Require Import Prelude Vec M_Box.
From Coq Require Import Reals.
Local Open Scope R_scope.

(** Headers/Constants.h:73. *)
Definition tiny : R := / 10 ^ 20.

(** The fields of a Particle used by Sinks.cpp. *)
Record gas := { g_m : R; g_r : vec; g_v : vec; g_a : vec; g_u : R; g_h : R; g_rho : R; g_sound : R; g_dt : R;
                g_nstep : Z; g_level : Z; g_levelneib : Z; g_potmin : bool; g_active : bool; g_dead : bool; g_sinkid : Z }.
(** A sink (Headers/Sinks.h:58-109) with its StarParticle: mass, position, velocity,
    acceleration, smoothing length, 1/h, step and level of the star; radius, angular momentum,
    number of gas particles, mmax, trot, dmdt and utot of the sink. *)
Record sink := { s_m : R; s_r : vec; s_v : vec; s_a : vec; s_h : R; s_invh : R; s_nstep : Z; s_level : Z;
                 s_radius : R; s_angmom : vec; s_Ngas : Z; s_mmax : R; s_trot : R; s_dmdt : R; s_utot : R }.

Definition set_sinkid (s : Z) (p : gas) : gas :=
  {| g_m := g_m p; g_r := g_r p; g_v := g_v p; g_a := g_a p; g_u := g_u p; g_h := g_h p; g_rho := g_rho p; g_sound := g_sound p;
     g_dt := g_dt p; g_nstep := g_nstep p; g_level := g_level p; g_levelneib := g_levelneib p; g_potmin := g_potmin p;
     g_active := g_active p; g_dead := g_dead p; g_sinkid := s |}.
Definition set_levelneib (l : Z) (p : gas) : gas :=
  {| g_m := g_m p; g_r := g_r p; g_v := g_v p; g_a := g_a p; g_u := g_u p; g_h := g_h p; g_rho := g_rho p; g_sound := g_sound p;
     g_dt := g_dt p; g_nstep := g_nstep p; g_level := g_level p; g_levelneib := l; g_potmin := g_potmin p;
     g_active := g_active p; g_dead := g_dead p; g_sinkid := g_sinkid p |}.
(** [part.m = 0; part.flags.set(dead); part.flags.unset(active)], lines 697-700 and 349-351. *)
Definition swallow (p : gas) : gas :=
  {| g_m := 0; g_r := g_r p; g_v := g_v p; g_a := g_a p; g_u := g_u p; g_h := g_h p; g_rho := g_rho p; g_sound := g_sound p;
     g_dt := g_dt p; g_nstep := g_nstep p; g_level := g_level p; g_levelneib := g_levelneib p; g_potmin := g_potmin p;
     g_active := false; g_dead := true; g_sinkid := g_sinkid p |}.
(** Headers/Sph.h:108 AccreteMassFromParticle. *)
Definition drain (dm : R) (p : gas) : gas :=
  {| g_m := g_m p - dm; g_r := g_r p; g_v := g_v p; g_a := g_a p; g_u := g_u p; g_h := g_h p; g_rho := g_rho p; g_sound := g_sound p;
     g_dt := g_dt p; g_nstep := g_nstep p; g_level := g_level p; g_levelneib := g_levelneib p; g_potmin := g_potmin p;
     g_active := g_active p; g_dead := g_dead p; g_sinkid := g_sinkid p |}.

Section Sinks.
Variables (ndim : nat) (w0 wpot : R -> R).
Variables (smooth_accretion : Z) (smooth_accrete_frac smooth_accrete_dt alpha_ss mmean : R).

(** Lines 456-459 and 517-519: inside the sink. *)
Definition inside (sk : sink) (p : gas) : bool :=
  let dr := vsub (g_r p) (s_r sk) in rleb (dot ndim dr dr) (s_radius sk * s_radius sk).

(** ** Assignment of particles to sinks, lines 377-378 and 424-468 *)
(** What the loop over sink [s] does with its list [l] of gathered particles: the particles whose
    sinkid it sets to [s], in this order. *)
Definition claims (ps : list gas) (sk : sink) (l : list Z) : res (list Z) :=
  fold_right (fun i acc => let! p := aget ps i in let! acc := acc in
    if g_dead p then Ok acc else if inside sk p then Ok (i :: acc) else Ok acc) (Ok []) l.
(** One assignment [part.sinkid = s] (line 462, in a critical section). *)
Definition claim1 (ps : list gas) (c : Z * Z) : res (list gas) :=
  let '(i, s) := c in let! p := aget ps i in aset ps i (set_sinkid s p).
Fixpoint run_claims (ps : list gas) (cs : list (Z * Z)) : res (list gas) :=
  match cs with [] => Ok ps | c :: r => let! ps := claim1 ps c in run_claims ps r end.

(** The assignments of all sinks, [found s] being the list of sink [s]. *)
Fixpoint all_claims (ps : list gas) (s : Z) (sks : list sink) (found : Z -> list Z) : res (list (Z * Z)) :=
  match sks with
  | [] => Ok []
  | sk :: r =>
      let! c := claims ps sk (found s) in
      let! cs := all_claims ps (s + 1) r found in
      Ok (map (fun i => (i, s)) c ++ cs)
  end.
(** Line 463, after line 378: the number of assignments of each sink. *)
Definition count_claims (cs : list (Z * Z)) (s : Z) : Z := zlen (filter (fun c => snd c =? s)%Z cs).
Definition set_Ngas (N : Z) (sk : sink) : sink :=
  {| s_m := s_m sk; s_r := s_r sk; s_v := s_v sk; s_a := s_a sk; s_h := s_h sk; s_invh := s_invh sk; s_nstep := s_nstep sk;
     s_level := s_level sk; s_radius := s_radius sk; s_angmom := s_angmom sk; s_Ngas := N; s_mmax := s_mmax sk;
     s_trot := s_trot sk; s_dmdt := s_dmdt sk; s_utot := s_utot sk |}.
Fixpoint set_all_Ngas (cs : list (Z * Z)) (s : Z) (sks : list sink) : list sink :=
  match sks with [] => [] | sk :: r => set_Ngas (count_claims cs s) sk :: set_all_Ngas cs (s + 1) r end.

(** ** Accretion by one sink, lines 473-744 *)
(** InsertionSortIds, InlineFuncs.h:227-248, on pairs (id, distance): the next pair is moved
    in front of the larger ones, from the right. *)
Fixpoint insert_rev (x : Z * R) (rev_sorted : list (Z * R)) : list (Z * R) :=
  match rev_sorted with
  | [] => [x]
  | y :: t => if rleb (snd y) (snd x) then x :: rev_sorted else y :: insert_rev x t
  end.
Definition InsertionSortIds (l : list (Z * R)) : list (Z * R) :=
  rev (fold_left (fun acc x => insert_rev x acc) l []).

(** Lines 508-525: the particles of the list that belong to the sink; their levelneib is raised. *)
Fixpoint own_list (s : Z) (sk : sink) (ps : list gas) (l : list Z) : res (list gas * list (Z * R)) :=
  match l with
  | [] => Ok (ps, [])
  | i :: r =>
      let! p := aget ps i in
      if g_dead p then own_list s sk ps r
      else if (g_sinkid p =? s)%Z then
        let dr := vsub (g_r p) (s_r sk) in
        let drsqd := dot ndim dr dr in
        if rltb (s_radius sk * s_radius sk) drsqd then own_list s sk ps r
        else
          let! ps := aset ps i (set_levelneib (Z.max (g_levelneib p) (s_level sk)) p) in
          let! (ps, o) := own_list s sk ps r in Ok (ps, (i, drsqd) :: o)
      else own_list s sk ps r
  end.

(** Lines 535-571: the sums over the particles inside: menc, wnorm, gpetot, rotketot, tvisc,
    trad (ketot is not used). *)
Record esums := { e_menc : R; e_wnorm : R; e_gpe : R; e_rot : R; e_tvisc : R; e_trad : R }.
Definition esum1 (sk : sink) (e : esums) (p : gas) : esums :=
  let dr := vsub (g_r p) (s_r sk) in
  let drsqd := dot ndim dr dr in
  let drmag := sqrt drsqd + tiny in
  let dr := fun k => dr k / drmag in
  let menc := e_menc e + g_m p in
  let dv := vsub (g_v p) (s_v sk) in
  let dvtang := fun k => dv k - dot ndim dv dr * dr k in
  let w := w0 (drmag * s_invh sk) * s_invh sk ^ ndim in
  {| e_menc := menc; e_wnorm := e_wnorm e + g_m p * w / g_rho p;
     e_gpe := e_gpe e + (1/2) * g_m p * (s_m sk + menc) * s_invh sk * wpot (drmag * s_invh sk);
     e_rot := e_rot e + g_m p * dot ndim dvtang dvtang * w / g_rho p;
     e_tvisc := e_tvisc e * Rpower (sqrt drmag / g_sound p / g_sound p) (g_m p);
     e_trad := e_trad e + Rabs (4 * PI * drsqd * g_m p * dot ndim dv dr * w) |}.
Fixpoint enclosed (sk : sink) (ps : list gas) (ids : list Z) (e : esums) : res esums :=
  match ids with
  | [] => Ok e
  | i :: r => let! p := aget ps i in if g_dead p then enclosed sk ps r e else enclosed sk ps r (esum1 sk e p)
  end.
(** Lines 577-618: the mass to be accreted, trot and dmdt. *)
Definition accreted (timestep : R) (sk : sink) (e : esums) : R * R * R :=
  let menc := e_menc e in
  let rotketot := e_rot e * ((1/2) * menc / e_wnorm e) in
  if (smooth_accretion =? 1)%Z then
    let efrac := Rmin (2 * rotketot / e_gpe e) 1 in
    let tvisc := sqrt (s_m sk + menc) * Rpower (e_tvisc e) (1 / menc) / alpha_ss in
    let trad := menc / e_trad e in
    let trot := 2 * PI * sqrt (s_radius sk ^ 3 / (menc + s_m sk)) in
    let taccrete := Rpower trad (1 - efrac) * Rpower tvisc efrac in
    let taccrete := if rltb tiny (s_mmax sk) && rltb (s_mmax sk) menc then taccrete * (s_mmax sk / menc) ^ 2 else taccrete in
    let dt := IZR (s_nstep sk) * timestep in
    let macc := menc * Rmax (1 - exp (- dt / taccrete)) 0 in
    (macc, trot, macc / dt)
  else (menc, s_trot sk, menc / timestep).

(** Lines 637-640 and 695-697: the particle is swallowed whole. *)
Definition whole (trot mtemp : R) (p : gas) : bool :=
  (smooth_accretion =? 0)%Z || rltb (g_m p - mtemp) (smooth_accrete_frac * mmean) || rltb (g_dt p) (smooth_accrete_dt * trot).
(** Lines 627-653.  The sums of m, m r, m v, m a and m u. *)
Record acc := { c_m : R; c_r : vec; c_v : vec; c_a : vec; c_u : R }.
Fixpoint loop1 (trot : R) (ps : list gas) (ids : list Z) (macc : R) (c : acc) : res acc :=
  match ids with
  | [] => Ok c
  | i :: r =>
      let! p := aget ps i in
      if g_dead p then loop1 trot ps r macc c
      else
        let mtemp := Rmin (g_m p) macc in
        let mtemp := if whole trot mtemp p then g_m p else mtemp in
        let macc := macc - mtemp in
        let c := {| c_m := c_m c + mtemp; c_r := fun k => c_r c k + mtemp * g_r p k; c_v := fun k => c_v c k + mtemp * g_v p k;
                    c_a := fun k => c_a c k + mtemp * g_a p k; c_u := c_u c + mtemp * g_u p |} in
        if rltb macc tiny then Ok c else loop1 trot ps r macc c
  end.
(** The contribution m dr x dv to angmom, lines 671-678 and 718-725. *)
Definition add_angmom (m : R) (dr dv : vec) (L : vec) : vec :=
  if (ndim =? 3)%nat then fun k => match k with
    | 0%nat => L 0%nat + m * (dr 1%nat * dv 2%nat - dr 2%nat * dv 1%nat)
    | 1%nat => L 1%nat + m * (dr 2%nat * dv 0%nat - dr 0%nat * dv 2%nat)
    | 2%nat => L 2%nat + m * (dr 0%nat * dv 1%nat - dr 1%nat * dv 0%nat)
    | _ => L k end
  else if (ndim =? 2)%nat then fun k => match k with
    | 2%nat => L 2%nat + m * (dr 0%nat * dv 1%nat - dr 1%nat * dv 0%nat)
    | _ => L k end
  else L.
(** Lines 684-730. *)
Fixpoint loop2 (trot : R) (R0 V0 : vec) (ps : list gas) (ids : list Z) (macc : R) (L : vec) : res (list gas * vec) :=
  match ids with
  | [] => Ok (ps, L)
  | i :: r =>
      let! p := aget ps i in
      if g_dead p then loop2 trot R0 V0 ps r macc L
      else
        let mtemp := Rmin (g_m p) macc in
        let w := whole trot mtemp p in
        let mtemp := if w then g_m p else mtemp in
        let! ps := aset ps i (if w then swallow p else drain mtemp p) in
        let macc := macc - mtemp in
        let L := add_angmom mtemp (vsub (g_r p) R0) (vsub (g_v p) V0) L in
        if rltb macc tiny then Ok (ps, L) else loop2 trot R0 V0 ps r macc L
  end.
(** Lines 489-744 for sink number [s] whose search returned [found] (the empty list if it
    returned -1).  [nnow] is the integer time n. *)
Definition accrete_sink (nnow : Z) (timestep : R) (s : Z) (sk : sink) (ps : list gas) (found : list Z) : res (list gas * sink) :=
  if (s_Ngas sk =? 0)%Z then Ok (ps, sk)
  else if (s_nstep sk =? 0)%Z then UB
  else if negb (Z.rem nnow (s_nstep sk) =? 0)%Z then Ok (ps, sk)
  else
    let! (ps, own) := own_list s sk ps found in
    let ids := map fst (InsertionSortIds own) in
    let! e := enclosed sk ps ids {| e_menc := 0; e_wnorm := 0; e_gpe := 0; e_rot := 0; e_tvisc := 1; e_trad := 0 |} in
    let '(macc, trot, dmdt) := accreted timestep sk e in
    let m := s_m sk in
    let! c := loop1 trot ps ids macc {| c_m := m; c_r := vscal m (s_r sk); c_v := vscal m (s_v sk); c_a := vscal m (s_a sk); c_u := s_utot sk |} in
    let r := fun k => c_r c k / c_m c in
    let v := fun k => c_v c k / c_m c in
    let L := add_angmom m (vsub (s_r sk) r) (vsub (s_v sk) v) (s_angmom sk) in
    let! (ps, L) := loop2 trot r v ps ids macc L in
    Ok (ps, {| s_m := c_m c; s_r := r; s_v := v; s_a := fun k => c_a c k / c_m c; s_h := s_h sk; s_invh := s_invh sk;
               s_nstep := s_nstep sk; s_level := s_level sk; s_radius := s_radius sk; s_angmom := L; s_Ngas := s_Ngas sk;
               s_mmax := s_mmax sk; s_trot := trot; s_dmdt := dmdt; s_utot := c_u c |}).

(** The second parallel loop: the sinks in the order in which the threads take them.  The sinks
    change disjoint sets of particles, see L_Sink. *)
Fixpoint accrete_all (nnow : Z) (timestep : R) (found : Z -> list Z) (order : list Z) (ps : list gas) (sks : list sink) :
  res (list gas * list sink) :=
  match order with
  | [] => Ok (ps, sks)
  | s :: r =>
      let! sk := aget sks s in
      let! (ps, sk) := accrete_sink nnow timestep s sk ps (found s) in
      let! sks := aset sks s sk in
      accrete_all nnow timestep found r ps sks
  end.

(** ** The whole routine, lines 365-769
    A run of the parallel region is determined by: the order [cs] in which the assignments of the
    first loop happen (dynamic scheduling, one critical section each: any permutation of them), the
    order in which the sinks are treated in the second loop, and the lists [found2] found by the
    searches of the second loop (the empty list where the search returns -1, which the code does
    not notice). *)
Definition AccreteMassToSinks (nnow : Z) (timestep : R) (found2 : Z -> list Z) (cs : list (Z * Z)) (order : list Z)
  (ps : list gas) (sks : list sink) : res (list gas * list sink) :=
  let ps := map (set_sinkid (-1)) ps in
  let! ps := run_claims ps cs in
  accrete_all nnow timestep found2 order ps (set_all_Ngas cs 0 sks).
End Sinks.

(** ** The list buffers of the threads, lines 388, 436-452 and 504-505
    [gather N] is the result of GetGatherNeighbourList with room for [N] entries, None for -1. *)
Fixpoint grow (fuel : nat) (gather : Z -> option (list Z)) (N : Z) : res (Z * list Z) :=
  match fuel with
  | O => NoFuel
  | S f => match gather N with Some l => Ok (N, l) | None => grow f gather (N * 2) end
  end.
(** The first loop: pairs (thread, sink) in the order in which they run; [buf] gives the
    size of each thread's buffers.  Returns the sizes and the list of every sink. *)
Fixpoint searches1 (fuel : nat) (gather : Z -> Z -> option (list Z)) (buf : Z -> Z) (sched : list (Z * Z)) :
  res ((Z -> Z) * (Z -> list Z)) :=
  match sched with
  | [] => Ok (buf, fun _ => [])
  | (t, s) :: r =>
      let! (N, l) := grow fuel (gather s) (buf t) in
      let! (buf, f) := searches1 fuel gather (fun t' => if (t' =? t)%Z then N else buf t') r in
      Ok (buf, fun s' => if (s' =? s)%Z then l else f s')
  end.
(** The second loop: one search with the buffers of the thread that treats the sink. *)
Definition search2 (gather : Z -> Z -> option (list Z)) (buf : Z -> Z) (thread : Z -> Z) (s : Z) : list Z :=
  match gather s (buf (thread s)) with Some l => l | None => [] end.
