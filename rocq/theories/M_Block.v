(** Hierarchical block timesteps: Simulation.cpp:1764-2197 ComputeBlockTimesteps, the limiters
    SphLeapfrogKDK.cpp:284-329 and SphLeapfrogDKD.cpp:224-271 CheckTimesteps, the bookkeeping of
    EndTimestep (SphLeapfrogKDK.cpp:258-264, NbodyLeapfrogKDK.cpp:365-371) and the time advance
    of the main loop (SphSimulation.cpp:586-588).

    Simplifications: int is Z (see C16_no_overflow for the range); DOUBLE is R; both hydro and
    nbody are allocated (true in SphSimulation); no MPI; the OpenMP reductions (min, max) are
    folds, every loop body touches only its own particle; variables that are only used for
    diagnostics (dt_min, level_min_hydro) and the asserts (2160-2187, stated as theorems) are
    left out. *)
From Verif Require Import Prelude M_Box M_Level.
From Coq Require Import Reals ZArith List Bool.
Import ListNotations.
Local Open Scope Z_scope.

(** Fields of Particle / NbodyParticle used by the block timestep scheme.  [b_req] is the value
    that hydroint->Timestep(part) (nbody->Timestep for stars) returns for the particle in its
    present state; [b_sink] is sinkid (-1: none, otherwise the index of the sink's star). *)
Record bpart := mkB {
  b_dead : bool; b_level : Z; b_neib : Z; b_nstep : Z; b_nlast : Z;
  b_dt : R; b_dtnext : R; b_end : bool; b_req : R; b_sink : Z
}.
Record bconf := mkK { k_Nlevels : Z; k_istep : Z; k_ldm : Z; k_single : bool }.
Record bstate := mkS {
  s_n : Z; s_nresync : Z; s_lmax : Z; s_lstep : Z;
  s_dtmax : R; s_ts : R; s_t : R; s_h : list bpart; s_s : list bpart
}.

(** (int) pow(2, e): a fraction is truncated to 0. *)
Definition pow2i (e : Z) : Z := if e <? 0 then 0 else 2 ^ e.
(** Constants.h:89 big_number_dp = 9.9e50. *)
Definition big_number : R := (99 * 10 ^ 49)%R.

Definition minreq (l : list bpart) (m : R) : R :=
  fold_left (fun m p => if b_dead p then m else Rmin m (b_req p)) l m.
Definition maxlev (l : list bpart) (m : Z) : Z :=
  fold_left (fun m p => if b_dead p then m else Z.max m (b_level p)) l m.

(** ** n == nresync: Simulation.cpp:1795-1925 *)

(** 1863-1872. *)
Definition resync_star (lmax lstep lmaxh : Z) (dtmax ts0 : R) (p : bpart) : bpart :=
  let level := Z.min (ComputeTimestepLevel (b_req p) dtmax) lmax in
  let level := Z.max level lmaxh in
  let nstep := pow2i (lstep - level) in
  mkB (b_dead p) level (b_neib p) nstep 0 (b_dt p) (IZR nstep * ts0) true (b_req p) (b_sink p).
(** 1877-1886: raise the level of sink neighbours; returns the particle and level_max_hydro. *)
Definition sink_neib (ldm : Z) (stars : list bpart) (p : bpart) (lmaxh : Z) : bpart * Z :=
  if b_sink p =? -1 then (p, lmaxh) else
  match nth_error stars (Z.to_nat (b_sink p)) with
  | Some s =>
    if b_level s - b_level p >? ldm then
      let l := b_level s - ldm in
      (mkB (b_dead p) l (b_level s) (b_nstep p) (b_nlast p) (b_dt p) (b_dtnext p) (b_end p)
         (b_req p) (b_sink p), Z.max lmaxh l)
    else (p, lmaxh)
  | None => (p, lmaxh)
  end.
Fixpoint sink_neibs (ldm : Z) (stars : list bpart) (l : list bpart) (lmaxh : Z) : list bpart * Z :=
  match l with
  | [] => ([], lmaxh)
  | p :: l' => let '(p', m) := sink_neib ldm stars p lmaxh in
               let '(l'', m') := sink_neibs ldm stars l' m in (p' :: l'', m')
  end.
(** 1890-1915: the level is the common one (hydro_single_timestep) or the requested one. *)
Definition resync_hydro (c : bconf) (lmax lstep lmaxh : Z) (dtmax ts0 : R) (p : bpart) : bpart :=
  if b_dead p then p else
  let level := if k_single c then lmaxh else Z.min (ComputeTimestepLevel (b_req p) dtmax) lmax in
  let nstep := pow2i (lstep - level) in
  mkB false level level nstep 0 (b_dt p) (IZR nstep * ts0) true (b_req p) (b_sink p).

Definition CBT_resync (c : bconf) (st : bstate) : bstate :=
  let dth := minreq (s_h st) big_number in
  let ts0 := Rmin (minreq (s_h st) big_number) (minreq (s_s st) big_number) in
  let lmax := k_Nlevels c - 1 in
  let lstep := lmax + k_istep c - 1 in
  let dtmax := (ts0 * 2 ^ (Z.to_nat lmax))%R in
  let lmaxh0 := Z.min (ComputeTimestepLevel dth dtmax) lmax in
  let stars := map (resync_star lmax lstep lmaxh0 dtmax ts0) (s_s st) in
  let '(h1, lmaxh) := sink_neibs (k_ldm c) stars (s_h st) lmaxh0 in
  let h2 := map (resync_hydro c lmax lstep lmaxh dtmax ts0) h1 in
  let nresync := pow2i lstep in
  mkS 0 nresync lmax lstep dtmax (dtmax / IZR nresync) (s_t st) h2 stars.

(** ** n != nresync: Simulation.cpp:1929-2156 *)

(** 1951-1992. *)
Definition next_hydro (c : bconf) (n lstep : Z) (dtmax ts : R) (p : bpart) : bpart :=
  if b_dead p then p else
  if n - b_nlast p =? b_nstep p then
    let level := Z.max (ComputeTimestepLevel (b_req p) dtmax) (b_neib p - k_ldm c) in
    if negb (b_nstep p =? pow2i (lstep - b_level p)) then
      let l := Z.max (b_level p) level in
      let nstep := pow2i (lstep - l) in
      mkB false l l nstep n (b_dt p) (IZR nstep * ts) true (b_req p) (b_sink p)
    else
      let last := b_level p in
      let l := if (level <? last) && (last >? 1) && (Z.rem n (2 * b_nstep p) =? 0) then last - 1
               else if level >? last then level else last in
      let nstep := pow2i (lstep - l) in
      mkB false l level nstep n (b_dt p) (IZR nstep * ts) true (b_req p) (b_sink p)
  else p.
(** 2027-2056. *)
Definition next_star (n lstep lmaxh : Z) (dtmax ts : R) (p : bpart) : bpart :=
  if n - b_nlast p =? b_nstep p then
    let last := b_level p in
    let level := Z.max (ComputeTimestepLevel (b_req p) dtmax) lmaxh in
    let l := if (level <? last) && (level >? lmaxh) && (last >? 1) && (Z.rem n (2 * b_nstep p) =? 0)
             then last - 1
             else if level >? last then level else last in
    let nstep := pow2i (lstep - l) in
    mkB (b_dead p) l (b_neib p) nstep n (b_dt p) (IZR nstep * ts) true (b_req p) (b_sink p)
  else p.

Definition set_level (l : Z) (p : bpart) : bpart :=
  mkB (b_dead p) l (b_neib p) (b_nstep p) (b_nlast p) (b_dt p) (b_dtnext p) (b_end p) (b_req p) (b_sink p).
Definition set_step (nstep nlast : Z) (p : bpart) : bpart :=
  mkB (b_dead p) (b_level p) (b_neib p) nstep nlast (b_dt p) (b_dtnext p) (b_end p) (b_req p) (b_sink p).
Definition live (f : bpart -> bpart) (p : bpart) : bpart := if b_dead p then p else f p.
(** 2088-2094. *)
Definition single_level (c : bconf) (n lmaxh : Z) (p : bpart) : bpart :=
  if k_single c then (if b_nlast p =? n then set_level lmaxh p else p) else p.
(** 2104-2108 and 2120-2124. *)
Definition grow (f : Z) (p : bpart) : bpart := set_step (b_nstep p * f) (b_nlast p * f) p.
Definition shrink (f : Z) (p : bpart) : bpart := set_step (Z.quot (b_nstep p) f) (Z.quot (b_nlast p) f) p.
(** 2138-2154. *)
Definition restep (n lstep : Z) (p : bpart) : bpart :=
  if b_nlast p =? n then set_step (pow2i (lstep - b_level p)) (b_nlast p) p else p.

Definition CBT_next (c : bconf) (st : bstate) : bstate :=
  let n := s_n st in let old := s_lmax st in let lstep := s_lstep st in
  let h1 := map (next_hydro c n lstep (s_dtmax st) (s_ts st)) (s_h st) in
  let lmaxh := maxlev h1 0 in
  let s1 := map (next_star n lstep lmaxh (s_dtmax st) (s_ts st)) (s_s st) in
  let lmax1 := Z.max (maxlev h1 0) (maxlev s1 0) in
  let h2 := map (live (single_level c n lmaxh)) h1 in
  let istep := pow2i (lstep - old + 1) in
  let '(n', lmax, h3, s3) :=
    if lmax1 >? old then
      let f := pow2i (lmax1 - old) in (n * f, lmax1, map (live (grow f)) h2, map (grow f) s1)
    else if (lmax1 <=? old - 1) && (old >? 1) && (Z.rem n istep =? 0) then
      let f := pow2i (old - (old - 1)) in
      (Z.quot n f, old - 1, map (live (shrink f)) h2, map (shrink f) s1)
    else (n, old, h2, s1) in
  let lstep' := lmax + k_istep c - 1 in
  let nresync := pow2i lstep' in
  mkS n' nresync lmax lstep' (s_dtmax st) (s_dtmax st / IZR nresync) (s_t st)
    (map (live (restep n' lstep')) h3) (map (restep n' lstep') s3).

(** Simulation.cpp:1795. *)
Definition ComputeBlockTimesteps (c : bconf) (st : bstate) : bstate :=
  if s_n st =? s_nresync st then CBT_resync c st else CBT_next c st.

(** ** The limiter *)

(** SphLeapfrogKDK.cpp:306-325; [None] is the division by zero of dn%nnewstep.  The second
    component tells whether the particle was counted in activecount. *)
Definition KDK_Check (ldm lstep n : Z) (p : bpart) : option (bpart * bool) :=
  if b_dead p then Some (p, false) else
  let dn := n - b_nlast p in
  if dn =? b_nstep p then Some (p, false) else
  if b_neib p - b_level p >? ldm then
    let level_new := b_neib p - ldm in
    let nnew := pow2i (lstep - level_new) in
    if nnew =? 0 then None else
    if Z.rem dn nnew =? 0 then
      Some (set_level level_new (if dn >? 0 then set_step dn (b_nlast p) p else p), true)
    else Some (p, false)
  else Some (p, false).
(** SphLeapfrogDKD.cpp:247-267. *)
Definition DKD_Check (ldm lstep n : Z) (p : bpart) : option (bpart * bool) :=
  if b_dead p then Some (p, false) else
  let dn := n - b_nlast p in
  if dn =? b_nstep p then Some (p, false) else
  if b_neib p - b_level p >? ldm then
    let level_new := b_neib p - ldm in
    let nnew := pow2i (lstep - level_new) in
    if nnew =? 0 then None else
    if Z.rem (2 * dn) nnew =? 0 then
      Some (set_level level_new (if dn >? 0 then set_step dn (b_nlast p) p else p), true)
    else Some (p, false)
  else Some (p, false).
(** The loop over particles with the reduction of activecount. *)
Fixpoint Checks (f : bpart -> option (bpart * bool)) (l : list bpart) : option (list bpart * Z) :=
  match l with
  | [] => Some ([], 0)
  | p :: l' => match f p, Checks f l' with
               | Some (p', b), Some (l'', k) => Some (p' :: l'', (if b : bool then 1 else 0) + k)
               | _, _ => None
               end
  end.

(** ** End of step and time advance *)
Definition end_step (n : Z) (p : bpart) : bpart :=
  if b_end p then
    mkB (b_dead p) (b_level p) (b_neib p) (b_nstep p) n (b_dtnext p) 0 false (b_req p) (b_sink p)
  else p.
Definition EndTimesteps (st : bstate) : bstate :=
  mkS (s_n st) (s_nresync st) (s_lmax st) (s_lstep st) (s_dtmax st) (s_ts st) (s_t st)
    (map (live (end_step (s_n st))) (s_h st)) (map (end_step (s_n st)) (s_s st)).
(** SphSimulation.cpp:586-588. *)
Definition tick (st : bstate) : bstate :=
  mkS (s_n st + 1) (s_nresync st) (s_lmax st) (s_lstep st) (s_dtmax st) (s_ts st)
    (s_t st + s_ts st) (s_h st) (s_s st).

(** ** The main loop as a relation: everything that is not modelled is arbitrary *)

(** The force calculation raises levelneib to at most the level of some live particle or star
    (GradhSph.cpp:445-446, GradhSphTree.cpp:405-416, Sinks.cpp:523) or, in the meshless scheme,
    also resets it (MeshlessFVTree.cpp:442). *)
Definition neib_part (top : Z) (p q : bpart) : Prop :=
  exists m, m <= Z.max (b_neib p) top /\
  q = mkB (b_dead p) (b_level p) m (b_nstep p) (b_nlast p) (b_dt p) (b_dtnext p) (b_end p) (b_req p) (b_sink p).
Definition top_level (st : bstate) : Z := Z.max (maxlev (s_h st) 0) (maxlev (s_s st) 0).
Definition with_h (st : bstate) (h : list bpart) : bstate :=
  mkS (s_n st) (s_nresync st) (s_lmax st) (s_lstep st) (s_dtmax st) (s_ts st) (s_t st) h (s_s st).
Inductive neibs (st : bstate) : bstate -> Prop :=
  neibs_intro : forall h, Forall2 (neib_part (top_level st)) (s_h st) h -> neibs st (with_h st h).
(** Forces, accretion and cooling change the particle state, hence the requested timestep, may
    kill particles, may bind particles to sinks, and may turn a live particle into a new star with
    the same level, nstep, nlast and dt (Sinks.cpp:329-333). *)
Definition env_part (kill : bool) (p q : bpart) : Prop :=
  exists d r s, (0 < r)%R /\ (b_dead p = true -> d = true) /\ (kill = false -> d = b_dead p) /\
  q = mkB d (b_level p) (b_neib p) (b_nstep p) (b_nlast p) (b_dt p) (b_dtnext p) (b_end p) r s.
Inductive env (st : bstate) : bstate -> Prop :=
  env_intro : forall h s new, Forall2 (env_part true) (s_h st) h -> Forall2 (env_part false) (s_s st) s ->
  Forall (fun q => b_dead q = false /\ (0 < b_req q)%R /\ exists p, In p (s_h st) /\ b_dead p = false /\
            b_level q = b_level p /\ b_nstep q = b_nstep p /\ b_nlast q = b_nlast p /\ b_dt q = b_dt p /\
            b_end q = false) new ->
  env st (mkS (s_n st) (s_nresync st) (s_lmax st) (s_lstep st) (s_dtmax st) (s_ts st) (s_t st) h (s ++ new)).
(** SphSimulation.cpp:674-757: forces and limiter repeat until no step is shortened. *)
Inductive rounds (c : bconf) (chk : Z -> Z -> Z -> bpart -> option (bpart * bool)) (st : bstate) : bstate -> Prop :=
| rounds_last : forall st1 h, neibs st st1 ->
    Checks (chk (k_ldm c) (s_lstep st1) (s_n st1)) (s_h st1) = Some (h, 0) -> rounds c chk st (with_h st1 h)
| rounds_more : forall st1 h k st2, neibs st st1 ->
    Checks (chk (k_ldm c) (s_lstep st1) (s_n st1)) (s_h st1) = Some (h, k) -> 0 < k ->
    rounds c chk (with_h st1 h) st2 -> rounds c chk st st2.
(** One pass of the main loop. *)
Inductive pass (c : bconf) (chk : Z -> Z -> Z -> bpart -> option (bpart * bool)) (st : bstate) : bstate -> Prop :=
  pass_intro : forall st1 st2 st3, rounds c chk (tick st) st1 -> neibs st1 st2 -> env st2 st3 ->
    pass c chk st (EndTimesteps (ComputeBlockTimesteps c st3)).
(** Start of a run: n = nresync, so that the first call synchronises; then any number of passes. *)
Inductive run (c : bconf) (chk : Z -> Z -> Z -> bpart -> option (bpart * bool)) : bstate -> Prop :=
| run_start : forall st, s_n st = s_nresync st ->
    Forall (fun p => 0 < b_req p)%R (s_h st) -> Forall (fun p => 0 < b_req p)%R (s_s st) ->
    Forall (fun p => b_dead p = false) (s_s st) ->
    run c chk (EndTimesteps (ComputeBlockTimesteps c st))
| run_pass : forall st st', run c chk st -> pass c chk st st' -> run c chk st'.

(** States in which the pass from [st] calls CheckTimesteps. *)
Inductive checking (c : bconf) (chk : Z -> Z -> Z -> bpart -> option (bpart * bool)) (st : bstate) : bstate -> Prop :=
| checking_first : forall st1, neibs (tick st) st1 -> checking c chk st st1
| checking_again : forall st1 h k st2, checking c chk st st1 ->
    Checks (chk (k_ldm c) (s_lstep st1) (s_n st1)) (s_h st1) = Some (h, k) -> 0 < k ->
    neibs (with_h st1 h) st2 -> checking c chk st st2.
(** States in which the pass from [st] calls ComputeBlockTimesteps. *)
Definition choosing (c : bconf) (chk : Z -> Z -> Z -> bpart -> option (bpart * bool)) (st st3 : bstate) : Prop :=
  exists st1 st2, rounds c chk (tick st) st1 /\ neibs st1 st2 /\ env st2 st3.
