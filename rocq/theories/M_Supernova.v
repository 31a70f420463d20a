(** Supernovae: Feedback/Supernova.cpp, Feedback/SupernovaDriver.cpp,
    Hydrodynamics.cpp:132-180 CreateNewParticle, Ic.cpp:465-495 AddRandomSphere and the call in
    SphSimulation.cpp:601-604.  FLOAT is R. *)
From Verif Require Import Prelude Vec M_Box M_Leapfrog.
From Coq Require Import Reals.
Local Open Scope R_scope.

(** Constants.h: small_number. *)
Definition small_number : R := / 10 ^ 20.

(** A gas particle: the fields of the integrator and the mass. *)
Record spart := mksp { s_l : lpart; s_m : R }.
(** The arrays: real particles, the ghosts stored behind them, and Nhydromax. *)
Record gas := mkg { g_real : list spart; g_ghost : list spart; g_max : Z }.

(** Ic.cpp:484-490; [rs] are the random numbers still to come.  Result: one point of the unit
    ball and the number of random numbers used. *)
Fixpoint random_point (fuel ndim : nat) (rs : nat -> R) (i : nat) : res (vec * nat) :=
  match fuel with
  | O => NoFuel
  | S fuel =>
      let rpos : vec := fun k => 1 - 2 * rs (i + k)%nat in
      if rltb 1 (dot ndim rpos rpos) then random_point fuel ndim rs (i + ndim)%nat
      else Ok (rpos, (i + ndim)%nat)
  end.
(** Ic.cpp:481-491. *)
Fixpoint AddRandomSphere (fuel ndim Npart : nat) (rcentre : vec) (radius : R) (rs : nat -> R) (i : nat) : res (list vec * nat) :=
  match Npart with
  | O => Ok ([], i)
  | S n =>
      let! (p, i) := random_point fuel ndim rs i in
      let! (l, i) := AddRandomSphere fuel ndim n rcentre radius rs i in
      Ok ((fun k => rcentre k + radius * p k) :: l, i)
  end.

(** Hydrodynamics.cpp:132-180.  1.2*Nhydromax truncated; AllocateMemory (GradhSph.cpp:83-111)
    does nothing unless asked for more.  The first ghost is overwritten (ghosts are made anew
    afterwards).  [level_max], [nstep] = 2^(level_step - level_max), [n], [t]: the simulation. *)
Definition grow (max : Z) : Z := let n := (12 * max / 10)%Z in if (n >? max)%Z then n else max.
Definition new_particle (n nstep : Z) (t m u : R) (r v : vec) : spart :=
  mksp (mkLP false true false r v (fun _ => 0) r v (fun _ => 0) u u 0 0 0 0 (n - nstep) nstep t 0 0) m.
Definition CreateNewParticle (n nstep : Z) (t m u : R) (r v : vec) (g : gas) : res gas :=
  let max := if (zlen (g_real g) >=? g_max g)%Z then grow (g_max g) else g_max g in
  if (zlen (g_real g) >=? max)%Z then UB
  else Ok (mkg (g_real g ++ [new_particle n nstep t m u r v]) (tl (g_ghost g)) max).

(** Supernova.cpp:131-144: an existing particle is heated and thrown outwards. *)
Definition heat_one (ndim : nat) (SNpos : vec) (vrad uinj : R) (p : spart) : spart :=
  let l := s_l p in
  let dr := vsub (l_r l) SNpos in
  let drmag := sqrt (dot ndim dr dr) + small_number in
  mksp (mkLP (l_dead l) (l_active l) (l_end l) (l_r l) (fun k => (l_r l k - SNpos k) / drmag * vrad) (fun _ => 0)
          (l_r0 l) (l_v0 l) (l_a0 l) (l_u l + uinj) (l_u0 l) (l_dudt l) (l_dudt0 l) (l_alpha l) (l_dalphadt l)
          (l_nlast l) (l_nstep l) (l_tlast l) (l_dt l) (l_dtnext l)) (s_m p).
(** Supernova.cpp:125-145: the list of neighbours indexes real particles and ghosts. *)
Fixpoint heat (ndim : nat) (SNpos : vec) (vrad uinj : R) (neib : list Z) (g : gas) : res gas :=
  match neib with
  | [] => Ok g
  | i :: l =>
      let! g' :=
        (if (i <? zlen (g_real g))%Z then
           let! p := aget (g_real g) i in
           let! ps := aset (g_real g) i (heat_one ndim SNpos vrad uinj p) in Ok (mkg ps (g_ghost g) (g_max g))
         else
           let j := (i - zlen (g_real g))%Z in
           let! p := aget (g_ghost g) j in
           let! ps := aset (g_ghost g) j (heat_one ndim SNpos vrad uinj p) in Ok (mkg (g_real g) ps (g_max g))) in
      heat ndim SNpos vrad uinj l g'
  end.
(** Supernova.cpp:149-159. *)
Fixpoint inject (ndim : nat) (n nstep : Z) (t mmean vrad uinj : R) (SNpos : vec) (pos : list vec) (g : gas) : res gas :=
  match pos with
  | [] => Ok g
  | r :: l =>
      let dr := vsub r SNpos in
      let drmag := sqrt (dot ndim dr dr) + small_number in
      let! g' := CreateNewParticle n nstep t mmean uinj r (fun k => (r k - SNpos k) / drmag * vrad) g in
      inject ndim n nstep t mmean vrad uinj SNpos l g'
  end.

(** Supernova.cpp:71; (int) of a non-negative number. *)
Definition Ninject (Minj mmean : R) : Z := Int_part (Minj / mmean).
(** Supernova.cpp:116-119. *)
Definition vrad_mag (nSN : Z) (mmean Einj R_therm_kin : R) : R := sqrt (2 / IZR nSN / mmean * Einj * 1 / (R_therm_kin + 1)).
Definition u_inj (nSN : Z) (mmean Einj R_therm_kin : R) : R :=
  let etherm_mag := (1 / (1 + 1 / R_therm_kin)) * Einj / IZR nSN in etherm_mag / mmean.

(** Supernova.cpp:53-166; [neib] is the result of GetGatherNeighbourList (M_Gather), of the
    tree and then of the ghost tree. *)
Definition SupernovaInjection (fuel ndim : nat) (n nstep : Z) (t : R) (SNpos : vec) (Einj R_therm_kin Minj Rinj mmean : R)
    (neib : list Z) (rs : nat -> R) (i : nat) (g : gas) : res gas :=
  let! (pos, i) := AddRandomSphere fuel ndim (Z.to_nat (Ninject Minj mmean)) SNpos Rinj rs i in
  let nSN := (Ninject Minj mmean + zlen neib)%Z in
  let vrad := vrad_mag nSN mmean Einj R_therm_kin in
  let uinj := u_inj nSN mmean Einj R_therm_kin in
  let! g := heat ndim SNpos vrad uinj neib g in
  inject ndim n nstep t mmean vrad uinj SNpos pos g.

(** *** Drivers: at each call, the state afterwards and the supernova made, if any. *)
(** SupernovaDriver.cpp:66-95: Nsupernova. *)
Definition single_Update (t : R) (N : nat) : nat * bool :=
  if ((N =? 0)%nat && rleb 1 t)%bool then (S N, true) else (N, false).
(** SupernovaDriver.cpp:106-155: Nsupernova and tnext; tsupernova is 0.5. *)
Definition tsupernova : R := 1 / 2.
Definition random_Update (t : R) (s : nat * R) : (nat * R) * bool :=
  let (N, tnext) := s in
  if rleb tnext t then ((S N, (INR (S N) + 1 / 2) * tsupernova), true) else (s, false).
Definition random_start : nat * R := (0%nat, 1 / 2 * tsupernova).

(** SupernovaDriver.cpp:164-222: the table: the number in the second line, and the rows; an
    entry never written is [None].  The rows are written one after the other whatever the
    number says. *)
Record event := mkev { e_t : R; e_pos : vec; e_E : R }.
Fixpoint fill (rows : list event) (i : Z) (a : list (option event)) : res (list (option event)) :=
  match rows with
  | [] => Ok a
  | e :: l => let! a' := aset a i (Some e) in fill l (i + 1)%Z a'
  end.
Definition read_table (nSN : nat) (rows : list event) : res (list (option event)) := fill rows 0 (repeat None nSN).
(** SupernovaDriver.cpp:225-260; SNpos[1] and SNpos[2] are written in every dimension. *)
Definition silcc_Update (ndim : nat) (table : list (option event)) (t : R) (SNid : Z) : res (Z * option event) :=
  let! e := aget table SNid in
  match e with
  | None => UB
  | Some e =>
      if rleb (e_t e) t then
        if (3 <=? ndim)%nat then Ok ((SNid + 1)%Z, Some e) else UB
      else Ok (SNid, None)
  end.

(** A driver called at a sequence of times. *)
Fixpoint run {A E : Type} (f : R -> A -> A * E) (ts : list R) (s : A) : A * list E :=
  match ts with
  | [] => (s, [])
  | t :: l => let (s, e) := f t s in let (s, es) := run f l s in (s, e :: es)
  end.
Fixpoint silcc_run (ndim : nat) (table : list (option event)) (ts : list R) (SNid : Z) : res (Z * list (R * event)) :=
  match ts with
  | [] => Ok (SNid, [])
  | t :: l =>
      let! (id, e) := silcc_Update ndim table t SNid in
      let! (id, es) := silcc_run ndim table l id in
      Ok (id, match e with Some e => (t, e) :: es | None => es end)
  end.

(** SphSimulation.cpp:592-880 for one particle, with the supernova between the advance and the
    forces; [sn] is what the supernova does to the particle. *)
Definition pass (sn : lpart -> lpart) (c : lconf) (A : vec -> vec) (U : vec -> R) (n : Z) (t timestep : R) (nstep' : Z) (dtn : R) (p : lpart) : lpart :=
  KDK_End c n t (mark_end n nstep' dtn (kick A U (sn (KDK_Advance c n t timestep p)))).
