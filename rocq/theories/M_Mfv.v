(** The meshless finite-volume scheme: exchange of mass, momentum and energy between neighbours,
    src/MeshlessFV/MfvMuscl.cpp:76-250 (ComputeGodunovFlux), src/MeshlessFV/MeshlessFVTree.cpp:486-645
    (UpdateGodunovFluxes), src/MeshlessFV/MfvIntegration.cpp:41-270 (AdvanceParticles, EndTimestep, CheckTimesteps),
    src/MeshlessFV/MeshlessFV.cpp:175-192 (UpdateArrayVariables), src/Headers/MeshlessFV.h:112-118
    (AccreteMassFromParticle).  FLOAT values are reals.  Assertions are left out. *)
From Verif Require Import Prelude Vec M_Box M_Force.
From Coq Require Import Reals.
Local Open Scope R_scope.

(** The fields of a MeshlessFVParticle read by ComputeGodunovFlux; Particle.h:507-567 copies the same for a neighbour. *)
Record gpart := mkgpart { g_r : vec; g_v : vec; g_a : vec; g_h : R; g_ndens : R; g_hfactor : R; g_sound : R; g_B : nat -> vec; g_W : vec;
                  g_grad : nat -> vec; g_alpha : vec; g_bad : bool }.
(** dQ, dQdt and rdmdt of a particle or a copy of it. *)
Record acc := mkacc { q_dQ : vec; q_dQdt : vec; q_rd : vec }.
Definition acc0 : acc := mkacc (fun _ => 0) (fun _ => 0) (fun _ => 0).
(** A particle: besides the above, the fields used by the time integration. *)
Record mpart := mkmpart { m_g : gpart; m_m : R; m_v : vec; m_u : R; m_Q0 : vec; m_q : acc; m_a : vec; m_a0 : vec; m_cool : R; m_dt : R; m_dtnext : R;
                  m_active : bool; m_dead : bool; m_end : bool; m_level : Z; m_nstep : Z; m_nlast : Z; m_lneib : Z }.

Definition vupd (v : vec) (k : nat) (x : R) : vec := fun j => if Nat.eqb j k then x else v j.

Section Mfv.
Variable ndim : nat.
Definition nvar : nat := (ndim + 2)%nat.
Definition irho : nat := ndim.
Definition ietot : nat := S ndim.
Definition ipress : nat := S ndim.

(** src/Hydrodynamics/FV.cpp:79-95 CalculatePrimitiveTimeDerivative. *)
Definition CalculatePrimitiveTimeDerivative (W : vec) (gradW : nat -> vec) (c_s : R) : vec :=
  let divV := sumf ndim (fun i => gradW i i) in
  fun k => if Nat.eqb k irho then - dot ndim W (gradW irho) - W irho * divV
           else if Nat.eqb k ipress then - dot ndim W (gradW ipress) - W irho * c_s * c_s * divV
           else - dot ndim W (gradW k) - gradW ipress k / W irho.

(** The kernel functions; the slope limiter (gradient and change over the distance); the Riemann solver with the
    equation of state; the viscosity; whether particles are static. *)
Variables (w0_s2 w1 : R -> R) (limiter : gpart -> gpart -> vec -> (nat -> vec) * vec) (riemann : vec -> vec -> vec -> vec -> nat -> vec)
  (viscous : vec -> vec -> (nat -> vec) -> (nat -> vec) -> (nat -> vec) -> nat -> vec) (staticParticles : bool).

(** MfvMuscl.cpp:106-139: psitilda of [p] for the separation [draux] (psitildaj; psitildai is that of the neighbour for -draux,
    see [psi_neib]). *)
Definition psi_part (p : gpart) (draux : vec) : vec :=
  let drsqd := dot ndim draux draux in
  let invh := 1 / g_h p in
  let volume := 1 / g_ndens p in
  if negb (g_bad p) then fun k => sumf ndim (fun kk => g_B p k kk * draux kk * g_hfactor p * w0_s2 (drsqd * invh * invh) * volume)
  else
    let dr := sqrt drsqd + small_number in
    let w := g_hfactor p * volume * w1 (dr * invh) in
    fun k => - (draux k / dr) * w.
Definition psi_neib (q : gpart) (draux : vec) : vec :=
  let drsqd := dot ndim draux draux in
  let invh := 1 / g_h q in
  let volume := 1 / g_ndens q in
  if negb (g_bad q) then fun k => 0 - sumf ndim (fun kk => g_B q k kk * draux kk * g_hfactor q * w0_s2 (drsqd * invh * invh) * volume)
  else
    let dr := sqrt drsqd + small_number in
    let w := g_hfactor q * volume * w1 (dr * invh) in
    fun k => (draux k / dr) * w.
(** Lines 141-143. *)
Definition area (p q : gpart) : vec :=
  let draux := vsub (g_r q) (g_r p) in
  fun k => 1 / g_ndens p * psi_part p draux k - 1 / g_ndens q * psi_neib q draux k.
(** Lines 164-173 (175-184 for the neighbour): the state of [p] at the face towards [q], half a step later; the floors of lines 186-190. *)
Definition face_state (p q : gpart) (rface vface : vec) (dt : R) : vec :=
  let '(gradW, dW) := limiter p q (vsub rface (g_r p)) in
  let W := fun k => if Nat.ltb k ndim then g_W p k + dW k - vface k else g_W p k + dW k in
  let Wdot := CalculatePrimitiveTimeDerivative W gradW (g_sound p) in
  let Wdot := fun k => if Nat.ltb k ndim then Wdot k + g_a p k else Wdot k in
  let W := fun k => W k + 1 / 2 * Wdot k * dt in
  fun k => if Nat.eqb k irho then Rmax (W k) small_number else if Nat.eqb k ipress then Rmax (W k) small_number else W k.
(** Lines 145-234: the flux f of each variable, or nothing if the pair is skipped (lines 148-151). *)
Definition pair_flux (p q : gpart) (dt : R) : option vec :=
  let Aij := area p q in
  let Amag := sqrt (dot ndim Aij Aij) in
  if rltb 0 Amag then
    let Aunit := fun k => Aij k / Amag in
    let rface := fun k => 1 / 2 * (g_r p k + g_r q k) in
    let vface := fun k => if staticParticles then 0 else 1 / 2 * (g_v p k + g_v q k) in
    let Wi := face_state p q rface vface dt in
    let Wj := face_state q p rface vface dt in
    let flux := viscous Wi Wj (g_grad p) (g_grad q) (riemann Wi Wj Aunit vface) in
    Some (fun var => dot ndim (flux var) Aij)
  else None.
(** Lines 232-245. *)
Definition exchange (p q : gpart) (dt : R) (x y : acc) : acc * acc :=
  match pair_flux p q dt with
  | None => (x, y)
  | Some f =>
      (mkacc (fun var => q_dQ x var - f var * dt) (fun var => q_dQdt x var - f var) (fun k => q_rd x k - (g_r p k - g_r q k) * f irho * dt),
       mkacc (fun var => q_dQ y var + f var * dt) (fun var => q_dQdt y var + f var) (fun k => q_rd y k + (g_r p k - g_r q k) * f irho * dt))
  end.
(** ComputeGodunovFlux; [nd] are the copies of the neighbours' sums, [l] the neighbours with their places there.  A neighbour
    may have been moved to its nearest image, so its data are given with the list. *)
Fixpoint ComputeGodunovFlux (p : gpart) (dt : R) (l : list (Z * gpart)) (x : acc) (nd : list acc) : res (acc * list acc) :=
  match l with
  | [] => Ok (x, nd)
  | (j, q) :: l =>
      let! y := aget nd j in
      let '(x, y) := exchange p q dt x y in
      let! nd := aset nd j y in
      ComputeGodunovFlux p dt l x nd
  end.

(** A cell with active particles: its active particles (activelist), each with its neighbour list (empty if its type has no
    hydro forces), and for each entry of the neighbour manager the index of the particle and whether it is a mirror image. *)
Record cell := mkcell { c_act : list (Z * list (Z * gpart)); c_neib : list (Z * bool) }.
(** MeshlessFVTree.cpp:552-589; the list of activepart sums with their indices is returned. *)
Fixpoint cell_loop (timestep : R) (parts : list mpart) (act : list (Z * list (Z * gpart))) (nd : list acc) : res (list (Z * acc) * list acc) :=
  match act with
  | [] => Ok ([], nd)
  | (i, l) :: act =>
      let! p := aget parts i in
      let! (x, nd) := ComputeGodunovFlux (m_g p) (timestep * IZR (m_nstep p)) l acc0 nd in
      let! (xs, nd) := cell_loop timestep parts act nd in
      Ok ((i, x) :: xs, nd)
  end.
Definition acc_add (with_dt : bool) (b x : acc) : acc :=
  mkacc (fun k => q_dQ b k + q_dQ x k) (if with_dt then fun k => q_dQdt b k + q_dQdt x k else q_dQdt b) (fun k => q_rd b k + q_rd x k).
(** Lines 591-603; the copy has the flags of the particle. *)
Fixpoint add_neibs (parts : list mpart) (neib : list (Z * bool)) (nd : list acc) (buf : list acc) : res (list acc) :=
  match neib, nd with
  | [], [] => Ok buf
  | (i, mirror) :: neib, y :: nd =>
      if mirror then add_neibs parts neib nd buf
      else
        let! p := aget parts i in
        let! b := aget buf i in
        let! buf := aset buf i (acc_add (m_active p) b y) in
        add_neibs parts neib nd buf
  | _, _ => UB
  end.
(** Lines 604-610. *)
Fixpoint add_actives (xs : list (Z * acc)) (buf : list acc) : res (list acc) :=
  match xs with
  | [] => Ok buf
  | (i, x) :: xs => let! b := aget buf i in let! buf := aset buf i (acc_add true b x) in add_actives xs buf
  end.
Fixpoint do_cells (timestep : R) (parts : list mpart) (cells : list cell) (buf : list acc) : res (list acc) :=
  match cells with
  | [] => Ok buf
  | c :: cells =>
      let! (xs, nd) := cell_loop timestep parts (c_act c) (map (fun _ => acc0) (c_neib c)) in
      let! buf := add_neibs parts (c_neib c) nd buf in
      let! buf := add_actives xs buf in
      do_cells timestep parts cells buf
  end.
Definition set_acc (p : mpart) (q : acc) : mpart :=
  mkmpart (m_g p) (m_m p) (m_v p) (m_u p) (m_Q0 p) q (m_a p) (m_a0 p) (m_cool p) (m_dt p) (m_dtnext p) (m_active p) (m_dead p) (m_end p) (m_level p) (m_nstep p) (m_nlast p) (m_lneib p).
(** Lines 616-627, one thread. *)
Fixpoint add_back (parts : list mpart) (buf : list acc) : res (list mpart) :=
  match parts, buf with
  | [], [] => Ok []
  | p :: parts, b :: buf => let! l := add_back parts buf in Ok (set_acc p (acc_add (m_active p) (m_q p) b) :: l)
  | _, _ => UB
  end.
(** UpdateGodunovFluxes: [threads] lists, in the order in which the threads enter the critical section, the cells treated by
    each, in the order of treatment.  All threads read the particles before the first enters the critical section or
    after: the fields they read are not changed there. *)
Fixpoint critical (parts : list mpart) (bufs : list (list acc)) : res (list mpart) :=
  match bufs with [] => Ok parts | b :: bufs => let! parts := add_back parts b in critical parts bufs end.
Fixpoint all_threads (timestep : R) (parts : list mpart) (threads : list (list cell)) : res (list (list acc)) :=
  match threads with
  | [] => Ok []
  | t :: threads =>
      let! b := do_cells timestep parts t (map (fun _ => acc0) parts) in
      let! bs := all_threads timestep parts threads in
      Ok (b :: bs)
  end.
Definition UpdateGodunovFluxes (timestep : R) (parts : list mpart) (threads : list (list cell)) : res (list mpart) :=
  let! bufs := all_threads timestep parts threads in
  critical parts bufs.

(** ** Time integration *)
(** MeshlessFV.cpp:175-192 UpdateArrayVariables for a type with hydro forces.  ComputeThermalProperties and UpdatePrimitiveVector,
    called after it, change fields of [m_g] (and u with some equations of state) and are left out. *)
Definition UpdateArrayVariables (p : mpart) (Q : vec) : mpart :=
  let m := Q irho in
  let v := fun k => Q k / m in
  let ekin := sumf ndim (fun k => v k * v k) in
  mkmpart (m_g p) m v ((Q ietot - 1 / 2 * m * ekin) / m) (m_Q0 p) (m_q p) (m_a p) (m_a0 p) (m_cool p) (m_dt p) (m_dtnext p) (m_active p) (m_dead p) (m_end p) (m_level p) (m_nstep p) (m_nlast p) (m_lneib p).
Definition set_active (p : mpart) (b : bool) : mpart :=
  mkmpart (m_g p) (m_m p) (m_v p) (m_u p) (m_Q0 p) (m_q p) (m_a p) (m_a0 p) (m_cool p) (m_dt p) (m_dtnext p) b (m_dead p) (m_end p) (m_level p) (m_nstep p) (m_nlast p) (m_lneib p).
(** MfvIntegration.cpp:79-86: the first [n] passes of the loop over k. *)
Fixpoint adv_grav (n : nat) (p : mpart) (dt : R) (Q : vec) : vec :=
  match n with
  | O => Q
  | S k =>
      let Q := adv_grav k p dt Q in
      let Q := vupd Q ietot (Q ietot + 1 / 2 * dt * (m_a0 p k * (m_Q0 p k + 1 / 2 * m_Q0 p irho * m_a0 p k * m_dt p) +
                                                      m_a0 p k * (Q k + 1 / 2 * Q irho * m_a0 p k * m_dt p))) in
      vupd Q k (Q k + 1 / 2 * (m_Q0 p irho + Q irho) * m_a0 p k * dt)
  end.
(** MfvIntegration.cpp:63-109 AdvanceParticles, one particle; the position (a field of [m_g]) is left out. *)
Definition AdvanceParticle (n : Z) (timestep : R) (p : mpart) : mpart :=
  if m_dead p then p
  else
    let dn := (n - m_nlast p)%Z in
    let dt := timestep * IZR dn in
    let ends := (dn =? m_nstep p)%Z in
    let Q := if ends then fun k => m_Q0 p k + q_dQ (m_q p) k else fun k => m_Q0 p k + q_dQdt (m_q p) k * dt in
    let Q := adv_grav ndim p dt Q in
    let Q := vupd Q ietot (Q ietot - m_cool p * dt) in
    UpdateArrayVariables (set_active p ends) Q.
(** Lines 163-170. *)
Fixpoint end_grav (n : nat) (p : mpart) (Q : vec) : vec :=
  match n with
  | O => Q
  | S k =>
      let Q := end_grav k p Q in
      let Q := vupd Q ietot (Q ietot + 1 / 2 * m_dt p * (m_a0 p k * (m_Q0 p k + 1 / 2 * m_Q0 p irho * m_a0 p k * m_dt p) +
                                                         m_a p k * (Q k + 1 / 2 * Q irho * m_a p k * m_dt p))) in
      vupd Q k (Q k + 1 / 2 * m_dt p * (m_Q0 p irho * m_a0 p k + Q irho * m_a p k))
  end.
(** Lines 155-175: the conserved quantities at the end of the step. *)
Definition end_Q (p : mpart) : vec :=
  let Q := end_grav ndim p (fun k => m_Q0 p k + q_dQ (m_q p) k) in
  let Q := vupd Q ietot (Q ietot + 1 / 2 * (dot ndim (m_a0 p) (q_rd (m_q p)) + dot ndim (m_a p) (q_rd (m_q p)))) in
  vupd Q ietot (Q ietot - m_cool p * m_dt p).
(** Lines 142-204 EndTimestep, one particle. *)
Definition EndTimestep (n : Z) (p : mpart) : mpart :=
  if m_dead p then p
  else if ((n - m_nlast p) =? m_nstep p)%Z || m_end p then
    let Q := end_Q p in
    let p' := UpdateArrayVariables p Q in
    mkmpart (m_g p') (m_m p') (m_v p') (m_u p') Q acc0 (m_a p) (m_a p) 0 (m_dtnext p) 0 true (m_dead p) false (m_level p) (m_nstep p) n (m_lneib p)
  else set_active p false.
(** Lines 234-266 CheckTimesteps, one particle; [simple]: time_step_limiter is "simple".  pow(2, level_step - level_new) is an
    integer since level_new does not exceed level_step; a zero nnewstep is a division by zero. *)
Definition CheckTimestep (simple : bool) (level_diff_max level_step n : Z) (tstep : R) (p : mpart) : res mpart :=
  if negb simple then Ok p
  else if m_dead p then Ok p
  else
    let dn := (n - m_nlast p)%Z in
    if (level_diff_max <? m_lneib p - m_level p)%Z then
      let level_new := (m_lneib p - level_diff_max)%Z in
      let nnewstep := (2 ^ (level_step - level_new))%Z in
      if (nnewstep =? 0)%Z then UB
      else if (dn mod nnewstep =? 0)%Z && negb (dn =? m_nstep p)%Z then
        let dt := IZR dn * tstep in
        Ok (mkmpart (m_g p) (m_m p) (m_v p) (m_u p) (m_Q0 p) (mkacc (fun k => dt * q_dQdt (m_q p) k) (q_dQdt (m_q p)) (q_rd (m_q p)))
              (m_a p) (m_a0 p) (m_cool p) dt (m_dtnext p) true (m_dead p) (m_end p) level_new dn (m_nlast p) (m_lneib p))
      else Ok p
    else Ok p.
(** MeshlessFV.h:112-118 AccreteMassFromParticle. *)
Definition AccreteMassFromParticle (dm : R) (p : mpart) : mpart :=
  mkmpart (m_g p) (m_m p - dm) (m_v p) (m_u p) (m_Q0 p)
    (mkacc (fun k => if Nat.eqb k irho then q_dQ (m_q p) k - dm else if Nat.ltb k ndim then q_dQ (m_q p) k - dm * m_v p k else q_dQ (m_q p) k) (q_dQdt (m_q p)) (q_rd (m_q p)))
    (m_a p) (m_a0 p) (m_cool p) (m_dt p) (m_dtnext p) (m_active p) (m_dead p) (m_end p) (m_level p) (m_nstep p) (m_nlast p) (m_lneib p).
End Mfv.
