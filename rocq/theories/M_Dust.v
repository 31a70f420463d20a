(** Dust: src/Common/Dust.cpp with the drag laws of src/Headers/DragLaws.h, the types of src/Common/Particle.cpp:44-64 and the two calls
    at start-up of src/Hydrodynamics/SphSimulation.cpp:509-551.  FLOAT and double are R.  A quantity that may become NaN is an
    [option R], None being NaN.  Left out: OpenMP, MPI (lines 652-658, 747-764), the tree walks that make the neighbour lists. *)
From Verif Require Import Prelude Vec M_Box.
From Coq Require Import Reals.
Local Open Scope R_scope.

Inductive kind := Gas | Cdm | Dust.
Definition kind_eqb (a b : kind) : bool := match a, b with Gas, Gas | Cdm, Cdm | Dust, Dust => true | _, _ => false end.
(** Which particle class Dust.cpp is instantiated with. *)
Inductive scheme := Sph | Mfv.
Record dpt := mkd { d_kind : kind; d_dead : bool; d_m : R; d_h : R; d_hdust : R; d_rho : R; d_sound : R; d_divv : R; d_dt : R; d_dtnext : R;
  d_r : vec; d_r0 : vec; d_v : vec; d_v0 : vec; d_a : vec; d_a0 : vec; d_Q0m : R; d_dQ : vec; d_dQe : option R; d_dudt : option R }.

(** DragLaws.h: stopping times; [Kd] is drag_coeff. *)
Inductive law := Fixed | Density | Epstein | LP12.
Definition EpsteinNorm : R := 4699928014933126 / 10 ^ 16.
Definition t_stop (l : law) (Kd grho drho gsound : R) : R :=
  match l with
  | Fixed => 1 / Kd
  | Density => 1 / ((grho + drho) * Kd)
  | Epstein => EpsteinNorm / ((grho + drho) * gsound * Kd)
  | LP12 => drho * grho / ((grho + drho) * Kd)
  end.
(** Particle.cpp:46, 50, 61, 63. *)
Definition drag_forces (k : kind) : bool := match k with Cdm => false | _ => true end.
Definition dragmask (k j : kind) : bool := match k, j with Gas, Dust | Dust, Gas => true | _, _ => false end.

(** Sums in which a NaN may occur. *)
Definition oplus (x y : option R) : option R := match x, y with Some a, Some b => Some (a + b) | _, _ => None end.
Definition oscal (c : R) (x : option R) : option R := option_map (fun a => c * a) x.
Definition odiv (x y : R) : option R := if Req_EM_T y 0 then None else Some (x / y).

Section Dust.
Variable ndim : nat.
Variable sch : scheme.
(** Lines 39-89. *)
Definition init_v (p : dpt) : vec := match sch with Sph => fun k => d_v p k - 1 / 2 * d_dt p * d_a0 p k | Mfv => d_v0 p end.
Definition vdiff (p q : dpt) : vec :=
  match sch with Sph => fun k => (d_v p k - d_v q k) - 1 / 2 * d_dt p * (d_a0 p k - d_a0 q k) | Mfv => fun k => d_v0 p k - d_v0 q k end.
Definition total_accel (p : dpt) : vec :=
  match sch with
  | Sph => d_a p
  | Mfv => fun k => 1 / 2 * (d_a p k + d_a0 p k * d_Q0m p / d_m p) + (if rltb 0 (d_dt p) then d_dQ p k / (d_m p * d_dt p) else 0)
  end.
Definition old_accel (p : dpt) : vec := match sch with Sph => d_a0 p | Mfv => fun _ => 0 end.
(** Lines 175-185, 216-218. *)
Variable w_tstep : R.
Definition drag_timestep (p : dpt) : R := w_tstep * d_dt p + (1 - w_tstep) * d_dtnext p.

(** Lines 91-98. *)
Definition update_sph (p : dpt) (acc : vec) (dudt : option R) : dpt :=
  mkd (d_kind p) (d_dead p) (d_m p) (d_h p) (d_hdust p) (d_rho p) (d_sound p) (d_divv p) (d_dt p) (d_dtnext p) (d_r p) (d_r0 p) (d_v p) (d_v0 p)
    (fun k => d_a p k + acc k) (d_a0 p) (d_Q0m p) (d_dQ p) (d_dQe p) (match d_kind p with Gas => oplus (d_dudt p) dudt | _ => d_dudt p end).
(** Lines 100-136; dQdt, vsig_max, flags are left out. *)
Definition update_mfv (p : dpt) (acc : vec) (dudt : option R) (dt : R) : dpt :=
  let dudt := oplus dudt (d_dudt p) in
  let dQe := match d_kind p with
    | Gas => let dudt := oplus dudt (Some (sumf ndim (fun k => let v0 := init_v p k + total_accel p k * dt in acc k * (v0 + acc k * dt / 2)))) in
             oplus (d_dQe p) (oscal (d_m p * dt) dudt)
    | _ => d_dQe p end in
  let dQ := fun k => d_dQ p k + d_m p * acc k * dt in
  let v := fun k => d_v0 p k + dQ k + d_a0 p k * dt in
  let r := fun k => d_r0 p k + 1 / 2 * (d_v0 p k + v k) * dt in
  mkd (d_kind p) (d_dead p) (d_m p) (d_h p) (d_hdust p) (d_rho p) (d_sound p) (d_divv p) (d_dt p) (d_dtnext p) r (d_r0 p) v (d_v0 p)
    (d_a p) (d_a0 p) (d_Q0m p) dQ dQe (Some 0).
Definition update_particle (p : dpt) (acc : vec) (dudt : option R) (dt : R) : dpt :=
  match sch with Sph => update_sph p acc dudt | Mfv => update_mfv p acc dudt dt end.
Definition set_gas (p : dpt) (sound divv : R) : dpt :=
  mkd (d_kind p) (d_dead p) (d_m p) (d_h p) (d_hdust p) (d_rho p) sound divv (d_dt p) (d_dtnext p) (d_r p) (d_r0 p) (d_v p) (d_v0 p)
    (d_a p) (d_a0 p) (d_Q0m p) (d_dQ p) (d_dQe p) (d_dudt p).
Definition set_pos (p : dpt) (r : vec) : dpt :=
  mkd (d_kind p) (d_dead p) (d_m p) (d_h p) (d_hdust p) (d_rho p) (d_sound p) (d_divv p) (d_dt p) (d_dtnext p) r (d_r0 p) (d_v p) (d_v0 p)
    (d_a p) (d_a0 p) (d_Q0m p) (d_dQ p) (d_dQe p) (d_dudt p).

(** * Two fluids *)
(** Lines 1083-1094: Xi and Lambda of a pair. *)
Definition pair_coeffs (rho dt ts : R) : R * R :=
  let tau := dt / ts in
  if rltb (1 / 1000) tau then
    let Xi := (1 - exp (- tau)) / (dt * rho) in (Xi, (dt + ts) * Xi - 1 / rho)
  else
    let Xi := (1 - 1 / 2 * tau * (1 - tau / 3)) / rho in (Xi / ts, (1 + tau) * Xi - 1 / rho).
Variables (wdrag : R -> R) (lw : law) (Kd : R) (use_energy : bool).
(** Lines 1041-1048: the kernel of the pair is that of the gas particle. *)
Definition wkern (p q : dpt) : R :=
  let drmag := sqrt (dot ndim (vsub (d_r p) (d_r q)) (vsub (d_r p) (d_r q))) in
  let h := match d_kind p with Dust => d_h q | _ => d_h p end in (1 / h) ^ ndim * wdrag (drmag * (1 / h)).
(** Lines 1050-1103, one neighbour: the factor of draux in -_adrag, and draux. *)
Definition pair_dir (p q : dpt) : vec :=
  let dr := vsub (d_r p) (d_r q) in let drmag := sqrt (dot ndim dr dr) in fun k => if rltb 0 drmag then dr k / drmag else dr k.
Definition pair_S (p q : dpt) (dt : R) : R :=
  let dir := pair_dir p q in
  let dv := vdiff p q in
  let da := vsub (total_accel p) (total_accel q) in
  let dvdr := dot ndim dir dv in
  let dadr := dot ndim dir da in
  let '(gsound, grho, drho) := match d_kind p with Gas => (d_sound p, d_rho p, d_rho q) | _ => (d_sound q, d_rho q, d_rho p) end in
  let ts := t_stop lw Kd grho drho gsound in
  let '(Xi, Lambda) := pair_coeffs (drho + grho) dt ts in
  (dvdr + dt * dadr) * Xi - dadr * Lambda.
Record drag := mkdrag { g_norm : R; g_acc : vec; g_sound : R; g_divv : R }.
Definition drag_step (p : dpt) (dt : R) (s : drag) (q : dpt) : drag :=
  let w := wkern p q * (d_m q / d_rho q) in
  let S := pair_S p q dt in
  let dir := pair_dir p q in
  let dv := vdiff p q in
  mkdrag (g_norm s + w) (fun k => g_acc s k - INR ndim * d_rho q * S * dir k * w)
    (match d_kind p with Gas => g_sound s | _ => Rmax (g_sound s) (d_sound q) end)
    (match d_kind p with Gas => g_divv s | _ => Rmax (g_divv s) (sqrt (dot ndim dv dv) / d_h p) end).
(** Lines 1004-1135: the drag acceleration, the sound speed and div_v of the particle, its dudt and those of its neighbours. *)
Record dragres := mkres { x_acc : vec; x_sound : R; x_divv : R; x_own : option R; x_neib : list (nat * option R) }.
Definition ComputeDragForces (p : dpt) (neibs : list (nat * dpt)) (dt : R) : dragres :=
  let s0 := match d_kind p with Gas => mkdrag 0 (fun _ => 0) (d_sound p) (d_divv p) | _ => mkdrag 0 (fun _ => 0) 0 0 end in
  let s := fold_left (fun s q => drag_step p dt s (snd q)) neibs s0 in
  if use_energy then
    let dEk := sumf ndim (fun k => let v0 := init_v p k + total_accel p k * dt in g_acc s k * (v0 + g_acc s k * dt / 2)) in
    match d_kind p with
    | Dust => mkres (g_acc s) (g_sound s) (g_divv s) (Some 0)
                (map (fun q => (fst q, oscal (- (d_m p * dEk)) (odiv (wkern p (snd q)) (g_norm s * d_rho (snd q))))) neibs)
    | _ => mkres (g_acc s) (g_sound s) (g_divv s) (Some (- dEk)) []
    end
  else mkres (g_acc s) (g_sound s) (g_divv s) (Some 0) [].
(** Lines 695-743 for one active particle: [neibs] are the candidates of the neighbour manager as index and position (of the particle or
    a periodic image); the sound speed and div_v of neighbours of kind dust, which may have been set already, are not read. *)
Definition copies (ps : nat -> dpt) (l : list (nat * vec)) : list (nat * dpt) := map (fun x => (fst x, set_pos (ps (fst x)) (snd x))) l.
Definition drag_of (ps : nat -> dpt) (neibs : nat -> list (nat * vec)) (i : nat) : dragres :=
  let p := ps i in
  if drag_forces (d_kind p) then
    ComputeDragForces p (filter (fun q => dragmask (d_kind p) (d_kind (snd q))) (copies ps (neibs i))) (drag_timestep p)
  else mkres (fun _ => 0) (d_sound p) (d_divv p) (Some 0) [].
Definition osum (l : list (option R)) : option R := fold_left oplus l (Some 0).
(** dudt[i] after the loop over all cells. *)
Definition dudt_of (ps : nat -> dpt) (neibs : nat -> list (nat * vec)) (active : list nat) (i : nat) : option R :=
  osum (flat_map (fun a => (if Nat.eqb a i then [x_own (drag_of ps neibs a)] else []) ++
                           map snd (filter (fun y => Nat.eqb (fst y) i) (x_neib (drag_of ps neibs a)))) active).
(** Lines 600-798. *)
Definition DoForces (ps : nat -> dpt) (neibs : nat -> list (nat * vec)) (active : list nat) (i : nat) : dpt :=
  let p := ps i in
  let is_active := existsb (Nat.eqb i) active in
  let x := drag_of ps neibs i in
  let p' := if is_active then set_gas p (x_sound x) (x_divv x) else p in
  update_particle p' (if is_active then x_acc x else fun _ => 0) (dudt_of ps neibs active i) (drag_timestep p').
(** SphSimulation.cpp:509-551: a first call with all steps zero, new steps, accelerations reset, a second call. *)
Definition reset (p : dpt) (dtnext : R) : dpt :=
  mkd (d_kind p) (d_dead p) (d_m p) (d_h p) (d_hdust p) (d_rho p) (d_sound p) (d_divv p) (d_dt p) dtnext (d_r p) (d_r0 p) (d_v p) (d_v0 p)
    (d_a0 p) (d_a0 p) (d_Q0m p) (d_dQ p) (d_dQe p) (d_dudt p).
Definition startup (ps : nat -> dpt) (neibs : nat -> list (nat * vec)) (active : list nat) (timestep : R) : nat -> dpt :=
  let ps1 := DoForces ps neibs active in
  let ps2 := fun i => reset (ps1 i) timestep in
  DoForces ps2 neibs active.

(** * Test particles *)
(** Lines 246-268. *)
Record idata := mki { i_cs : R; i_v : vec; i_v0 : vec; i_a : vec; i_a0 : vec }.
Definition interp_data (p : dpt) : idata := mki (d_sound p) (d_v p) (d_v0 p) (total_accel p) (old_accel p).
Definition ivdiff (p : dpt) (q : idata) : vec :=
  match sch with Sph => fun k => (d_v p k - i_v q k) - 1 / 2 * d_dt p * (d_a0 p k - i_a0 q k) | Mfv => fun k => d_v0 p k - i_v0 q k end.
(** Lines 511-524: entries [arr] may be left over from earlier cells; [j] is what the index was before. *)
Record entry := mkent { e_m : R; e_kind : kind; e_pos : vec; e_data : idata }.
Definition entry_of (p : dpt) : entry := mkent (d_m p) (d_kind p) (d_r p) (interp_data p).
Fixpoint copy (fuel : nat) (ps : nat -> dpt) (neiblist : list nat) (jj j Nneib : nat) (arr : nat -> entry) : nat * (nat -> entry) :=
  match fuel with
  | O => (Nneib, arr)
  | S fuel =>
    if Nat.ltb jj Nneib then
      if d_dead (ps j) then copy fuel ps neiblist (S jj) j (Nneib - 1) arr
      else let j := nth jj neiblist O in copy fuel ps neiblist (S jj) j Nneib (fun x => if Nat.eqb x jj then entry_of (ps j) else arr x)
    else (Nneib, arr)
  end.
(** With Nactive active particles in the cell. *)
Definition copy_neibs (ps : nat -> dpt) (neiblist : list nat) (Nactive : nat) (arr : nat -> entry) : nat * (nat -> entry) :=
  copy (length neiblist) ps neiblist 0 Nactive (length neiblist) arr.
(** Lines 536-559: what is gathered around a dust particle. *)
Variables (small_number kernrangesqd : R).
Definition gather (r : vec) (hmax : R) (n : nat) (arr : nat -> entry) : list (R * R * idata) :=
  flat_map (fun jj => let e := arr jj in
    match e_kind e with
    | Gas => let drsqd := dot ndim (vsub (e_pos e) r) (vsub (e_pos e) r) + small_number in
             if rleb drsqd (kernrangesqd * hmax * hmax) then [(e_m e, drsqd, e_data e)] else []
    | _ => []
    end) (seq 0 n).
(** Lines 854-890: the sums for one value of h. *)
Variables (w0_s2 : R -> R) (h_fac h_converge : R) (rnd : R -> R).
Record sums := mksums { u_n : R; u_rho : R; u_sound : R; u_dv : vec; u_da : vec }.
Fixpoint wsum (f : R * R * idata -> R) (l : list (R * R * idata)) : R := match l with [] => 0 | x :: l => f x + wsum f l end.
Definition at_h (p : dpt) (l : list (R * R * idata)) (h : R) : sums :=
  let w := fun x : R * R * idata => w0_s2 (snd (fst x) * (1 / h * (1 / h))) in
  let mw := fun x : R * R * idata => fst (fst x) * w x in
  let hf := (1 / h) ^ ndim in
  let grho := wsum mw l * hf in
  mksums (wsum w l * hf) grho (wsum (fun x => mw x * i_cs (snd x)) l * (1 / grho * hf))
    (fun k => wsum (fun x => mw x * ivdiff p (snd x) k) l * (1 / grho * hf))
    (fun k => wsum (fun x => mw x * (total_accel p k - i_a (snd x) k)) l * (1 / grho * hf)).
(** Lines 853-938; [fuel] is the number of iterations left of 500.  [Some (h, s)] leaves the loop, None returns 0. *)
Fixpoint hloop (fuel : nat) (p : dpt) (l : list (R * R * idata)) (hmax : R) (it : Z) (h lo up : R) : res (option (R * sums)) :=
  match fuel with
  | O => Raise
  | S fuel =>
    let it := (it + 1)%Z in
    let s := at_h p l h in
    let hnew := h_fac * Rpower (u_n s) (- (1 / INR ndim)) in
    if rltb 0 (u_n s) && rltb lo h && rltb (Rabs (h - hnew)) h_converge then Ok (Some (h, s))
    else
      let next h lo up :=
        if (it =? 500)%Z then Raise
        else if rltb hmax h then Ok None
        else if rltb lo h && rleb h up then hloop fuel p l hmax it h lo up
        else Ok (Some (h, s)) in
      if (it <? 100)%Z then
        if rltb 0 (u_n s) then next hnew lo up
        else if rltb h hmax then next hmax lo up else Ok None
      else if (it =? 100)%Z then next (rnd (1 / 2 * (lo + up))) lo up
      else if (it <? 500)%Z then
        if rltb (h_fac ^ ndim) (u_n s * h ^ ndim) then next (rnd (1 / 2 * (lo + h))) lo h
        else next (rnd (1 / 2 * (h + up))) h up
      else next h lo up
  end.
(** Lines 961-977: Xi and Lambda of a test particle. *)
Definition test_coeffs (dt ts : R) : R * R :=
  let tau := dt / ts in
  if rltb (1 / 1000) tau then let Xi := (1 - exp (- tau)) / dt in (Xi, (dt + ts) * Xi - 1)
  else let Xi := 1 - 1 / 2 * tau * (1 - tau / 3) in (Xi / ts, (1 + tau) * Xi - 1).
(** Lines 957-980: the drag acceleration. *)
Definition test_accel (dv da : vec) (dt ts : R) : vec :=
  let '(Xi, Lambda) := test_coeffs dt ts in fun k => - (dv k + da k * dt) * Xi + da k * Lambda.
Definition set_dust (p : dpt) (hdust sound divv : R) : dpt :=
  mkd (d_kind p) (d_dead p) (d_m p) (d_h p) hdust (d_rho p) sound divv (d_dt p) (d_dtnext p) (d_r p) (d_r0 p) (d_v p) (d_v0 p)
    (d_a p) (d_a0 p) (d_Q0m p) (d_dQ p) (d_dQe p) (d_dudt p).
(** Lines 801-988: None is return value 0, the particle is left alone.  Assertions on t_s, h_dust, sound are checked. *)
Definition DoInterpolate (p : dpt) (l : list (R * R * idata)) (hmax dt : R) : res (option dpt) :=
  match l with
  | [] => Ok None
  | _ =>
    let h := if Req_EM_T (d_hdust p) 0 then 1 / 2 * hmax else d_hdust p in
    let! o := hloop 500 p l hmax 0 h 0 hmax in
    match o with
    | None => Ok None
    | Some (h, s) =>
      if rltb 0 h && rltb 0 (u_sound s) then
        let divv := sqrt (dot ndim (u_dv s) (u_dv s)) / d_h p * (d_h p / h) in
        let sound := u_sound s * (d_h p / h) in
        let ts := t_stop lw Kd (u_rho s) 0 (u_sound s) in
        if Req_EM_T ts 0 then Raise
        else Ok (Some (update_particle (set_dust p h sound divv) (test_accel (u_dv s) (u_da s) dt ts) (Some 0) dt))
      else Raise
    end
  end.
End Dust.
