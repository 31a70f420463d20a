(** What neighbours exchange in the meshless finite-volume scheme, and the totals that should be kept. *)
From Verif Require Import Prelude Vec M_Mfv S_Stock.
From Coq Require Import Reals.
Local Open Scope R_scope.

(** Particle [x_i], whose state is [x_p], exchanges with [x_q] over the time [x_dt]; [x_q] is particle [x_j], an image of it,
    or its reflection in a wall ([x_wall]). *)
Record xch := mkxch { x_i : Z; x_p : gpart; x_dt : R; x_j : Z; x_wall : bool; x_q : gpart }.

Section Exchanges.
Variable flux : gpart -> gpart -> R -> option vec.
Definition xflux (x : xch) (k : nat) : R := match flux (x_p x) (x_q x) (x_dt x) with Some f => f k | None => 0 end.
(** What particle [t] gains of the quantity [k]. *)
Definition gain (xs : list xch) (k : nat) (t : Z) : R :=
  lsum (fun x => (if (x_i x =? t)%Z then - (xflux x k * x_dt x) else 0) +
                 (if (x_j x =? t)%Z && negb (x_wall x) then xflux x k * x_dt x else 0)) xs.
(** The rate at which it gains it. *)
Definition rate (xs : list xch) (k : nat) (t : Z) : R :=
  lsum (fun x => (if (x_i x =? t)%Z then - xflux x k else 0) + (if (x_j x =? t)%Z && negb (x_wall x) then xflux x k else 0)) xs.
(** What goes into the walls. *)
Definition to_walls (xs : list xch) (k : nat) : R := lsum (fun x => if x_wall x then xflux x k * x_dt x else 0) xs.
End Exchanges.

Definition getp (parts : list mpart) (i : Z) : option mpart := if (i <? 0)%Z then None else nth_error parts (Z.to_nat i).
Definition getn (neib : list (Z * bool)) (i : Z) : option (Z * bool) := if (i <? 0)%Z then None else nth_error neib (Z.to_nat i).
(** The exchanges of the cells treated. *)
Definition cell_xchs (timestep : R) (parts : list mpart) (c : cell) : list xch :=
  flat_map (fun il => match getp parts (fst il) with
    | None => []
    | Some p => flat_map (fun jq => match getn (c_neib c) (fst jq) with
        | None => []
        | Some (j, w) => [mkxch (fst il) (m_g p) (timestep * IZR (m_nstep p)) j w (snd jq)] end) (snd il) end) (c_act c).
Definition xchs (timestep : R) (parts : list mpart) (threads : list (list cell)) : list xch :=
  flat_map (cell_xchs timestep parts) (concat threads).
(** Everything mentioned exists. *)
Definition cell_ok (N : Z) (c : cell) : Prop :=
  (forall i l, In (i, l) (c_act c) -> (0 <= i < N)%Z /\ forall j q, In (j, q) l -> (0 <= j < zlen (c_neib c))%Z) /\
  (forall i w, In (i, w) (c_neib c) -> (0 <= i < N)%Z).

(** Totals: what the particles have at the beginning of their steps and what has been credited since. *)
Definition total (k : nat) (parts : list mpart) : R := lsum (fun p => m_Q0 p k + q_dQ (m_q p) k) parts.

(** What forces and cooling add to particle [p] in a step which it ends with the acceleration [m_a p]: mass, momentum and
    energy. *)
Section Sources.
Variable ndim : nat.
Definition source (p : mpart) (k : nat) : R :=
  let m0 := m_Q0 p ndim in
  let m1 := m_Q0 p ndim + q_dQ (m_q p) ndim in
  if Nat.ltb k ndim then 1 / 2 * m_dt p * (m0 * m_a0 p k + m1 * m_a p k)
  else if Nat.eqb k (S ndim) then
    sumf ndim (fun i => 1 / 2 * m_dt p * (m_a0 p i * (m_Q0 p i + 1 / 2 * m0 * m_a0 p i * m_dt p) +
                                          m_a p i * (m_Q0 p i + q_dQ (m_q p) i + 1 / 2 * m1 * m_a p i * m_dt p))) +
    1 / 2 * (sumf ndim (fun i => m_a0 p i * q_rd (m_q p) i) + sumf ndim (fun i => m_a p i * q_rd (m_q p) i)) - m_cool p * m_dt p
  else 0.
End Sources.
Definition ends (n : Z) (p : mpart) : bool := negb (m_dead p) && (((n - m_nlast p) =? m_nstep p)%Z || m_end p).

(** Only the fields of the time integration named here are kept: densities, gradients, forces, levels and steps may change. *)
Definition same_content (p p' : mpart) : Prop := (forall k, m_Q0 p' k = m_Q0 p k) /\ (forall k, q_dQ (m_q p') k = q_dQ (m_q p) k).

(** Histories of a simulation: exchanges, the end of steps, predictions, checks of steps (limiter other than "simple"), and
    anything that leaves the conserved quantities and credits alone, in any order; with what walls, forces and cooling have
    added. *)
Section Histories.
Variable ndim : nat.
Variables (w0_s2 w1 : R -> R) (limiter : gpart -> gpart -> vec -> (nat -> vec) * vec) (riemann : vec -> vec -> vec -> vec -> nat -> vec)
  (viscous : vec -> vec -> (nat -> vec) -> (nat -> vec) -> (nat -> vec) -> nat -> vec) (staticParticles : bool).
Inductive event : vec -> list mpart -> list mpart -> Prop :=
| ev_fluxes : forall ts threads parts parts', (forall cl, In cl (concat threads) -> cell_ok (zlen parts) cl) ->
    UpdateGodunovFluxes ndim w0_s2 w1 limiter riemann viscous staticParticles ts parts threads = Ok parts' ->
    event (fun k => - to_walls (pair_flux ndim w0_s2 w1 limiter riemann viscous staticParticles) (xchs ts parts threads) k) parts parts'
| ev_end : forall n parts, event (fun k => lsum (fun p => if ends n p then source ndim p k else 0) parts) parts (map (EndTimestep ndim n) parts)
| ev_advance : forall n ts parts, event (fun _ => 0) parts (map (AdvanceParticle ndim n ts) parts)
| ev_check : forall ldm ls n ts parts parts', Forall2 (fun p p' => CheckTimestep false ldm ls n ts p = Ok p') parts parts' ->
    event (fun _ => 0) parts parts'
| ev_other : forall parts parts', Forall2 same_content parts parts' -> event (fun _ => 0) parts parts'.
Inductive history : vec -> list mpart -> list mpart -> Prop :=
| h_nil : forall parts, history (fun _ => 0) parts parts
| h_cons : forall s s' a b c, event s a b -> history s' b c -> history (fun k => s k + s' k) a c.
End Histories.

(** The whole system moving along with velocity [V]. *)
Definition moving (ndim : nat) (V : vec) (p : gpart) : gpart :=
  mkgpart (g_r p) (fun k => g_v p k + V k) (g_a p) (g_h p) (g_ndens p) (g_hfactor p) (g_sound p) (g_B p)
    (fun k => if Nat.ltb k ndim then g_W p k + V k else g_W p k) (g_grad p) (g_alpha p) (g_bad p).
(** Of a flux, what is left of the momentum and of the energy for someone moving with velocity [v]. *)
Definition push (ndim : nat) (v f : vec) (k : nat) : R := f k - v k * f ndim.
Definition heat (ndim : nat) (v f : vec) : R := f (S ndim) - sumf ndim (fun k => v k * f k) + 1 / 2 * sumf ndim (fun k => v k * v k) * f ndim.

(** The internal energy per mass of given mass, momentum and energy. *)
Definition thermal (ndim : nat) (Q : vec) : R := (Q (S ndim) - 1 / 2 * (sumf ndim (fun k => Q k * Q k) / Q ndim)) / Q ndim.
(** A particle in a step: mass, velocity and internal energy are those of its conserved quantities and credits. *)
Definition shows (ndim : nat) (p : mpart) : Prop :=
  m_m p = m_Q0 p ndim + q_dQ (m_q p) ndim /\ (forall k, (k < ndim)%nat -> m_m p * m_v p k = m_Q0 p k + q_dQ (m_q p) k) /\
  m_m p * (m_u p + 1 / 2 * sumf ndim (fun k => m_v p k * m_v p k)) = m_Q0 p (S ndim) + q_dQ (m_q p) (S ndim).
(** Nothing is exchanged with neighbours and nothing is cooled; only forces act. *)
Definition alone (p : mpart) : Prop := (forall k, q_dQ (m_q p) k = 0) /\ (forall k, q_dQdt (m_q p) k = 0) /\ (forall k, q_rd (m_q p) k = 0) /\ m_cool p = 0.
