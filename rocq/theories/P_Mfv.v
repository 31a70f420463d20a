(** C59, C60, C61: the meshless finite-volume scheme. *)
From Verif Require Import Prelude L_Prelude Vec M_Box L_Box M_Kernel M_Mfv M_Riemann S_Stock S_Riemann S_Mfv L_Stock L_Riemann2 L_Riemann3 L_Mfv L_Mfv2 L_Mfv3 L_Mfv4 L_MfvEx.
From Coq Require Import Reals Lra.
Local Open Scope R_scope.

(** * C59: conservation *)
Section C59.
Variable ndim : nat.
Variables (w0_s2 w1 : R -> R) (limiter : gpart -> gpart -> vec -> (nat -> vec) * vec) (riemann : vec -> vec -> vec -> vec -> nat -> vec)
  (viscous : vec -> vec -> (nat -> vec) -> (nat -> vec) -> (nat -> vec) -> nat -> vec) (staticParticles : bool).
Notation pair_flux := (pair_flux ndim w0_s2 w1 limiter riemann viscous staticParticles).
Notation UpdateGodunovFluxes := (UpdateGodunovFluxes ndim w0_s2 w1 limiter riemann viscous staticParticles).
Notation history := (history ndim w0_s2 w1 limiter riemann viscous staticParticles).

(** However the cells are given to threads and in whatever order these finish, particle [t] is credited with what it gains in all exchanges
    in which it takes part itself or through images, and nothing else changes; the rates used for predictions are kept for active
    particles only. *)
Theorem C59_credits : forall ts parts threads, (forall cl, In cl (concat threads) -> cell_ok (zlen parts) cl) ->
  exists parts', UpdateGodunovFluxes ts parts threads = Ok parts' /\ length parts' = length parts /\
    forall t p, aget parts t = Ok p -> exists p', aget parts' t = Ok p' /\ p' = set_acc p (m_q p') /\
      (forall k, q_dQ (m_q p') k = q_dQ (m_q p) k + gain pair_flux (xchs ts parts threads) k t) /\
      (forall k, q_dQdt (m_q p') k = q_dQdt (m_q p) k + if m_active p then rate pair_flux (xchs ts parts threads) k t else 0).
Proof.
  intros ts parts threads H. destruct (fluxes_spec ndim w0_s2 w1 limiter riemann viscous staticParticles ts parts threads H) as (parts' & A & B & C).
  exists parts'. split; [exact A|]. split; [exact B|]. intros t p Hp. destruct (C t p Hp) as (p' & G & Rs & V). exists p'. split; [exact G|]. split; [exact Rs|].
  split; intros k.
  - rewrite <- xg_gain. exact (V (CQ k)).
  - rewrite <- xg_rate. exact (V (CT k)).
Qed.

(** So the totals change only by what goes into walls. *)
Theorem C59_conserved : forall ts parts threads parts' k, (forall cl, In cl (concat threads) -> cell_ok (zlen parts) cl) ->
  UpdateGodunovFluxes ts parts threads = Ok parts' ->
  total k parts' = total k parts - to_walls pair_flux (xchs ts parts threads) k.
Proof. exact (fluxes_total ndim w0_s2 w1 limiter riemann viscous staticParticles). Qed.

(** The end of a step turns what was credited into mass, velocity and energy of the particle. *)
Theorem C59_end_step : forall n p, m_dead p = false -> (((n - m_nlast p) =? m_nstep p)%Z || m_end p) = true ->
  let p' := EndTimestep ndim n p in
  (forall k, m_Q0 p' k = m_Q0 p k + q_dQ (m_q p) k + source ndim p k) /\ m_q p' = acc0 /\ m_m p' = m_Q0 p' ndim /\
  (m_m p' <> 0 -> (forall k, m_m p' * m_v p' k = m_Q0 p' k) /\ m_m p' * (m_u p' + 1 / 2 * dot ndim (m_v p') (m_v p')) = m_Q0 p' (S ndim)) /\
  m_nlast p' = n /\ m_active p' = true.
Proof. exact (end_step ndim). Qed.
(** When all particles end their steps together, the masses shown add up to the total. *)
Theorem C59_shown : forall n parts, (forall p, In p parts -> ends n p = true) ->
  let parts' := map (EndTimestep ndim n) parts in
  lsum m_m parts' = total ndim parts /\
  ((forall p, In p parts' -> m_m p <> 0) ->
   (forall k, (k < ndim)%nat -> lsum (fun p => m_m p * m_v p k) parts' = total k parts + lsum (fun p => source ndim p k) parts) /\
   lsum (fun p => m_m p * (m_u p + 1 / 2 * dot ndim (m_v p) (m_v p))) parts' = total (S ndim) parts + lsum (fun p => source ndim p (S ndim)) parts).
Proof.
  intros n parts H. cbv zeta. unfold total. rewrite lsum_map.
  assert (D : forall p, In p parts -> m_dead p = false /\ (((n - m_nlast p) =? m_nstep p)%Z || m_end p) = true).
  { intros p Hp. specialize (H p Hp). unfold ends in H. apply andb_true_iff in H as (H1 & H2). now apply negb_true_iff in H1. }
  split.
  - apply lsum_ext. intros p Hp. destruct (D p Hp) as (D1 & D2). destruct (end_step ndim n p D1 D2) as (A & _ & B & _). cbv zeta in A, B. rewrite B, A, source_mass. ring.
  - intros N. split; [intros k Hk|]; rewrite lsum_map, <- lsum_plus; apply lsum_ext; intros p Hp; destruct (D p Hp) as (D1 & D2);
      destruct (end_step ndim n p D1 D2) as (A & _ & _ & B & _); cbv zeta in A, B; destruct B as (B1 & B2); try (apply N, in_map_iff; eauto).
    + rewrite B1. apply A.
    + rewrite B2. apply A.
Qed.

(** Over any history - exchanges, ends of steps, predictions, checks of steps with the "conservative" and "none" limiters, new densities,
    forces, levels and steps, in any order - the totals change by what walls, forces and cooling add and nothing else. *)
Theorem C59_run : forall s a b, history s a b -> forall k, total k b = total k a + s k.
Proof. intros s a b H k. exact (history_total ndim w0_s2 w1 limiter riemann viscous staticParticles s a b k H). Qed.
End C59.
Print Assumptions C59_credits.
Print Assumptions C59_conserved.
Print Assumptions C59_end_step.
Print Assumptions C59_shown.
Print Assumptions C59_run.

(** With the "simple" limiter the totals are not kept: a particle woken in the middle of its step gives up part of what it was
    credited, its neighbour does not. *)
Theorem C59_simple_limiter_refuted : exists ts parts threads parts1 parts2,
  (forall cl, In cl (concat threads) -> cell_ok (zlen parts) cl) /\
  UpdateGodunovFluxes 1 kern (m4_w1 1) no_slope ex_hllc inviscid true ts parts threads = Ok parts1 /\
  total 1 parts1 = total 1 parts /\
  Forall2 (fun p p' => CheckTimestep true 1 2 2 ts p = Ok p') parts1 parts2 /\
  total 1 parts = 2 /\ total 1 parts2 = 4.
Proof.
  destruct (ex_pair 1 1 (1 * 4)) as (f & E & V); [lra|lra|].
  destruct (simple_limiter 1 kern (m4_w1 1) no_slope ex_hllc inviscid true (ex_part 0 1 1 1 0) (ex_part 1 1 1 1 0) (ex_W 1 1 2) (ex_W 1 1 2) 1 f E) as (parts1 & parts2 & A & B & C).
  exists 1, [fresh (ex_part 0 1 1 1 0) (ex_W 1 1 2) 0 4 2 1 1; fresh (ex_part 1 1 1 1 0) (ex_W 1 1 2) 0 4 0 1 1], [[pair_cell (ex_part 1 1 1 1 0)]], parts1, parts2. split; [intros cl [<-|[]]; apply pair_ok|]. split; [exact A|]. split.
  { pose proof (C59_conserved 1 kern (m4_w1 1) no_slope ex_hllc inviscid true 1) as H. rewrite (fun I => H _ _ parts1 1%nat I A); [|intros cl [<-|[]]; apply pair_ok]. unfold to_walls, xchs. cbn. ring. }
  split; [exact B|]. split; [unfold total; cbn; ring|]. rewrite C, V by lia. rewrite ex_mass. unfold total. cbn. ring.
Qed.
Print Assumptions C59_simple_limiter_refuted.

(** With steps of different lengths the masses shown in the middle of a step do not add up to the total, though nothing was added. *)
Theorem C59_between_refuted : exists ts s parts parts1,
  history 1 kern (m4_w1 1) no_slope ex_hllc inviscid true s parts parts1 /\ (forall k, s k = 0) /\ total 1 parts = 2 /\
  lsum m_m (map (AdvanceParticle 1 2 ts) parts1) = 1.
Proof.
  destruct (ex_pair 1 1 (1 * 1)) as (f & E & V); [lra|lra|]. destruct (ex_pair 2 1 (1 * 1)) as (f' & E' & V'); [lra|lra|].
  destruct (L_Mfv3.between 1 kern (m4_w1 1) no_slope ex_hllc inviscid true _ _ _ _ (ex_W 1 1 2) (ex_W 1 1 2) 1 f f' E E') as (s & parts1 & A & B & _ & C).
  eexists 1, s, _, parts1. split; [exact A|]. split; [exact B|]. split; [unfold total; cbn; ring|]. rewrite C, V, V' by lia. rewrite !ex_mass. unfold total. cbn. ring.
Qed.
Print Assumptions C59_between_refuted.

(** A concrete exchange: particles moving past a static face of area 1 during a step of length 4. *)
Example C59_case : exists parts', UpdateGodunovFluxes 1 kern (m4_w1 1) no_slope ex_hllc inviscid true 1
    [fresh (ex_part 0 1 1 1 0) (ex_W 1 1 2) 0 4 2 1 1; fresh (ex_part 1 1 1 1 0) (ex_W 1 1 2) 0 4 0 1 1] [[pair_cell (ex_part 1 1 1 1 0)]] = Ok parts' /\
  exists p q, parts' = [p; q] /\ q_dQ (m_q p) 1%nat = -4 /\ q_dQ (m_q q) 1%nat = 4 /\ q_dQ (m_q p) O = -8 /\ q_dQ (m_q q) 2%nat = 12.
Proof.
  destruct (ex_pair 1 1 (1 * 4)) as (f & E & V); [lra|lra|].
  destruct (pair_fluxes 1 kern (m4_w1 1) no_slope ex_hllc inviscid true 1 (fresh (ex_part 0 1 1 1 0) (ex_W 1 1 2) 0 4 2 1 1) (fresh (ex_part 1 1 1 1 0) (ex_W 1 1 2) 0 4 0 1 1) f E eq_refl) as (x & y & A & B & C & _).
  eexists. split; [exact A|]. eexists _, _. split; [reflexivity|]. cbn [m_q set_acc]. rewrite !B, !C, !V by lia. rewrite ex_mass, ex_mom, ex_energy. cbn. repeat split; field.
Qed.
(** A whole step of two such particles. *)
Example C59_step_case : exists parts1, history 1 kern (m4_w1 1) no_slope ex_hllc inviscid true (fun k => 0 + (0 + 0))
    [fresh (ex_part 0 1 1 1 0) (ex_W 1 8 2) 0 4 2 1 1; fresh (ex_part 1 1 1 1 0) (ex_W 1 1 2) 0 4 0 1 1] parts1 /\ map m_m parts1 = [4; 5].
Proof.
  destruct (ex_pair 1 1 (1 * 4)) as (f & E & V); [lra|lra|].
  destruct (pair_fluxes 1 kern (m4_w1 1) no_slope ex_hllc inviscid true 1 (fresh (ex_part 0 1 1 1 0) (ex_W 1 8 2) 0 4 2 1 1) (fresh (ex_part 1 1 1 1 0) (ex_W 1 1 2) 0 4 0 1 1) f E eq_refl) as (x & y & A & B & C & _).
  set (P1 := [set_acc (fresh (ex_part 0 1 1 1 0) (ex_W 1 8 2) 0 4 2 1 1) x; set_acc (fresh (ex_part 1 1 1 1 0) (ex_W 1 1 2) 0 4 0 1 1) y]) in *.
  exists (map (EndTimestep 1 4) P1). split.
  - assert (X : (fun _ : nat => 0) = (fun k => - to_walls (pair_flux 1 kern (m4_w1 1) no_slope ex_hllc inviscid true) (xchs 1 [fresh (ex_part 0 1 1 1 0) (ex_W 1 8 2) 0 4 2 1 1; fresh (ex_part 1 1 1 1 0) (ex_W 1 1 2) 0 4 0 1 1] [[pair_cell (ex_part 1 1 1 1 0)]]) k)).
    { apply FunctionalExtensionality.functional_extensionality. intros k. unfold to_walls, xchs. cbn. ring. }
    assert (Y : (fun _ : nat => 0) = (fun k => lsum (fun p => if ends 4 p then source 1 p k else 0) P1)).
    { apply FunctionalExtensionality.functional_extensionality. intros k. unfold P1. cbn [lsum]. rewrite !source_quiet by (intros; reflexivity). repeat match goal with |- context [if ?b then _ else _] => destruct b end; ring. }
    apply (h_cons 1 _ _ _ _ _ _ (fun _ => 0) (fun k => 0 + 0) _ P1).
    + rewrite X. apply ev_fluxes; [intros cl [<-|[]]; apply pair_ok|exact A].
    + apply (h_cons 1 _ _ _ _ _ _ (fun _ => 0) (fun k => 0) _ (map (EndTimestep 1 4) P1)); [|apply h_nil]. rewrite Y. apply ev_end.
  - unfold P1. cbn [map]. f_equal; [|f_equal].
    + destruct (end_step 1 4 (set_acc (fresh (ex_part 0 1 1 1 0) (ex_W 1 8 2) 0 4 2 1 1) x) eq_refl eq_refl) as (S1 & _ & S2 & _). cbv zeta in S1, S2. rewrite S2, S1, source_mass. cbn [m_q set_acc]. rewrite B, V by lia. rewrite ex_mass. cbn. ring.
    + destruct (end_step 1 4 (set_acc (fresh (ex_part 1 1 1 1 0) (ex_W 1 1 2) 0 4 0 1 1) y) eq_refl eq_refl) as (S1 & _ & S2 & _). cbv zeta in S1, S2. rewrite S2, S1, source_mass. cbn [m_q set_acc]. rewrite C, V by lia. rewrite ex_mass. cbn. ring.
Qed.

(** * C60: it does not matter which of two neighbours computes their exchange *)
Section C60.
Variable ndim : nat.
Variables (w0_s2 w1 : R -> R) (limiter : gpart -> gpart -> vec -> (nat -> vec) * vec).
Variables (zmf iso : bool) (gammam1 : R) (sound : R -> R -> R) (nu nub : R) (staticParticles : bool).
Hypothesis gamma_ok : 0 < gammam1.
Hypothesis sound_ok : forall rho u, 0 < rho -> 0 < u -> 0 < sound rho u.
Notation exchange v := (exchange ndim w0_s2 w1 limiter (hllc ndim zmf iso gammam1 sound) v staticParticles).

(** With the HLLC solver in any of its modes, without and with viscosity. *)
Theorem C60_exchange : forall p q dt x y, let a := exchange inviscid p q dt x y in let b := exchange inviscid q p dt y x in
  forall i, (i <= S ndim)%nat -> q_dQ (fst a) i = q_dQ (snd b) i /\ q_dQ (snd a) i = q_dQ (fst b) i /\ q_dQdt (fst a) i = q_dQdt (snd b) i /\ q_dQdt (snd a) i = q_dQdt (fst b) i.
Proof.
  intros p q dt x y. cbv zeta. intros i Hi.
  destruct (exchange_swap ndim w0_s2 w1 limiter (hllc ndim zmf iso gammam1 sound) inviscid staticParticles) with (p := p) (q := q) (dt := dt) (x := x) (y := y) (k := O) as (H & _).
  - intros. now apply hllc_swap.
  - intros Wl Wr gl gr f f' i' j' Hf Hi' Hj'. unfold inviscid. now apply Hf.
  - now apply H.
Qed.
Theorem C60_exchange_viscous : forall p q dt x y, let a := exchange (ComputeViscousFlux ndim nu nub) p q dt x y in let b := exchange (ComputeViscousFlux ndim nu nub) q p dt y x in
  forall i, (i <= S ndim)%nat -> q_dQ (fst a) i = q_dQ (snd b) i /\ q_dQ (snd a) i = q_dQ (fst b) i /\ q_dQdt (fst a) i = q_dQdt (snd b) i /\ q_dQdt (snd a) i = q_dQdt (fst b) i.
Proof.
  intros p q dt x y. cbv zeta. intros i Hi.
  destruct (exchange_swap ndim w0_s2 w1 limiter (hllc ndim zmf iso gammam1 sound) (ComputeViscousFlux ndim nu nub) staticParticles) with (p := p) (q := q) (dt := dt) (x := x) (y := y) (k := O) as (H & _).
  - intros. now apply hllc_swap.
  - intros Wl Wr gl gr f f' i' j' Hf Hi' Hj'. now apply visc_swap.
  - now apply H.
Qed.
(** The distance over which mass was moved (rdmdt, for the work of gravity) gets the opposite sign. *)
Theorem C60_rdmdt : forall p q dt x y k, let a := exchange inviscid p q dt x y in let b := exchange inviscid q p dt y x in
  let moved := q_dQ y ndim - q_dQ (snd a) ndim in
  q_rd (fst a) k - q_rd x k = (g_r p k - g_r q k) * moved /\ q_rd (snd b) k - q_rd x k = - ((g_r p k - g_r q k) * moved).
Proof.
  intros p q dt x y k. cbv zeta.
  destruct (exchange_swap ndim w0_s2 w1 limiter (hllc ndim zmf iso gammam1 sound) inviscid staticParticles) with (p := p) (q := q) (dt := dt) (x := x) (y := y) (k := k) as (_ & H).
  - intros. now apply hllc_swap.
  - intros Wl Wr gl gr f f' i' j' Hf Hi' Hj'. unfold inviscid. now apply Hf.
  - exact H.
Qed.
End C60.
Print Assumptions C60_exchange.
Print Assumptions C60_exchange_viscous.
Print Assumptions C60_rdmdt.

Theorem C60_rdmdt_refuted : exists p q dt k, let e := exchange 1 kern (m4_w1 1) no_slope ex_hllc inviscid true in
  q_dQ (fst (e p q dt acc0 acc0)) 1%nat = q_dQ (snd (e q p dt acc0 acc0)) 1%nat /\
  q_rd (fst (e p q dt acc0 acc0)) k = 1 /\ q_rd (snd (e q p dt acc0 acc0)) k = -1.
Proof.
  assert (S : forall rho u, 0 < rho -> 0 < u -> 0 < adiabatic_sound (5/3) rho u) by (intros; apply adiabatic_pos; lra).
  exists (ex_part 0 1 1 1 0), (ex_part 1 1 1 1 0), 1, O. cbv zeta. destruct (ex_pair 1 1 1) as (f & E & V); [lra|lra|].
  split; [|].
  - apply (C60_exchange 1 kern (m4_w1 1) no_slope false false (2/3) (adiabatic_sound (5/3)) true ltac:(lra) S (ex_part 0 1 1 1 0) (ex_part 1 1 1 1 0) 1 acc0 acc0 1%nat). lia.
  - pose proof (C60_rdmdt 1 kern (m4_w1 1) no_slope false false (2/3) (adiabatic_sound (5/3)) true ltac:(lra) S (ex_part 0 1 1 1 0) (ex_part 1 1 1 1 0) 1 acc0 acc0 O) as (A & B).
    cbv zeta in A, B. fold ex_hllc in A, B. set (m := q_dQ (snd _) 1%nat) in *.
    assert (M : m = 1). { unfold m, exchange. rewrite E. cbn. rewrite V, ex_mass by lia. ring. }
    rewrite M in A, B. cbn [q_rd acc0 q_dQ g_r ex_part] in A, B. split; lra.
Qed.
Print Assumptions C60_rdmdt_refuted.
(** The hypotheses hold for an ideal gas. *)
Example C60_gas : forall gamma, 1 < gamma -> 0 < gamma - 1 /\ forall rho u, 0 < rho -> 0 < u -> 0 < adiabatic_sound gamma rho u.
Proof. intros gamma H. split; [lra|]. intros. now apply adiabatic_pos. Qed.
(** The exchange is not empty. *)
Example C60_case : let e := exchange 1 kern (m4_w1 1) no_slope ex_hllc inviscid true in
  q_dQ (fst (e (ex_part 0 1 1 1 0) (ex_part 1 1 1 1 0) 1 acc0 acc0)) 1%nat = -1 /\ q_dQ (fst (e (ex_part 0 1 1 1 0) (ex_part 1 1 1 1 0) 1 acc0 acc0)) 2%nat = -3.
Proof. cbv zeta. destruct (ex_pair 1 1 1) as (f & E & V); [lra|lra|]. unfold exchange. rewrite E. cbn. rewrite !V, ex_mass, ex_energy by lia. split; field. Qed.

(** * C61: a gas in motion behaves like the gas at rest *)
Section C61.
Variable ndim : nat.
Variables (w0_s2 w1 : R -> R) (limiter : gpart -> gpart -> vec -> (nat -> vec) * vec).
Variables (zmf iso : bool) (gammam1 : R) (sound : R -> R -> R).
Variable V : vec.
Hypothesis limiter_moving : forall p q d, limiter (moving ndim V p) (moving ndim V q) d = limiter p q d.
Notation pair_flux v := (pair_flux ndim w0_s2 w1 limiter (hllc ndim zmf iso gammam1 sound) v false).

(** Without viscosity, relative to a particle of velocity [v] the same mass, momentum and energy arrive whether the whole system moves or not. *)
Theorem C61_moving : forall p q dt v, match pair_flux inviscid p q dt, pair_flux inviscid (moving ndim V p) (moving ndim V q) dt with
  | Some f, Some f' => f' ndim = f ndim /\ (forall k, (k < ndim)%nat -> push ndim (fun k => v k + V k) f' k = push ndim v f k) /\
      heat ndim (fun k => v k + V k) f' = heat ndim v f
  | None, None => True
  | _, _ => False
  end.
Proof.
  intros p q dt v. pose proof (pair_moving ndim w0_s2 w1 limiter inviscid zmf iso gammam1 sound V limiter_moving p q dt (fun _ _ _ _ _ => eq_refl)) as H.
  destruct (pair_flux inviscid p q dt) as [f|], (pair_flux inviscid (moving ndim V p) (moving ndim V q) dt) as [f'|]; try exact H.
  destruct H as (A & B & C). split; [exact A|]. split; [intros; now apply (push_moving ndim V)|]. now apply heat_moving.
Qed.
(** With viscosity the heat changes by the work of the viscous force over the motion of the whole. *)
Theorem C61_viscous : forall nu nub p q dt v, match pair_flux (ComputeViscousFlux ndim nu nub) p q dt, pair_flux (ComputeViscousFlux ndim nu nub) (moving ndim V p) (moving ndim V q) dt with
  | Some f, Some f' => f' ndim = f ndim /\ (forall k, (k < ndim)%nat -> push ndim (fun k => v k + V k) f' k = push ndim v f k) /\
      heat ndim (fun k => v k + V k) f' = heat ndim v f - sumf ndim (fun k => V k * visc_force ndim w0_s2 w1 limiter nu nub p q dt k)
  | None, None => True
  | _, _ => False
  end.
Proof. intros nu nub p q dt v. exact (visc_moving ndim w0_s2 w1 limiter zmf iso gammam1 sound nu nub V limiter_moving p q dt v). Qed.
End C61.
Print Assumptions C61_moving.
Print Assumptions C61_viscous.

(** What viscosity adds is the stress and the work it does at the mean velocity relative to the face; none in rigid rotation. *)
Theorem C61_stress : forall ndim nu nub Wl Wr gl gr f i j, (i <= S ndim)%nat ->
  let rho := (Wl ndim + Wr ndim) / 2 in
  let s := stress ndim (nu * rho) (nub * rho) (fun a b => (gl a b + gr a b) / 2) in
  ComputeViscousFlux ndim nu nub Wl Wr gl gr f i j = f i j -
    (if Nat.ltb i ndim then s i j else if Nat.eqb i ndim then 0 else sumf ndim (fun k => (Wl k + Wr k) / 2 * s k j)).
Proof.
  intros ndim nu nub Wl Wr gl gr f i j Hi. cbv zeta. unfold ComputeViscousFlux, M_Mfv.irho, M_Mfv.ietot, stress.
  destruct (L_Riemann2.idx ndim i Hi) as [->|[->|L]].
  - replace (Nat.eqb ndim (S ndim)) with false by (symmetry; apply Nat.eqb_neq; lia). rewrite Nat.ltb_irrefl, Nat.eqb_refl. ring.
  - rewrite Nat.eqb_refl. replace (Nat.ltb (S ndim) ndim) with false by (symmetry; apply Nat.ltb_ge; lia). replace (Nat.eqb (S ndim) ndim) with false by (symmetry; apply Nat.eqb_neq; lia).
    f_equal. apply sumf_ext. intros k _. destruct (Nat.eqb k j); field.
  - replace (Nat.eqb i (S ndim)) with false by (symmetry; apply Nat.eqb_neq; lia). replace (Nat.ltb i ndim) with true by (symmetry; now apply Nat.ltb_lt). f_equal. destruct (Nat.eqb i j); field.
Qed.
Print Assumptions C61_stress.
Theorem C61_rigid : forall ndim nu nub Wl Wr gl gr f i j, (i <= S ndim)%nat -> (forall a b, gl a b = - gl b a) -> (forall a b, gr a b = - gr b a) ->
  ComputeViscousFlux ndim nu nub Wl Wr gl gr f i j = f i j.
Proof.
  intros ndim nu nub Wl Wr gl gr f i j Hi Al Ar. rewrite C61_stress by easy. cbv zeta.
  assert (D : forall a, gl a a = 0 /\ gr a a = 0) by (intros a; pose proof (Al a a); pose proof (Ar a a); lra).
  assert (Z : forall a b, stress ndim (nu * ((Wl ndim + Wr ndim) / 2)) (nub * ((Wl ndim + Wr ndim) / 2)) (fun a b => (gl a b + gr a b) / 2) a b = 0).
  { intros a b. unfold stress. rewrite (sumf_ext ndim _ (fun _ => 0)) by (intros k _; destruct (D k) as (-> & ->); field). rewrite sumf_zero, (Al a b), (Ar a b). destruct (Nat.eqb a b); field. }
  rewrite (sumf_ext ndim _ (fun _ => 0)) by (intros; rewrite Z; ring). rewrite sumf_zero, Z. destruct (Nat.ltb i ndim); [ring|]. destruct (Nat.eqb i ndim); ring.
Qed.
Print Assumptions C61_rigid.

Theorem C61_viscous_refuted : exists p q dt v f f', let flux := pair_flux 1 kern (m4_w1 1) no_slope ex_hllc (ComputeViscousFlux 1 (3/4) 0) false in
  flux p q dt = Some f /\ flux (moving 1 (fun _ => 10) p) (moving 1 (fun _ => 10) q) dt = Some f' /\
  heat 1 (fun k => v k + 10) f' = heat 1 v f + 10.
Proof.
  destruct (ex_visc_some0 1) as (f & E). destruct (ex_visc_some (fun _ => 10) 1) as (f' & E').
  exists (ex_part 0 0 1 1 1), (ex_part 1 0 1 1 1), 1, (fun _ => 0), f, f'. cbv zeta. split; [exact E|]. split; [exact E'|].
  pose proof (C61_viscous 1 kern (m4_w1 1) no_slope false false (2/3) (adiabatic_sound (5/3)) (fun _ => 10) (fun _ _ _ => eq_refl) (3/4) 0 (ex_part 0 0 1 1 1) (ex_part 1 0 1 1 1) 1 (fun _ => 0)) as H.
  fold ex_hllc in H. rewrite E, E' in H. destruct H as (_ & _ & H). rewrite H. cbn [sumf]. rewrite ex_visc. ring.
Qed.
Print Assumptions C61_viscous_refuted.
(** No limiter (SlopeLimiter.h: the gradient times the distance) meets the hypothesis, and one bounded by the difference to the neighbour does. *)
Definition plain : gpart -> gpart -> vec -> (nat -> vec) * vec := fun p q d => (g_grad p, fun k => dot 3 (g_grad p k) d).
Definition bounded : gpart -> gpart -> vec -> (nat -> vec) * vec := fun p q d => (g_grad p, fun k => Rmin (dot 3 (g_grad p k) d) (Rabs (g_W q k - g_W p k))).
Example C61_case : forall V p q d, plain (moving 3 V p) (moving 3 V q) d = plain p q d /\ bounded (moving 3 V p) (moving 3 V q) d = bounded p q d.
Proof.
  intros V p q d. split; [reflexivity|]. unfold bounded. f_equal. apply FunctionalExtensionality.functional_extensionality. intros k. cbn [moving g_grad g_W]. do 2 f_equal.
  destruct (Nat.ltb k 3); ring.
Qed.
