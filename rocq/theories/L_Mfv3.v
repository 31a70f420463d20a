(** Where the meshless finite-volume scheme does not keep the totals. *)
From Verif Require Import Prelude L_Prelude Vec M_Box M_Mfv S_Stock S_Mfv L_Stock L_Mfv L_Mfv2.
From Coq Require Import Reals Lra.
Local Open Scope R_scope.

(** A particle at the beginning of a step of length [nstep] at time 0, at rest, without forces. *)
Definition fresh (g : gpart) (Q : vec) (level nstep lneib : Z) (ts : R) (ndim : nat) : mpart :=
  mkmpart g (Q ndim) (fun _ => 0) 0 Q acc0 (fun _ => 0) (fun _ => 0) 0 (ts * IZR nstep) 0 true false false level nstep 0 lneib.
(** Densities and gradients computed anew. *)
Definition set_g (p : mpart) (g : gpart) : mpart :=
  mkmpart g (m_m p) (m_v p) (m_u p) (m_Q0 p) (m_q p) (m_a p) (m_a0 p) (m_cool p) (m_dt p) (m_dtnext p) (m_active p) (m_dead p) (m_end p) (m_level p) (m_nstep p) (m_nlast p) (m_lneib p).

(** The first particle treats the pair. *)
Definition pair_cell (b : gpart) : cell := mkcell [(0%Z, [(0%Z, b)])] [(1%Z, false)].
Lemma pair_ok : forall (p q : mpart) b, cell_ok (zlen [p; q]) (pair_cell b).
Proof.
  intros p q b. split.
  - intros i l [E|[]]. injection E as <- <-. split; [cbn; lia|]. intros j r [E|[]]. injection E as <- <-. cbn. lia.
  - intros i w [E|[]]. injection E as <- <-. cbn. lia.
Qed.

Section Mfv.
Variable ndim : nat.
Variables (w0_s2 w1 : R -> R) (limiter : gpart -> gpart -> vec -> (nat -> vec) * vec) (riemann : vec -> vec -> vec -> vec -> nat -> vec)
  (viscous : vec -> vec -> (nat -> vec) -> (nat -> vec) -> (nat -> vec) -> nat -> vec) (staticParticles : bool).
Notation pair_flux := (pair_flux ndim w0_s2 w1 limiter riemann viscous staticParticles).
Notation UpdateGodunovFluxes := (UpdateGodunovFluxes ndim w0_s2 w1 limiter riemann viscous staticParticles).
Notation history := (history ndim w0_s2 w1 limiter riemann viscous staticParticles).
Notation event := (event ndim w0_s2 w1 limiter riemann viscous staticParticles).

Definition credit (x : acc) (f : vec) (dt s : R) (g g' : gpart) (rate : bool) : acc :=
  mkacc (fun k => q_dQ x k + s * f k * dt) (fun k => if rate then q_dQdt x k + s * f k else q_dQdt x k) (fun k => q_rd x k + s * (g_r g k - g_r g' k) * f ndim * dt).

Lemma pair_fluxes : forall ts p q f, pair_flux (m_g p) (m_g q) (ts * IZR (m_nstep p)) = Some f -> m_active p = true ->
  exists x y, UpdateGodunovFluxes ts [p; q] [[pair_cell (m_g q)]] = Ok [set_acc p x; set_acc q y] /\
    (forall k, q_dQ x k = q_dQ (m_q p) k - f k * (ts * IZR (m_nstep p))) /\ (forall k, q_dQ y k = q_dQ (m_q q) k + f k * (ts * IZR (m_nstep p))) /\
    (forall k, q_dQdt x k = q_dQdt (m_q p) k - f k) /\ (forall k, q_dQdt y k = q_dQdt (m_q q) k + if m_active q then f k else 0).
Proof.
  intros ts p q f E A. unfold M_Mfv.UpdateGodunovFluxes, pair_cell. cbn. unfold aget. cbn. unfold exchange. rewrite E. unfold aset. cbn.
  eexists _, _. split; [reflexivity|]. cbn. rewrite ?A. destruct (m_active q); cbn; repeat split; intros; ring.
Qed.

Theorem simple_limiter : forall a b Qa Qb ts f, pair_flux a b (ts * 4) = Some f ->
  exists parts1 parts2,
    let parts := [fresh a Qa 0 4 2 ts ndim; fresh b Qb 0 4 0 ts ndim] in
    UpdateGodunovFluxes ts parts [[pair_cell b]] = Ok parts1 /\
    Forall2 (fun p p' => CheckTimestep true 1 2 2 ts p = Ok p') parts1 parts2 /\
    forall k, total k parts2 = total k parts + 2 * ts * f k.
Proof.
  intros a b Qa Qb ts f E. cbv zeta.
  destruct (pair_fluxes ts (fresh a Qa 0 4 2 ts ndim) (fresh b Qb 0 4 0 ts ndim) f) as (x & y & G & A & B & C & _); [exact E|reflexivity|].
  eexists _, _. split; [exact G|]. split.
  - constructor; [|constructor; [|constructor]].
    + unfold CheckTimestep. cbn. reflexivity.
    + unfold CheckTimestep. cbn. reflexivity.
  - intros k. unfold total. cbn. rewrite B, C. cbn. ring.
Qed.

(** Steps of lengths 1 and 4; the state at time 2, after the exchanges of times 0 and 1. *)
Theorem between : forall a b a' b' Qa Qb ts f f', pair_flux a b (ts * 1) = Some f -> pair_flux a' b' (ts * 1) = Some f' ->
  exists s parts1,
    let parts := [fresh a Qa 2 1 2 ts ndim; fresh b Qb 0 4 2 ts ndim] in
    history s parts parts1 /\ (forall k, s k = 0) /\
    let parts2 := map (AdvanceParticle ndim 2 ts) parts1 in
    event (fun _ => 0) parts1 parts2 /\
    lsum m_m parts2 = total ndim parts + ts * (f ndim - f' ndim).
Proof.
  intros a b a' b' Qa Qb ts f f' E E'. cbv zeta.
  destruct (pair_fluxes ts (fresh a Qa 2 1 2 ts ndim) (fresh b Qb 0 4 2 ts ndim) f) as (x & y & G & A & B & C & D); [exact E|reflexivity|].
  set (P1 := [set_acc (fresh a Qa 2 1 2 ts ndim) x; set_acc (fresh b Qb 0 4 2 ts ndim) y]) in *.
  set (P2 := map (EndTimestep ndim 1) P1).
  assert (E2 : exists p q, P2 = [p; q] /\ m_nstep p = 1%Z /\ m_nlast p = 1%Z /\ m_active p = true /\ m_dead p = false /\ m_nstep q = 4%Z /\ m_nlast q = 0%Z /\ m_dead q = false /\ m_active q = false /\
     m_Q0 p ndim = Qa ndim - f ndim * ts /\ m_q p = acc0 /\ m_Q0 q ndim = Qb ndim /\ q_dQ (m_q q) ndim = f ndim * ts /\ q_dQdt (m_q q) ndim = f ndim /\ (forall i, m_a0 p i = 0) /\ (forall i, m_a0 q i = 0)).
  { pose proof (end_step ndim 1 (set_acc (fresh a Qa 2 1 2 ts ndim) x) eq_refl eq_refl) as (S1 & S2 & _). cbv zeta in S1, S2.
    unfold P2, P1. cbn [map]. eexists _, _. split; [reflexivity|].
    split; [reflexivity|]. split; [reflexivity|]. split; [reflexivity|]. split; [reflexivity|]. split; [reflexivity|]. split; [reflexivity|].
    split; [reflexivity|]. split; [reflexivity|]. split; [rewrite S1, source_mass; cbn; rewrite A; cbn; ring|]. split; [exact S2|].
    split; [reflexivity|]. split; [cbn; rewrite B; cbn; ring|]. split; [cbn; rewrite D; cbn; ring|]. split; intros; reflexivity. }
  destruct E2 as (p & q & E2 & Np & Lp & Ap & Dp & Nq & Lq & Dq & Aq & Q0p & Qp & Q0q & Qq & Rq & Zp & Zq).
  set (P3 := [set_g p a'; set_g q b']).
  destruct (pair_fluxes ts (set_g p a') (set_g q b') f') as (x' & y' & G' & A' & B' & C' & D').
  { cbn. now rewrite Np. }
  { exact Ap. }
  set (P4 := [set_acc (set_g p a') x'; set_acc (set_g q b') y']) in *.
  eexists _, P4. split; [|split].
  - eapply h_cons; [apply (ev_fluxes _ _ _ _ _ _ _ ts [[pair_cell b]]); [|exact G]|].
    { intros cl [<-|[]]. apply pair_ok. }
    eapply h_cons; [apply (ev_end _ _ _ _ _ _ _ 1)|]. fold P2.
    eapply h_cons; [apply (ev_other _ _ _ _ _ _ _ P2 P3)|].
    { rewrite E2. unfold P3. repeat constructor. }
    eapply h_cons; [apply (ev_fluxes _ _ _ _ _ _ _ ts [[pair_cell b']] P3 P4); [|exact G']|apply h_nil].
    intros cl [<-|[]]. apply pair_ok.
  - intros k. cbv beta. unfold to_walls, xchs. cbn -[source ends]. unfold getp, getn. cbn -[source ends].
    rewrite !source_quiet; try (intros; reflexivity). destruct (ends _ _), (ends _ _); ring.
  - split; [apply ev_advance|]. unfold P4. cbn [map lsum].
    assert (M : forall r, m_dead r = false -> (forall i, m_a0 r i = 0) -> forall ts', m_m (AdvanceParticle ndim 2 ts' r) =
       m_Q0 r ndim + if (2 - m_nlast r =? m_nstep r)%Z then q_dQ (m_q r) ndim else q_dQdt (m_q r) ndim * (ts' * IZR (2 - m_nlast r))).
    { intros r Dr Zr ts'. unfold AdvanceParticle. rewrite Dr. cbn [m_m UpdateArrayVariables].
      unfold M_Mfv.irho. rewrite vupd_ne by (unfold M_Mfv.ietot; lia).
      assert (AG : forall n Q, (n <= ndim)%nat -> adv_grav ndim n r (ts' * IZR (2 - m_nlast r)) Q ndim = Q ndim).
      { induction n as [|n IH]; intros Q Hn; [reflexivity|]. cbn [adv_grav]. rewrite !vupd_ne by (unfold M_Mfv.ietot; lia). apply IH. lia. }
      rewrite AG by lia. destruct (2 - m_nlast r =? m_nstep r)%Z; reflexivity. }
    rewrite !M by (cbn; assumption). cbn [m_nlast m_nstep m_Q0 m_q set_acc set_g]. rewrite Lp, Np, Lq, Nq.
    replace (2 - 1 =? 1)%Z with true by reflexivity. replace (2 - 0 =? 4)%Z with false by reflexivity.
    rewrite A', D'. cbn [set_g m_active m_q m_nstep]. rewrite Aq, Q0p, Qp, Q0q, Rq, Np. unfold total. cbn [lsum fresh m_Q0 m_q acc0 q_dQ].
    replace (2 - 0)%Z with 2%Z by reflexivity. ring.
Qed.
End Mfv.
