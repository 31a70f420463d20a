(** Accretion by sinks and the action of forces in the meshless finite-volume scheme. *)
From Verif Require Import Prelude L_Prelude Vec M_Box M_Mfv S_Stock S_Mfv L_Stock L_Mfv L_Mfv2.
From Coq Require Import Reals Lra Psatz.
Local Open Scope R_scope.

Section Mfv.
Variable ndim : nat.
Notation irho := (irho ndim).
Notation ietot := (ietot ndim).

Lemma u_array : forall p Q, m_u (UpdateArrayVariables ndim p Q) = (Q ietot - 1 / 2 * Q irho * sumf ndim (fun k => Q k / Q irho * (Q k / Q irho))) / Q irho.
Proof. reflexivity. Qed.
Lemma u_thermal : forall p Q, Q irho <> 0 -> m_u (UpdateArrayVariables ndim p Q) = thermal ndim Q.
Proof.
  intros p Q N. rewrite u_array. unfold thermal, M_Mfv.irho, M_Mfv.ietot in *. rewrite (sumf_ext ndim (fun k => Q k / Q ndim * (Q k / Q ndim)) (fun k => / (Q ndim * Q ndim) * (Q k * Q k))).
  - rewrite sumf_scal. field. exact N.
  - intros k _. field. exact N.
Qed.

Lemma adv_grav_spec : forall p dt Q n, (n <= ndim)%nat ->
  (forall k, (n <= k)%nat -> k <> ietot -> adv_grav ndim n p dt Q k = Q k) /\
  (forall k, (k < n)%nat -> adv_grav ndim n p dt Q k = Q k + 1 / 2 * (m_Q0 p irho + Q irho) * m_a0 p k * dt) /\
  adv_grav ndim n p dt Q ietot = Q ietot + sumf n (fun k => 1 / 2 * dt * (m_a0 p k * (m_Q0 p k + 1 / 2 * m_Q0 p irho * m_a0 p k * m_dt p) +
                                                         m_a0 p k * (Q k + 1 / 2 * Q irho * m_a0 p k * m_dt p))).
Proof.
  intros p dt Q n. induction n as [|n IH]; intros Hn.
  - cbn. repeat split; intros; try lia; ring.
  - destruct IH as (A & B & C); [lia|]. cbn [adv_grav]. set (G := adv_grav ndim n p dt Q) in *.
    assert (Hr : G irho = Q irho) by (apply A; unfold M_Mfv.irho, M_Mfv.ietot in *; lia).
    assert (Hk : G n = Q n) by (apply A; unfold M_Mfv.ietot in *; lia).
    assert (Ne : n <> ietot) by (unfold M_Mfv.ietot; lia). assert (Nr : irho <> ietot) by (unfold M_Mfv.irho, M_Mfv.ietot; lia). split; [|split].
    + intros k H1 H2. rewrite !vupd_ne by lia. apply A; lia.
    + intros k H1. destruct (Nat.eq_dec k n) as [->|N].
      * rewrite vupd_eq, !vupd_ne by easy. rewrite Hk, Hr. reflexivity.
      * rewrite !vupd_ne by (unfold M_Mfv.ietot; lia). apply B. lia.
    + rewrite vupd_ne by (intros E; now apply Ne). rewrite vupd_eq, C, Hr, Hk. cbn [sumf]. ring.
Qed.

(** ** Forces *)
(** The step ends: heat. *)
Theorem end_heat : forall n p, alone p -> ends n p = true -> m_Q0 p ndim <> 0 ->
  let p' := EndTimestep ndim n p in
  m_m p' = m_Q0 p ndim /\ (forall k, (k < ndim)%nat -> m_m p' * m_v p' k = m_Q0 p k + m_Q0 p ndim * (1 / 2 * (m_a0 p k + m_a p k) * m_dt p)) /\
  m_u p' = thermal ndim (m_Q0 p) + m_dt p * m_dt p / 8 * sumf ndim (fun k => (m_a p k - m_a0 p k) * (m_a p k - m_a0 p k)).
Proof.
  intros n p (Z1 & _ & Z3 & Z4) He N. unfold ends in He. apply andb_true_iff in He as (H1 & H2). apply negb_true_iff in H1.
  destruct (end_step ndim n p H1 H2) as (A & _ & B & C & _). cbv zeta in *.
  assert (M : m_m (EndTimestep ndim n p) = m_Q0 p ndim) by (rewrite B, A, source_mass, Z1; ring). split; [exact M|]. rewrite M in C. destruct (C N) as (C1 & C2). split.
  - intros k Hk. rewrite M, C1, A, Z1. unfold source. replace (Nat.ltb k ndim) with true by (symmetry; now apply Nat.ltb_lt). rewrite Z1. field.
  - set (m := m_Q0 p ndim) in *. set (p' := EndTimestep ndim n p) in *. set (DT := m_dt p) in *.
    assert (V : forall k, (k < ndim)%nat -> m_v p' k = (m_Q0 p k + m * (1 / 2 * (m_a0 p k + m_a p k) * DT)) / m).
    { intros k Hk. apply (Rmult_eq_reg_l m); [|exact N]. rewrite C1, A, Z1. unfold source. replace (Nat.ltb k ndim) with true by (symmetry; now apply Nat.ltb_lt). rewrite Z1. fold m DT. field. exact N. }
    rewrite A, Z1 in C2. unfold source in C2. replace (Nat.ltb (S ndim) ndim) with false in C2 by (symmetry; apply Nat.ltb_ge; lia). rewrite Nat.eqb_refl in C2. rewrite Z4 in C2. fold m DT in C2.
    assert (ZR : forall a : vec, sumf ndim (fun i => a i * q_rd (m_q p) i) = 0).
    { intros a. rewrite (sumf_ext ndim _ (fun _ => 0)); [apply sumf_zero|]. intros; rewrite Z3; ring. }
    rewrite !ZR in C2. unfold dot in C2.
    assert (U : m * m_u p' = m * thermal ndim (m_Q0 p) + m * (DT * DT / 8 * sumf ndim (fun k => (m_a p k - m_a0 p k) * (m_a p k - m_a0 p k)))); [|].
    2:{ apply (Rmult_eq_reg_l m); [|exact N]. rewrite U. ring. }
    replace (m * m_u p') with (m * (m_u p' + 1 / 2 * sumf ndim (fun k => m_v p' k * m_v p' k)) - 1 / 2 * m * sumf ndim (fun k => m_v p' k * m_v p' k)) by ring. rewrite C2.
    unfold thermal. fold m.
    rewrite (sumf_ext ndim (fun k => m_v p' k * m_v p' k) (fun k => / (m * m) * (m_Q0 p k * m_Q0 p k) + (DT / m) * (m_Q0 p k * (m_a0 p k + m_a p k)) + DT * DT / 4 * ((m_a0 p k + m_a p k) * (m_a0 p k + m_a p k))))
      by (intros k Hk; rewrite V by easy; field; exact N).
    rewrite (sumf_ext ndim (fun i => 1 / 2 * DT * _) (fun k => 1 / 2 * DT * (m_Q0 p k * (m_a0 p k + m_a p k)) + 1 / 4 * m * DT * DT * (m_a0 p k * m_a0 p k + m_a p k * m_a p k))).
    2:{ intros k Hk. rewrite !Z1. fold m. field. }
    rewrite (sumf_ext ndim (fun k => (m_a p k - m_a0 p k) * (m_a p k - m_a0 p k)) (fun k => 2 * (m_a0 p k * m_a0 p k + m_a p k * m_a p k) + -1 * ((m_a0 p k + m_a p k) * (m_a0 p k + m_a p k)))) by (intros; ring).
    rewrite !sumf_plus, !sumf_scal. rewrite !sumf_plus. field. exact N.
Qed.
(** In the middle of the step. *)
Theorem middle_heat : forall n ts p, alone p -> m_dead p = false -> m_Q0 p ndim <> 0 ->
  let p' := AdvanceParticle ndim n ts p in
  let t := ts * IZR (n - m_nlast p) in
  m_m p' = m_Q0 p ndim /\ (forall k, (k < ndim)%nat -> m_m p' * m_v p' k = m_Q0 p k + m_Q0 p ndim * (m_a0 p k * t)) /\
  m_u p' = thermal ndim (m_Q0 p) + 1 / 2 * t * (m_dt p - t) * sumf ndim (fun k => m_a0 p k * m_a0 p k).
Proof.
  intros n ts p (Z1 & Z2 & _ & Z4) Hd N. cbv zeta. unfold AdvanceParticle. rewrite Hd. set (t := ts * IZR (n - m_nlast p)).
  set (Q := if (n - m_nlast p =? m_nstep p)%Z then _ else _).
  assert (EQ : forall k, Q k = m_Q0 p k) by (intros k; unfold Q; destruct (n - m_nlast p =? m_nstep p)%Z; rewrite ?Z1, ?Z2; ring).
  destruct (adv_grav_spec p t Q ndim (le_n _)) as (A & B & C). set (G := adv_grav ndim ndim p t Q) in *.
  assert (Hr : G irho = m_Q0 p ndim) by (rewrite A by (unfold M_Mfv.irho, M_Mfv.ietot; lia); apply EQ).
  set (QQ := vupd G ietot (G ietot - m_cool p * t)).
  assert (Qr : QQ irho = m_Q0 p ndim) by (unfold QQ; rewrite vupd_ne by (unfold M_Mfv.irho, M_Mfv.ietot; lia); exact Hr).
  assert (Qk : forall k, (k < ndim)%nat -> QQ k = m_Q0 p k + m_Q0 p ndim * (m_a0 p k * t)).
  { intros k Hk. unfold QQ. rewrite vupd_ne by (unfold M_Mfv.ietot; lia). rewrite B by easy. rewrite !EQ. unfold M_Mfv.irho. field. }
  destruct (m_array ndim (set_active p (n - m_nlast p =? m_nstep p)%Z) QQ) as (M1 & M2). rewrite Qr in M1, M2. destruct (M2 N) as (M3 & _).
  split; [exact M1|]. split; [intros k Hk; rewrite M3; now apply Qk|].
  rewrite u_thermal by (rewrite Qr; exact N). unfold thermal. unfold M_Mfv.irho in *. rewrite Qr. set (m := m_Q0 p ndim) in *.
  assert (QE : QQ (S ndim) = m_Q0 p (S ndim) + sumf ndim (fun k => 1 / 2 * t * (m_a0 p k * (m_Q0 p k + 1 / 2 * m * m_a0 p k * m_dt p) + m_a0 p k * (m_Q0 p k + 1 / 2 * m * m_a0 p k * m_dt p)))).
  { unfold QQ. change (S ndim) with ietot at 1. rewrite vupd_eq, C, Z4, EQ. unfold M_Mfv.ietot. rewrite (sumf_ext ndim _ (fun k => 1 / 2 * t * (m_a0 p k * (m_Q0 p k + 1 / 2 * m * m_a0 p k * m_dt p) + m_a0 p k * (m_Q0 p k + 1 / 2 * m * m_a0 p k * m_dt p)))); [ring|].
    intros k Hk. rewrite !EQ. unfold M_Mfv.irho. reflexivity. }
  rewrite QE.
  rewrite (sumf_ext ndim (fun k => QQ k * QQ k) (fun k => m_Q0 p k * m_Q0 p k + (2 * m * t) * (m_Q0 p k * m_a0 p k) + m * m * t * t * (m_a0 p k * m_a0 p k))) by (intros k Hk; rewrite Qk by easy; ring).
  rewrite (sumf_ext ndim (fun k => 1 / 2 * t * _) (fun k => t * (m_Q0 p k * m_a0 p k) + 1 / 2 * t * m * m_dt p * (m_a0 p k * m_a0 p k))) by (intros; field).
  rewrite !sumf_plus, !sumf_scal. field. exact N.
Qed.

(** ** Accretion *)
Lemma accrete_content : forall dm p k, m_Q0 (AccreteMassFromParticle ndim dm p) k + q_dQ (m_q (AccreteMassFromParticle ndim dm p)) k =
  m_Q0 p k + q_dQ (m_q p) k - (if Nat.eqb k ndim then dm else if Nat.ltb k ndim then dm * m_v p k else 0).
Proof. intros dm p k. unfold AccreteMassFromParticle. cbn [m_Q0 m_q q_dQ]. unfold M_Mfv.irho. destruct (Nat.eqb k ndim); [ring|]. destruct (Nat.ltb k ndim); ring. Qed.
(** At the end of a step the mass taken is gone and the velocity kept; the energy is not taken. *)
Theorem accrete_end : forall n dm p, shows ndim p -> ends n p = true -> m_m p <> 0 -> m_m p <> dm -> (forall k, m_a p k = 0) -> (forall k, m_a0 p k = 0) -> m_cool p = 0 ->
  let p' := EndTimestep ndim n (AccreteMassFromParticle ndim dm p) in
  m_m p' = m_m p - dm /\ (forall k, (k < ndim)%nat -> m_v p' k = m_v p k) /\
  (m_m p - dm) * m_u p' = m_m p * m_u p + 1 / 2 * dm * sumf ndim (fun k => m_v p k * m_v p k).
Proof.
  intros n dm p (S1 & S2 & S3) He N N' Ha Ha0 Hc. set (q := AccreteMassFromParticle ndim dm p).
  unfold ends in He. apply andb_true_iff in He as (H1 & H2). apply negb_true_iff in H1.
  destruct (end_step ndim n q H1 H2) as (A & _ & B & C & _). cbv zeta in *.
  assert (Q : forall k, m_Q0 (EndTimestep ndim n q) k = m_Q0 p k + q_dQ (m_q p) k - (if Nat.eqb k ndim then dm else if Nat.ltb k ndim then dm * m_v p k else 0)).
  { intros k. rewrite A, source_quiet by easy. unfold q. rewrite <- accrete_content. ring. }
  assert (M : m_m (EndTimestep ndim n q) = m_m p - dm) by (rewrite B, Q, Nat.eqb_refl, S1; ring).
  split; [exact M|]. rewrite M in C. assert (N2 : m_m p - dm <> 0) by lra. destruct (C N2) as (C1 & C2).
  assert (V : forall k, (k < ndim)%nat -> m_v (EndTimestep ndim n q) k = m_v p k).
  { intros k Hk. apply (Rmult_eq_reg_l (m_m p - dm)); [|exact N2]. rewrite C1, Q, <- S2 by easy.
    replace (Nat.eqb k ndim) with false by (symmetry; apply Nat.eqb_neq; lia). replace (Nat.ltb k ndim) with true by (symmetry; now apply Nat.ltb_lt). ring. }
  split; [exact V|]. rewrite Q, <- S3 in C2. replace (Nat.eqb (S ndim) ndim) with false in C2 by (symmetry; apply Nat.eqb_neq; lia). replace (Nat.ltb (S ndim) ndim) with false in C2 by (symmetry; apply Nat.ltb_ge; lia).
  unfold dot in C2. rewrite (sumf_ext ndim (fun k => m_v (EndTimestep ndim n q) k * m_v (EndTimestep ndim n q) k) (fun k => m_v p k * m_v p k)) in C2 by (intros; now rewrite V). lra.
Qed.
(** In the middle of a step the next prediction is as if nothing had been taken. *)
Theorem accrete_middle : forall n ts dm p, (n - m_nlast p)%Z <> m_nstep p ->
  let a := AdvanceParticle ndim n ts (AccreteMassFromParticle ndim dm p) in let b := AdvanceParticle ndim n ts p in
  m_dead p = false -> m_m a = m_m b /\ m_v a = m_v b /\ m_u a = m_u b.
Proof.
  intros n ts dm p H. cbv zeta. intros Hd. set (q := AccreteMassFromParticle ndim dm p).
  assert (G : forall j Q, adv_grav ndim j q (ts * IZR (n - m_nlast p)) Q = adv_grav ndim j p (ts * IZR (n - m_nlast p)) Q).
  { induction j as [|j IH]; intros Q; [reflexivity|]. cbn [adv_grav]. rewrite IH. reflexivity. }
  unfold AdvanceParticle. change (m_dead q) with (m_dead p). change (m_nlast q) with (m_nlast p). change (m_nstep q) with (m_nstep p). change (m_Q0 q) with (m_Q0 p). change (m_cool q) with (m_cool p).
  change (q_dQdt (m_q q)) with (q_dQdt (m_q p)). rewrite Hd. replace (n - m_nlast p =? m_nstep p)%Z with false by (symmetry; now apply Z.eqb_neq).
  rewrite !G. split; [reflexivity|]. split; reflexivity.
Qed.
(** At the end of the step the prediction is without what was taken. *)
Theorem accrete_last : forall n ts dm p, (n - m_nlast p)%Z = m_nstep p -> m_dead p = false ->
  let a := AdvanceParticle ndim n ts (AccreteMassFromParticle ndim dm p) in let b := AdvanceParticle ndim n ts p in
  m_m a = m_m b - dm /\ ((forall k, m_a0 p k = 0) -> m_m a <> 0 -> m_m b <> 0 -> forall k, (k < ndim)%nat -> m_m a * m_v a k = m_m b * m_v b k - dm * m_v p k).
Proof.
  intros n ts dm p H Hd. cbv zeta. set (q := AccreteMassFromParticle ndim dm p).
  unfold AdvanceParticle. change (m_dead q) with (m_dead p). change (m_nlast q) with (m_nlast p). change (m_nstep q) with (m_nstep p). change (m_Q0 q) with (m_Q0 p). change (m_cool q) with (m_cool p).
  rewrite Hd. replace (n - m_nlast p =? m_nstep p)%Z with true by (symmetry; now apply Z.eqb_eq).
  set (dt := ts * IZR (n - m_nlast p)).
  set (Qa := fun k => m_Q0 p k + q_dQ (m_q q) k). set (Qb := fun k => m_Q0 p k + q_dQ (m_q p) k).
  destruct (adv_grav_spec q dt Qa ndim (le_n _)) as (A1 & B1 & _). destruct (adv_grav_spec p dt Qb ndim (le_n _)) as (A2 & B2 & _).
  unfold UpdateArrayVariables. cbn [m_m m_v].
  assert (M1 : Qa irho = Qb irho - dm). { unfold Qa, Qb, q, AccreteMassFromParticle, M_Mfv.irho. cbn [m_q q_dQ]. rewrite Nat.eqb_refl. ring. }
  split.
  - rewrite !vupd_ne by (unfold M_Mfv.irho, M_Mfv.ietot; lia). rewrite A1, A2 by (unfold M_Mfv.irho, M_Mfv.ietot; lia). exact M1.
  - intros Z N1 N2 k Hk. cbv beta zeta in *. rewrite !vupd_ne in N1, N2 |- * by (unfold M_Mfv.irho, M_Mfv.ietot; lia).
    rewrite ?vupd_ne by (unfold M_Mfv.irho, M_Mfv.ietot; lia). rewrite (B1 k Hk), (B2 k Hk). change (m_a0 q k) with (m_a0 p k). rewrite Z.
    set (x := adv_grav _ _ q _ _ _) in *. set (y := adv_grav _ _ p _ _ _) in *. 
    replace (Qa k) with (Qb k - dm * m_v p k). { field. split; assumption. }
    unfold Qa, Qb, q, AccreteMassFromParticle. cbn [m_q q_dQ]. unfold M_Mfv.irho. rewrite (proj2 (Nat.eqb_neq k ndim)) by lia. rewrite (proj2 (Nat.ltb_lt k ndim) Hk). ring.
Qed.
End Mfv.
