(** One step of the integrators: what a star gets, accuracy, time steps. *)
From Verif Require Import Prelude Vec M_Box M_Periodic L_Box L_Periodic S_Periodic M_Hermite S_Hermite L_Hermite L_Hermite3 L_Hermite4 L_Hermite6.
From Coq Require Import Reals.
From Coquelicot Require Import Coquelicot.
Local Open Scope R_scope.

(** ** Taylor *)
Lemma derive_n_tower : forall D, derivatives D -> forall q p t, is_derive_n (D p) q t (D (p + q)%nat t).
Proof.
  intros D HD q. induction q as [|q IH]; intros p t.
  - now rewrite Nat.add_0_r.
  - simpl. apply (is_derive_ext (D (p + q)%nat)).
    + intros s. symmetry. apply is_derive_n_unique, IH.
    + replace (p + S q)%nat with (S (p + q)) by lia. apply HD.
Qed.
Fixpoint taylor (D : nat -> R -> R) (p q : nat) (t0 dt : R) : R :=
  match q with O => 0 | S q => taylor D p q t0 dt + dt ^ q / INR (fact q) * D (p + q)%nat t0 end.
Lemma taylor_sum : forall D p q t0 dt, derivatives D ->
  sum_f_R0 (fun m => dt ^ m / INR (fact m) * Derive_n (D p) m t0) q = taylor D p (S q) t0 dt.
Proof.
  intros D p q t0 dt HD. induction q as [|q IH].
  - cbn [sum_f_R0 taylor]. rewrite (is_derive_n_unique _ _ _ _ (derive_n_tower D HD 0 p t0)). ring.
  - cbn [sum_f_R0]. rewrite IH. rewrite (is_derive_n_unique _ _ _ _ (derive_n_tower D HD (S q) p t0)). reflexivity.
Qed.
Lemma taylor_bound : forall D p q t0 dt M, derivatives D -> 0 <= dt -> bounded_on (D (p + S q)%nat) t0 dt M ->
  Rabs (D p (t0 + dt) - taylor D p (S q) t0 dt) <= M * dt ^ S q / INR (fact (S q)).
Proof.
  intros D p q t0 dt M HD Hdt HM. destruct (Req_dec dt 0) as [-> |Hne].
  - rewrite Rplus_0_r. assert (taylor D p (S q) t0 0 = D p t0) as ->.
    { clear. induction q as [|q IH]; [cbn; rewrite Nat.add_0_r; field|]. cbn [taylor] in *. rewrite IH.
      rewrite (pow_i (S q)) by lia. unfold Rdiv. ring. }
    rewrite Rminus_diag_eq by reflexivity. rewrite Rabs_R0, pow_i by lia. unfold Rdiv. rewrite Rmult_0_r, Rmult_0_l. lra.
  - destruct (Taylor_Lagrange (D p) q t0 (t0 + dt)) as (z & Hz & E); [lra| |].
    + intros t _ k _. destruct k as [|k]; [exact I|]. eexists. apply (derive_n_tower D HD (S k) p t).
    + rewrite E. replace (t0 + dt - t0) with dt by ring. rewrite taylor_sum by assumption.
      rewrite (is_derive_n_unique _ _ _ _ (derive_n_tower D HD (S q) p z)).
      replace (taylor D p (S q) t0 dt + dt ^ S q / INR (fact (S q)) * D (p + S q)%nat z - taylor D p (S q) t0 dt)
        with (D (p + S q)%nat z * (dt ^ S q / INR (fact (S q)))) by ring.
      assert (0 <= dt ^ S q / INR (fact (S q))).
      { apply Rmult_le_pos; [apply pow_le; lra|]. apply Rlt_le, Rinv_0_lt_compat, INR_fact_lt_0. }
      rewrite Rabs_mult, (Rabs_right (dt ^ S q / INR (fact (S q)))) by lra.
      replace (M * dt ^ S q / INR (fact (S q))) with (M * (dt ^ S q / INR (fact (S q)))) by (unfold Rdiv; ring).
      apply Rmult_le_compat_r; [assumption|]. apply HM. lra.
Qed.

(** ** What one step does to a star *)
Section step.
Variables (n : nat) (b : dombox) (soft : option skern) (c : scheme) (npec : nat) (mult : R) (N : nat).
Definition started (s : sim) : Prop := m_n s = 0%Z /\ forall i, (i < N)%nat -> let p := m_S s i in
    s_r0 p = s_r p /\ s_v0 p = s_v p /\ s_a0 p = s_a p /\ s_adot0 p = s_adot p /\ (c = Hermite6TS -> s_a2dot0 p = s_a2dot p) /\
    s_nlast p = 0%Z /\ s_nstep p = 1%Z /\ s_tlast p = m_t s /\ s_dt p = m_dt s.
Definition inflight (s : sim) (S : stars) : Prop := forall i, (i < N)%nat -> let p := m_S s i in let q := S i in
    s_m q = s_m p /\ s_h q = s_h p /\ s_r0 q = s_r p /\ s_v0 q = s_v p /\ s_a0 q = s_a p /\ s_adot0 q = s_adot p /\
    (c = Hermite6TS -> s_a2dot0 q = s_a2dot p) /\ s_active q = true /\ s_nlast q = 0%Z /\ s_nstep q = 1%Z /\ s_tlast q = m_t s /\ s_dtint q = s_dtint p.
Notation adv s := (Advance c (m_n s + 1) N (m_t s + m_dt s) (m_S s)).
Notation pec1 s := (pec n b soft c (m_n s + 1) N (m_t s + m_dt s)).

Lemma adv_star : forall s i, started s -> (i < N)%nat -> adv s i = set_active (advance_rv c (m_dt s) (m_S s i)) true.
Proof.
  intros s i (Hn & Hs) Hi. unfold Advance. rewrite upd_in by assumption.
  destruct (Hs i Hi) as (_ & _ & _ & _ & _ & -> & -> & -> & _). rewrite Hn.
  replace (m_t s + m_dt s - m_t s) with (m_dt s) by ring. reflexivity.
Qed.
Lemma adv_inflight : forall s, started s -> inflight s (adv s).
Proof.
  intros s Hs i Hi. cbv zeta. rewrite adv_star by assumption. destruct Hs as (Hn & Hs).
  destruct (Hs i Hi) as (? & ? & ? & ? & E & ? & ? & ? & _). cbv zeta in *.
  destruct c; cbn; repeat split; auto; try congruence.
Qed.
Lemma pec_star : forall s S i, m_n s = 0%Z -> inflight s S -> (i < N)%nat ->
  pec1 s S i = correct_rv c (m_dt s) (Forces n b soft c N (Zero N S) i).
Proof.
  intros s S i Hn Hh Hi. unfold pec, Correction. rewrite upd_in by assumption.
  destruct (forces_hist n b soft c N (Zero N S) i Hi) as (_ & _ & _ & _ & _ & _ & _ & -> & -> & -> & _).
  destruct (hist_zero N S i) as (_ & _ & _ & _ & _ & _ & _ & -> & -> & -> & _).
  destruct (Hh i Hi) as (_ & _ & _ & _ & _ & _ & _ & _ & -> & -> & -> & _). rewrite Hn.
  replace (m_t s + m_dt s - m_t s) with (m_dt s) by ring. reflexivity.
Qed.
Lemma force_inflight : forall s S, inflight s S -> inflight s (Forces n b soft c N (Zero N S)).
Proof.
  intros s S Hh i Hi. cbv zeta.
  pose proof (hist_trans _ _ _ (hist_zero N S i) (forces_hist n b soft c N (Zero N S) i Hi)) as
    ((? & ? & ? & ?) & ? & ? & ? & ? & ? & ? & ? & ? & ? & ?).
  destruct (Hh i Hi) as (? & ? & ? & ? & ? & ? & F2 & ? & ? & ? & ? & ?). cbv zeta in *.
  repeat split; try congruence. intros Hc. rewrite <- (F2 Hc). congruence.
Qed.
Lemma pec_inflight : forall s S, m_n s = 0%Z -> inflight s S -> inflight s (pec1 s S).
Proof.
  intros s S Hn Hh i Hi. cbv zeta. rewrite pec_star by assumption.
  destruct (force_inflight s S Hh i Hi) as (? & ? & ? & ? & ? & ? & F2 & ? & ? & ? & ? & ?). cbv zeta in *.
  destruct c; cbn; repeat split; auto.
Qed.
Lemma iter_inflight : forall s q S, m_n s = 0%Z -> inflight s S -> inflight s (Nat.iter q (pec1 s) S).
Proof. intros s q S Hn HS. induction q; [exact HS|]. cbn. now apply pec_inflight. Qed.
Lemma finish_started : forall t S,
  started (let (S', dt) := GlobalTimestep n c mult N S in mkSim (EndTimestep c 0 N t S') 0 t dt).
Proof.
  intros t S. cbn [GlobalTimestep]. split; [reflexivity|].
  intros i Hi. cbn [m_S]. unfold EndTimestep. rewrite !upd_in by assumption. cbn. repeat split. intros ->. reflexivity.
Qed.
Lemma setup_started : forall t S, started (Setup n b soft c mult N t S).
Proof. intros. unfold Setup. apply finish_started. Qed.
Lemma main_started : forall s, started (MainLoop n b soft c npec mult N s).
Proof. intros. unfold MainLoop. apply finish_started. Qed.
Lemma run_started : forall t q S, started (Run n b soft c npec mult N t q S).
Proof. intros t [|q] S; [apply setup_started|apply main_started]. Qed.

(** Result of a step for star i: the last iterate with the bookkeeping fields renewed. *)
Lemma main_star : forall s i, (i < N)%nat ->
  let q := Nat.iter (Npec c npec) (pec1 s) (adv s) i in
  let p := m_S (MainLoop n b soft c npec mult N s) i in
  s_m p = s_m q /\ s_h p = s_h q /\ s_r p = s_r q /\ s_v p = s_v q /\ s_a p = s_a q /\ s_adot p = s_adot q /\
  s_a2dot p = s_a2dot q /\ s_a3dot p = s_a3dot q /\ s_dtint p = s_dtint q.
Proof.
  intros s i Hi. cbv zeta. unfold MainLoop. cbn [GlobalTimestep m_S]. unfold EndTimestep. rewrite !upd_in by assumption. cbn. repeat split.
Qed.

(** New position and velocity from old values and the new forces, by scheme. *)
Definition step_v (dt : R) (p q : star) (k : nat) : R :=
  match c with
  | LeapKDK => s_v p k + (1/2) * (s_a p k + s_a q k) * dt
  | Hermite4 | Hermite4TS => s_v p k + (1/2) * (s_a p k + s_a q k) * dt - (1/12) * (s_adot q k - s_adot p k) * dt ^ 2
  | Hermite6TS => s_v p k + (1/2) * (s_a p k + s_a q k) * dt - (1/10) * (s_adot q k - s_adot p k) * dt ^ 2 +
                  (1/120) * (s_a2dot q k + s_a2dot p k) * dt ^ 3
  end.
Definition step_r (dt : R) (p q : star) (k : nat) : R :=
  match c with
  | LeapKDK => s_r p k + s_v p k * dt + (1/2) * s_a p k * dt ^ 2
  | Hermite4 => s_r p k + s_v p k * dt + (7/20 * s_a p k + 3/20 * s_a q k) * dt ^ 2 + (s_adot p k / 20 - s_adot q k / 30) * dt ^ 3
  | Hermite4TS => s_r p k + (1/2) * (s_v p k + step_v dt p q k) * dt - (1/12) * (s_a q k - s_a p k) * dt ^ 2
  | Hermite6TS => s_r p k + (1/2) * (s_v p k + step_v dt p q k) * dt - (1/10) * (s_a q k - s_a p k) * dt ^ 2 +
                  (1/120) * (s_adot q k + s_adot p k) * dt ^ 3
  end.
Lemma step_formula : forall s i k, started s -> (i < N)%nat -> m_dt s <> 0 -> (1 <= Npec c npec)%nat ->
  let p := m_S s i in let q := m_S (MainLoop n b soft c npec mult N s) i in
  s_r q k = step_r (m_dt s) p q k /\ s_v q k = step_v (m_dt s) p q k.
Proof.
  intros s i k Hs Hi Hd HN. cbv zeta.
  pose proof (main_star s i Hi) as (_ & _ & Er & Ev & Ea & Ej & E2 & _). cbv zeta in *.
  destruct (Npec c npec) as [|m] eqn:EN; [lia|].
  change (Nat.iter (S m) (pec1 s) (adv s)) with (pec1 s (Nat.iter m (pec1 s) (adv s))) in *.
  set (S1 := Nat.iter m (pec1 s) (adv s)) in *.
  assert (I1 : inflight s S1) by (apply iter_inflight; [apply Hs|now apply adv_inflight]).
  rewrite pec_star in * by (assumption || apply Hs).
  set (F := Forces n b soft c N (Zero N S1) i) in *.
  destruct (force_inflight s S1 I1 i Hi) as (_ & _ & H1 & H2 & H3 & H4 & H5 & _). fold F in H1, H2, H3, H4, H5. cbv zeta in *.
  assert (HK : same_kin (S1 i) F).
  { destruct (hist_trans _ _ _ (hist_zero N S1 i) (forces_hist n b soft c N (Zero N S1) i Hi)) as (HK & _). exact HK. }
  destruct HK as (_ & _ & Kr & Kv).
  assert (E0 : m = 0%nat -> S1 i = set_active (advance_rv c (m_dt s) (m_S s i)) true).
  { intros ->. apply adv_star; assumption. }
  destruct (proj2 Hs i Hi) as (G1 & G2 & G3 & G4 & _). cbv zeta in *.
  unfold step_r, step_v. destruct c; cbn [Npec] in EN.
  - assert (m = 0)%nat as Hm by lia. specialize (E0 Hm). rewrite E0 in Kr, Kv. cbn in Kr, Kv.
    rewrite Er, Ev, Ea. cbn [correct_rv set_rv s_r s_v s_a]. rewrite Kr, Kv, H3, G1, G2, G3. split; field.
  - assert (m = 0)%nat as Hm by lia. specialize (E0 Hm). rewrite E0 in Kr, Kv. cbn in Kr, Kv.
    rewrite Er, Ev, Ea, Ej. cbn [correct_rv set_rv set_a23 s_r s_v s_a s_adot s_a2dot s_a3dot]. rewrite Kr, Kv, H3, H4, G1, G2, G3, G4. split; field; assumption.
  - rewrite Er, Ev, Ea, Ej. cbn [correct_rv set_rv set_a23 s_r s_v s_a s_adot s_a2dot s_a3dot s_r0 s_v0]. rewrite H1, H2, H3, H4. split; field.
  - rewrite Er, Ev, Ea, Ej, E2. cbn [correct_rv set_rv set_a23 s_r s_v s_a s_adot s_a2dot s_a3dot s_r0 s_v0 s_a2dot0]. rewrite H1, H2, H3, H4, (H5 eq_refl). split; field.
Qed.
Lemma main_time : forall s, m_t (MainLoop n b soft c npec mult N s) = m_t s + m_dt s.
Proof. reflexivity. Qed.
Lemma main_dt : forall s, m_dt (MainLoop n b soft c npec mult N s) = min_step n c mult N (Nat.iter (Npec c npec) (pec1 s) (adv s)).
Proof. reflexivity. Qed.

(** Softened forces have no second derivative. *)
Lemma soft_a2_zero : forall K S i k, soft = Some K -> c = Hermite6TS -> (i < N)%nat -> s_active (S i) = true ->
  s_a2dot (Forces n b soft c N (Zero N S) i) k = 0.
Proof.
  intros K S i k -> Hc Hi Ha. unfold Forces, DirectSmoothed. rewrite upd_in by assumption.
  destruct (pair_loop_smooth n b K (soft_e c) N (Zero N S) i (Zero N S i)) as (g & a & ad & -> & _).
  { now rewrite (proj2 (zero_kin N S i)). }
  cbn [set_force s_a2dot]. apply (zero_a2 N S i k Hi Ha).
Qed.
Lemma soft_main_a2 : forall K s i k, soft = Some K -> c = Hermite6TS -> (1 <= npec)%nat -> started s -> (i < N)%nat ->
  s_a2dot (m_S (MainLoop n b soft c npec mult N s) i) k = 0.
Proof.
  intros K s i k HK Hc Hp Hs Hi. destruct (main_star s i Hi) as (_ & _ & _ & _ & _ & _ & -> & _).
  assert (EN : exists m, Npec c npec = S m) by (rewrite Hc; cbn; exists (npec - 1)%nat; lia). destruct EN as (m & ->).
  change (Nat.iter (S m) (pec1 s) (adv s)) with (pec1 s (Nat.iter m (pec1 s) (adv s))).
  assert (I1 : inflight s (Nat.iter m (pec1 s) (adv s))) by (apply iter_inflight; [apply Hs|now apply adv_inflight]).
  rewrite pec_star by (assumption || apply Hs).
  replace (s_a2dot (correct_rv c (m_dt s) (Forces n b soft c N (Zero N (Nat.iter m (pec1 s) (adv s))) i)))
    with (s_a2dot (Forces n b soft c N (Zero N (Nat.iter m (pec1 s) (adv s))) i)) by now rewrite Hc.
  apply (soft_a2_zero K); auto. apply (I1 i Hi).
Qed.
End step.
