(** C72: the integration of stars over whole runs with one time step for all. *)
From Verif Require Import Prelude Vec M_Box M_Periodic L_Box L_Periodic S_Periodic M_Hermite S_Hermite L_Hermite L_Hermite3 L_Hermite4 L_Hermite5 L_Hermite6 L_Hermite7 L_Hermite8 L_Hermite9 L_Hermite10 L_Hermite11 L_Hermite12 L_Hermite13 L_Hermite14.
From Coq Require Import Reals.
From Coquelicot Require Import Coquelicot.
Local Open Scope R_scope.

(** ** Centre of mass *)
(** In every run of any length the total momentum stays what it was and the centre of mass moves
    uniformly: any scheme, box, number of iterations; sixth order only softened or up to two stars. *)
Theorem C72_com : forall n b soft c npec mult N t steps S k, (forall l, 0 <= dhalf b l) ->
  (c = Hermite6TS -> soft = None -> (N <= 2)%nat) ->
  let s := Run n b soft c npec mult N t steps S in let m := fun i => s_m (S i) in
  (forall i, (i < N)%nat -> s_m (m_S s i) = m i) /\
  total N m (fun i => s_v (m_S s i)) k = total N m (fun i => s_v (S i)) k /\
  total N m (fun i => s_r (m_S s i)) k = total N m (fun i => s_r (S i)) k + (m_t s - t) * total N m (fun i => s_v (S i)) k.
Proof.
  intros n b soft c npec mult N t steps S k Hb H6. cbv zeta.
  destruct (run_com n b soft c npec mult N Hb H6 t steps S) as (_ & H). destruct (H k) as (HM & HV & HR).
  split; [exact HM|]. 
  pose proof (total_tot N S _ s_v k HM) as A. pose proof (total_tot N S _ s_r k HM) as B. unfold mass in A, B.
  rewrite <- A, <- B, HV, HR. split; reflexivity.
Qed.
Print Assumptions C72_com.
(** Sixth order, three stars at rest: after one step they have momentum. *)
Theorem C72_drift_refuted : forall b mult, no_wrap 1 b -> 0 < mult -> exists S : stars,
  (forall i, (i < 3)%nat -> 0 < s_m (S i) /\ s_v (S i) 0%nat = 0) /\ s_r (S 0%nat) 0%nat <> s_r (S 1%nat) 0%nat /\ s_r (S 1%nat) 0%nat <> s_r (S 2%nat) 0%nat /\ s_r (S 0%nat) 0%nat <> s_r (S 2%nat) 0%nat /\
  total 3 (fun i => s_m (S i)) (fun i => s_v (m_S (Run 1 b None Hermite6TS 1 mult 3 0 1 S) i)) 0%nat <> 0.
Proof.
  intros b mult Hb Hm. exists three. split; [intros i _; cbn; lra|]. cbn [three at_rest s_r]. split; [lra|]. split; [lra|]. split; [lra|].
  assert (HM : forall i, (i < 3)%nat -> s_m (m_S (Run 1 b None Hermite6TS 1 mult 3 0 1 three) i) = s_m (three i)) by (intros i Hi; now apply run_keeps).
  pose proof (total_tot 3 three _ s_v 0%nat HM) as A. unfold mass in A. rewrite <- A.
  pose proof (three_drift b Hb mult Hm). lra.
Qed.
Print Assumptions C72_drift_refuted.

(** ** Time steps *)
(** The step is positive, no longer than any star's limit, and the least that the stars ask for;
    with the Hermite schemes it obeys Aarseth's criterion for every star with derivatives. *)
Theorem C72_timestep : forall n b soft c npec mult N t steps S, 0 < mult -> (forall i, (i < N)%nat -> 0 < s_h (S i) /\ 0 < s_dtint (S i)) ->
  let s := Run n b soft c npec mult N t steps S in 0 < m_dt s /\ forall i, (i < N)%nat -> let p := m_S s i in
  m_dt s <= s_dtint (S i) /\
  (c = LeapKDK -> m_dt s <= mult * sqrt (s_h (S i) / (Vec.norm n (s_a p) + small_number_dp))) /\
  (c <> LeapKDK -> small_number_dp < dot n (s_adot p) (s_adot p) -> small_number_dp < dot n (s_a2dot p) (s_a2dot p) ->
     m_dt s <= mult * aarseth n (s_a p) (s_adot p) (s_a2dot p) (s_a3dot p)).
Proof.
  intros n b soft c npec mult N t steps S Hm HS. cbv zeta.
  destruct (run_dt n b soft c npec mult N t steps S Hm HS) as (H1 & H2). split; [exact H1|]. intros i Hi. split; [now apply H2|].
  destruct (run_least n b soft c npec mult N t steps S) as (HL & _). specialize (HL i Hi). split.
  - intros Hc. destruct (run_keeps n b soft c npec mult N t steps S i Hi) as (_ & <- & _). eapply Rle_trans; [exact HL|]. now apply timestep_kdk.
  - intros Hc HA HB. eapply Rle_trans; [exact HL|]. now apply timestep_aarseth.
Qed.
Print Assumptions C72_timestep.
(** With softening the sixth-order scheme takes no notice of nbody_mult after the first step. *)
Theorem C72_soft6_step : forall n b K npec mult mult' N t steps S, (1 <= npec)%nat ->
  let s := Run n b (Some K) Hermite6TS npec mult N t steps S in
  m_dt (MainLoop n b (Some K) Hermite6TS npec mult' N s) = m_dt (MainLoop n b (Some K) Hermite6TS npec mult N s).
Proof. intros. apply soft6_step; [assumption|]. apply run_started. Qed.
Print Assumptions C72_soft6_step.

(** ** Accuracy of one step *)
(** The true motion of coordinate [k] of a star has derivatives [D]; the star starts on it, and the
    forces found for the end of the step are within [da], [dj], [ds] of the true ones. *)
Record on_motion (D : nat -> R -> R) (order : nat) (p : star) (k : nat) (t : R) : Prop := {
  on_r : s_r p k = D 0%nat t; on_v : s_v p k = D 1%nat t; on_a : s_a p k = D 2%nat t;
  on_j : (1 <= order)%nat -> s_adot p k = D 3%nat t;
  on_s : (2 <= order)%nat -> s_a2dot p k = D 4%nat t }.
Section order.
Variables (n : nat) (b : dombox) (soft : option skern) (npec : nat) (mult : R) (N : nat) (t : R) (steps : nat) (S : stars).
Hypothesis Hm : 0 < mult.
Hypothesis HS : forall i, (i < N)%nat -> 0 < s_h (S i) /\ 0 < s_dtint (S i).
Hypothesis Hp : (1 <= npec)%nat.
Variables (i k : nat) (D : nat -> R -> R) (M da dj ds : R).
Hypothesis Hi : (i < N)%nat.
Hypothesis HD : derivatives D.
Notation s c := (Run n b soft c npec mult N t steps S).
Notation s' c := (Run n b soft c npec mult N t (Datatypes.S steps) S).
Lemma main_is : forall c, s' c = MainLoop n b soft c npec mult N (s c).
Proof. reflexivity. Qed.
Lemma here : forall c, 0 < m_dt (s c) /\
  s_r (m_S (s' c) i) k = step_r c (m_dt (s c)) (m_S (s c) i) (m_S (s' c) i) k /\ s_v (m_S (s' c) i) k = step_v c (m_dt (s c)) (m_S (s c) i) (m_S (s' c) i) k /\
  m_t (s' c) = m_t (s c) + m_dt (s c).
Proof.
  intros c. destruct (run_dt n b soft c npec mult N t steps S Hm HS) as (H1 & _). split; [exact H1|].
  rewrite main_is. destruct (step_formula n b soft c npec mult N (s c) i k (run_started n b soft c npec mult N t steps S) Hi) as (-> & ->).
  - lra.
  - destruct c; cbn; lia.
  - repeat split. 
Qed.
Theorem C72_leapfrog : let s := s LeapKDK in let s' := s' LeapKDK in let dt := m_dt s in
  on_motion D 0 (m_S s i) k (m_t s) -> Rabs (s_a (m_S s' i) k - D 2%nat (m_t s')) <= da ->
  (bounded_on (D 3%nat) (m_t s) dt M -> Rabs (s_r (m_S s' i) k - D 0%nat (m_t s')) <= M * dt ^ 3 / 6) /\
  (bounded_on (D 4%nat) (m_t s) dt M -> Rabs (s_v (m_S s' i) k - D 1%nat (m_t s')) <= 5 / 12 * M * dt ^ 3 + da * dt / 2).
Proof.
  cbv zeta. destruct (here LeapKDK) as (Hd & -> & -> & ->). intros [E0 E1 E2 _ _] Ha. apply Rlt_le in Hd. split; intros HM.
  - eapply kdk_err; eauto.
  - eapply kdk_err_v; eauto.
Qed.
Theorem C72_hermite4 : let s := s Hermite4 in let s' := s' Hermite4 in let dt := m_dt s in
  on_motion D 1 (m_S s i) k (m_t s) -> Rabs (s_a (m_S s' i) k - D 2%nat (m_t s')) <= da -> Rabs (s_adot (m_S s' i) k - D 3%nat (m_t s')) <= dj ->
  bounded_on (D 6%nat) (m_t s) dt M ->
  Rabs (s_r (m_S s' i) k - D 0%nat (m_t s')) <= 19 / 1440 * M * dt ^ 6 + 3 / 20 * da * dt ^ 2 + dj * dt ^ 3 / 30 /\
  Rabs (s_v (m_S s' i) k - D 1%nat (m_t s')) <= 31 / 720 * M * dt ^ 5 + da * dt / 2 + dj * dt ^ 2 / 12.
Proof.
  cbv zeta. destruct (here Hermite4) as (Hd & -> & -> & ->). intros [E0 E1 E2 E3 _] Ha Hj HM. apply Rlt_le in Hd. specialize (E3 ltac:(lia)). split.
  - eapply h4_err_r; eauto.
  - eapply h4_err_v; eauto.
Qed.
Theorem C72_hermite4ts : let s := s Hermite4TS in let s' := s' Hermite4TS in let dt := m_dt s in
  on_motion D 1 (m_S s i) k (m_t s) -> Rabs (s_a (m_S s' i) k - D 2%nat (m_t s')) <= da -> Rabs (s_adot (m_S s' i) k - D 3%nat (m_t s')) <= dj ->
  (bounded_on (D 5%nat) (m_t s) dt M -> Rabs (s_r (m_S s' i) k - D 0%nat (m_t s')) <= 41 / 720 * M * dt ^ 5 + da * dt ^ 2 / 6 + dj * dt ^ 3 / 24) /\
  (bounded_on (D 6%nat) (m_t s) dt M ->
     Rabs (s_v (m_S s' i) k - D 1%nat (m_t s')) <= 31 / 720 * M * dt ^ 5 + da * dt / 2 + dj * dt ^ 2 / 12 /\
     (* and no better for the position: one order less than NbodyHermite4 *)
     Rabs (D 5%nat (m_t s)) * dt ^ 5 / 720 - (11 / 720 * M * dt ^ 6 + da * dt ^ 2 / 6 + dj * dt ^ 3 / 24) <= Rabs (s_r (m_S s' i) k - D 0%nat (m_t s'))).
Proof.
  cbv zeta. destruct (here Hermite4TS) as (Hd & -> & -> & ->). intros [E0 E1 E2 E3 _] Ha Hj. apply Rlt_le in Hd. specialize (E3 ltac:(lia)). split; [|split]; intros.
  - eapply h4ts_err_r; eauto.
  - eapply h4_err_v; eauto.
  - eapply h4ts_low_r; eauto.
Qed.
Theorem C72_hermite6 : let s := s Hermite6TS in let s' := s' Hermite6TS in let dt := m_dt s in
  on_motion D 2 (m_S s i) k (m_t s) -> Rabs (s_a (m_S s' i) k - D 2%nat (m_t s')) <= da -> Rabs (s_adot (m_S s' i) k - D 3%nat (m_t s')) <= dj ->
  Rabs (s_a2dot (m_S s' i) k - D 4%nat (m_t s')) <= ds ->
  (bounded_on (D 7%nat) (m_t s) dt M -> Rabs (s_r (m_S s' i) k - D 0%nat (m_t s')) <= 4 / 1000 * M * dt ^ 7 + 3 / 20 * da * dt ^ 2 + dj * dt ^ 3 / 24 + ds * dt ^ 4 / 240) /\
  (bounded_on (D 8%nat) (m_t s) dt M -> Rabs (s_v (m_S s' i) k - D 1%nat (m_t s')) <= 3 / 1000 * M * dt ^ 7 + da * dt / 2 + dj * dt ^ 2 / 10 + ds * dt ^ 3 / 120).
Proof.
  cbv zeta. destruct (here Hermite6TS) as (Hd & -> & -> & ->). intros [E0 E1 E2 E3 E4] Ha Hj Hs. apply Rlt_le in Hd. specialize (E3 ltac:(lia)). specialize (E4 ltac:(lia)).
  set (dt := m_dt (s Hermite6TS)) in *. assert (P7 : 0 <= dt ^ 7) by (apply pow_le; lra).
  assert (MP : forall x, 0 <= dt -> bounded_on (D x) (m_t (s Hermite6TS)) dt M -> 0 <= M * dt ^ 7).
  { intros x Hx HM. apply Rmult_le_pos; [|exact P7]. eapply Rle_trans; [apply Rabs_pos|]. apply (HM (m_t (s Hermite6TS))). lra. }
  split; intros HM; specialize (MP _ Hd HM).
  - eapply Rle_trans; [eapply h6_err_r; eauto|]. lra.
  - eapply Rle_trans; [eapply h6_err_v; eauto|]. lra.
Qed.
(** Softened, sixth order, after the first step: however good the forces, the velocity is wrong in third order of the step. *)
Theorem C72_soft6_low : forall K, soft = Some K -> let s := s Hermite6TS in let s' := s' Hermite6TS in let dt := m_dt s in (1 <= steps)%nat ->
  on_motion D 1 (m_S s i) k (m_t s) -> Rabs (s_a (m_S s' i) k - D 2%nat (m_t s')) <= da -> Rabs (s_adot (m_S s' i) k - D 3%nat (m_t s')) <= dj ->
  bounded_on (D 5%nat) (m_t s) dt M ->
  Rabs (D 4%nat (m_t s)) * dt ^ 3 / 60 - (7 / 40 * M * dt ^ 4 + da * dt / 2 + dj * dt ^ 2 / 10) <= Rabs (s_v (m_S s' i) k - D 1%nat (m_t s')).
Proof.
  intros K HK. cbv zeta. intros Hst [E0 E1 E2 E3 _] Ha Hj HM. destruct (here Hermite6TS) as (Hd & _ & -> & Et). rewrite Et in *. apply Rlt_le in Hd. specialize (E3 ltac:(lia)).
  assert (Z' : s_a2dot (m_S (s' Hermite6TS) i) k = 0).
  { rewrite main_is. apply (soft_main_a2 n b soft Hermite6TS npec mult N K); auto. apply run_started. }
  assert (Z : s_a2dot (m_S (s Hermite6TS) i) k = 0).
  { destruct steps as [|q]; [lia|]. change (Run n b soft Hermite6TS npec mult N t (Datatypes.S q) S) with (MainLoop n b soft Hermite6TS npec mult N (Run n b soft Hermite6TS npec mult N t q S)).
    apply (soft_main_a2 n b soft Hermite6TS npec mult N K); auto. apply run_started. }
  eapply soft6_err; eauto.
Qed.
End order.
Print Assumptions C72_leapfrog.
Print Assumptions C72_hermite4.
Print Assumptions C72_hermite4ts.
Print Assumptions C72_hermite6.
Print Assumptions C72_soft6_low.

(** ** Reversibility *)
(** The leapfrog: from the state after any step of any run, with velocities reversed, a step of the
    same length leads back. *)
Theorem C72_leapfrog_reversible : forall n b soft npec mult mult' N t steps S t' i k, (i < N)%nat ->
  let s := Run n b soft LeapKDK npec mult N t steps S in m_dt s <> 0 ->
  let s' := MainLoop n b soft LeapKDK npec mult N s in
  let q := m_S (MainLoop n b soft LeapKDK npec mult' N (turned (m_S s') t' (m_dt s))) i in
  s_r q k = s_r (m_S s i) k /\ s_v q k = - s_v (m_S s i) k.
Proof.
  intros. apply (kdk_reverse n b soft LeapKDK npec mult N mult'); auto; [apply run_started|now apply run_settled_a].
Qed.
Print Assumptions C72_leapfrog_reversible.
(** The time-symmetric schemes: if the iteration of a step has converged, then so has that of the
    reversed step where the first began. *)
Theorem C72_ts_reversible : forall n b soft c N s S t, c = Hermite4TS \/ c = Hermite6TS -> started c N s -> settled n b soft c N s -> converged n b soft c N s S ->
  let T := turned (pec n b soft c (m_n s + 1) N (m_t s + m_dt s) S) t (m_dt s) in converged n b soft c N T (back s T).
Proof. intros. now apply ts_reverse. Qed.
Print Assumptions C72_ts_reversible.

(** ** Cases *)
(** A pair of stars that turn round within a converged step. *)
Example C72_pair : forall b, no_wrap 1 b -> started Hermite4TS 2 pair_sim /\ settled 1 b None Hermite4TS 2 pair_sim /\ converged 1 b None Hermite4TS 2 pair_sim pair_end /\ m_dt pair_sim = 1.
Proof. intros b Hb. split; [exact pair_started|]. split; [now apply pair_settled|]. split; [now apply pair_converged|reflexivity]. Qed.
(** A uniform motion has derivatives, and a lone star is on it. *)
Example C72_lone : let D := fun p t => match p with O => 2 * t | 1%nat => 2 | _ => 0 end in derivatives D /\
  forall b, let S := fun _ : nat => moving_star (fun _ => 0) (fun _ => 2) in
  on_motion D 2 (m_S (Run 1 b None Hermite6TS 1 1 1 0 0 S) 0%nat) 0%nat 0 /\ 0 < m_dt (Run 1 b None Hermite6TS 1 1 1 0 0 S).
Proof.
  cbv zeta. split.
  - intros [|[|p]] t; auto_derive; auto; ring.
  - intros b. split.
    + split; cbn; intros; try reflexivity; ring.
    + apply run_dt; [lra|]. intros i _. cbn. lra.
Qed.
