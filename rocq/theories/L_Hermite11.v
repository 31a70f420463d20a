(** Time steps of a run; second derivatives of the sixth-order scheme. *)
From Verif Require Import Prelude Vec M_Box M_Periodic L_Box L_Periodic S_Periodic M_Hermite S_Hermite L_Hermite L_Hermite3 L_Hermite4 L_Hermite5 L_Hermite6 L_Hermite7 L_Hermite9.
From Coq Require Import Reals FunctionalExtensionality.
From Coquelicot Require Import Coquelicot.
Local Open Scope R_scope.

Section steps.
Variables (n : nat) (b : dombox) (soft : option skern) (c : scheme) (npec : nat) (mult : R) (N : nat).
Notation adv s := (Advance c (m_n s + 1) N (m_t s + m_dt s) (m_S s)).
Notation pec1 s := (pec n b soft c (m_n s + 1) N (m_t s + m_dt s)).
(** The step of a state is the least that its stars ask for. *)
Definition least_step (s : sim) : Prop :=
  (forall i, (i < N)%nat -> m_dt s <= Timestep n c mult (m_S s i)) /\
  (m_dt s = big_number_dp \/ exists i, (i < N)%nat /\ m_dt s = Timestep n c mult (m_S s i)).
Lemma finish_least : forall t S,
  least_step (let (S', dt) := GlobalTimestep n c mult N S in mkSim (EndTimestep c 0 N t S') 0 t dt).
Proof.
  intros t S. cbn [GlobalTimestep]. unfold least_step. cbn [m_S m_dt].
  assert (E : forall i, (i < N)%nat -> Timestep n c mult (EndTimestep c 0 N t (upd N (fun _ p => set_step p true 1 (min_step n c mult N S)) S) i) = Timestep n c mult (S i)).
  { intros i Hi. apply timestep_same; unfold EndTimestep; rewrite !upd_in by assumption; reflexivity. }
  unfold min_step. pose proof (loop_min N (fun i => Timestep n c mult (S i)) big_number_dp) as (H1 & _ & H2). cbv zeta in *. split.
  - intros i Hi. unfold min_step in E. rewrite E by assumption. now apply H1.
  - destruct H2 as [H2|(i & Hi & H2)]; [now left|]. right. exists i. split; [assumption|]. unfold min_step in E. now rewrite E.
Qed.
Lemma run_least : forall t q S, least_step (Run n b soft c npec mult N t q S).
Proof. intros t [|q] S; [unfold Run; cbn [Nat.iter nat_rect]; unfold Setup; apply finish_least|]. unfold Run. apply finish_least. Qed.
Lemma run_keeps : forall t q S i, (i < N)%nat ->
  s_m (m_S (Run n b soft c npec mult N t q S) i) = s_m (S i) /\
  s_h (m_S (Run n b soft c npec mult N t q S) i) = s_h (S i) /\ s_dtint (m_S (Run n b soft c npec mult N t q S) i) = s_dtint (S i).
Proof.
  intros t q S i Hi. induction q as [|q IH].
  - destruct (setup_state n b soft c mult N t S) as (_ & H). destruct (H i Hi) as (H1 & H2 & _ & _ & H3). auto.
  - change (Run n b soft c npec mult N t (Datatypes.S q) S) with (MainLoop n b soft c npec mult N (Run n b soft c npec mult N t q S)).
    set (s := Run n b soft c npec mult N t q S) in *. destruct (main_star n b soft c npec mult N s i Hi) as (-> & -> & _ & _ & _ & _ & _ & _ & ->).
    assert (Hs : started c N s) by apply run_started.
    destruct (iter_inflight n b soft c N s (Npec c npec) _ (proj1 Hs) (adv_inflight c N s Hs) i Hi) as (-> & -> & _ & _ & _ & _ & _ & _ & _ & _ & _ & ->). exact IH.
Qed.
Lemma run_dt : forall t q S, 0 < mult -> (forall i, (i < N)%nat -> 0 < s_h (S i) /\ 0 < s_dtint (S i)) ->
  let s := Run n b soft c npec mult N t q S in 0 < m_dt s /\ forall i, (i < N)%nat -> m_dt s <= s_dtint (S i).
Proof.
  intros t q S Hm HS. cbv zeta. destruct (run_least t q S) as (L1 & L2).
  assert (P : forall i, (i < N)%nat -> 0 < Timestep n c mult (m_S (Run n b soft c npec mult N t q S) i) <= s_dtint (S i)).
  { intros i Hi. destruct (run_keeps t q S i Hi) as (_ & E1 & E2). rewrite <- E2. destruct (HS i Hi). apply timestep_pos; [assumption| |]; [rewrite E1|rewrite E2]; assumption. }
  split.
  - destruct L2 as [-> |(i & Hi & ->)]; [|apply P, Hi]. unfold big_number_dp. apply Rmult_lt_0_compat; [lra|apply pow_lt; lra].
  - intros i Hi. pose proof (L1 i Hi). pose proof (P i Hi). lra.
Qed.
(** Aarseth's criterion bounds the step of the Hermite schemes. *)
Lemma timestep_aarseth : forall p, c <> LeapKDK -> small_number_dp < dot n (s_adot p) (s_adot p) -> small_number_dp < dot n (s_a2dot p) (s_a2dot p) ->
  Timestep n c mult p <= mult * aarseth n (s_a p) (s_adot p) (s_a2dot p) (s_a3dot p).
Proof.
  intros p Hc H1 H2. unfold Timestep. cbv zeta. eapply Rle_trans; [apply Rmin_l|].
  rewrite (proj2 (rltb_true _ _) H1), (proj2 (rltb_true _ _) H2). cbn [andb].
  unfold aarseth, Vec.norm. rewrite !sqrt_mult by apply dot_nonneg.
  assert (X : forall v, sqrt (dot n v v) ^ 2 = dot n v v) by (intros; rewrite <- Rsqr_pow2, Rsqr_sqrt; [reflexivity|apply dot_nonneg]).
  rewrite !X. destruct c; [congruence| | |]; apply Rle_refl.
Qed.
Lemma timestep_kdk : forall p, c = LeapKDK -> Timestep n c mult p <= mult * sqrt (s_h p / (Vec.norm n (s_a p) + small_number_dp)).
Proof. intros p Hc. unfold Timestep. cbv zeta. eapply Rle_trans; [apply Rmin_l|]. rewrite Hc. unfold Vec.norm. apply Rle_refl. Qed.
End steps.

(** The softened sixth-order scheme: nbody_mult plays no role. *)
Lemma loopk_ext : forall (A : Type) N (f g : nat -> A -> A) x, (forall i y, (i < N)%nat -> f i y = g i y) -> loopk N f x = loopk N g x.
Proof.
  intros A N f g x H. induction N as [|N IH]; [reflexivity|]. rewrite !loopk_S. rewrite IH by (intros; apply H; lia). apply H. lia.
Qed.
Lemma soft6_step : forall n b K npec mult mult' N s, (1 <= npec)%nat -> started Hermite6TS N s ->
  m_dt (MainLoop n b (Some K) Hermite6TS npec mult N s) = m_dt (MainLoop n b (Some K) Hermite6TS npec mult' N s).
Proof.
  intros n b K npec mult mult' N s Hp Hs. rewrite !main_dt. unfold min_step. apply loopk_ext. intros i y Hi. f_equal.
  pose proof (fun k => soft_main_a2 n b (Some K) Hermite6TS npec mult N K s i k eq_refl eq_refl Hp Hs Hi) as HZ.
  destruct (main_star n b (Some K) Hermite6TS npec mult N s i Hi) as (_ & _ & _ & _ & _ & _ & E & _). cbv zeta in E. rewrite E in HZ.
  unfold Timestep. cbv zeta.
  match goal with |- context[s_a2dot ?q] => set (p := q) in * end.
  assert (dot n (s_a2dot p) (s_a2dot p) = 0) as ->.
  { unfold dot. rewrite (sumf_ext n _ (fun _ => 0)); [apply sumf_zero|]. intros k _. rewrite HZ. ring. }
  assert (rltb small_number_dp 0 = false) as -> by (apply rltb_false; pose proof small_dp_pos; lra).
  rewrite !Bool.andb_false_r. reflexivity.
Qed.

(** ** Second derivatives of the sixth-order scheme *)
Section six.
Variables (n : nat) (b : dombox) (N : nat).
Definition pass1 (S : stars) : stars := upd N (pair_loop (grav_pair n b small_number_dp) N (Zero N S)) (Zero N S).
Lemma pass1_active : forall S i, (i < N)%nat -> s_active (S i) = true -> s_active (pass1 S i) = true.
Proof.
  intros S i Hi Ha. unfold pass1. rewrite upd_in by assumption.
  destruct (pair_loop_grav n b small_number_dp N (Zero N S) i (Zero N S i)) as (g & a & ad & -> & _).
  - now rewrite (proj2 (zero_kin N S i)).
  - cbn. now rewrite (proj2 (zero_kin N S i)).
Qed.
Lemma pass1_is : forall S i, (i < N)%nat -> s_active (S i) = true ->
  forces_are (gp_pot n b small_number_dp) (gp_a n b small_number_dp) (gp_adot n b small_number_dp) N S i (pass1 S i).
Proof. intros. now apply grav_forces. Qed.
Lemma direct6_is : forall S i, (i < N)%nat -> s_active (S i) = true -> exists a2,
  Direct6 n b N (Zero N S) i = set_a23 (pass1 S i) a2 (s_a3dot (pass1 S i)) /\
  (forall k, (2 <= N)%nat -> a2 k = a2_c n (pass1 S i) (pass1 S (last_other N i)) k).
Proof.
  intros S i Hi Ha. unfold Direct6. fold (pass1 S). rewrite upd_in by assumption. rewrite (pass1_active S i Hi Ha). unfold pair_loop. cbn [set_a23 s_active]. rewrite (pass1_active S i Hi Ha).
  destruct (loop_a2 n N (pass1 S) i (set_a23 (pass1 S i) (fun _ => 0) (s_a3dot (pass1 S i)))) as (a2 & E & HH).
  exists a2. split; [exact E|]. intros k0 Hk. rewrite HH by assumption. reflexivity.
Qed.
Lemma a2_c_open : forall p q k, no_wrap n b -> a2_c n p q k = st_2 n b p q k.
Proof.
  intros p q k Hb. unfold a2_c, a2_pair, st_2, st_af, st_bf, st_j, st_a, st_af, st_inv2. cbv zeta. cbn [set_a23 s_a2dot].
  rewrite !open_dot, !open_dot_v, !pair_dr_open by assumption. reflexivity.
Qed.
End six.
Lemma six_two : forall n b S (X V A : nat -> R -> vec) t0 i k, no_wrap n b -> all_active 2 S -> velocity_of X V -> velocity_of V A -> at_time 2 S X V t0 ->
  (forall j k, (j < 2)%nat -> A j t0 k = newton_acc n 2 small_number_dp (fun j => s_m (S j)) (fun j => X j t0) j k) -> (i < 2)%nat ->
  is_derive_n (fun t => newton_acc n 2 small_number_dp (fun j => s_m (S j)) (fun j => X j t) i k) 2 t0
    (s_a2dot (Direct6 n b 2 (Zero 2 S) i) k).
Proof.
  intros n b S X V A t0 i k Hb HA HX HV H0 HAc Hi.
  set (T := pass1 n b 2 S).
  assert (KT : forall j, (j < 2)%nat -> same_kin (S j) (T j)) by (intros j Hj; apply (pass1_is n b 2 S j Hj (HA j Hj))).
  assert (AT : at_time 2 T X V t0).
  { intros j l Hj. destruct (KT j Hj) as (_ & _ & -> & ->). now apply H0. }
  assert (A1 : forall j l, (j < 2)%nat -> s_a (T j) l = A j t0 l).
  { intros j l Hj. destruct (pass1_is n b 2 S j Hj (HA j Hj)) as (_ & _ & E & _). fold T in E. rewrite E.
    rewrite (newton_acc_is n b 2 S Hb small_number_dp j l Hj), (newton_acc_at n 2 S X V t0 H0 small_number_dp j l Hj). symmetry. now apply HAc. }
  pose proof (second_derivative n b 2 T X V A t0 Hb HX HV AT A1 i k Hi) as D.
  destruct (direct6_is n b 2 S i Hi (HA i Hi)) as (a2 & -> & E2). cbn [set_a23 s_a2dot]. rewrite E2 by lia. rewrite a2_c_open with (b := b) by assumption. fold T.
  replace (st_2 n b (T i) (T (last_other 2 i)) k) with (others 2 i (fun j => st_2 n b (T i) (T j) k)).
  - apply (is_derive_n_ext (fun t => newton_acc n 2 small_number_dp (fun j => s_m (T j)) (fun j => X j t) i k)); [|exact D].
    intros t. apply others_ext. intros j Hj _. destruct (KT j Hj) as (-> & _). reflexivity.
  - destruct i as [|[|i]]; [| |lia]; unfold others; cbn [sumf Nat.eqb last_other]; unfold last_other; cbn [Nat.eqb Nat.sub]; ring.
Qed.
