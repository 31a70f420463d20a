(** Centre of mass and momentum over whole runs. *)
From Verif Require Import Prelude Vec M_Box M_Periodic L_Box L_Periodic S_Periodic M_Hermite S_Hermite L_Hermite L_Hermite3 L_Hermite5.
From Coq Require Import Reals FunctionalExtensionality.
Local Open Scope R_scope.

(** ** Second derivatives of NbodyHermite6TS: the last other star decides *)
Definition a2_c (n : nat) (pi pj : star) (k : nat) : R := s_a2dot (a2_pair n pj pi) k.
Definition last_other (N i : nat) : nat := if Nat.eqb i (N - 1) then N - 2 else N - 1.
Lemma loop_a2 : forall n N S i p, exists a2,
  loopk N (fun j p => if Nat.eqb i j then p else a2_pair n (S j) p) p = set_a23 p a2 (s_a3dot p) /\
  (forall k, (2 <= N)%nat -> a2 k = a2_c n p (S (last_other N i)) k).
Proof.
  intros n N S i p. induction N as [|N IH].
  - exists (s_a2dot p). split; [destruct p; reflexivity|]. intros; lia.
  - rewrite loopk_S. destruct IH as (a2 & E & H). rewrite E.
    destruct (Nat.eqb_spec i N) as [He|Hne].
    + destruct N as [|[|N]].
      * exists a2. split; [reflexivity|]. intros; lia.
      * exists (a2_c n p (S 0%nat)). split.
        { rewrite <- E, He. reflexivity. }
        intros k _. unfold last_other. now rewrite He.
      * exists a2. split; [reflexivity|]. intros k _. rewrite H by lia. unfold last_other. subst i.
        rewrite (proj2 (Nat.eqb_neq (Datatypes.S (Datatypes.S N)) (Datatypes.S (Datatypes.S N) - 1))) by lia.
        rewrite (proj2 (Nat.eqb_eq (Datatypes.S (Datatypes.S N)) (Datatypes.S (Datatypes.S (Datatypes.S N)) - 1))) by lia.
        do 2 f_equal.
    + eexists. split; [reflexivity|]. intros k _. unfold last_other.
      replace (Datatypes.S N - 1)%nat with N by lia. rewrite (proj2 (Nat.eqb_neq i N)) by assumption. reflexivity.
Qed.
Lemma vsub_odd : forall (x y : vec) k, vsub x y k = - vsub y x k.
Proof. intros. unfold vsub. ring. Qed.
Lemma a2_c_odd : forall n pi pj k, s_m pj * a2_c n pj pi k = - (s_m pi * a2_c n pi pj k).
Proof.
  intros. unfold a2_c, a2_pair. cbv zeta. cbn [set_a23 s_a2dot].
  rewrite (dot_neg2 n (vsub (s_r pj) (s_r pi)) (vsub (s_r pj) (s_r pi)) (vsub (s_r pi) (s_r pj)) (vsub (s_r pi) (s_r pj))) by apply vsub_odd.
  rewrite (dot_neg2 n (pair_dv pi pj) (pair_dv pi pj) (pair_dv pj pi) (pair_dv pj pi)) by apply dv_odd.
  rewrite (dot_neg2 n (pair_dv pi pj) (vsub (s_r pj) (s_r pi)) (pair_dv pj pi) (vsub (s_r pi) (s_r pj))) by (apply dv_odd || apply vsub_odd).
  rewrite (dot_neg2 n (vsub (s_a pj) (s_a pi)) (vsub (s_r pj) (s_r pi)) (vsub (s_a pi) (s_a pj)) (vsub (s_r pi) (s_r pj))) by apply vsub_odd.
  rewrite (vsub_odd (s_a pi)), (vsub_odd (s_r pi)), (dv_odd pi pj). ring.
Qed.

(** ** What a force computation leaves alone *)
Definition same_hist (p q : star) : Prop :=
  same_kin p q /\ s_r0 q = s_r0 p /\ s_v0 q = s_v0 p /\ s_a0 q = s_a0 p /\ s_adot0 q = s_adot0 p /\ s_a2dot0 q = s_a2dot0 p /\
  s_active q = s_active p /\ s_nlast q = s_nlast p /\ s_nstep q = s_nstep p /\ s_tlast q = s_tlast p /\ s_dtint q = s_dtint p.
Ltac hist := unfold same_hist, same_kin; cbn; repeat split; congruence.
Lemma hist_trans : forall p q r, same_hist p q -> same_hist q r -> same_hist p r.
Proof. unfold same_hist, same_kin. intuition congruence. Qed.
Lemma hist_force : forall p g a ad, same_hist p (set_force p g a ad).
Proof. intros. hist. Qed.
Lemma hist_a23 : forall p a2 a3, same_hist p (set_a23 p a2 a3).
Proof. intros. hist. Qed.
Lemma hist_refl : forall p, same_hist p p.
Proof. intros. hist. Qed.
Lemma hist_zero : forall N S i, same_hist (S i) (Zero N S i).
Proof.
  intros. unfold Zero, upd, zero_star. destruct (i <? N)%nat; [|apply hist_refl].
  destruct (s_active (S i)) eqn:E; [|apply hist_refl]. hist.
Qed.
Lemma zero_a2 : forall N S i k, (i < N)%nat -> s_active (S i) = true -> s_a2dot (Zero N S i) k = 0 /\ s_a3dot (Zero N S i) k = 0.
Proof.
  intros N S i k Hi Ha. unfold Zero, upd, zero_star. rewrite (proj2 (Nat.ltb_lt i N) Hi), Ha. split; reflexivity.
Qed.

Definition tot (N : nat) (S : stars) (f : star -> vec) (k : nat) : R := sumf N (fun i => s_m (S i) * f (S i) k).

Section run.
Variables (n : nat) (b : dombox) (soft : option skern) (c : scheme) (npec : nat) (mult : R) (N : nat).
Lemma upd_in : forall f S i, (i < N)%nat -> upd N f S i = f i (S i).
Proof. intros. unfold upd. now rewrite (proj2 (Nat.ltb_lt i N) H). Qed.
Lemma tot_kin : forall S S' f g k, (forall i, (i < N)%nat -> s_m (S' i) = s_m (S i) /\ f (S' i) k = g (S i) k) ->
  tot N S' f k = tot N S g k.
Proof. intros. apply sumf_ext. intros i Hi. destruct (H i Hi) as (-> & ->). reflexivity. Qed.

Lemma total_tot : forall S S' f k, (forall i, (i < N)%nat -> s_m (S' i) = s_m (S i)) ->
  tot N S' f k = total N (mass S) (fun i => f (S' i)) k.
Proof. intros. apply sumf_ext. intros i Hi. unfold mass. now rewrite H. Qed.

Lemma forces_hist : forall S i, (i < N)%nat -> same_hist (S i) (Forces n b soft c N S i).
Proof.
  intros S i Hi. unfold Forces. destruct soft as [K|].
  - unfold DirectSmoothed. rewrite upd_in by assumption. destruct (s_active (S i)) eqn:E.
    + destruct (pair_loop_smooth n b K (soft_e c) N S i (S i) E) as (g & a & ad & -> & _). apply hist_force.
    + unfold pair_loop. rewrite E. apply hist_refl.
  - assert (G : forall e, same_hist (S i) (upd N (pair_loop (grav_pair n b e) N S) S i)).
    { intros e. rewrite upd_in by assumption. destruct (s_active (S i)) eqn:E.
      + destruct (pair_loop_grav n b e N S i (S i) E) as (g & a & ad & -> & _). apply hist_force.
      + unfold pair_loop. rewrite E. apply hist_refl. }
    destruct c; try apply (G 0). unfold Direct6.
    set (S1 := upd N (pair_loop (grav_pair n b small_number_dp) N S) S).
    rewrite upd_in by assumption. apply (hist_trans _ (S1 i)); [apply G|].
    destruct (s_active (S1 i)) eqn:E; [|apply hist_refl].
    unfold pair_loop. cbn [set_a23 s_active]. rewrite E.
    destruct (loop_a2 n N S1 i (set_a23 (S1 i) (fun _ => 0) (s_a3dot (S1 i)))) as (a2 & -> & _).
    apply (hist_trans _ (set_a23 (S1 i) (fun _ => 0) (s_a3dot (S1 i)))); apply hist_a23.
Qed.

Hypothesis Hb : forall k, 0 <= dhalf b k.
(** The second derivatives of the sixth-order scheme balance: softened, or at most two stars. *)
Hypothesis H6 : c = Hermite6TS -> soft = None -> (N <= 2)%nat.

Record balanced (S : stars) : Prop := {
  bal_a : forall k, tot N S s_a k = 0;
  bal_j : forall k, tot N S s_adot k = 0;
  bal_2 : forall k, c = Hermite6TS -> tot N S s_a2dot k = 0 }.

(** Balance of the forces for stars that are all active. *)
Lemma forces_balanced : forall S, (forall i, (i < N)%nat -> s_active (S i) = true) ->
  balanced (Forces n b soft c N (Zero N S)).
Proof.
  intros S HA.
  assert (HM : forall i, (i < N)%nat -> s_m (Forces n b soft c N (Zero N S) i) = s_m (S i)).
  { intros i Hi. destruct (forces_hist (Zero N S) i Hi) as ((-> & _) & _). destruct (hist_zero N S i) as ((-> & _) & _). reflexivity. }
  unfold Forces in *. destruct soft as [K|] eqn:ES.
  - pose proof (fun i Hi => smooth_forces n b K (soft_e c) N S i Hi (HA i Hi)) as F.
    pose proof (forces_total _ _ _ N S _ F (sp_a_odd n b Hb K _) (sp_adot_odd n b Hb K _)) as T.
    split; intros k; rewrite ?(total_tot S) by assumption; try apply T.
    intros _. unfold total. rewrite (sumf_ext N _ (fun _ => 0)); [apply sumf_zero|].
    intros i Hi. unfold DirectSmoothed. rewrite upd_in by assumption.
    destruct (pair_loop_smooth n b K (soft_e c) N (Zero N S) i (Zero N S i)) as (g & a & ad & -> & _).
    { now rewrite (proj2 (zero_kin N S i)), HA. }
    cbn [set_force s_a2dot]. rewrite (proj1 (zero_a2 N S i k Hi (HA i Hi))). ring.
  - assert (HM1 : forall e i, (i < N)%nat -> s_m (upd N (pair_loop (grav_pair n b e) N (Zero N S)) (Zero N S) i) = s_m (S i)).
    { intros e i Hi. destruct (grav_forces n b e N S i Hi (HA i Hi)) as ((-> & _) & _). reflexivity. }
    assert (G : forall e k, tot N (upd N (pair_loop (grav_pair n b e) N (Zero N S)) (Zero N S)) s_a k = 0 /\
                            tot N (upd N (pair_loop (grav_pair n b e) N (Zero N S)) (Zero N S)) s_adot k = 0).
    { intros e k. pose proof (fun i Hi => grav_forces n b e N S i Hi (HA i Hi)) as F.
      pose proof (forces_total _ _ _ N S _ F (gp_a_odd n b Hb e) (gp_adot_odd n b Hb e) k) as T.
      rewrite !(total_tot S) by auto. exact T. }
    assert (C : c = Hermite6TS \/ c <> Hermite6TS) by (destruct c; auto; right; discriminate).
    destruct C as [-> |C].
    2: { replace (match c with Hermite6TS => Direct6 n b N (Zero N S) | _ => DirectGrav n b N (Zero N S) end) with (DirectGrav n b N (Zero N S)) by (destruct c; congruence).
         split; intros k; try apply (G 0 k). congruence. }
    set (S1 := upd N (pair_loop (grav_pair n b small_number_dp) N (Zero N S)) (Zero N S)) in *.
    assert (A1 : forall i, (i < N)%nat -> s_active (S1 i) = true).
    { intros i Hi. unfold S1. rewrite upd_in by assumption.
      destruct (pair_loop_grav n b small_number_dp N (Zero N S) i (Zero N S i)) as (g & a & ad & -> & _).
      - now rewrite (proj2 (zero_kin N S i)), HA.
      - cbn. now rewrite (proj2 (zero_kin N S i)), HA. }
    assert (D : forall i, (i < N)%nat -> exists a2, Direct6 n b N (Zero N S) i = set_a23 (S1 i) a2 (s_a3dot (S1 i)) /\
              forall k, (2 <= N)%nat -> a2 k = a2_c n (S1 i) (S1 (last_other N i)) k).
    { intros i Hi. unfold Direct6. fold S1. rewrite upd_in by assumption. rewrite (A1 i Hi). unfold pair_loop. cbn [set_a23 s_active]. rewrite (A1 i Hi).
      destruct (loop_a2 n N S1 i (set_a23 (S1 i) (fun _ => 0) (s_a3dot (S1 i)))) as (a2 & E & HH).
      exists a2. split; [exact E|]. intros k Hk. rewrite HH by assumption. reflexivity. }
    assert (TA : forall f k, (forall p a2 a3, f (set_a23 p a2 a3) k = f p k) -> tot N (Direct6 n b N (Zero N S)) f k = tot N S1 f k).
    { intros f k Hf. apply tot_kin. intros i Hi. destruct (D i Hi) as (a2 & -> & _). rewrite Hf. split; reflexivity. }
    split; intros k; [rewrite TA by reflexivity; apply (G small_number_dp k)|rewrite TA by reflexivity; apply (G small_number_dp k)|intros _].
    specialize (H6 eq_refl eq_refl). unfold tot.
    assert (HN : (N = 0 \/ N = 1 \/ N = 2)%nat) by lia. destruct HN as [HN|[HN|HN]].
    + replace (sumf N) with (sumf 0) by now rewrite HN. reflexivity.
    + replace (sumf N) with (sumf 1) by now rewrite HN. cbn [sumf].
      assert (s_a2dot (Direct6 n b N (Zero N S) 0%nat) k = 0) as ->; [|ring].
      unfold Direct6. fold S1. rewrite upd_in by lia. rewrite (A1 0%nat) by lia. unfold pair_loop. cbn [set_a23 s_active]. rewrite (A1 0%nat) by lia.
      rewrite HN. reflexivity.
    + replace (sumf N) with (sumf 2) by now rewrite HN. cbn [sumf].
      destruct (D 0%nat) as (a2 & -> & E0); [lia|]. destruct (D 1%nat) as (a2' & -> & E1); [lia|].
      cbn [set_a23 s_m s_a2dot]. rewrite E0, E1 by lia. rewrite HN. change (last_other 2 0) with 1%nat. change (last_other 2 1) with 0%nat.
      rewrite (a2_c_odd n (S1 0%nat) (S1 1%nat)). ring.
Qed.
Lemma startup_balanced : forall S, balanced S -> balanced (Startup n b N S).
Proof.
  intros S [B1 B2 _].
  assert (E : forall i, (i < N)%nat -> exists a2 a3, Startup n b N S i = set_a23 (S i) a2 a3).
  { intros i Hi. destruct (startup_star n b N S i Hi) as (a2 & a3 & E & _). eauto. }
  split; intros k.
  - rewrite (tot_kin S _ s_a s_a k); [apply B1|]. intros i Hi. destruct (E i Hi) as (a2 & a3 & ->). split; reflexivity.
  - rewrite (tot_kin S _ s_adot s_adot k); [apply B2|]. intros i Hi. destruct (E i Hi) as (a2 & a3 & ->). split; reflexivity.
  - intros _. rewrite (total_tot S); [apply startup_total; assumption|].
    intros i Hi. destruct (E i Hi) as (a2 & a3 & ->). reflexivity.
Qed.

(** ** The state at the start of a step *)
Record ready (s : sim) : Prop := {
  rd_n : m_n s = 0%Z;
  rd_star : forall i, (i < N)%nat -> let p := m_S s i in
    s_r0 p = s_r p /\ s_v0 p = s_v p /\ s_a0 p = s_a p /\ s_adot0 p = s_adot p /\ (c = Hermite6TS -> s_a2dot0 p = s_a2dot p) /\
    s_nlast p = 0%Z /\ s_nstep p = 1%Z /\ s_tlast p = m_t s /\ s_dt p = m_dt s;
  rd_bal : balanced (m_S s) }.
Lemma finish_ready : forall t S, balanced S ->
  ready (let (S', dt) := GlobalTimestep n c mult N S in mkSim (EndTimestep c 0 N t S') 0 t dt).
Proof.
  intros t S [B1 B2 B3]. cbn [GlobalTimestep].
  assert (E : forall i, (i < N)%nat -> EndTimestep c 0 N t (upd N (fun _ p => set_step p true 1 (min_step n c mult N S)) S) i =
     end_star c 0 t (set_step (S i) true 1 (min_step n c mult N S))).
  { intros i Hi. unfold EndTimestep. now rewrite !upd_in by assumption. }
  split; cbn [m_n m_S m_t m_dt]; [reflexivity| |].
  - intros i Hi. rewrite E by assumption. cbn. repeat split. intros ->. reflexivity.
  - split; intros k.
    + rewrite (tot_kin S _ s_a s_a k); [apply B1|]. intros i Hi. rewrite E by assumption. split; reflexivity.
    + rewrite (tot_kin S _ s_adot s_adot k); [apply B2|]. intros i Hi. rewrite E by assumption. split; reflexivity.
    + intros Hc. rewrite (tot_kin S _ s_a2dot s_a2dot k); [now apply B3|]. intros i Hi. rewrite E by assumption. split; reflexivity.
Qed.
Lemma zero_init : forall t S, Zero N (upd N (fun _ p => init_star t p) S) = upd N (fun _ p => init_star t p) S.
Proof.
  intros. apply functional_extensionality. intros i. unfold Zero, upd. destruct (i <? N)%nat; reflexivity.
Qed.
Lemma setup_ready : forall t S, ready (Setup n b soft c mult N t S).
Proof.
  intros t S. unfold Setup. set (S0 := upd N (fun _ p => init_star t p) S).
  assert (B : balanced (Forces n b soft c N S0)).
  { rewrite <- (zero_init t S : Zero N S0 = S0). apply forces_balanced. intros i Hi. unfold S0. now rewrite upd_in. }
  apply finish_ready. destruct c eqn:Hc; [exact B| | |];
    rewrite <- Hc in *; apply startup_balanced; exact B.
Qed.

(** ** One step *)
(** A prediction or correction in progress: [m] masses, [s] the state at the start. *)
Record moving (s : sim) (S : stars) : Prop := {
  mv_hist : forall i, (i < N)%nat -> let p := m_S s i in let q := S i in
    s_m q = s_m p /\ s_h q = s_h p /\ s_r0 q = s_r p /\ s_v0 q = s_v p /\ s_a0 q = s_a p /\ s_adot0 q = s_adot p /\
    (c = Hermite6TS -> s_a2dot0 q = s_a2dot p) /\ s_active q = true /\ s_nlast q = 0%Z /\ s_nstep q = 1%Z /\ s_tlast q = m_t s /\ s_dtint q = s_dtint p;
  mv_v : forall k, tot N S s_v k = tot N (m_S s) s_v k;
  mv_r : forall k, tot N S s_r k = tot N (m_S s) s_r k + m_dt s * tot N (m_S s) s_v k;
  mv_bal : balanced S }.

Lemma tot_lin : forall S (f g h : star -> vec) x y k, (forall i, (i < N)%nat -> f (S i) k = x * g (S i) k + y * h (S i) k) ->
  tot N S f k = x * tot N S g k + y * tot N S h k.
Proof.
  intros. unfold tot. rewrite <- !sumf_scal, <- sumf_plus. apply sumf_ext. intros i Hi. rewrite H by assumption. ring.
Qed.
Lemma tot_sum : forall S S' (f : star -> vec) (l : list (R * (star -> vec))) k,
  (forall i, (i < N)%nat -> s_m (S' i) = s_m (S i) /\ f (S' i) k = fold_right (fun x a => fst x * snd x (S i) k + a) 0 l) ->
  tot N S' f k = fold_right (fun x a => fst x * tot N S (snd x) k + a) 0 l.
Proof.
  intros S S' f l k H. unfold tot. rewrite (sumf_ext N _ (fun i => s_m (S i) * fold_right (fun x a => fst x * snd x (S i) k + a) 0 l)).
  - clear H. induction l as [|[x w] l IH]; cbn [fold_right fst snd].
    + rewrite (sumf_ext N _ (fun _ => 0)); [apply sumf_zero|]. intros; ring.
    + transitivity (x * sumf N (fun i => s_m (S i) * w (S i) k) +
        sumf N (fun i => s_m (S i) * fold_right (fun x a => fst x * snd x (S i) k + a) 0 l)); [|now rewrite IH].
      rewrite <- sumf_scal, <- sumf_plus. apply sumf_ext. intros. ring.
  - intros i Hi. destruct (H i Hi) as (-> & ->). reflexivity.
Qed.

Lemma advance_moving : forall s, ready s -> moving s (Advance c (m_n s + 1) N (m_t s + m_dt s) (m_S s)).
Proof.
  intros s [Hn Hs [B1 B2 B3]].
  assert (E : forall i, (i < N)%nat -> Advance c (m_n s + 1) N (m_t s + m_dt s) (m_S s) i = set_active (advance_rv c (m_dt s) (m_S s i)) true).
  { intros i Hi. unfold Advance. rewrite upd_in by assumption. destruct (Hs i Hi) as (_ & _ & _ & _ & _ & -> & -> & -> & _). rewrite Hn.
    replace (m_t s + m_dt s - m_t s) with (m_dt s) by ring. reflexivity. }
  assert (P : forall i, (i < N)%nat -> let p := m_S s i in let q := Advance c (m_n s + 1) N (m_t s + m_dt s) (m_S s) i in
    s_m q = s_m p /\ s_h q = s_h p /\ s_r0 q = s_r0 p /\ s_v0 q = s_v0 p /\ s_a0 q = s_a0 p /\ s_adot0 q = s_adot0 p /\
    s_a2dot0 q = s_a2dot0 p /\ s_active q = true /\ s_nlast q = s_nlast p /\ s_nstep q = s_nstep p /\ s_tlast q = s_tlast p /\ s_dtint q = s_dtint p /\
    s_a q = s_a p /\ s_adot q = s_adot p /\ s_a2dot q = s_a2dot p).
  { intros i Hi. cbv zeta. rewrite E by assumption. destruct c; cbn; repeat split. }
  split.
  - intros i Hi.
    destruct (P i Hi) as (? & ? & ? & ? & ? & ? & ? & ? & ? & ? & ? & ? & _). cbv zeta.
    destruct (Hs i Hi) as (? & ? & ? & ? & F' & ? & ? & ? & _). cbv zeta in *.
    repeat split; try congruence. intros Hc. rewrite <- (F' Hc). congruence.
  - intros k. destruct c eqn:Hc.
    + etransitivity; [apply (tot_sum (m_S s) _ s_v ((1, s_v) :: (m_dt s, s_a) :: nil))|]; revgoals.
      * cbn [fold_right fst snd]. rewrite B1. field.
      * intros i Hi. rewrite E by assumption. destruct (Hs i Hi) as (? & Ev & Ea & ? & _). cbn [fold_right fst snd advance_rv set_active set_rv s_m s_r s_v]. rewrite Ev, Ea. split; [reflexivity|field].
    + etransitivity; [apply (tot_sum (m_S s) _ s_v ((1, s_v) :: (m_dt s, s_a) :: (1/2 * m_dt s * m_dt s, s_adot) :: nil))|]; revgoals.
      * cbn [fold_right fst snd]. rewrite B1, B2. field.
      * intros i Hi. rewrite E by assumption. destruct (Hs i Hi) as (? & Ev & Ea & Ej & _). cbn [fold_right fst snd advance_rv set_active set_rv s_m s_r s_v]. rewrite Ev, Ea, Ej. split; [reflexivity|field].
    + etransitivity; [apply (tot_sum (m_S s) _ s_v ((1, s_v) :: (m_dt s, s_a) :: (1/2 * m_dt s * m_dt s, s_adot) :: nil))|]; revgoals.
      * cbn [fold_right fst snd]. rewrite B1, B2. field.
      * intros i Hi. rewrite E by assumption. destruct (Hs i Hi) as (? & Ev & Ea & Ej & _). cbn [fold_right fst snd advance_rv set_active set_rv s_m s_r s_v]. rewrite Ev, Ea, Ej. split; [reflexivity|field].
    + etransitivity; [apply (tot_sum (m_S s) _ s_v ((1, s_v) :: (m_dt s, s_a) :: (1/2 * m_dt s * m_dt s, s_adot) :: (1/6 * m_dt s ^ 3, s_a2dot) :: nil))|]; revgoals.
      * cbn [fold_right fst snd]. rewrite B1, B2, B3 by reflexivity. field.
      * intros i Hi. rewrite E by assumption. destruct (Hs i Hi) as (? & Ev & Ea & Ej & E2 & _). cbn [fold_right fst snd advance_rv set_active set_rv s_m s_r s_v]. rewrite Ev, Ea, Ej, (E2 eq_refl). split; [reflexivity|field].
  - intros k. destruct c eqn:Hc.
    + etransitivity; [apply (tot_sum (m_S s) _ s_r ((1, s_r) :: (m_dt s, s_v) :: (1/2 * m_dt s * m_dt s, s_a) :: nil))|]; revgoals.
      * cbn [fold_right fst snd]. rewrite B1. field.
      * intros i Hi. rewrite E by assumption. destruct (Hs i Hi) as (Er & Ev & Ea & ? & _). cbn [fold_right fst snd advance_rv set_active set_rv s_m s_r s_v]. rewrite Er, Ev, Ea. split; [reflexivity|field].
    + etransitivity; [apply (tot_sum (m_S s) _ s_r ((1, s_r) :: (m_dt s, s_v) :: (1/2 * m_dt s * m_dt s, s_a) :: (1/6 * m_dt s ^ 3, s_adot) :: nil))|]; revgoals.
      * cbn [fold_right fst snd]. rewrite B1, B2. field.
      * intros i Hi. rewrite E by assumption. destruct (Hs i Hi) as (Er & Ev & Ea & Ej & _). cbn [fold_right fst snd advance_rv set_active set_rv s_m s_r s_v]. rewrite Er, Ev, Ea, Ej. split; [reflexivity|field].
    + etransitivity; [apply (tot_sum (m_S s) _ s_r ((1, s_r) :: (m_dt s, s_v) :: (1/2 * m_dt s * m_dt s, s_a) :: (1/6 * m_dt s ^ 3, s_adot) :: nil))|]; revgoals.
      * cbn [fold_right fst snd]. rewrite B1, B2. field.
      * intros i Hi. rewrite E by assumption. destruct (Hs i Hi) as (Er & Ev & Ea & Ej & _). cbn [fold_right fst snd advance_rv set_active set_rv s_m s_r s_v]. rewrite Er, Ev, Ea, Ej. split; [reflexivity|field].
    + etransitivity; [apply (tot_sum (m_S s) _ s_r ((1, s_r) :: (m_dt s, s_v) :: (1/2 * m_dt s * m_dt s, s_a) :: (1/6 * m_dt s ^ 3, s_adot) :: (1/24 * m_dt s ^ 4, s_a2dot) :: nil))|]; revgoals.
      * cbn [fold_right fst snd]. rewrite B1, B2, B3 by reflexivity. field.
      * intros i Hi. rewrite E by assumption. destruct (Hs i Hi) as (Er & Ev & Ea & Ej & E2 & _). cbn [fold_right fst snd advance_rv set_active set_rv s_m s_r s_v]. rewrite Er, Ev, Ea, Ej, (E2 eq_refl). split; [reflexivity|field].
  - split; intros k.
    + rewrite (tot_kin (m_S s) _ s_a s_a k); [apply B1|]. intros i Hi. destruct (P i Hi) as (? & ? & ? & ? & ? & ? & ? & ? & ? & ? & ? & ? & ? & ? & ?). cbv zeta in *. split; congruence.
    + rewrite (tot_kin (m_S s) _ s_adot s_adot k); [apply B2|]. intros i Hi. destruct (P i Hi) as (? & ? & ? & ? & ? & ? & ? & ? & ? & ? & ? & ? & ? & ? & ?). cbv zeta in *. split; congruence.
    + intros Hc. rewrite (tot_kin (m_S s) _ s_a2dot s_a2dot k); [now apply B3|]. intros i Hi. destruct (P i Hi) as (? & ? & ? & ? & ? & ? & ? & ? & ? & ? & ? & ? & ? & ? & ?). cbv zeta in *. split; congruence.
Qed.

Lemma pec_moving : forall s S, ready s -> moving s S -> moving s (pec n b soft c (m_n s + 1) N (m_t s + m_dt s) S).
Proof.
  intros s S [Hn _ [B1 B2 B3]] [Hh Hv Hr _]. rewrite Hn. unfold pec.
  set (F := Forces n b soft c N (Zero N S)).
  assert (BF : balanced F) by (apply forces_balanced; intros i Hi; apply (Hh i Hi)).
  assert (HF : forall i, (i < N)%nat -> same_hist (S i) (F i)).
  { intros i Hi. apply (hist_trans _ (Zero N S i)); [apply hist_zero|now apply forces_hist]. }
  assert (E : forall i, (i < N)%nat -> Correction c (0 + 1) N (m_t s + m_dt s) F i = correct_rv c (m_dt s) (F i)).
  { intros i Hi. unfold Correction. rewrite upd_in by assumption.
    destruct (HF i Hi) as (_ & _ & _ & _ & _ & _ & _ & -> & -> & -> & _).
    destruct (Hh i Hi) as (_ & _ & _ & _ & _ & _ & _ & _ & -> & -> & -> & _).
    replace (m_t s + m_dt s - m_t s) with (m_dt s) by ring. reflexivity. }
  assert (TF : forall f g k, (forall i, (i < N)%nat -> f (F i) k = g (m_S s i) k) -> tot N F f k = tot N (m_S s) g k).
  { intros f g k Hf. apply tot_kin. intros i Hi. split; [|now apply Hf].
    destruct (HF i Hi) as ((-> & _) & _). apply (Hh i Hi). }
  assert (Ta0 : forall k, tot N F s_a0 k = 0).
  { intros k. rewrite (TF s_a0 s_a); [apply B1|]. intros i Hi.
    destruct (HF i Hi) as (_ & _ & _ & -> & _). destruct (Hh i Hi) as (_ & _ & _ & _ & -> & _). reflexivity. }
  assert (Tj0 : forall k, tot N F s_adot0 k = 0).
  { intros k. rewrite (TF s_adot0 s_adot); [apply B2|]. intros i Hi.
    destruct (HF i Hi) as (_ & _ & _ & _ & -> & _). destruct (Hh i Hi) as (_ & _ & _ & _ & _ & -> & _). reflexivity. }
  assert (T20 : forall k, c = Hermite6TS -> tot N F s_a2dot0 k = 0).
  { intros k Hc. rewrite (TF s_a2dot0 s_a2dot); [now apply B3|]. intros i Hi.
    destruct (HF i Hi) as (_ & _ & _ & _ & _ & -> & _). destruct (Hh i Hi) as (_ & _ & _ & _ & _ & _ & E2 & _). now rewrite (E2 Hc). }
  assert (Tr0 : forall k, tot N F s_r0 k = tot N (m_S s) s_r k).
  { intros k. apply TF. intros i Hi. destruct (HF i Hi) as (_ & -> & _). destruct (Hh i Hi) as (_ & _ & -> & _). reflexivity. }
  assert (Tv0 : forall k, tot N F s_v0 k = tot N (m_S s) s_v k).
  { intros k. apply TF. intros i Hi. destruct (HF i Hi) as (_ & _ & -> & _). destruct (Hh i Hi) as (_ & _ & _ & -> & _). reflexivity. }
  assert (Tr : forall k, tot N F s_r k = tot N (m_S s) s_r k + m_dt s * tot N (m_S s) s_v k).
  { intros k. rewrite <- Hr. apply tot_kin. intros i Hi. destruct (HF i Hi) as ((-> & _ & -> & _) & _). split; reflexivity. }
  assert (Tv : forall k, tot N F s_v k = tot N (m_S s) s_v k).
  { intros k. rewrite <- Hv. apply tot_kin. intros i Hi. destruct (HF i Hi) as ((-> & _ & _ & ->) & _). split; reflexivity. }
  destruct BF as [A1 A2 A3]. set (dt := m_dt s) in *.
  split.
  - intros i Hi. rewrite E by assumption.
    destruct (HF i Hi) as ((? & ? & ? & ?) & ? & ? & ? & ? & ? & ? & ? & ? & ? & ?).
    destruct (Hh i Hi) as (? & ? & ? & ? & ? & ? & F2 & ? & ? & ? & ? & ?). cbv zeta in *.
    replace (s_m (correct_rv c dt (F i))) with (s_m (F i)) by (destruct c; reflexivity).
    replace (s_h (correct_rv c dt (F i))) with (s_h (F i)) by (destruct c; reflexivity).
    replace (s_r0 (correct_rv c dt (F i))) with (s_r0 (F i)) by (destruct c; reflexivity).
    replace (s_v0 (correct_rv c dt (F i))) with (s_v0 (F i)) by (destruct c; reflexivity).
    replace (s_a0 (correct_rv c dt (F i))) with (s_a0 (F i)) by (destruct c; reflexivity).
    replace (s_adot0 (correct_rv c dt (F i))) with (s_adot0 (F i)) by (destruct c; reflexivity).
    replace (s_a2dot0 (correct_rv c dt (F i))) with (s_a2dot0 (F i)) by (destruct c; reflexivity).
    replace (s_active (correct_rv c dt (F i))) with (s_active (F i)) by (destruct c; reflexivity).
    replace (s_nlast (correct_rv c dt (F i))) with (s_nlast (F i)) by (destruct c; reflexivity).
    replace (s_nstep (correct_rv c dt (F i))) with (s_nstep (F i)) by (destruct c; reflexivity).
    replace (s_tlast (correct_rv c dt (F i))) with (s_tlast (F i)) by (destruct c; reflexivity).
    replace (s_dtint (correct_rv c dt (F i))) with (s_dtint (F i)) by (destruct c; reflexivity).
    repeat split; try congruence. intros Hc. rewrite <- (F2 Hc). congruence.
  - intros k. destruct c eqn:Hc.
    + etransitivity; [apply (tot_sum F _ s_v ((1, s_v) :: (1/2 * dt, s_a) :: (- (1/2 * dt), s_a0) :: nil))|]; revgoals.
      * cbn [fold_right fst snd]. rewrite Tv, A1, Ta0. ring.
      * intros i Hi. rewrite E by assumption. cbn [fold_right fst snd correct_rv set_rv set_a23 s_m s_v]. split; [reflexivity|ring].
    + etransitivity; [apply (tot_sum F _ s_v ((1, s_v) ::
        ((1/dt)*(1/dt)*dt^3 - (1/dt)^3*dt^4/2, s_a) :: (- ((1/dt)*(1/dt)*dt^3) + (1/dt)^3*dt^4/2, s_a0) ::
        (- ((1/dt)*(1/dt)*dt^4/3) + (1/dt)^3*dt^5/4, s_adot) :: (- (2*(1/dt)*(1/dt)*dt^4/3) + (1/dt)^3*dt^5/4, s_adot0) :: nil))|]; revgoals.
      * cbn [fold_right fst snd]. rewrite Tv, A1, A2, Ta0, Tj0. ring.
      * intros i Hi. rewrite E by assumption. cbn [fold_right fst snd correct_rv set_rv set_a23 s_m s_v s_a2dot s_a3dot]. split; [reflexivity|].
        generalize (1 / dt). intros. field.
    + etransitivity; [apply (tot_sum F _ s_v ((1, s_v0) :: (1/2 * dt, s_a) :: (1/2 * dt, s_a0) :: (- (1/12 * dt * dt), s_adot) :: (1/12 * dt * dt, s_adot0) :: nil))|]; revgoals.
      * cbn [fold_right fst snd]. rewrite Tv0, A1, A2, Ta0, Tj0. ring.
      * intros i Hi. rewrite E by assumption. cbn [fold_right fst snd correct_rv set_rv set_a23 s_m s_v s_v0]. split; [reflexivity|ring].
    + etransitivity; [apply (tot_sum F _ s_v ((1, s_v0) :: (1/2 * dt, s_a) :: (1/2 * dt, s_a0) :: (- (1/10 * dt * dt), s_adot) :: (1/10 * dt * dt, s_adot0) ::
          (1/120 * dt ^ 3, s_a2dot) :: (1/120 * dt ^ 3, s_a2dot0) :: nil))|]; revgoals.
      * cbn [fold_right fst snd]. rewrite Tv0, A1, A2, Ta0, Tj0, A3, T20 by reflexivity. ring.
      * intros i Hi. rewrite E by assumption. cbn [fold_right fst snd correct_rv set_rv set_a23 s_m s_v s_v0 s_a2dot s_a2dot0]. split; [reflexivity|ring].
  - intros k. fold dt. destruct c eqn:Hc.
    + etransitivity; [apply (tot_sum F _ s_r ((1, s_r) :: nil))|]; revgoals.
      * cbn [fold_right fst snd]. rewrite Tr. ring.
      * intros i Hi. rewrite E by assumption. cbn [fold_right fst snd correct_rv set_rv set_a23 s_m s_r]. split; [reflexivity|ring].
    + etransitivity; [apply (tot_sum F _ s_r ((1, s_r) ::
        ((1/dt)*(1/dt)*dt^4/4 - (1/dt)^3*dt^5/10, s_a) :: (- ((1/dt)*(1/dt)*dt^4/4) + (1/dt)^3*dt^5/10, s_a0) ::
        (- ((1/dt)*(1/dt)*dt^5/12) + (1/dt)^3*dt^6/20, s_adot) :: (- ((1/dt)*(1/dt)*dt^5/6) + (1/dt)^3*dt^6/20, s_adot0) :: nil))|]; revgoals.
      * cbn [fold_right fst snd]. rewrite Tr, A1, A2, Ta0, Tj0. ring.
      * intros i Hi. rewrite E by assumption. cbn [fold_right fst snd correct_rv set_rv set_a23 s_m s_r s_a2dot s_a3dot]. split; [reflexivity|].
        generalize (1 / dt). intros. field.
    + etransitivity; [apply (tot_sum F _ s_r ((1, s_r0) :: (dt, s_v0) :: (1/4 * dt * dt - 1/12 * dt * dt, s_a) :: (1/4 * dt * dt + 1/12 * dt * dt, s_a0) ::
         (- (1/24 * dt ^ 3), s_adot) :: (1/24 * dt ^ 3, s_adot0) :: nil))|]; revgoals.
      * cbn [fold_right fst snd]. rewrite Tr0, Tv0, A1, A2, Ta0, Tj0. ring.
      * intros i Hi. rewrite E by assumption. cbn [fold_right fst snd correct_rv set_rv set_a23 s_m s_r s_r0 s_v0]. split; [reflexivity|field].
    + etransitivity; [apply (tot_sum F _ s_r ((1, s_r0) :: (dt, s_v0) :: (1/4 * dt * dt - 1/10 * dt * dt, s_a) :: (1/4 * dt * dt + 1/10 * dt * dt, s_a0) ::
         (- (1/20 * dt ^ 3) + 1/120 * dt ^ 3, s_adot) :: (1/20 * dt ^ 3 + 1/120 * dt ^ 3, s_adot0) ::
         (1/240 * dt ^ 4, s_a2dot) :: (1/240 * dt ^ 4, s_a2dot0) :: nil))|]; revgoals.
      * cbn [fold_right fst snd]. rewrite Tr0, Tv0, A1, A2, Ta0, Tj0, A3, T20 by reflexivity. ring.
      * intros i Hi. rewrite E by assumption. cbn [fold_right fst snd correct_rv set_rv set_a23 s_m s_r s_r0 s_v0 s_a2dot s_a2dot0]. split; [reflexivity|field].
  - split; intros k.
    + rewrite (tot_kin F _ s_a s_a k); [apply A1|]. intros i Hi. rewrite E by assumption. destruct c; split; reflexivity.
    + rewrite (tot_kin F _ s_adot s_adot k); [apply A2|]. intros i Hi. rewrite E by assumption. destruct c; split; reflexivity.
    + intros Hc. rewrite (tot_kin F _ s_a2dot s_a2dot k); [now apply A3|]. intros i Hi. rewrite E by assumption. rewrite Hc. split; reflexivity.
Qed.
Lemma iter_moving : forall s q S, ready s -> moving s S ->
  moving s (Nat.iter q (pec n b soft c (m_n s + 1) N (m_t s + m_dt s)) S).
Proof. intros s q S Hs HS. induction q; [exact HS|]. cbn. now apply pec_moving. Qed.

(** Mass, momentum and centre of mass from one step to the next. *)
Definition drifted (s s' : sim) : Prop :=
  (forall i, (i < N)%nat -> s_m (m_S s' i) = s_m (m_S s i)) /\
  forall k, tot N (m_S s') s_v k = tot N (m_S s) s_v k /\
            tot N (m_S s') s_r k = tot N (m_S s) s_r k + (m_t s' - m_t s) * tot N (m_S s) s_v k.
Lemma step_ready : forall s, ready s -> ready (MainLoop n b soft c npec mult N s) /\ drifted s (MainLoop n b soft c npec mult N s).
Proof.
  intros s Hs. unfold MainLoop.
  pose proof (iter_moving s (Npec c npec) _ Hs (advance_moving s Hs)) as HM.
  set (S2 := Nat.iter (Npec c npec) (pec n b soft c (m_n s + 1) N (m_t s + m_dt s))
               (Advance c (m_n s + 1) N (m_t s + m_dt s) (m_S s))) in *.
  destruct HM as [Hh Hv Hr HB]. split; [now apply finish_ready|].
  cbn [GlobalTimestep].
  assert (E : forall i, (i < N)%nat -> EndTimestep c 0 N (m_t s + m_dt s) (upd N (fun _ p => set_step p true 1 (min_step n c mult N S2)) S2) i =
     end_star c 0 (m_t s + m_dt s) (set_step (S2 i) true 1 (min_step n c mult N S2))).
  { intros i Hi. unfold EndTimestep. now rewrite !upd_in by assumption. }
  split; cbn [m_S m_t].
  - intros i Hi. rewrite E by assumption. cbn. apply (Hh i Hi).
  - intros k. split.
    + rewrite <- Hv. apply tot_kin. intros i Hi. rewrite E by assumption. split; reflexivity.
    + replace (m_t s + m_dt s - m_t s) with (m_dt s) by ring. rewrite <- Hr.
      apply tot_kin. intros i Hi. rewrite E by assumption. split; reflexivity.
Qed.
Lemma setup_state : forall t S, m_t (Setup n b soft c mult N t S) = t /\
 forall i, (i < N)%nat -> let q := m_S (Setup n b soft c mult N t S) i in
    s_m q = s_m (S i) /\ s_h q = s_h (S i) /\ s_r q = s_r (S i) /\ s_v q = s_v (S i) /\ s_dtint q = s_dtint (S i).
Proof. clear H6 Hb.
  intros t S. split.
  - unfold Setup. destruct c; reflexivity.
  - intros i Hi. unfold Setup. set (S0 := upd N (fun _ p => init_star t p) S).
    assert (K0 : same_hist (S0 i) (Forces n b soft c N S0 i)) by now apply forces_hist.
    assert (I0 : S0 i = init_star t (S i)) by (unfold S0; now rewrite upd_in).
    rewrite I0 in K0.
    assert (K1 : same_hist (init_star t (S i)) ((match c with LeapKDK => Forces n b soft c N S0 | _ => Startup n b N (Forces n b soft c N S0) end) i)).
    { destruct (startup_star n b N (Forces n b soft c N S0) i Hi) as (a2 & a3 & E & _).
      destruct c; try exact K0; rewrite E; apply (hist_trans _ _ _ K0); apply hist_a23. }
    set (S1 := match c with LeapKDK => Forces n b soft c N S0 | _ => Startup n b N (Forces n b soft c N S0) end) in *.
    cbn [GlobalTimestep m_S]. unfold EndTimestep. rewrite !upd_in by assumption.
    destruct K1 as ((E1 & E2 & E3 & E4) & _ & _ & _ & _ & _ & _ & _ & _ & _ & E5). cbn in E1, E2, E3, E4, E5. cbn. repeat split; assumption.
Qed.
Theorem run_com : forall t steps S, let s := Run n b soft c npec mult N t steps S in
  ready s /\ forall k,
    (forall i, (i < N)%nat -> s_m (m_S s i) = s_m (S i)) /\
   tot N (m_S s) s_v k = tot N S s_v k /\
   tot N (m_S s) s_r k = tot N S s_r k + (m_t s - t) * tot N S s_v k.
Proof.
  intros t steps S. unfold Run. induction steps as [|q IH]; cbv zeta in *.
  - change (Nat.iter 0 (MainLoop n b soft c npec mult N) (Setup n b soft c mult N t S)) with (Setup n b soft c mult N t S).
    split; [apply setup_ready|]. intros k. destruct (setup_state t S) as (-> & H). split; [intros i Hi; apply (H i Hi)|]. split.
    + apply tot_kin. intros i Hi. destruct (H i Hi) as (-> & _ & _ & -> & _). split; reflexivity.
    + rewrite Rminus_diag_eq by reflexivity. rewrite Rmult_0_l, Rplus_0_r.
      apply tot_kin. intros i Hi. destruct (H i Hi) as (-> & _ & -> & _). split; reflexivity.
  - change (Nat.iter (Datatypes.S q) (MainLoop n b soft c npec mult N) (Setup n b soft c mult N t S)) with
      (MainLoop n b soft c npec mult N (Nat.iter q (MainLoop n b soft c npec mult N) (Setup n b soft c mult N t S))).
    set (s := Nat.iter q (MainLoop n b soft c npec mult N) (Setup n b soft c mult N t S)) in *.
    destruct IH as (Hs & IH). destruct (step_ready s Hs) as (Hs' & HD). split; [exact Hs'|]. intros k.
    destruct HD as (HM & HD). destruct (HD k) as (Dv & Dr). destruct (IH k) as (IM & Iv & Ir).
    split; [intros i Hi; now rewrite HM, IM|]. rewrite Dv, Dr, Iv, Ir. split; [reflexivity|ring].
Qed.
End run.
