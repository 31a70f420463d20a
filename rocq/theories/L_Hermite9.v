(** Time steps and reversibility of the star integrators. *)
From Verif Require Import Prelude Vec M_Box M_Periodic L_Box L_Periodic M_Hermite S_Hermite L_Hermite L_Hermite3 L_Hermite4 L_Hermite5 L_Hermite6 L_Hermite7.
From Coq Require Import Reals FunctionalExtensionality.
Local Open Scope R_scope.

(** ** Time steps *)
Lemma timestep_pos : forall n c mult p, 0 < mult -> 0 < s_h p -> 0 < s_dtint p ->
  0 < Timestep n c mult p <= s_dtint p.
Proof.
  intros n c mult p Hm Hh Hd. unfold Timestep. cbv zeta. split; [|apply Rmin_r].
  apply Rmin_glb_lt; [|assumption]. pose proof small_dp_pos as HS.
  set (asqd := dot n (s_a p) (s_a p)). set (a1 := dot n (s_adot p) (s_adot p)).
  set (a2 := dot n (s_a2dot p) (s_a2dot p)). set (a3 := dot n (s_a3dot p) (s_a3dot p)).
  assert (P : forall x, 0 < s_h p / (sqrt x + small_number_dp)).
  { intros x. apply Rdiv_lt_0_compat; [assumption|]. pose proof (sqrt_pos x). lra. }
  assert (Q : 0 < (if rltb small_number_dp a1 && rltb small_number_dp a2 then mult * sqrt ((sqrt (asqd * a2) + a1) / (sqrt (a1 * a3) + a2))
      else if rltb small_number_dp asqd && rltb small_number_dp a2 then mult * sqrt (asqd / (a2 + small_number_dp))
      else if rltb small_number_dp asqd then sqrt (s_h p / (sqrt asqd + small_number_dp)) else big_number_dp)).
  { destruct (rltb small_number_dp a1) eqn:B1, (rltb small_number_dp a2) eqn:B2, (rltb small_number_dp asqd) eqn:B0;
      cbn; rewrite ?rltb_true, ?rltb_false in *;
      try (apply Rmult_lt_0_compat; [assumption|]; apply sqrt_lt_R0; apply Rdiv_lt_0_compat;
           repeat match goal with |- context[sqrt ?x] => lazymatch goal with H : 0 <= sqrt x |- _ => fail | _ => pose proof (sqrt_pos x) end end; lra);
      try (apply sqrt_lt_R0, P);
      unfold big_number_dp; try (apply Rmult_lt_0_compat; [lra|apply pow_lt; lra]); try (apply pow_lt; lra). }
  destruct c; try exact Q. apply Rmult_lt_0_compat; [assumption|]. apply sqrt_lt_R0, P.
Qed.
Lemma loop_min : forall N f x, let m := loopk N (fun i dt => Rmin dt (f i)) x in
  (forall i, (i < N)%nat -> m <= f i) /\ m <= x /\ (m = x \/ exists i, (i < N)%nat /\ m = f i).
Proof.
  intros N f x. induction N as [|N IH]; cbv zeta in *.
  - cbn. split; [intros; lia|]. split; [lra|auto].
  - rewrite loopk_S. destruct IH as (H1 & H2 & H3). set (m := loopk N (fun i dt => Rmin dt (f i)) x) in *.
    pose proof (Rmin_l m (f N)). pose proof (Rmin_r m (f N)). split; [|split].
    + intros i Hi. destruct (Nat.eq_dec i N) as [-> |]; [assumption|]. apply (Rle_trans _ m); [assumption|]. apply H1. lia.
    + lra.
    + destruct (Rle_dec m (f N)).
      * rewrite Rmin_left by assumption. destruct H3 as [|(i & Hi & E)]; [auto|]. right. exists i. split; [lia|exact E].
      * rewrite Rmin_right by lra. right. exists N. split; [lia|reflexivity].
Qed.
Lemma timestep_same : forall n c mult p q, s_a p = s_a q -> s_adot p = s_adot q -> s_a2dot p = s_a2dot q -> s_a3dot p = s_a3dot q ->
  s_h p = s_h q -> s_dtint p = s_dtint q -> Timestep n c mult p = Timestep n c mult q.
Proof. intros n c mult p q E1 E2 E3 E4 E5 E6. unfold Timestep. now rewrite E1, E2, E3, E4, E5, E6. Qed.

(** ** Forces in other states *)
Section forces.
Variables (n : nat) (b : dombox) (soft : option skern) (c : scheme) (N : nat).
Notation F S := (Forces n b soft c N (Zero N S)).
Definition all_active (S : stars) : Prop := forall i, (i < N)%nat -> s_active (S i) = true.
(** Same masses, sizes and positions; velocities the same ([sg] = 1) or opposite ([sg] = -1). *)
Definition mirrored (sg : R) (S S' : stars) : Prop := forall i, (i < N)%nat ->
  s_m (S' i) = s_m (S i) /\ s_h (S' i) = s_h (S i) /\ s_r (S' i) = s_r (S i) /\ forall k, s_v (S' i) k = sg * s_v (S i) k.
Section m.
Variables (sg : R) (S S' : stars).
Hypothesis Hsg : sg * sg = 1.
Hypothesis HM : mirrored sg S S'.
Lemma m_dr : forall i j, (i < N)%nat -> (j < N)%nat -> pair_dr n b (S' i) (S' j) = pair_dr n b (S i) (S j).
Proof. intros i j Hi Hj. unfold pair_dr. destruct (HM i Hi) as (_ & _ & -> & _), (HM j Hj) as (_ & _ & -> & _). reflexivity. Qed.
Lemma m_dv : forall i j k, (i < N)%nat -> (j < N)%nat -> pair_dv (S' i) (S' j) k = sg * pair_dv (S i) (S j) k.
Proof. intros i j k Hi Hj. unfold pair_dv, vsub. destruct (HM i Hi) as (_ & _ & _ & ->), (HM j Hj) as (_ & _ & _ & ->). ring. Qed.
Lemma m_dvdr : forall i j w, (i < N)%nat -> (j < N)%nat -> dot n (pair_dv (S' i) (S' j)) w = sg * dot n (pair_dv (S i) (S j)) w.
Proof. intros i j w Hi Hj. unfold dot. rewrite <- sumf_scal. apply sumf_ext. intros k _. rewrite m_dv by assumption. ring. Qed.
Lemma m_gp : forall e i j k, (i < N)%nat -> (j < N)%nat ->
  gp_a n b e (S' i) (S' j) k = gp_a n b e (S i) (S j) k /\ gp_adot n b e (S' i) (S' j) k = sg * gp_adot n b e (S i) (S j) k.
Proof.
  intros e i j k Hi Hj. unfold gp_a, gp_adot, gp_inv. rewrite m_dvdr, m_dv, m_dr by assumption. destruct (HM j Hj) as (-> & _). split; ring.
Qed.
Lemma m_sp : forall K e i j k, (i < N)%nat -> (j < N)%nat ->
  sp_a n b K e (S' i) (S' j) k = sp_a n b K e (S i) (S j) k /\ sp_adot n b K e (S' i) (S' j) k = sg * sp_adot n b K e (S i) (S j) k.
Proof.
  intros K e i j k Hi Hj. unfold sp_a, sp_adot, sp_paux, sp_drdt, sp_mag, sp_ih. rewrite m_dvdr, m_dv, m_dr by assumption.
  destruct (HM j Hj) as (-> & -> & _), (HM i Hi) as (_ & -> & _). split; ring.
Qed.
(** Pairs of stars that differ in this way and have the same acceleration. *)
Lemma m_a2 : forall p p' q q', s_m q' = s_m q -> s_r p' = s_r p -> s_r q' = s_r q -> s_a p' = s_a p -> s_a q' = s_a q ->
  (forall k, s_v p' k = sg * s_v p k) -> (forall k, s_v q' k = sg * s_v q k) -> forall k, a2_c n p' q' k = a2_c n p q k.
Proof.
  intros p p' q q' E1 E2 E3 E4 E5 E6 E7 k. unfold a2_c, a2_pair. cbv zeta. cbn [set_a23 s_a2dot]. rewrite E1, E2, E3, E4, E5.
  assert (V : forall k, pair_dv p' q' k = sg * pair_dv p q k) by (intros; unfold pair_dv, vsub; rewrite E6, E7; ring).
  rewrite V.
  assert (dot n (pair_dv p' q') (vsub (s_r q) (s_r p)) = sg * dot n (pair_dv p q) (vsub (s_r q) (s_r p))) as ->.
  { unfold dot. rewrite <- sumf_scal. apply sumf_ext. intros. rewrite V. ring. }
  assert (dot n (pair_dv p' q') (pair_dv p' q') = dot n (pair_dv p q) (pair_dv p q)) as ->.
  { apply sumf_ext. intros. rewrite V. replace (sg * pair_dv p q k0 * (sg * pair_dv p q k0)) with (sg * sg * (pair_dv p q k0 * pair_dv p q k0)) by ring. rewrite Hsg. ring. }
  set (A := dot n (pair_dv p q) (vsub (s_r q) (s_r p))). set (B := dot n (pair_dv p q) (pair_dv p q)).
  set (i2 := 1 / (dot n (vsub (s_r q) (s_r p)) (vsub (s_r q) (s_r p)) + small_number_dp)). set (u := sqrt i2).
  replace (sg * A * i2 * (sg * A * i2)) with (sg * sg * (A * i2 * (A * i2))) by ring. rewrite Hsg.
  transitivity (s_m q * vsub (s_a q) (s_a p) k * i2 * u -
    6 * (A * i2) * (s_m q * u ^ 3 * (sg * sg * pair_dv p q k - 3 * (sg * sg) * (A * u) * u * vsub (s_r q) (s_r p) k)) -
    3 * (B * i2 + 1 * (A * i2 * (A * i2)) + dot n (vsub (s_a q) (s_a p)) (vsub (s_r q) (s_r p)) * i2) * (s_m q * vsub (s_r q) (s_r p) k * u ^ 3)); [ring|].
  rewrite Hsg. ring.
Qed.
Hypothesis HA : all_active S.
Hypothesis HA' : all_active S'.
Lemma mirrored_forces : forall i k, (i < N)%nat ->
  s_a (F S' i) k = s_a (F S i) k /\ s_adot (F S' i) k = sg * s_adot (F S i) k /\
  (c = Hermite6TS -> s_a2dot (F S' i) k = s_a2dot (F S i) k).
Proof.
  intros i k Hi. unfold Forces. destruct soft as [K|].
  - destruct (smooth_forces n b K (soft_e c) N S i Hi (HA i Hi)) as (_ & _ & EA & EJ).
    destruct (smooth_forces n b K (soft_e c) N S' i Hi (HA' i Hi)) as (_ & _ & EA' & EJ').
    rewrite EA, EJ, EA', EJ'. split; [|split].
    + apply others_ext. intros j Hj _. now apply m_sp.
    + rewrite <- others_scal. apply others_ext. intros j Hj _. now apply m_sp.
    + intros _. unfold DirectSmoothed. rewrite !upd_in by assumption.
      destruct (pair_loop_smooth n b K (soft_e c) N (Zero N S) i (Zero N S i)) as (g & a & ad & -> & _).
      { now rewrite (proj2 (zero_kin N S i)), HA. }
      destruct (pair_loop_smooth n b K (soft_e c) N (Zero N S') i (Zero N S' i)) as (g' & a' & ad' & -> & _).
      { now rewrite (proj2 (zero_kin N S' i)), HA'. }
      cbn [set_force s_a2dot]. rewrite (proj1 (zero_a2 N S i k Hi (HA i Hi))), (proj1 (zero_a2 N S' i k Hi (HA' i Hi))). reflexivity.
  - assert (G : forall e i k, (i < N)%nat ->
      let T S := upd N (pair_loop (grav_pair n b e) N (Zero N S)) (Zero N S) in
      s_a (T S' i) k = s_a (T S i) k /\ s_adot (T S' i) k = sg * s_adot (T S i) k).
    { clear i k Hi. intros e i k Hi. cbv zeta.
      destruct (grav_forces n b e N S i Hi (HA i Hi)) as (_ & _ & -> & ->).
      destruct (grav_forces n b e N S' i Hi (HA' i Hi)) as (_ & _ & -> & ->). split.
      + apply others_ext. intros j Hj _. now apply m_gp.
      + rewrite <- others_scal. apply others_ext. intros j Hj _. now apply m_gp. }
    destruct c; try (destruct (G 0 i k Hi) as (G1 & G2); split; [exact G1|split; [exact G2|discriminate]]).
    set (T := fun S => upd N (pair_loop (grav_pair n b small_number_dp) N (Zero N S)) (Zero N S)).
    assert (A1 : forall S i, (i < N)%nat -> s_active (S i) = true -> s_active (T S i) = true).
    { intros S0 i0 Hi0 Ha. unfold T. rewrite upd_in by assumption.
      destruct (pair_loop_grav n b small_number_dp N (Zero N S0) i0 (Zero N S0 i0)) as (g & a & ad & -> & _).
      - now rewrite (proj2 (zero_kin N S0 i0)).
      - cbn. now rewrite (proj2 (zero_kin N S0 i0)). }
    assert (D : forall S, s_active (S i) = true -> exists a2, Direct6 n b N (Zero N S) i = set_a23 (T S i) a2 (s_a3dot (T S i)) /\
              (forall k, (2 <= N)%nat -> a2 k = a2_c n (T S i) (T S (last_other N i)) k) /\ ((N < 2)%nat -> forall k, a2 k = 0)).
    { intros S0 Ha. unfold Direct6. fold (T S0). rewrite upd_in by assumption. rewrite (A1 S0 i Hi Ha). unfold pair_loop. cbn [set_a23 s_active]. rewrite (A1 S0 i Hi Ha).
      destruct (Nat.ltb_spec N 2) as [HN|HN].
      - assert (N = 1)%nat as HN1 by lia. assert (i = 0)%nat as -> by lia. exists (fun _ => 0). split; [|split; [intros; lia|reflexivity]].
        rewrite HN1 at 1. reflexivity.
      - destruct (loop_a2 n N (T S0) i (set_a23 (T S0 i) (fun _ => 0) (s_a3dot (T S0 i)))) as (a2 & E & HH).
        exists a2. split; [exact E|]. split; [|lia]. intros k0 Hk. rewrite HH by assumption. reflexivity. }
    destruct (D S (HA i Hi)) as (a2 & -> & D2 & D3). destruct (D S' (HA' i Hi)) as (a2' & -> & D2' & D3').
    cbn [set_a23 s_a s_adot s_a2dot]. destruct (G small_number_dp i k Hi) as (G1 & G2). split; [exact G1|]. split; [exact G2|]. intros _.
    destruct (Nat.ltb_spec N 2) as [HN|HN]; [rewrite D3, D3' by assumption; reflexivity|].
    rewrite D2, D2' by assumption.
    assert (HL : (last_other N i < N)%nat) by (unfold last_other; destruct (Nat.eqb_spec i (N - 1)); lia).
    assert (KT : forall S j, (j < N)%nat -> s_active (S j) = true -> same_kin (S j) (T S j)).
    { intros S0 j Hj Ha. destruct (grav_forces n b small_number_dp N S0 j Hj Ha) as (HK & _). exact HK. }
    destruct (KT S i Hi (HA i Hi)) as (m1 & h1 & r1 & v1). destruct (KT S' i Hi (HA' i Hi)) as (m2 & h2 & r2 & v2).
    destruct (KT S _ HL (HA _ HL)) as (m3 & h3 & r3 & v3). destruct (KT S' _ HL (HA' _ HL)) as (m4 & h4 & r4 & v4).
    destruct (HM i Hi) as (q1 & q2 & q3 & q4). destruct (HM _ HL) as (q5 & q6 & q7 & q8).
    apply m_a2; try congruence.
    + apply functional_extensionality. intros l. apply (G small_number_dp i l Hi).
    + apply functional_extensionality. intros l. apply (G small_number_dp _ l HL).
Qed.
End m.
End forces.

(** ** Reversed steps *)
Section rev.
Variables (n : nat) (b : dombox) (soft : option skern) (c : scheme) (npec : nat) (mult : R) (N : nat).
Notation F S := (Forces n b soft c N (Zero N S)).
Notation adv s := (Advance c (m_n s + 1) N (m_t s + m_dt s) (m_S s)).
Notation pec1 s := (pec n b soft c (m_n s + 1) N (m_t s + m_dt s)).
Notation Main := (MainLoop n b soft c npec mult N).

Definition vopp (v : vec) : vec := fun k => - v k.
(** A star at [r] with velocity [v] and the given forces at the beginning of a step at time [t]. *)
Definition fresh (p : star) (r v a j s : vec) (t dt : R) : star :=
  mkStar (s_m p) (s_h p) r v a j s (s_a3dot p) (s_gpot p) r v a j s false false 0 1 t dt 0 (s_dtint p).
(** The state from which the same step is to be done backwards, begun at time [t]. *)
Definition turned (S : stars) (t dt : R) : sim :=
  mkSim (fun i => let q := S i in fresh q (s_r q) (vopp (s_v q)) (s_a q) (vopp (s_adot q)) (s_a2dot q) t dt) 0 t dt.
Lemma turned_started : forall S t dt, started c N (turned S t dt).
Proof. intros S t dt. split; [reflexivity|]. intros i Hi. cbn. repeat split. Qed.

(** Accelerations (and derivatives) of a state are those of its positions (and velocities). *)
Definition settled_a (s : sim) : Prop := forall S, (forall i, (i < N)%nat -> s_active (S i) = true) ->
  (forall i, (i < N)%nat -> s_m (S i) = s_m (m_S s i) /\ s_h (S i) = s_h (m_S s i) /\ s_r (S i) = s_r (m_S s i)) ->
  forall i k, (i < N)%nat -> s_a (F S i) k = s_a (m_S s i) k.
Lemma acc_of_r : forall S S', all_active N S -> all_active N S' ->
  (forall i, (i < N)%nat -> s_m (S' i) = s_m (S i) /\ s_h (S' i) = s_h (S i) /\ s_r (S' i) = s_r (S i)) ->
  forall i k, (i < N)%nat -> s_a (F S' i) k = s_a (F S i) k.
Proof.
  intros S S' HA HA' HE i k Hi. unfold Forces. destruct soft as [K|].
  - destruct (smooth_forces n b K (soft_e c) N S i Hi (HA i Hi)) as (_ & _ & EA & _).
    destruct (smooth_forces n b K (soft_e c) N S' i Hi (HA' i Hi)) as (_ & _ & EA' & _). rewrite EA, EA'.
    apply others_ext. intros j Hj _. unfold sp_a, sp_paux, sp_mag, sp_ih, pair_dr.
    destruct (HE i Hi) as (_ & -> & ->), (HE j Hj) as (-> & -> & ->). reflexivity.
  - assert (G : forall e, s_a (upd N (pair_loop (grav_pair n b e) N (Zero N S')) (Zero N S') i) k =
                          s_a (upd N (pair_loop (grav_pair n b e) N (Zero N S)) (Zero N S) i) k).
    { intros e. destruct (grav_forces n b e N S i Hi (HA i Hi)) as (_ & _ & -> & _).
      destruct (grav_forces n b e N S' i Hi (HA' i Hi)) as (_ & _ & -> & _).
      apply others_ext. intros j Hj _. unfold gp_a, gp_inv, pair_dr. destruct (HE i Hi) as (_ & _ & ->), (HE j Hj) as (-> & _ & ->). reflexivity. }
    destruct c; try apply G.
    set (T := fun S => upd N (pair_loop (grav_pair n b small_number_dp) N (Zero N S)) (Zero N S)).
    assert (D : forall S, s_a (Direct6 n b N (Zero N S) i) = s_a (T S i)).
    { intros S0. unfold Direct6. fold (T S0). rewrite upd_in by assumption. destruct (s_active (T S0 i)) eqn:E; [|reflexivity].
      unfold pair_loop. cbn [set_a23 s_active]. rewrite E.
      destruct (loop_a2 n N (T S0) i (set_a23 (T S0 i) (fun _ => 0) (s_a3dot (T S0 i)))) as (a2 & -> & _). reflexivity. }
    rewrite !D. apply G.
Qed.
End rev.
