(** C71: forces between stars and their time derivatives. *)
From Verif Require Import Prelude Vec M_Box M_Periodic L_Box L_Periodic S_Periodic M_Hermite S_Hermite M_Kernel S_Kernel L_Kernel L_Hermite L_Hermite3 L_Hermite4 L_Hermite5 L_Hermite6 L_Hermite9 L_Hermite11 L_Hermite14.
From Coq Require Import Reals.
From Coquelicot Require Import Coquelicot.
Local Open Scope R_scope.

(** What is added to squared separations: nothing, or the smallest double precision length. *)
Definition added_to (c : scheme) : R := match c with Hermite6TS => small_number_dp | _ => 0 end.
Lemma newton_forces : forall n b c N S i, all_active N S -> (i < N)%nat ->
  forces_are (gp_pot n b (added_to c)) (gp_a n b (added_to c)) (gp_adot n b (added_to c)) N S i (Forces n b None c N (Zero N S) i).
Proof.
  intros n b c N S i HA Hi. unfold Forces. destruct c; try now apply grav_forces; auto.
  destruct (direct6_is n b N S i Hi (HA i Hi)) as (a2 & -> & _). destruct (pass1_is n b N S i Hi (HA i Hi)) as ((E1 & E2 & E3 & E4) & E5 & E6 & E7).
  split; [|split; [exact E5|split; assumption]]. repeat split; assumption.
Qed.

(** ** Point masses *)
Theorem C71_newton : forall n b c N S i, no_wrap n b -> all_active N S -> (i < N)%nat ->
  let e := added_to c in let m := fun j => s_m (S j) in let X := fun j => s_r (S j) in
  let q := Forces n b None c N (Zero N S) i in
  s_gpot q = newton_pot n N e m X i (X i) /\ (forall k, s_a q k = newton_acc n N e m X i k) /\
  ((forall j, (j < N)%nat -> j <> i -> 0 < separation n e (X j) (X i)) -> forall k, (k < n)%nat ->
     is_derive (fun x => newton_pot n N e m X i (with_comp (X i) k x)) (X i k) (s_a q k)).
Proof.
  intros n b c N S i Hb HA Hi. cbv zeta. destruct (newton_forces n b c N S i HA Hi) as (_ & EP & EA & _).
  split; [rewrite EP; now apply newton_pot_is|]. split; [intros k; rewrite EA; now apply newton_acc_is|].
  intros Hs k Hk. rewrite EA, newton_acc_is by assumption. now apply (newton_gradient n N (added_to c) (fun j => s_m (S j)) (fun j => s_r (S j))).
Qed.
Print Assumptions C71_newton.
Theorem C71_jerk : forall n b c N S (X V : nat -> R -> vec) t0 i k, no_wrap n b -> all_active N S -> velocity_of X V -> at_time N S X V t0 -> (i < N)%nat ->
  (forall j, (j < N)%nat -> j <> i -> 0 < separation n (added_to c) (X j t0) (X i t0)) ->
  is_derive (fun t => newton_acc n N (added_to c) (fun j => s_m (S j)) (fun j => X j t) i k) t0 (s_adot (Forces n b None c N (Zero N S) i) k).
Proof.
  intros n b c N S X V t0 i k Hb HA HX H0 Hi Hs. destruct (newton_forces n b c N S i HA Hi) as (_ & _ & _ & ->).
  apply (newton_jerk n b N S X V); auto. intros j Hj Hne. rewrite (sep_ext n (added_to c) _ _ (X j t0) (X i t0)); auto; intros l _; now apply H0.
Qed.
Print Assumptions C71_jerk.

(** ** Softened stars (the Hermite schemes) *)
Theorem C71_soft : forall n b c K range zeta N S i, c <> LeapKDK -> no_wrap n b -> all_active N S -> (forall j, (j < N)%nat -> 0 < s_h (S j)) -> (i < N)%nat ->
  gravity_kernel range (k_wgrav K) (k_wpot K) zeta ->
  let m := fun j => s_m (S j) in let h := fun j => s_h (S j) in let X := fun j => s_r (S j) in
  let q := Forces n b (Some K) c N (Zero N S) i in
  s_gpot q = soft_pot n N (k_wpot K) m h X i (X i) /\ (forall k, s_a q k = soft_acc n N (k_wgrav K) m h X i k) /\
  ((forall j, (j < N)%nat -> j <> i -> 0 < separation n 0 (X j) (X i)) -> forall k, (k < n)%nat ->
     is_derive (fun x => soft_pot n N (k_wpot K) m h X i (with_comp (X i) k x)) (X i k) (s_a q k)).
Proof.
  intros n b c K range zeta N S i Hc Hb HA Hh Hi G. cbv zeta. unfold Forces.
  assert (soft_e c = 0) as -> by (destruct c; [congruence| | |]; reflexivity).
  destruct (smooth_forces n b K 0 N S i Hi (HA i Hi)) as (_ & EP & EA & _).
  split; [rewrite EP; now apply soft_pot_is|]. split; [intros k; rewrite EA; now apply soft_acc_is|].
  intros Hs k Hk. rewrite EA, soft_acc_is by assumption.
  now apply (soft_gradient n N range (k_wgrav K) (k_wpot K) zeta (fun j => s_m (S j)) (fun j => s_h (S j)) (fun j => s_r (S j))).
Qed.
Print Assumptions C71_soft.
(** In three dimensions the stored jerk is the derivative of the softened force. *)
Theorem C71_soft_jerk : forall b c K N S (X V : nat -> R -> vec) t0 i k, c <> LeapKDK -> no_wrap 3 b -> all_active N S -> (forall j, (j < N)%nat -> 0 < s_h (S j)) ->
  gauss_law (k_w0 K) (k_wgrav K) -> velocity_of X V -> at_time N S X V t0 -> (i < N)%nat ->
  (forall j, (j < N)%nat -> j <> i -> 0 < separation 3 0 (X j t0) (X i t0)) ->
  is_derive (fun t => soft_acc 3 N (k_wgrav K) (fun j => s_m (S j)) (fun j => s_h (S j)) (fun j => X j t) i k) t0
    (s_adot (Forces 3 b (Some K) c N (Zero N S) i) k).
Proof.
  intros b c K N S X V t0 i k Hc Hb HA Hh G HX H0 Hi Hs. unfold Forces.
  assert (soft_e c = 0) as -> by (destruct c; [congruence| | |]; reflexivity).
  destruct (smooth_forces 3 b K 0 N S i Hi (HA i Hi)) as (_ & _ & _ & ->).
  apply (soft_jerk 3 b N S X V); auto. intros j Hj Hne. rewrite (sep_ext 3 0 _ _ (X j t0) (X i t0)); auto; intros l _; now apply H0.
Qed.
Print Assumptions C71_soft_jerk.
(** In two dimensions it is not: two stars in a plane, M4 kernel. *)
Theorem C71_soft_jerk_2d_refuted : forall b, no_wrap 2 b -> exists (S : stars) (X V : nat -> R -> vec), all_active 2 S /\ velocity_of X V /\ at_time 2 S X V 0 /\
  (forall j, (j < 2)%nat -> 0 < s_h (S j)) /\ 0 < separation 2 0 (s_r (S 1%nat)) (s_r (S 0%nat)) /\
  ~ is_derive (fun t => soft_acc 2 2 m4_wgrav (fun j => s_m (S j)) (fun j => s_h (S j)) (fun j => X j t) 0%nat 0%nat) 0
      (s_adot (Forces 2 b (Some kern2) Hermite4 2 (Zero 2 S) 0%nat) 0%nat).
Proof. exact soft_plane. Qed.
Print Assumptions C71_soft_jerk_2d_refuted.

(** ** Second and third derivatives *)
(** Once at the beginning: right for any number of stars. *)
Theorem C71_startup : forall n b N S (X V A J : nat -> R -> vec) t0 i k, no_wrap n b -> velocity_of X V -> velocity_of V A -> velocity_of A J ->
  at_time N S X V t0 -> (forall j l, (j < N)%nat -> s_a (S j) l = A j t0 l /\ s_adot (S j) l = J j t0 l) -> (i < N)%nat ->
  let acc := fun t => newton_acc n N small_number_dp (fun j => s_m (S j)) (fun j => X j t) i k in
  is_derive_n acc 2 t0 (s_a2dot (Startup n b N S i) k) /\ is_derive_n acc 3 t0 (s_a3dot (Startup n b N S i) k).
Proof.
  intros n b N S X V A J t0 i k Hb HX HV HA H0 H1 Hi. cbv zeta. destruct (startup_star n b N S i Hi) as (a2 & a3 & -> & E2 & E3).
  cbn [set_a23 s_a2dot s_a3dot]. rewrite E2, E3. split.
  - apply (second_derivative n b N S X V A t0); auto. intros j l Hj. now apply H1.
  - apply (third_derivative n b N S X V A J t0); auto; intros j l Hj; now apply H1.
Qed.
Print Assumptions C71_startup.
(** In every step of the sixth-order scheme: right for two stars, wrong for three. *)
Theorem C71_hermite6_two : forall n b S (X V A : nat -> R -> vec) t0 i k, no_wrap n b -> all_active 2 S -> velocity_of X V -> velocity_of V A -> at_time 2 S X V t0 ->
  (forall j k, (j < 2)%nat -> A j t0 k = newton_acc n 2 small_number_dp (fun j => s_m (S j)) (fun j => X j t0) j k) -> (i < 2)%nat ->
  is_derive_n (fun t => newton_acc n 2 small_number_dp (fun j => s_m (S j)) (fun j => X j t) i k) 2 t0
    (s_a2dot (Forces n b None Hermite6TS 2 (Zero 2 S) i) k).
Proof. exact six_two. Qed.
Print Assumptions C71_hermite6_two.
Theorem C71_hermite6_refuted : forall b, no_wrap 1 b -> exists (S : stars) (X V A : nat -> R -> vec), all_active 3 S /\ velocity_of X V /\ velocity_of V A /\
  at_time 3 S X V 0 /\ (forall j k, (j < 3)%nat -> A j 0 k = newton_acc 1 3 small_number_dp (fun j => s_m (S j)) (fun j => X j 0) j k) /\
  ~ is_derive_n (fun t => newton_acc 1 3 small_number_dp (fun j => s_m (S j)) (fun j => X j t) 0%nat 0%nat) 2 0
    (s_a2dot (Forces 1 b None Hermite6TS 3 (Zero 3 S) 0%nat) 0%nat).
Proof. exact six_three. Qed.
Print Assumptions C71_hermite6_refuted.

(** ** Totals *)
(** Forces and their derivatives add up to zero, in every box (periodic or not), softened or not. *)
Theorem C71_momentum : forall n b soft c N S k, (forall l, 0 <= dhalf b l) -> all_active N S ->
  let m := fun i => s_m (S i) in let Q := Forces n b soft c N (Zero N S) in
  total N m (fun i => s_a (Q i)) k = 0 /\ total N m (fun i => s_adot (Q i)) k = 0.
Proof.
  intros n b soft c N S k Hb HA. cbv zeta. destruct soft as [K|].
  - exact (forces_total _ _ _ N S (Forces n b (Some K) c N (Zero N S)) (fun i Hi => smooth_forces n b K (soft_e c) N S i Hi (HA i Hi)) (sp_a_odd n b Hb K _) (sp_adot_odd n b Hb K _) k).
  - exact (forces_total _ _ _ N S _ (fun i Hi => newton_forces n b c N S i HA Hi) (gp_a_odd n b Hb _) (gp_adot_odd n b Hb _) k).
Qed.
Print Assumptions C71_momentum.
Theorem C71_startup_momentum : forall n b N S k, (forall l, 0 <= dhalf b l) ->
  let m := fun i => s_m (S i) in let Q := Startup n b N S in
  total N m (fun i => s_a2dot (Q i)) k = 0 /\ total N m (fun i => s_a3dot (Q i)) k = 0.
Proof. intros n b N S k Hb. exact (startup_total n b N S Hb k). Qed.
(** Without periodic boundaries there is no net torque and the power of the forces is the rate at
    which the potential energy is used up. *)
Theorem C71_torque : forall n b soft c N S k l, (soft <> None -> c <> LeapKDK) -> no_wrap n b -> all_active N S -> (forall j, (j < N)%nat -> 0 < s_h (S j)) ->
  torque N (fun i => s_m (S i)) (fun i => s_r (S i)) (fun i => s_a (Forces n b soft c N (Zero N S) i)) k l = 0.
Proof.
  intros n b soft c N S k l Hc Hb HA Hh. destruct soft as [K|].
  - apply (torque_zero N _ _ _ (fun i j => k_wgrav K (separation n 0 (s_r (S j)) (s_r (S i)) / hmean (fun j => s_h (S j)) i j) / hmean (fun j => s_h (S j)) i j ^ 2 / separation n 0 (s_r (S j)) (s_r (S i)))).
    + intros i k' Hi. unfold Forces. assert (soft_e c = 0) as -> by (assert (c <> LeapKDK) by (apply Hc; discriminate); destruct c; [congruence| | |]; reflexivity).
      destruct (smooth_forces n b K 0 N S i Hi (HA i Hi)) as (_ & _ & -> & _). rewrite soft_acc_is by assumption.
      apply others_ext. intros j Hj Hne. unfold Rdiv. ring.
    + intros i j. rewrite sep_sym. unfold hmean. now rewrite (Rplus_comm (s_h (S i))).
  - apply (torque_zero N _ _ _ (fun i j => / separation n (added_to c) (s_r (S j)) (s_r (S i)) ^ 3)).
    + intros i k' Hi. destruct (newton_forces n b c N S i HA Hi) as (_ & _ & -> & _). rewrite newton_acc_is by assumption.
      apply others_ext. intros j Hj Hne. unfold Rdiv. ring.
    + intros i j. now rewrite sep_sym.
Qed.
Print Assumptions C71_torque.
Theorem C71_energy : forall n b c N S (X V : nat -> R -> vec) t0, no_wrap n b -> all_active N S -> velocity_of X V -> at_time N S X V t0 ->
  (forall i j, (i < N)%nat -> (j < N)%nat -> i <> j -> 0 < separation n (added_to c) (X j t0) (X i t0)) ->
  let m := fun j => s_m (S j) in
  is_derive (fun t => (1/2) * sumf N (fun i => m i * newton_pot n N (added_to c) m (fun j => X j t) i (X i t))) t0
    (sumf N (fun i => m i * dot n (s_v (S i)) (s_a (Forces n b None c N (Zero N S) i)))).
Proof.
  intros n b c N S X V t0 Hb HA HX H0 Hs. cbv beta zeta.
  replace (sumf N (fun i => s_m (S i) * dot n (s_v (S i)) (s_a (Forces n b None c N (Zero N S) i)))) with
    (sumf N (fun i => s_m (S i) * dot n (V i t0) (fun k => newton_acc n N (added_to c) (fun j => s_m (S j)) (fun j => X j t0) i k))).
  - now apply newton_power.
  - apply sumf_ext. intros i Hi. f_equal. apply dot_ext; intros k _.
    + symmetry. now apply H0.
    + destruct (newton_forces n b c N S i HA Hi) as (_ & _ & -> & _). rewrite newton_acc_is by assumption. symmetry. now apply (newton_acc_at n N S X V t0 H0).
Qed.
Theorem C71_soft_energy : forall n b c K range zeta N S (X V : nat -> R -> vec) t0, c <> LeapKDK -> no_wrap n b -> all_active N S -> (forall j, (j < N)%nat -> 0 < s_h (S j)) ->
  gravity_kernel range (k_wgrav K) (k_wpot K) zeta -> velocity_of X V -> at_time N S X V t0 ->
  (forall i j, (i < N)%nat -> (j < N)%nat -> i <> j -> 0 < separation n 0 (X j t0) (X i t0)) ->
  let m := fun j => s_m (S j) in let h := fun j => s_h (S j) in
  is_derive (fun t => (1/2) * sumf N (fun i => m i * soft_pot n N (k_wpot K) m h (fun j => X j t) i (X i t))) t0
    (sumf N (fun i => m i * dot n (s_v (S i)) (s_a (Forces n b (Some K) c N (Zero N S) i)))).
Proof.
  intros n b c K range zeta N S X V t0 Hc Hb HA Hh G HX H0 Hs. cbv beta zeta.
  replace (sumf N (fun i => s_m (S i) * dot n (s_v (S i)) (s_a (Forces n b (Some K) c N (Zero N S) i)))) with
    (sumf N (fun i => s_m (S i) * dot n (V i t0) (fun k => soft_acc n N (k_wgrav K) (fun j => s_m (S j)) (fun j => s_h (S j)) (fun j => X j t0) i k))).
  - now apply (soft_power n N range (k_wgrav K) (k_wpot K) zeta).
  - apply sumf_ext. intros i Hi. f_equal. apply dot_ext; intros k _.
    + symmetry. now apply H0.
    + destruct (C71_soft n b c K range zeta N S i Hc Hb HA Hh Hi G) as (_ & EA & _). rewrite EA. symmetry. now apply (soft_acc_at n N S X V t0 H0).
Qed.
Print Assumptions C71_energy.
Print Assumptions C71_soft_energy.

(** ** Cases *)
(** The M4 kernel meets what is asked of kernels. *)
Example C71_m4 : gravity_kernel m4_kernrange m4_wgrav m4_wpot m4_wzeta /\ gauss_law (m4_w0 3) m4_wgrav.
Proof. exact (conj m4_gravity m4_gauss). Qed.
(** Two stars of mass 1 at distance 1 attract each other with acceleration 1; the stars move apart. *)
Example C71_pair : forall b, no_wrap 1 b -> let S := fun i => set_active (pair_star i) true in
  all_active 2 S /\ (forall i j, (i < 2)%nat -> (j < 2)%nat -> i <> j -> 0 < separation 1 0 (s_r (S j)) (s_r (S i))) /\
  s_a (Forces 1 b None Hermite4TS 2 (Zero 2 S) 0%nat) 0%nat = 1 /\ s_adot (Forces 1 b None Hermite4TS 2 (Zero 2 S) 0%nat) 0%nat = - (3 / 2).
Proof.
  intros b Hb. cbv zeta. split; [intros i Hi; reflexivity|]. split.
  - intros i j Hi Hj Hne. unfold separation. apply sqrt_lt_R0. rewrite L_Hermite12.dot1. unfold vsub. cbn [set_active s_r pair_star L_Hermite9.fresh]. unfold co.
    destruct i as [|[|i]], j as [|[|j]]; try lia; cbn [Nat.eqb]; lra.
  - set (S := fun i => set_active (pair_star i) true).
    assert (HP : pair_at (3/8) S).
    { intros j Hj. cbn [S set_active pair_star L_Hermite9.fresh s_m s_r s_v moving_star]. unfold co.
      destruct j as [|[|j]]; [| |lia]; cbn [Nat.eqb]; repeat split; apply FunctionalExtensionality.functional_extensionality; intros; field. }
    destruct (pair_F b Hb (3/8) S (fun i Hi => eq_refl) HP 0%nat 0%nat ltac:(lia)) as (-> & ->). cbn [Nat.eqb]. split; field.
Qed.
