(** Wrong derivatives: three stars in the sixth-order scheme, softened stars in two dimensions;
    a converged step. *)
From Verif Require Import Prelude Vec M_Box M_Periodic L_Box L_Periodic S_Periodic M_Hermite S_Hermite M_Kernel S_Kernel L_Kernel L_Hermite L_Hermite3 L_Hermite4 L_Hermite5 L_Hermite6 L_Hermite7 L_Hermite9 L_Hermite10 L_Hermite11 L_Hermite12 L_Hermite13.
From Coq Require Import Reals FunctionalExtensionality.
From Coquelicot Require Import Coquelicot.
Local Open Scope R_scope.

(** ** Three stars *)
Lemma six_three : forall b, no_wrap 1 b -> exists (S : stars) (X V A : nat -> R -> vec), all_active 3 S /\ velocity_of X V /\ velocity_of V A /\
  at_time 3 S X V 0 /\ (forall j k, (j < 3)%nat -> A j 0 k = newton_acc 1 3 small_number_dp (fun j => s_m (S j)) (fun j => X j 0) j k) /\
  ~ is_derive_n (fun t => newton_acc 1 3 small_number_dp (fun j => s_m (S j)) (fun j => X j t) 0%nat 0%nat) 2 0
    (s_a2dot (Direct6 1 b 3 (Zero 3 S) 0%nat) 0%nat).
Proof.
  intros b Hb.
  assert (HE : exists S, sym3 1 0 S /\ forall j k, (j < 3)%nat -> s_v (S j) k = 0).
  { exists (upd 3 (fun _ p => init_star 0 p) three). split; [exact symI|]. intros j k Hj. rewrite upd_in by assumption. reflexivity. }
  destruct HE as (S & HS & HV0).
  set (ac := fun j k => newton_acc 1 3 small_number_dp (fun j => s_m (S j)) (fun j => s_r (S j)) j k).
  set (X := fun (j : nat) (t : R) (k : nat) => s_r (S j) k + 1 / 2 * ac j k * t ^ 2).
  set (V := fun (j : nat) (t : R) (k : nat) => ac j k * t).
  set (A := fun (j : nat) (t : R) (k : nat) => ac j k).
  assert (HA : all_active 3 S) by apply HS.
  assert (HX : velocity_of X V).
  { intros j k t. unfold X, V. generalize (ac j k) (s_r (S j) k). intros a r. auto_derive; [exact I|]. field. }
  assert (HV : velocity_of V A).
  { intros j k t. unfold V, A. generalize (ac j k). intros a. auto_derive; [exact I|]. ring. }
  assert (H0 : at_time 3 S X V 0).
  { intros j k Hj. unfold X, V. split; [ring|]. rewrite HV0 by assumption. ring. }
  assert (HC : forall j k, (j < 3)%nat -> A j 0 k = newton_acc 1 3 small_number_dp (fun j => s_m (S j)) (fun j => X j 0) j k).
  { intros j k Hj. unfold A, ac. now apply (newton_acc_at 1 3 S X V 0 H0). }
  exists S, X, V, A. split; [exact HA|]. split; [exact HX|]. split; [exact HV|]. split; [exact H0|]. split; [exact HC|]. intros D.
  set (T := pass1 1 b 3 S).
  assert (KT : forall j, (j < 3)%nat -> same_kin (S j) (T j)) by (intros j Hj; apply (pass1_is 1 b 3 S j Hj (HA j Hj))).
  assert (AT : at_time 3 T X V 0).
  { intros j l Hj. destruct (KT j Hj) as (_ & _ & -> & ->). now apply H0. }
  assert (A1 : forall j l, (j < 3)%nat -> s_a (T j) l = A j 0 l).
  { intros j l Hj. destruct (pass1_is 1 b 3 S j Hj (HA j Hj)) as (_ & _ & E & _). fold T in E. rewrite E.
    now rewrite (newton_acc_is 1 b 3 S Hb small_number_dp j l Hj). }
  pose proof (second_derivative 1 b 3 T X V A 0 Hb HX HV AT A1 0 0 ltac:(lia)) as D'.
  assert (D'' : is_derive_n (fun t => newton_acc 1 3 small_number_dp (fun j => s_m (S j)) (fun j => X j t) 0%nat 0%nat) 2 0
    (others 3 0 (fun j => st_2 1 b (T 0%nat) (T j) 0%nat))).
  { apply (is_derive_n_ext (fun t => newton_acc 1 3 small_number_dp (fun j => s_m (T j)) (fun j => X j t) 0%nat 0%nat)); [|exact D'].
    intros t. apply others_ext. intros j Hj _. destruct (KT j Hj) as (-> & _). reflexivity. }
  destruct (three_forces b Hb 1 0 S HS) as ((a0 & a1 & a2) & _). fold T in a0, a1, a2.
  pose proof HS as [_ HM (r0 & r1 & r2) (v0 & v1 & v2)].
  destruct (KT 0%nat ltac:(lia)) as (m0 & _ & R0 & V0). destruct (KT 1%nat ltac:(lia)) as (m1 & _ & R1 & V1). destruct (KT 2%nat ltac:(lia)) as (m2 & _ & R2 & V2).
  rewrite (HM 0%nat) in m0 by lia. rewrite (HM 1%nat) in m1 by lia. rewrite (HM 2%nat) in m2 by lia.
  assert (E : others 3 0 (fun j => st_2 1 b (T 0%nat) (T j) 0%nat) = 0).
  { unfold others. cbn [sumf Nat.eqb]. rewrite <- !a2_c_open by exact Hb.
    rewrite (a2_1 (T 0%nat) (T 1%nat) (- (1)) (- - gg 1) (- 0)), (a2_1 (T 0%nat) (T 2%nat) 1 (- gg 1) 0)
      by (assumption || (rewrite ?R0, ?R1, ?R2, ?V0, ?V1, ?V2, ?r0, ?r1, ?r2, ?v0, ?v1, ?v2, ?a0, ?a1, ?a2; ring)).
    rewrite aa_odd. ring. }
  destruct (three_F b Hb 1 0 S HS) as (_ & _ & (Z & _)). unfold Forces in Z. rewrite Z in D.
  apply is_derive_n_unique in D. apply is_derive_n_unique in D''. rewrite D'' in D. rewrite E in D.
  pose proof (aa_pos 1 (gg 1) 0 ltac:(lra) ltac:(apply gg_pos; lra)). lra.
Qed.

(** ** Two softened stars in a plane *)
Definition kern2 : skern := mkSK (m4_w0 2) m4_wgrav m4_wpot.
Definition moving_star (x v : vec) : star :=
  mkStar 1 1 x v (fun _ => 0) (fun _ => 0) (fun _ => 0) (fun _ => 0) 0
    (fun _ => 0) (fun _ => 0) (fun _ => 0) (fun _ => 0) (fun _ => 0) true false 0 0 0 0 0 1.
Lemma soft_plane : forall b, no_wrap 2 b -> exists (S : stars) (X V : nat -> R -> vec), all_active 2 S /\ velocity_of X V /\ at_time 2 S X V 0 /\
  (forall j, (j < 2)%nat -> 0 < s_h (S j)) /\ 0 < separation 2 0 (s_r (S 1%nat)) (s_r (S 0%nat)) /\
  ~ is_derive (fun t => soft_acc 2 2 m4_wgrav (fun j => s_m (S j)) (fun j => s_h (S j)) (fun j => X j t) 0%nat 0%nat) 0
      (s_adot (DirectSmoothed 2 b kern2 0 2 (Zero 2 S) 0%nat) 0%nat).
Proof.
  intros b Hb. set (o := fun j k => match j, k with 1%nat, 0%nat => 1 | _, _ => 0 end : R).
  set (S := fun j => moving_star (o j) (o j)).
  set (X := fun (j : nat) (t : R) (k : nat) => o j k + o j k * t). set (V := fun (j : nat) (t : R) => o j).
  assert (HX : velocity_of X V).
  { intros j k t. unfold X, V. generalize (o j k). intros a. auto_derive; [exact I|]. ring. }
  assert (H0 : at_time 2 S X V 0) by (intros j k Hj; unfold X, V; cbn; split; ring).
  assert (HS : separation 2 0 (s_r (S 1%nat)) (s_r (S 0%nat)) = 1).
  { unfold separation, dot, vsub. cbn. replace (0 + (1 - 0) * (1 - 0) + (0 - 0) * (0 - 0) + 0) with 1 by ring. apply sqrt_1. }
  exists S, X, V. split; [intros j Hj; reflexivity|]. split; [exact HX|]. split; [exact H0|].
  split; [intros; cbn; lra|]. split; [rewrite HS; lra|]. intros D.
  assert (Hs : forall j, (j < 2)%nat -> j <> 0%nat -> 0 < separation 2 0 (s_r (S j)) (s_r (S 0%nat))).
  { intros j Hj Hne. assert (j = 1)%nat as -> by lia. rewrite HS. lra. }
  pose proof (soft_jerk_true 2 b 2 S X V 0 Hb HX H0 (m4_w0 3) m4_wgrav 0%nat 0%nat m4_gauss ltac:(lia) ltac:(intros; cbn; lra) Hs) as D'.
  apply is_derive_unique in D. apply is_derive_unique in D'. rewrite D' in D. clear D'.
  destruct (smooth_forces 2 b kern2 0 2 S 0 ltac:(lia) eq_refl) as (_ & _ & _ & E). rewrite E in D. clear E.
  unfold others in D. cbn [sumf Nat.eqb] in D. cbv zeta in D.
  unfold sp_adot, sp_paux, sp_drdt, sp_ih, hmean in D. rewrite open_mag in D by exact Hb. rewrite HS in D.
  rewrite !open_dot_v, !pair_dr_open in D by exact Hb.
  change (s_m (S 1%nat)) with 1 in D. change (s_h (S 0%nat)) with 1 in D. change (s_h (S 1%nat)) with 1 in D.
  unfold dot, pair_dv, vsub in D. cbn [sumf S moving_star s_r s_v o] in D. cbn [kern2 k_w0 k_wgrav] in D.
  replace (1 / ((1 + 1) / 2)) with 1 in D by field. replace (1 * (2 / (1 + 1))) with 1 in D by field.
  assert (W : forall d, m4_w0 d 1 = 1 / 4 * m4_kernnorm d).
  { intros d. unfold m4_w0. rewrite (proj2 (rltb_false 1 1)) by lra. rewrite (proj2 (rltb_true 1 2)) by lra. ring. }
  rewrite !W in D. cbn [m4_kernnorm] in D. unfold invpi in D. pose proof PI_RGT_0. set (g := m4_wgrav 1) in D.
  assert (Z : 3 / 7 = 0); [|lra].
  match type of D with ?l = ?r => replace (3 / 7) with (r - l) by (field; lra) end. lra.
Qed.

(** ** A pair that turns round within a step *)
Section pair.
Variable b : dombox.
Hypothesis Hb : no_wrap 1 b.
Notation F S := (Forces 1 b None Hermite4TS 2 (Zero 2 S)).
Definition co (x : R) : vec := fun _ => x.
Definition pair_at (w : R) (S : stars) : Prop := forall i, (i < 2)%nat -> s_m (S i) = 1 /\
  s_r (S i) = co (if Nat.eqb i 0 then - (1/2) else 1/2) /\ s_v (S i) = co (if Nat.eqb i 0 then - w else w).
Lemma pair_F : forall w S, all_active 2 S -> pair_at w S -> forall i k, (i < 2)%nat ->
  s_a (F S i) k = (if Nat.eqb i 0 then 1 else - (1)) /\ s_adot (F S i) k = (if Nat.eqb i 0 then - (4 * w) else 4 * w).
Proof.
  intros w S HA HP i k Hi. unfold Forces, DirectGrav. destruct (grav_forces 1 b 0 2 S i Hi (HA i Hi)) as (_ & _ & -> & ->).
  destruct (HP 0%nat ltac:(lia)) as (m0 & r0 & v0). destruct (HP 1%nat ltac:(lia)) as (m1 & r1 & v1). cbn [Nat.eqb] in *.
  assert (I01 : gp_inv 1 b 0 (S 0%nat) (S 1%nat) = 1).
  { unfold gp_inv. rewrite dot1, pair_dr_open by exact Hb. rewrite r0, r1. unfold co. replace ((1/2 - - (1/2)) * (1/2 - - (1/2)) + 0) with 1 by field. rewrite sqrt_1. field. }
  assert (I10 : gp_inv 1 b 0 (S 1%nat) (S 0%nat) = 1).
  { unfold gp_inv. rewrite dot1, pair_dr_open by exact Hb. rewrite r0, r1. unfold co. replace ((- (1/2) - 1/2) * (- (1/2) - 1/2) + 0) with 1 by field. rewrite sqrt_1. field. }
  destruct i as [|[|i]]; [| |lia]; unfold others; cbn [sumf Nat.eqb]; unfold gp_a, gp_adot; rewrite ?I01, ?I10, !dot1, !pair_dr_open by exact Hb;
    unfold pair_dv, vsub; rewrite r0, r1, v0, v1, ?m0, ?m1; unfold co; split; field.
Qed.
Definition pair_star (i : nat) : star :=
  let g := if Nat.eqb i 0 then 1 else - (1) in
  fresh (moving_star (co 0) (co 0)) (co (- g / 2)) (co (- (3/8) * g)) (co g) (co (- (3/2) * g)) (co 0) 0 1.
Definition pair_sim : sim := mkSim pair_star 0 0 1.
Definition pair_end : stars := fun i => set_active (set_rv (pair_star i) (s_r (pair_star i)) (fun k => - s_v (pair_star i) k)) true.
Lemma pair_started : started Hermite4TS 2 pair_sim.
Proof. split; [reflexivity|]. intros i Hi. cbn. repeat split. Qed.
Lemma pair_settled : settled 1 b None Hermite4TS 2 pair_sim.
Proof.
  intros S HA HS i k Hi.
  assert (HP : pair_at (3/8) S).
  { intros j Hj. destruct (HS j Hj) as (-> & _ & -> & ->). cbn [pair_sim m_S pair_star fresh s_m s_r s_v moving_star].
    destruct j as [|[|j]]; [| |lia]; cbn [Nat.eqb]; repeat split; unfold co; f_equal; extensionality l; field. }
  destruct (pair_F _ S HA HP i k Hi) as (-> & ->). cbn [pair_sim m_S pair_star fresh s_a s_adot]. unfold co.
  destruct i as [|[|i]]; [| |lia]; cbn [Nat.eqb]; (split; [reflexivity|split; [field|discriminate]]).
Qed.
Lemma pair_converged : converged 1 b None Hermite4TS 2 pair_sim pair_end.
Proof.
  assert (HI : inflight Hermite4TS 2 pair_sim pair_end).
  { intros i Hi. cbn. repeat split. }
  split; [exact HI|]. intros i k Hi. rewrite pec_star by (assumption || reflexivity).
  assert (HA : all_active 2 pair_end) by (intros j Hj; reflexivity).
  assert (HP : pair_at (- (3/8)) pair_end).
  { intros j Hj. cbn [pair_end set_active set_rv pair_star fresh s_m s_r s_v moving_star].
    destruct j as [|[|j]]; [| |lia]; cbn [Nat.eqb]; repeat split; unfold co; f_equal; extensionality l; field. }
  destruct (pair_F _ pair_end HA HP i k Hi) as (EA & EJ).
  destruct (force_inflight 1 b None Hermite4TS 2 pair_sim pair_end HI i Hi) as (_ & _ & H1 & H2 & H3 & H4 & _). cbv zeta in *.
  set (G := F pair_end i) in *. clearbody G.
  cbn [correct_rv set_rv set_a23 s_r s_v s_a s_adot s_r0 s_v0 s_a0 s_adot0]. rewrite EA, EJ, H1, H2, H3, H4.
  cbn [pair_sim m_S m_dt pair_end set_active set_rv pair_star fresh s_r s_v s_a s_adot]. unfold co.
  destruct i as [|[|i]]; [| |lia]; cbn [Nat.eqb]; split; field.
Qed.
End pair.
