(** Forces between stars: gradients, time derivatives, conservation. *)
From Verif Require Import Prelude Vec M_Box M_Periodic L_Box L_Periodic S_Periodic M_Hermite S_Hermite L_Hermite L_Hermite2 S_Kernel.
From Coq Require Import Reals.
From Coquelicot Require Import Coquelicot.
Local Open Scope R_scope.

(** ** Zeroed stars *)
Lemma zero_kin : forall N S i, same_kin (S i) (Zero N S i) /\ s_active (Zero N S i) = s_active (S i).
Proof.
  intros. unfold Zero, upd, zero_star, same_kin. destruct (i <? N)%nat; [|repeat split].
  destruct (s_active (S i)) eqn:E; cbn; rewrite ?E; repeat split.
Qed.
Lemma zero_force : forall N S i k, (i < N)%nat -> s_active (S i) = true ->
  s_gpot (Zero N S i) = 0 /\ s_a (Zero N S i) k = 0 /\ s_adot (Zero N S i) k = 0.
Proof.
  intros N S i k Hi Ha. unfold Zero, upd, zero_star. rewrite (proj2 (Nat.ltb_lt i N) Hi), Ha. cbn. repeat split.
Qed.

(** Results of the loops for an active star, in terms of the stars before the zeroing. *)
Definition forces_are (P : star -> star -> R) (A J : star -> star -> nat -> R) (N : nat) (S : stars) (i : nat) (q : star) : Prop :=
  same_kin (S i) q /\ s_gpot q = others N i (fun j => P (S i) (S j)) /\
  (forall k, s_a q k = others N i (fun j => A (S i) (S j) k)) /\
  (forall k, s_adot q k = others N i (fun j => J (S i) (S j) k)).
(** Contributions depend on mass, smoothing length, position and velocity. *)
Definition kin_fun {T} (F : star -> star -> T) : Prop :=
  forall p p' q q', same_kin p p' -> same_kin q q' -> F p' q' = F p q.
Lemma added_forces : forall P A J N S i q, kin_fun P -> kin_fun A -> kin_fun J ->
  (i < N)%nat -> s_active (S i) = true -> added P A J N (Zero N S) i (Zero N S i) q -> forces_are P A J N S i q.
Proof.
  intros P A J N S i q HP HA HJ Hi Ha (g & a & ad & E & Hg & H1 & H2). subst q.
  pose proof (zero_kin N S i) as (Ki & _).
  split; [destruct Ki as (? & ? & ? & ?); repeat split; assumption|].
  cbn [set_force s_gpot s_a s_adot].
  destruct (zero_force N S i 0%nat Hi Ha) as (Z0 & _ & _). rewrite Hg, Z0.
  split; [rewrite Rplus_0_l; apply others_ext; intros; apply HP; [exact Ki|apply zero_kin]|].
  split; intros k; destruct (zero_force N S i k Hi Ha) as (_ & Z1 & Z2).
  - rewrite H1, Z1, Rplus_0_l. apply others_ext. intros. rewrite (HA (S i) (Zero N S i) (S j) (Zero N S j) Ki); [reflexivity|apply zero_kin].
  - rewrite H2, Z2, Rplus_0_l. apply others_ext. intros. rewrite (HJ (S i) (Zero N S i) (S j) (Zero N S j) Ki); [reflexivity|apply zero_kin].
Qed.
Lemma pair_dr_kin : forall n b, kin_fun (pair_dr n b).
Proof. intros n b p p' q q' (_ & _ & E1 & _) (_ & _ & E2 & _). unfold pair_dr. now rewrite E1, E2. Qed.
Lemma pair_dv_kin : kin_fun pair_dv.
Proof. intros p p' q q' (_ & _ & _ & E1) (_ & _ & _ & E2). unfold pair_dv. now rewrite E1, E2. Qed.
Lemma gp_inv_kin : forall n b e, kin_fun (gp_inv n b e).
Proof. intros n b e p p' q q' H1 H2. unfold gp_inv. now rewrite (pair_dr_kin n b _ _ _ _ H1 H2). Qed.
Lemma gp_pot_kin : forall n b e, kin_fun (gp_pot n b e).
Proof. intros n b e p p' q q' H1 H2. unfold gp_pot. rewrite (gp_inv_kin n b e _ _ _ _ H1 H2). destruct H2 as (E & _). now rewrite E. Qed.
Lemma gp_a_kin : forall n b e, kin_fun (gp_a n b e).
Proof.
  intros n b e p p' q q' H1 H2. unfold gp_a. rewrite (gp_inv_kin n b e _ _ _ _ H1 H2), (pair_dr_kin n b _ _ _ _ H1 H2).
  destruct H2 as (E & _). now rewrite E.
Qed.
Lemma gp_adot_kin : forall n b e, kin_fun (gp_adot n b e).
Proof.
  intros n b e p p' q q' H1 H2. unfold gp_adot.
  rewrite (gp_inv_kin n b e _ _ _ _ H1 H2), (pair_dr_kin n b _ _ _ _ H1 H2), (pair_dv_kin _ _ _ _ H1 H2).
  destruct H2 as (E & _). now rewrite E.
Qed.
Lemma sp_mag_kin : forall n b e, kin_fun (sp_mag n b e).
Proof. intros n b e p p' q q' H1 H2. unfold sp_mag. now rewrite (pair_dr_kin n b _ _ _ _ H1 H2). Qed.
Lemma sp_ih_kin : kin_fun sp_ih.
Proof. intros p p' q q' (_ & E1 & _) (_ & E2 & _). unfold sp_ih. now rewrite E1, E2. Qed.
Lemma sp_pot_kin : forall n b K e, kin_fun (sp_pot n b K e).
Proof.
  intros n b K e p p' q q' H1 H2. unfold sp_pot. rewrite (sp_mag_kin n b e _ _ _ _ H1 H2), (sp_ih_kin _ _ _ _ H1 H2).
  destruct H2 as (E & _). now rewrite E.
Qed.
Lemma sp_paux_kin : forall n b K e, kin_fun (sp_paux n b K e).
Proof.
  intros n b K e p p' q q' H1 H2. unfold sp_paux. rewrite (sp_mag_kin n b e _ _ _ _ H1 H2), (sp_ih_kin _ _ _ _ H1 H2).
  destruct H2 as (E & _). now rewrite E.
Qed.
Lemma sp_a_kin : forall n b K e, kin_fun (sp_a n b K e).
Proof.
  intros n b K e p p' q q' H1 H2. unfold sp_a. now rewrite (sp_paux_kin n b K e _ _ _ _ H1 H2), (pair_dr_kin n b _ _ _ _ H1 H2).
Qed.
Lemma sp_adot_kin : forall n b K e, kin_fun (sp_adot n b K e).
Proof.
  intros n b K e p p' q q' H1 H2. unfold sp_adot, sp_drdt.
  rewrite (sp_paux_kin n b K e _ _ _ _ H1 H2), (pair_dr_kin n b _ _ _ _ H1 H2), (pair_dv_kin _ _ _ _ H1 H2),
    (sp_mag_kin n b e _ _ _ _ H1 H2), (sp_ih_kin _ _ _ _ H1 H2).
  destruct H2 as (E & _). now rewrite E.
Qed.

Lemma grav_forces : forall n b e N S i, (i < N)%nat -> s_active (S i) = true ->
  forces_are (gp_pot n b e) (gp_a n b e) (gp_adot n b e) N S i
    (upd N (pair_loop (grav_pair n b e) N (Zero N S)) (Zero N S) i).
Proof.
  intros. apply added_forces; auto using gp_pot_kin, gp_a_kin, gp_adot_kin.
  unfold upd. rewrite (proj2 (Nat.ltb_lt i N) H). apply pair_loop_grav.
  now rewrite (proj2 (zero_kin N S i)).
Qed.
Lemma smooth_forces : forall n b K e N S i, (i < N)%nat -> s_active (S i) = true ->
  forces_are (sp_pot n b K e) (sp_a n b K e) (sp_adot n b K e) N S i (DirectSmoothed n b K e N (Zero N S) i).
Proof.
  intros. apply added_forces; auto using sp_pot_kin, sp_a_kin, sp_adot_kin.
  unfold DirectSmoothed, upd. rewrite (proj2 (Nat.ltb_lt i N) H). apply pair_loop_smooth.
  now rewrite (proj2 (zero_kin N S i)).
Qed.

(** ** The contributions without periodic boundaries *)
Section open.
Variables (n : nat) (b : dombox).
Hypothesis Hb : no_wrap n b.
Lemma open_dot : forall pi pj, dot n (pair_dr n b pi pj) (pair_dr n b pi pj) = dot n (vsub (s_r pj) (s_r pi)) (vsub (s_r pj) (s_r pi)).
Proof. intros. apply dot_ext; intros; now rewrite pair_dr_open. Qed.
Lemma open_dot_v : forall w pi pj, dot n w (pair_dr n b pi pj) = dot n w (vsub (s_r pj) (s_r pi)).
Proof. intros. apply dot_ext; intros; [reflexivity|now rewrite pair_dr_open]. Qed.
Lemma open_inv : forall e pi pj, gp_inv n b e pi pj = / separation n e (s_r pj) (s_r pi).
Proof. intros. unfold gp_inv, separation. rewrite open_dot. unfold Rdiv. ring. Qed.
Lemma open_mag : forall pi pj, sp_mag n b 0 pi pj = separation n 0 (s_r pj) (s_r pi).
Proof. intros. unfold sp_mag, separation. rewrite open_dot, !Rplus_0_r. reflexivity. Qed.
End open.

Lemma sep_ext : forall n e x y x' y', (forall k, (k < n)%nat -> x k = x' k) -> (forall k, (k < n)%nat -> y k = y' k) ->
  separation n e x y = separation n e x' y'.
Proof.
  intros. unfold separation. f_equal. f_equal. apply dot_ext; intros; unfold vsub; rewrite H, H0; auto.
Qed.
Lemma sep_sym : forall n e x y, separation n e x y = separation n e y x.
Proof. intros. unfold separation. f_equal. f_equal. apply sumf_ext. intros. unfold vsub. ring. Qed.

(** ** Gradients *)
(** Rate of change of the separation when component k of the second point moves. *)
Lemma der_sep_comp : forall n e x y k, (k < n)%nat -> 0 < separation n e x y ->
  is_derive (fun u => separation n e x (with_comp y k u)) (y k) (- (x k - y k) / separation n e x y).
Proof.
  intros n e x y k Hk Hs.
  assert (E : separation n e x (with_comp y k (y k)) = separation n e x y).
  { apply sep_ext; [reflexivity|]. intros l _. unfold with_comp. destruct (Nat.eqb_spec l k); congruence. }
  pose proof (der_rr n e (fun _ => x) (fun u => with_comp y k u) (fun _ _ => 0) (fun _ l => if Nat.eqb l k then 1 else 0)) as H.
  eapply der_val.
  - apply H.
    + intros u l. apply (is_derive_const (x l) u).
    + intros u l. unfold with_comp. destruct (l =? k)%nat; [apply (is_derive_id u)|apply (is_derive_const (y l) u)].
    + unfold rr. now rewrite E.
  - unfold rr. rewrite E. eqR. f_equal. unfold PP, dot, rel, vsub.
    rewrite (sumf_ext n _ (fun l => if Nat.eqb l k then - (x k - y k) else 0)).
    + clear -Hk. induction n; [lia|]. cbn [sumf]. destruct (Nat.eqb_spec n k).
      * subst. rewrite (sumf_ext k _ (fun _ => 0)); [rewrite sumf_zero; lra|].
        intros j Hj. destruct (Nat.eqb_spec j k); [lia|reflexivity].
      * rewrite IHn; [lra|lia].
    + intros l _. unfold with_comp. destruct (Nat.eqb_spec l k); [subst; ring|ring].
Qed.

Lemma newton_gradient : forall n N e m X i k, (k < n)%nat ->
  (forall j, (j < N)%nat -> j <> i -> 0 < separation n e (X j) (X i)) ->
  is_derive (fun u => newton_pot n N e m X i (with_comp (X i) k u)) (X i k) (newton_acc n N e m X i k).
Proof.
  intros n N e m X i k Hk Hs. unfold newton_pot, newton_acc.
  apply (der_others N i (fun j u => m j / separation n e (X j) (with_comp (X i) k u))).
  intros j Hj Hne. pose proof (der_sep_comp n e (X j) (X i) k Hk (Hs j Hj Hne)) as D.
  assert (E : separation n e (X j) (with_comp (X i) k (X i k)) = separation n e (X j) (X i)).
  { apply sep_ext; [reflexivity|]. intros l _. unfold with_comp. destruct (Nat.eqb_spec l k); congruence. }
  specialize (Hs j Hj Hne).
  set (f := fun u => separation n e (X j) (with_comp (X i) k u)) in *.
  change (is_derive (fun u => m j / f u) (X i k) (m j * (X j k - X i k) / separation n e (X j) (X i) ^ 3)).
  auto_derive; [split; [eexists; exact D|split; [unfold f; rewrite E; lra|exact I]]|].
  rewrite (is_derive_unique _ _ _ D : Derive (fun x : R => f x) _ = _). unfold f. rewrite E. field. lra.
Qed.
Lemma soft_gradient : forall n N range grav pot zeta m h X i k, gravity_kernel range grav pot zeta -> (k < n)%nat ->
  (forall j, (j < N)%nat -> j <> i -> 0 < separation n 0 (X j) (X i)) ->
  is_derive (fun u => soft_pot n N pot m h X i (with_comp (X i) k u)) (X i k) (soft_acc n N grav m h X i k).
Proof.
  intros n N range grav pot zeta m h X i k G Hk Hs. unfold soft_pot, soft_acc.
  apply (der_others N i (fun j u => m j * pot (separation n 0 (X j) (with_comp (X i) k u) / hmean h i j) / hmean h i j)).
  intros j Hj Hne. pose proof (der_sep_comp n 0 (X j) (X i) k Hk (Hs j Hj Hne)) as D.
  assert (E : separation n 0 (X j) (with_comp (X i) k (X i k)) = separation n 0 (X j) (X i)).
  { apply sep_ext; [reflexivity|]. intros l _. unfold with_comp. destruct (Nat.eqb_spec l k); congruence. }
  specialize (Hs j Hj Hne).
  set (f := fun u => separation n 0 (X j) (with_comp (X i) k u)) in *.
  set (H := hmean h i j).
  pose proof (gk_force _ _ _ _ G (f (X i k) * / H)) as DP.
  change (is_derive (fun u => m j * pot (f u / H) / H) (X i k)
    (m j * grav (separation n 0 (X j) (X i) / H) / H ^ 2 * ((X j k - X i k) / separation n 0 (X j) (X i)))).
  auto_derive; [split; [eexists; exact DP|split; [eexists; exact D|exact I]]|].
  rewrite (is_derive_unique _ _ _ D : Derive (fun x : R => f x) _ = _).
  rewrite (is_derive_unique _ _ _ DP : Derive (fun x : R => pot x) _ = _).
  unfold f. rewrite E. unfold Rdiv. simpl. rewrite Rinv_mult, Rmult_1_r. ring.
Qed.
