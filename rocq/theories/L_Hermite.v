(** The force loops compute sums over the other stars. *)
From Verif Require Import Prelude Vec M_Box M_Periodic L_Box L_Periodic M_Hermite S_Hermite.
From Coq Require Import Reals.
Local Open Scope R_scope.

(** ** One pair *)
Section pairs.
Variable ndim : nat.
Variable b : dombox.

(** Contributions of star j to star i. *)
Definition gp_inv (e : R) (pi pj : star) : R :=
  1 / sqrt (dot ndim (pair_dr ndim b pi pj) (pair_dr ndim b pi pj) + e).
Definition gp_pot (e : R) (pi pj : star) : R := s_m pj * gp_inv e pi pj.
Definition gp_a (e : R) (pi pj : star) (k : nat) : R :=
  s_m pj * pair_dr ndim b pi pj k * gp_inv e pi pj ^ 3.
Definition gp_adot (e : R) (pi pj : star) (k : nat) : R :=
  s_m pj * gp_inv e pi pj ^ 3 *
    (pair_dv pi pj k - 3 * (dot ndim (pair_dv pi pj) (pair_dr ndim b pi pj) * gp_inv e pi pj) *
                       gp_inv e pi pj * pair_dr ndim b pi pj k).

Definition sp_mag (e : R) (pi pj : star) : R :=
  sqrt (dot ndim (pair_dr ndim b pi pj) (pair_dr ndim b pi pj)) + e.
Definition sp_ih (pi pj : star) : R := 2 / (s_h pi + s_h pj).
Definition sp_pot (K : skern) (e : R) (pi pj : star) : R :=
  s_m pj * sp_ih pi pj * k_wpot K (sp_mag e pi pj * sp_ih pi pj).
Definition sp_paux (K : skern) (e : R) (pi pj : star) : R :=
  s_m pj * sp_ih pi pj * sp_ih pi pj * k_wgrav K (sp_mag e pi pj * sp_ih pi pj) * (1 / sp_mag e pi pj).
Definition sp_drdt (e : R) (pi pj : star) : R :=
  dot ndim (pair_dv pi pj) (pair_dr ndim b pi pj) * (1 / sp_mag e pi pj).
Definition sp_a (K : skern) (e : R) (pi pj : star) (k : nat) : R :=
  sp_paux K e pi pj * pair_dr ndim b pi pj k.
Definition sp_adot (K : skern) (e : R) (pi pj : star) (k : nat) : R :=
  sp_paux K e pi pj * pair_dv pi pj k -
  3 * sp_paux K e pi pj * sp_drdt e pi pj * (1 / sp_mag e pi pj) * pair_dr ndim b pi pj k +
  2 * (2 * PI) * s_m pj * sp_drdt e pi pj *
    (k_w0 K (sp_mag e pi pj * sp_ih pi pj) * sp_ih pi pj ^ ndim) * (1 / sp_mag e pi pj) * pair_dr ndim b pi pj k.

(** A star that agrees with [p] in all that is not force, potential or derivative of force. *)
Definition same_kin (p q : star) : Prop := s_m q = s_m p /\ s_h q = s_h p /\ s_r q = s_r p /\ s_v q = s_v p.
(** The result of adding contributions to potential, force and jerk. *)
Definition added (P : star -> star -> R) (A J : star -> star -> nat -> R) (N : nat) (S : stars) (i : nat)
  (p q : star) : Prop :=
  exists g a ad, q = set_force p g a ad /\
    g = s_gpot p + others N i (fun j => P p (S j)) /\
    (forall k, a k = s_a p k + others N i (fun j => A p (S j) k)) /\
    (forall k, ad k = s_adot p k + others N i (fun j => J p (S j) k)).

Lemma others_S : forall N i f, others (S N) i f = others N i f + (if Nat.eqb i N then 0 else f N).
Proof. reflexivity. Qed.
Lemma others_ext : forall N i f g, (forall j, (j < N)%nat -> j <> i -> f j = g j) -> others N i f = others N i g.
Proof.
  intros. apply sumf_ext. intros j Hj. destruct (Nat.eqb_spec i j); [reflexivity|]. apply H; auto.
Qed.
Lemma others_plus : forall N i f g, others N i (fun j => f j + g j) = others N i f + others N i g.
Proof. intros. unfold others. rewrite <- sumf_plus. apply sumf_ext. intros. destruct (i =? k)%nat; lra. Qed.
Lemma others_scal : forall N i c f, others N i (fun j => c * f j) = c * others N i f.
Proof. intros. unfold others. rewrite <- sumf_scal. apply sumf_ext. intros. destruct (i =? k)%nat; lra. Qed.

Lemma pair_loop_grav : forall e N S i p, s_active p = true ->
  added (gp_pot e) (gp_a e) (gp_adot e) N S i p (pair_loop (grav_pair ndim b e) N S i p).
Proof.
  intros e N S i p Ha. unfold pair_loop. rewrite Ha. induction N as [|N IH].
  - exists (s_gpot p), (s_a p), (s_adot p). split; [destruct p; reflexivity|].
    unfold others. simpl. repeat split; intros; lra.
  - rewrite loopk_S. destruct IH as (g & a & ad & E & Hg & HA & Hd). rewrite E.
    destruct (Nat.eqb_spec i N) as [-> |Hne].
    + exists g, a, ad. split; [reflexivity|]. rewrite !others_S, Nat.eqb_refl.
      split; [lra|]. split; intros k; [rewrite HA|rewrite Hd]; rewrite others_S, Nat.eqb_refl; lra.
    + eexists _, _, _. split; [reflexivity|]. rewrite !others_S, (proj2 (Nat.eqb_neq i N) Hne).
      cbn [set_force s_gpot s_a s_adot].
      split; [rewrite Hg; unfold gp_pot, gp_inv, pair_dr, set_force; cbn; lra|].
      split; intros k; [rewrite HA|rewrite Hd]; rewrite others_S, (proj2 (Nat.eqb_neq i N) Hne);
        unfold gp_a, gp_adot, gp_inv, pair_dr, pair_dv, set_force; cbn [s_r s_v]; lra.
Qed.
Lemma pair_loop_smooth : forall K e N S i p, s_active p = true ->
  added (sp_pot K e) (sp_a K e) (sp_adot K e) N S i p (pair_loop (smooth_pair ndim b K e) N S i p).
Proof.
  intros K e N S i p Ha. unfold pair_loop. rewrite Ha. induction N as [|N IH].
  - exists (s_gpot p), (s_a p), (s_adot p). split; [destruct p; reflexivity|].
    unfold others. simpl. repeat split; intros; lra.
  - rewrite loopk_S. destruct IH as (g & a & ad & E & Hg & HA & Hd). rewrite E.
    destruct (Nat.eqb_spec i N) as [-> |Hne].
    + exists g, a, ad. split; [reflexivity|]. rewrite !others_S, Nat.eqb_refl.
      split; [lra|]. split; intros k; [rewrite HA|rewrite Hd]; rewrite others_S, Nat.eqb_refl; lra.
    + eexists _, _, _. split; [reflexivity|]. rewrite !others_S, (proj2 (Nat.eqb_neq i N) Hne).
      cbn [set_force s_gpot s_a s_adot].
      split; [rewrite Hg; unfold sp_pot, sp_mag, sp_ih, pair_dr, set_force; cbn; lra|].
      split; intros k; [rewrite HA|rewrite Hd]; rewrite others_S, (proj2 (Nat.eqb_neq i N) Hne);
        unfold sp_a, sp_adot, sp_paux, sp_drdt, sp_mag, sp_ih, pair_dr, pair_dv, set_force; cbn [s_r s_v s_m s_h]; lra.
Qed.

(** ** Second and third derivatives *)
Definition st_inv2 (pi pj : star) : R :=
  1 / (dot ndim (pair_dr ndim b pi pj) (pair_dr ndim b pi pj) + small_number_dp).
Definition st_af (pi pj : star) : R := dot ndim (pair_dv pi pj) (pair_dr ndim b pi pj) * st_inv2 pi pj.
Definition st_bf (pi pj : star) : R :=
  dot ndim (pair_dv pi pj) (pair_dv pi pj) * st_inv2 pi pj + st_af pi pj * st_af pi pj +
  dot ndim (vsub (s_a pj) (s_a pi)) (pair_dr ndim b pi pj) * st_inv2 pi pj.
Definition st_cf (pi pj : star) : R :=
  3 * dot ndim (pair_dv pi pj) (vsub (s_a pj) (s_a pi)) * st_inv2 pi pj +
  dot ndim (pair_dr ndim b pi pj) (vsub (s_adot pj) (s_adot pi)) * st_inv2 pi pj +
  st_af pi pj * (3 * st_bf pi pj - 4 * st_af pi pj * st_af pi pj).
Definition st_a (pi pj : star) (k : nat) : R := s_m pj * pair_dr ndim b pi pj k * sqrt (st_inv2 pi pj) ^ 3.
Definition st_j (pi pj : star) (k : nat) : R :=
  s_m pj * sqrt (st_inv2 pi pj) ^ 3 *
    (pair_dv pi pj k - 3 * (dot ndim (pair_dv pi pj) (pair_dr ndim b pi pj) * sqrt (st_inv2 pi pj)) *
                       sqrt (st_inv2 pi pj) * pair_dr ndim b pi pj k).
Definition st_2 (pi pj : star) (k : nat) : R :=
  s_m pj * vsub (s_a pj) (s_a pi) k * st_inv2 pi pj * sqrt (st_inv2 pi pj) -
  6 * st_af pi pj * st_j pi pj k - 3 * st_bf pi pj * st_a pi pj k.
Definition st_3 (pi pj : star) (k : nat) : R :=
  s_m pj * vsub (s_adot pj) (s_adot pi) k * st_inv2 pi pj * sqrt (st_inv2 pi pj) -
  9 * st_af pi pj * st_2 pi pj k - 9 * st_bf pi pj * st_j pi pj k - 3 * st_cf pi pj * st_a pi pj k.

Lemma startup_star : forall N S i, (i < N)%nat -> exists a2 a3,
  Startup ndim b N S i = set_a23 (S i) a2 a3 /\
  (forall k, a2 k = others N i (fun j => st_2 (S i) (S j) k)) /\
  (forall k, a3 k = others N i (fun j => st_3 (S i) (S j) k)).
Proof.
  intros N S i Hi. unfold Startup, upd. rewrite (proj2 (Nat.ltb_lt i N) Hi). clear Hi.
  generalize (S i) at 1 2 3 4. intros p. induction N as [|N IH].
  - eexists _, _. split; [reflexivity|]. unfold others. simpl. split; reflexivity.
  - rewrite loopk_S. destruct IH as (a2 & a3 & E & H2 & H3). rewrite E.
    destruct (Nat.eqb_spec i N) as [-> |Hne].
    + exists a2, a3. split; [reflexivity|].
      split; intros k; [rewrite H2|rewrite H3]; rewrite others_S, Nat.eqb_refl; lra.
    + eexists _, _. split; [reflexivity|].
      cbn [set_a23 s_a2dot s_a3dot].
      split; intros k; [rewrite H2|rewrite H3]; rewrite others_S, (proj2 (Nat.eqb_neq i N) Hne); reflexivity.
Qed.
End pairs.

(** ** Without periodic boundaries *)
Lemma pair_dr_open : forall n b pi pj k, no_wrap n b -> pair_dr n b pi pj k = s_r pj k - s_r pi k.
Proof.
  intros. unfold pair_dr. rewrite npv_dr. destruct (Nat.ltb_spec k n); [|reflexivity].
  assert (perb b k = false) as E.
  { apply perb_false. apply H. exact H0. }
  rewrite E. unfold near1, vsub. lra.
Qed.
Lemma near1_odd : forall p s h d, 0 <= h -> near1 p s h (- d) = - near1 p s h d.
Proof.
  intros. unfold near1. destruct p; [|lra].
  destruct (rltb h (-d)) eqn:A, (rltb h d) eqn:B, (rltb (-d) (-h)) eqn:C, (rltb d (-h)) eqn:D;
    rewrite ?rltb_true, ?rltb_false in *; lra.
Qed.
(** The separation of a pair is odd, whatever the boundaries. *)
Lemma pair_dr_odd : forall n b pi pj k, (forall k, 0 <= dhalf b k) ->
  pair_dr n b pj pi k = - pair_dr n b pi pj k.
Proof.
  intros. unfold pair_dr. rewrite !npv_dr. unfold vsub.
  replace (s_r pi k - s_r pj k) with (- (s_r pj k - s_r pi k)) by ring.
  rewrite near1_odd by auto. destruct (k <? n)%nat; lra.
Qed.
