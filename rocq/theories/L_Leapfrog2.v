(** Internal energy and viscosity parameter through a step. *)
From Verif Require Import Prelude Vec M_Box L_Box M_Leapfrog S_Leapfrog L_Leapfrog.
From Coq Require Import Reals ZArith Lra Lia Psatz.
Local Open Scope R_scope.

Lemma KDK_loop_scalars : forall c A U n t ts ns dtn p, l_dead p = false -> l_end p = false ->
  let q := KDK_loop c A U n t ts ns dtn p in
  l_alpha q = drifts (c_tdav c) (l_alpha p) (l_dalphadt p) ts /\ l_dalphadt q = l_dalphadt p /\
  (c_energy c = false -> l_u q = l_u p /\ l_u0 q = l_u0 p) /\
  ((n - l_nlast p <> l_nstep p)%Z -> c_energy c = true -> l_u q = l_u0 p + l_dudt0 p * (t - l_tlast p)) /\
  ((n - l_nlast p = l_nstep p)%Z -> c_energy c = true -> l_u q = l_u0 q).
Proof.
  intros c A U n t ts ns dtn p Hd He. cbv zeta. unfold KDK_loop, KDK_Advance. rewrite Hd. unfold kick. cbn [l_active].
  unfold mark_end, drifts. destruct (Z.eqb_spec (n - l_nlast p) (l_nstep p)) as [E|E]; cbn [l_nlast l_nstep].
  - rewrite (proj2 (Z.eqb_eq _ _) E). unfold KDK_End. cbn. destruct (c_energy c), (c_tdav c); repeat split; intros; congruence.
  - rewrite (proj2 (Z.eqb_neq _ _) E). unfold KDK_End. cbn. rewrite He. cbn. destruct (c_energy c), (c_tdav c); repeat split; intros; congruence.
Qed.
Lemma DKD_loop_scalars : forall c A U n t ts ns dtn p, l_dead p = false -> l_end p = false ->
  let q := DKD_loop c A U n t ts ns dtn p in
  l_alpha q = drifts (c_tdav c) (l_alpha p) (l_dalphadt p) ts /\ l_dalphadt q = l_dalphadt p /\
  (c_energy c = false -> l_u q = l_u p /\ l_u0 q = l_u0 p) /\
  (c_energy c = true -> l_u q = l_u0 p + l_dudt p * (t - l_tlast p)) /\
  ((n - l_nlast p = l_nstep p)%Z -> c_energy c = true -> l_u0 q = l_u q) /\
  (if (n - l_nlast p =? l_nstep p / 2)%Z then l_dudt q = U (l_r q) else l_dudt q = l_dudt p).
Proof.
  intros c A U n t ts ns dtn p Hd He. cbv zeta. unfold DKD_loop, DKD_Advance. rewrite Hd. unfold kick. cbn [l_active].
  unfold mark_end, drifts.
  destruct (n - l_nlast p =? l_nstep p / 2)%Z; cbn [l_nlast l_nstep];
    (destruct (Z.eqb_spec (n - l_nlast p) (l_nstep p)) as [E|E]; unfold DKD_End; cbn; try rewrite He; cbn;
      destruct (c_energy c), (c_tdav c); repeat split; intros; congruence).
Qed.

Lemma drifts_add : forall on x r t t', drifts on (drifts on x r t) r t' = drifts on x r (t + t').
Proof. intros [] x r t t'; cbn; ring. Qed.
Lemma drifts_0 : forall on x r, drifts on x r 0 = x.
Proof. intros [] x r; cbn; ring. Qed.
Lemma KDK_run_alpha : forall c A U n0 t0 ts ns dtn m p, at_start n0 t0 ts m p -> forall j, (j <= m)%nat ->
  let q := KDK_run c A U n0 t0 ts ns dtn j p in
  l_alpha q = drifts (c_tdav c) (l_alpha p) (l_dalphadt p) (INR j * ts) /\ l_dalphadt q = l_dalphadt p.
Proof.
  intros c A U n0 t0 ts ns dtn m p Hst. induction j as [|j IH]; intros Hj; [cbn; rewrite Rmult_0_l, drifts_0; auto|].
  destruct (IH ltac:(lia)) as (I1 & I2). destruct (KDK_run_mid c A U n0 t0 ts ns dtn m p Hst j ltac:(lia)) as [S _].
  destruct Hst as (Hd & He & _). cbv zeta. cbn [KDK_run]. set (q := KDK_run c A U n0 t0 ts ns dtn j p) in *.
  destruct S as (S1 & S2 & _).
  destruct (KDK_loop_scalars c A U (n0 + Z.of_nat (S j)) (t0 + INR (S j) * ts) ts ns dtn q) as (H1 & H2 & _); [congruence | congruence|].
  rewrite H1, H2, I1, I2, drifts_add, S_INR. split; [f_equal; ring | reflexivity].
Qed.
Lemma KDK_run_u : forall c A U n0 t0 ts ns dtn m p, at_start n0 t0 ts m p -> forall j, (0 < j < m)%nat ->
  let q := KDK_run c A U n0 t0 ts ns dtn j p in
  c_energy c = true -> l_u q = l_u0 p + l_dudt0 p * (INR j * ts).
Proof.
  intros c A U n0 t0 ts ns dtn m p Hst j Hj. destruct j as [|j]; [lia|]. cbv zeta. intros Hc.
  destruct (KDK_run_mid c A U n0 t0 ts ns dtn m p Hst j ltac:(lia)) as [S _].
  destruct Hst as (Hd & He & Hn & Ht & Hs & _). cbn [KDK_run]. set (q := KDK_run c A U n0 t0 ts ns dtn j p) in *.
  destruct S as (S1 & S2 & S3 & S4 & S5 & S6 & S7 & S8 & S9 & S10 & _).
  destruct (KDK_loop_scalars c A U (n0 + Z.of_nat (Datatypes.S j)) (t0 + INR (Datatypes.S j) * ts) ts ns dtn q) as (_ & _ & _ & H & _); [congruence | congruence|].
  rewrite H, S6, S7, S10, Ht; [ring | rewrite S8, S9, Hn, Hs; lia | exact Hc].
Qed.
Lemma KDK_run_noenergy : forall c A U n0 t0 ts ns dtn m p, at_start n0 t0 ts m p -> c_energy c = false -> forall j, (j <= m)%nat ->
  let q := KDK_run c A U n0 t0 ts ns dtn j p in l_u q = l_u p /\ l_u0 q = l_u0 p.
Proof.
  intros c A U n0 t0 ts ns dtn m p Hst Hc. induction j as [|j IH]; intros Hj; [cbn; auto|].
  destruct (IH ltac:(lia)) as (I1 & I2). destruct (KDK_run_mid c A U n0 t0 ts ns dtn m p Hst j ltac:(lia)) as [S _].
  destruct Hst as (Hd & He & _). cbv zeta. cbn [KDK_run]. set (q := KDK_run c A U n0 t0 ts ns dtn j p) in *.
  destruct S as (S1 & S2 & _).
  destruct (KDK_loop_scalars c A U (n0 + Z.of_nat (Datatypes.S j)) (t0 + INR (Datatypes.S j) * ts) ts ns dtn q) as (_ & _ & H & _); [congruence | congruence|].
  destruct (H Hc) as [-> ->]. auto.
Qed.

(** Everything the two schemes do to the scalars. *)
Theorem KDK_scalars : forall c A U n0 t0 ts ns dtn m p, (0 < m)%nat -> at_start n0 t0 ts m p ->
  (forall j, (j <= m)%nat -> let q := KDK_run c A U n0 t0 ts ns dtn j p in
     l_alpha q = drifts (c_tdav c) (l_alpha p) (l_dalphadt p) (INR j * ts) /\
     (c_energy c = false -> l_u q = l_u p /\ l_u0 q = l_u0 p)) /\
  (forall j, (0 < j < m)%nat -> c_energy c = true ->
     l_u (KDK_run c A U n0 t0 ts ns dtn j p) = l_u0 p + l_dudt0 p * (INR j * ts)) /\
  (c_energy c = true -> let q := KDK_run c A U n0 t0 ts ns dtn m p in l_u q = l_u0 q).
Proof.
  intros c A U n0 t0 ts ns dtn m p Hm Hst. split; [|split].
  - intros j Hj. split; [apply (KDK_run_alpha c A U n0 t0 ts ns dtn m p Hst j Hj)|].
    intros Hc. apply (KDK_run_noenergy c A U n0 t0 ts ns dtn m p Hst Hc j Hj).
  - intros j Hj Hc. now apply (KDK_run_u c A U n0 t0 ts ns dtn m p Hst j Hj).
  - intros Hc. cbv zeta. destruct m as [|j]; [lia|].
    destruct (KDK_run_mid c A U n0 t0 ts ns dtn (S j) p Hst j ltac:(lia)) as [Sv _].
    destruct Hst as (Hd & He & Hn & Ht & Hs & _). cbn [KDK_run]. set (q := KDK_run c A U n0 t0 ts ns dtn j p) in *.
    destruct Sv as (S1 & S2 & S3 & S4 & S5 & S6 & S7 & S8 & S9 & S10 & _).
    destruct (KDK_loop_scalars c A U (n0 + Z.of_nat (S j)) (t0 + INR (S j) * ts) ts ns dtn q) as (_ & _ & _ & _ & H); [congruence | congruence|].
    apply H; [rewrite S8, S9, Hn, Hs; lia | exact Hc].
Qed.

Theorem DKD_scalars : forall c A U n0 t0 ts ns dtn m p, proper A -> (forall x y, veq x y -> U x = U y) -> (0 < m)%nat ->
  at_start n0 t0 ts (2*m) p ->
  (forall j, (j <= 2*m)%nat -> let q := DKD_run c A U n0 t0 ts ns dtn j p in
     l_alpha q = drifts (c_tdav c) (l_alpha p) (l_dalphadt p) (INR j * ts) /\
     (c_energy c = false -> l_u q = l_u p /\ l_u0 q = l_u0 p)) /\
  (forall j, (j < m)%nat -> (0 < j)%nat -> c_energy c = true ->
     l_u (DKD_run c A U n0 t0 ts ns dtn j p) = l_u0 p + l_dudt p * (INR j * ts)) /\
  (forall j, (m < j <= 2*m)%nat -> c_energy c = true ->
     l_u (DKD_run c A U n0 t0 ts ns dtn j p) = l_u0 p + U (fun k => l_r0 p k + INR m * ts * l_v0 p k) * (INR j * ts)) /\
  (c_energy c = true -> let q := DKD_run c A U n0 t0 ts ns dtn (2*m) p in l_u0 q = l_u q).
Proof.
  intros c A U n0 t0 ts ns dtn m p HA HU Hm Hst.
  assert (forall j, (j < 2*m)%nat -> saved p (DKD_run c A U n0 t0 ts ns dtn j p)) as Sv.
  { intros j Hj. apply (DKD_run_mid c A U n0 t0 ts ns dtn m p HA Hm Hst j Hj). }
  assert (Z.of_nat (2*m) / 2 = Z.of_nat m)%Z as E.
  { rewrite Nat2Z.inj_mul, Z.mul_comm. apply Z.div_mul. lia. }
  assert (forall j, (j < 2*m)%nat -> let q := DKD_run c A U n0 t0 ts ns dtn j p in
     (j < m)%nat /\ l_dudt q = l_dudt p \/ (m <= j)%nat /\ l_dudt q = U (fun k => l_r0 p k + INR m * ts * l_v0 p k)) as Du.
  { induction j as [|j IH]; intros Hj; [left; split; [lia | reflexivity]|]. specialize (IH ltac:(lia)). pose proof (Sv j ltac:(lia)) as S.
    cbv zeta in *. cbn [DKD_run]. set (q := DKD_run c A U n0 t0 ts ns dtn j p) in *.
    destruct Hst as (Hd & He & Hn & Ht & Hs & _). destruct S as (S1 & S2 & S3 & S4 & S5 & S6 & S7 & S8 & S9 & S10 & _).
    destruct (DKD_loop_scalars c A U (n0 + Z.of_nat (Datatypes.S j)) (t0 + INR (Datatypes.S j) * ts) ts ns dtn q) as (_ & _ & _ & _ & _ & H); [congruence | congruence|].
    destruct (DKD_mid c A U (n0 + Z.of_nat (Datatypes.S j)) (t0 + INR (Datatypes.S j) * ts) ts ns dtn q) as (_ & H2 & _);
      [congruence | congruence | rewrite S8, S9, Hn, Hs; lia |].
    rewrite S8, S9, Hn, Hs, E in H. destruct (Z.eqb_spec (n0 + Z.of_nat (Datatypes.S j) - n0) (Z.of_nat m)) as [Eq|Ne].
    - right. split; [lia|]. rewrite H. apply HU. intros k. rewrite (H2 k), S3, S4, S10, Ht. assert (m = Datatypes.S j) as -> by lia. ring.
    - destruct IH as [(L & IH)|(L & IH)]; [left | right]; (split; [lia | congruence]). }
  assert (forall j, (j < 2*m)%nat -> let q := DKD_run c A U n0 t0 ts ns dtn j p in let q' := DKD_run c A U n0 t0 ts ns dtn (S j) p in
     l_alpha q' = drifts (c_tdav c) (l_alpha q) (l_dalphadt q) ts /\ l_dalphadt q' = l_dalphadt q /\
     (c_energy c = false -> l_u q' = l_u q /\ l_u0 q' = l_u0 q) /\
     (c_energy c = true -> l_u q' = l_u0 p + l_dudt q * (INR (S j) * ts)) /\
     (S j = 2*m -> c_energy c = true -> l_u0 q' = l_u q')%nat) as St.
  { intros j Hj. cbv zeta. pose proof (Sv j ltac:(lia)) as S. cbn [DKD_run]. set (q := DKD_run c A U n0 t0 ts ns dtn j p) in *.
    destruct Hst as (Hd & He & Hn & Ht & Hs & _). destruct S as (S1 & S2 & S3 & S4 & S5 & S6 & S7 & S8 & S9 & S10 & _).
    destruct (DKD_loop_scalars c A U (n0 + Z.of_nat (Datatypes.S j)) (t0 + INR (Datatypes.S j) * ts) ts ns dtn q) as (H1 & H2 & H3 & H4 & H5 & _); [congruence | congruence|].
    split; [exact H1|]. split; [exact H2|]. split; [exact H3|]. split.
    - intros Hc. rewrite (H4 Hc), S6, S10, Ht. ring.
    - intros Ej Hc. apply H5; [rewrite S8, S9, Hn, Hs; lia | exact Hc]. }
  split; [|split; [|split]].
  - induction j as [|j IH]; intros Hj.
    + cbn. rewrite Rmult_0_l, drifts_0. auto.
    + assert (forall i, (i <= 2 * m)%nat -> l_dalphadt (DKD_run c A U n0 t0 ts ns dtn i p) = l_dalphadt p) as Da.
      { induction i as [|i IHi]; intros Hi; [reflexivity|]. destruct (St i ltac:(lia)) as (_ & -> & _). apply IHi. lia. }
      destruct (IH ltac:(lia)) as (I1 & I2). destruct (St j ltac:(lia)) as (H1 & _ & H3 & _). cbv zeta.
      split; [rewrite H1, I1, (Da j) by lia; rewrite drifts_add, S_INR; f_equal; ring|].
      intros Hc. destruct (H3 Hc) as [-> ->]. auto.
  - intros j Hj Hj0 Hc. destruct j as [|j]; [lia|]. destruct (St j ltac:(lia)) as (_ & _ & _ & H & _). rewrite (H Hc).
    destruct (Du j ltac:(lia)) as [(_ & ->)|(L & _)]; [reflexivity | lia].
  - intros j Hj Hc. destruct j as [|j]; [lia|]. destruct (St j ltac:(lia)) as (_ & _ & _ & H & _). rewrite (H Hc).
    destruct (Du j ltac:(lia)) as [(L & _)|(_ & ->)]; [lia | reflexivity].
  - intros Hc. cbv zeta. destruct (2*m)%nat as [|j] eqn:Ej; [lia|]. rewrite <- Ej in St. apply (St j); [lia | lia | exact Hc].
Qed.
