(** Proofs about the leapfrog integrators. *)
From Verif Require Import Prelude Vec M_Box L_Box M_Leapfrog S_Leapfrog.
From Coq Require Import Reals ZArith Lra Lia Psatz.
Local Open Scope R_scope.

(** The saved start-of-step state. *)
Definition saved (p q : lpart) : Prop :=
  l_dead q = l_dead p /\ l_end q = l_end p /\
  l_r0 q = l_r0 p /\ l_v0 q = l_v0 p /\ l_a0 q = l_a0 p /\
  l_u0 q = l_u0 p /\ l_dudt0 q = l_dudt0 p /\
  l_nlast q = l_nlast p /\ l_nstep q = l_nstep p /\ l_tlast q = l_tlast p /\
  l_dt q = l_dt p /\ l_dtnext q = l_dtnext p.

Lemma saved_refl : forall p, saved p p.
Proof. intros p. repeat split. Qed.
Lemma saved_trans : forall p q s, saved p q -> saved q s -> saved p s.
Proof. unfold saved. intros p q s H1 H2. intuition congruence. Qed.

(** A pass that is not the end of the particle's step only predicts. *)
Lemma KDK_mid : forall c A U n t ts ns dtn p, l_dead p = false -> l_end p = false ->
  (n - l_nlast p <> l_nstep p)%Z ->
  saved p (KDK_loop c A U n t ts ns dtn p) /\
  l_a (KDK_loop c A U n t ts ns dtn p) = l_a p /\
  l_dudt (KDK_loop c A U n t ts ns dtn p) = l_dudt p /\
  veq (l_r (KDK_loop c A U n t ts ns dtn p)) (parabola_r (l_r0 p) (l_v0 p) (l_a0 p) (t - l_tlast p)) /\
  veq (l_v (KDK_loop c A U n t ts ns dtn p)) (parabola_v (l_v0 p) (l_a0 p) (t - l_tlast p)).
Proof.
  intros c A U n t ts ns dtn p Hd He Hn.
  unfold KDK_loop, KDK_Advance. rewrite Hd. apply Z.eqb_neq in Hn. rewrite Hn.
  unfold kick. cbn [l_active]. unfold mark_end. cbn [l_nlast l_nstep]. rewrite Hn.
  unfold KDK_End. cbn [l_dead l_end]. rewrite He. unfold saved. cbn.
  repeat split; try congruence; intros k; unfold parabola_r, parabola_v; field.
Qed.

Lemma DKD_mid : forall c A U n t ts ns dtn p, l_dead p = false -> l_end p = false ->
  (n - l_nlast p < l_nstep p)%Z ->
  let q := DKD_loop c A U n t ts ns dtn p in
  saved p q /\ veq (l_r q) (fun k => l_r0 p k + l_v0 p k * (t - l_tlast p)) /\
  (if (n - l_nlast p =? l_nstep p / 2)%Z then l_a q = A (l_r q) else l_a q = l_a p).
Proof.
  intros c A U n t ts ns dtn p Hd He Hn. cbv zeta.
  unfold DKD_loop, DKD_Advance. rewrite Hd.
  assert (n - l_nlast p =? l_nstep p = false)%Z as Hn1 by (apply Z.eqb_neq; lia).
  assert (n - l_nlast p <? l_nstep p = true)%Z as Hn2 by (apply Z.ltb_lt; lia).
  rewrite Hn2. unfold kick. cbn [l_active]. unfold mark_end.
  destruct (n - l_nlast p =? l_nstep p / 2)%Z; cbn [l_nlast l_nstep]; rewrite Hn1;
    unfold DKD_End; cbn [l_dead l_end]; rewrite He; unfold saved; cbn;
    repeat split; try congruence.
Qed.

(** The last pass of a step. *)
Lemma KDK_last : forall c A U n t ts ns dtn p, l_dead p = false ->
  (n - l_nlast p = l_nstep p)%Z ->
  let h := t - l_tlast p in let q := KDK_loop c A U n t ts ns dtn p in
  l_dead q = false /\ l_end q = false /\ l_nlast q = n /\ l_tlast q = t /\ l_dt q = dtn /\ l_nstep q = ns /\
  veq (l_r0 q) (parabola_r (l_r0 p) (l_v0 p) (l_a0 p) h) /\
  l_a0 q = A (l_r0 q) /\
  veq (l_v0 q) (fun k => l_v0 p k + l_a0 p k * h + l_dt p / 2 * (l_a0 q k - l_a0 p k)) /\
  (c_energy c = true ->
     let u := l_u0 p + l_dudt0 p * h + l_dt p / 2 * (U (l_r0 q) - l_dudt0 p) in
     l_u0 q = (if Rlt_dec 0 u then u else l_u0 p + l_dudt0 p * l_dt p) /\ l_dudt0 q = U (l_r0 q)).
Proof.
  intros c A U n t ts ns dtn p Hd Hn. cbv zeta.
  unfold KDK_loop, KDK_Advance. rewrite Hd. apply Z.eqb_eq in Hn. rewrite Hn.
  unfold kick. cbn [l_active]. unfold mark_end. cbn [l_nlast l_nstep]. rewrite Hn.
  unfold KDK_End. cbn.
  repeat match goal with |- _ /\ _ => split end; try reflexivity.
  - intros k. unfold parabola_r. field.
  - intros k. field.
  - intros ->. set (rr := fun k => _). split; [|reflexivity].
    match goal with |- (if rleb ?x 0 then _ else _) = (if Rlt_dec 0 ?y then _ else _) => 
      assert (x = y) as -> by field; unfold rleb; destruct (Rle_dec y 0), (Rlt_dec 0 y) end;
    try lra; reflexivity.
Qed.

Lemma DKD_last : forall c A U n t ts ns dtn p, l_dead p = false ->
  (n - l_nlast p = l_nstep p)%Z -> (1 < l_nstep p)%Z ->
  let h := t - l_tlast p in let q := DKD_loop c A U n t ts ns dtn p in
  l_dead q = false /\ l_end q = false /\ l_nlast q = n /\ l_tlast q = t /\ l_dt q = dtn /\ l_nstep q = ns /\
  veq (l_v0 q) (fun k => l_v0 p k + l_a p k * h) /\
  veq (l_r0 q) (fun k => l_r0 p k + (l_v0 p k + l_v0 q k) / 2 * h).
Proof.
  intros c A U n t ts ns dtn p Hd Hn Hs. cbv zeta.
  unfold DKD_loop, DKD_Advance. rewrite Hd.
  assert (n - l_nlast p =? l_nstep p / 2 = false)%Z as Hn1.
  { apply Z.eqb_neq. rewrite Hn. assert (l_nstep p / 2 < l_nstep p)%Z by (apply Z.div_lt; lia). lia. }
  assert (n - l_nlast p <? l_nstep p = false)%Z as Hn2 by (apply Z.ltb_ge; lia).
  apply Z.eqb_eq in Hn. rewrite Hn1, Hn2. unfold kick. cbn [l_active]. unfold mark_end. cbn [l_nlast l_nstep]. rewrite Hn.
  unfold DKD_End. cbn.
  repeat match goal with |- _ /\ _ => split end; try reflexivity.
  all: intros k; field.
Qed.

(** A whole step made of [m] passes. *)
Definition at_start (n0 : Z) (t0 ts : R) (m : nat) (p : lpart) : Prop :=
  l_dead p = false /\ l_end p = false /\ l_nlast p = n0 /\ l_tlast p = t0 /\
  l_nstep p = Z.of_nat m /\ l_dt p = INR m * ts.

Lemma KDK_run_mid : forall c A U n0 t0 ts ns dtn m p, at_start n0 t0 ts m p ->
  forall j, (j < m)%nat ->
  saved p (KDK_run c A U n0 t0 ts ns dtn j p) /\ ((0 < j)%nat ->
  veq (l_r (KDK_run c A U n0 t0 ts ns dtn j p)) (parabola_r (l_r0 p) (l_v0 p) (l_a0 p) (INR j * ts)) /\
  veq (l_v (KDK_run c A U n0 t0 ts ns dtn j p)) (parabola_v (l_v0 p) (l_a0 p) (INR j * ts))).
Proof.
  intros c A U n0 t0 ts ns dtn m p (Hd & He & Hn & Ht & Hs & Hdt).
  induction j as [|j IH]; intros Hj; [split; [apply saved_refl | lia]|].
  destruct IH as [IH _]; [lia|]. cbn [KDK_run].
  set (q := KDK_run c A U n0 t0 ts ns dtn j p) in *.
  pose proof IH as (E1 & E2 & E3 & E4 & E5 & E6 & E7 & E8 & E9 & E10 & _).
  destruct (KDK_mid c A U (n0 + Z.of_nat (S j)) (t0 + INR (S j) * ts) ts ns dtn q) as (H1 & _ & _ & H2 & H3);
    [congruence | congruence | rewrite E8, E9, Hn, Hs; lia |].
  split; [exact (saved_trans _ _ _ IH H1)|]. intros _.
  rewrite E10, Ht in H2, H3. rewrite E3, E4, E5 in H2. rewrite E4, E5 in H3.
  replace (t0 + INR (S j) * ts - t0) with (INR (S j) * ts) in H2, H3 by ring. split; assumption.
Qed.

Lemma KDK_run_full : forall c A U n0 t0 ts ns dtn m p, (0 < m)%nat -> at_start n0 t0 ts m p ->
  l_a0 p = A (l_r0 p) ->
  let h := INR m * ts in let q := KDK_run c A U n0 t0 ts ns dtn m p in
  l_dead q = false /\ l_end q = false /\ l_nlast q = (n0 + Z.of_nat m)%Z /\ l_tlast q = t0 + h /\
  l_dt q = dtn /\ l_nstep q = ns /\ l_a0 q = A (l_r0 q) /\
  verlet A h (l_r0 p) (l_v0 p) (l_r0 q) (l_v0 q) /\
  (c_energy c = true -> l_dudt0 p = U (l_r0 p) ->
     let u := l_u0 p + h / 2 * (U (l_r0 p) + U (l_r0 q)) in
     l_u0 q = (if Rlt_dec 0 u then u else l_u0 p + h * U (l_r0 p)) /\ l_dudt0 q = U (l_r0 q)).
Proof.
  intros c A U n0 t0 ts ns dtn m p Hm Hst Ha. cbv zeta.
  destruct m as [|m]; [lia|]. pose proof (KDK_run_mid c A U n0 t0 ts ns dtn (S m) p Hst m ltac:(lia)) as [IH _].
  destruct Hst as (Hd & He & Hn & Ht & Hs & Hdt). cbn [KDK_run].
  set (q := KDK_run c A U n0 t0 ts ns dtn m p) in *.
  pose proof IH as (E1 & E2 & E3 & E4 & E5 & E6 & E7 & E8 & E9 & E10 & E11 & E12).
  pose proof (KDK_last c A U (n0 + Z.of_nat (S m)) (t0 + INR (S m) * ts) ts ns dtn q
    ltac:(congruence) ltac:(rewrite E8, E9, Hn, Hs; lia)) as H. cbv zeta in H.
  rewrite E3, E4, E5, E6, E7, E10, E11, Ht, Hdt in H.
  replace (t0 + INR (S m) * ts - t0) with (INR (S m) * ts) in H by ring.
  set (q' := KDK_loop _ _ _ _ _ _ _ _ _) in *.
  destruct H as (H1 & H2 & H3 & H4 & H5 & H6 & H7 & H8 & H9 & H10).
  repeat match goal with |- _ /\ _ => split end; try assumption.
  - split; intros k.
    + rewrite (H7 k). unfold parabola_r. rewrite Ha. field.
    + rewrite (H9 k), H8, Ha. field.
  - intros Hc HU. specialize (H10 Hc). rewrite HU in H10.
    match type of H10 with (_ = (if Rlt_dec 0 ?x then _ else _)) /\ _ =>
      match goal with |- (_ = (if Rlt_dec 0 ?y then _ else _)) /\ _ => replace x with y in H10 by field end end.
    destruct H10 as [-> ->]. split; [|reflexivity].
    match goal with |- (if ?c then _ else _) = _ => destruct c end; [reflexivity | ring].
Qed.

(** ** Consequences for the maps *)
Lemma veq_sym : forall x y, veq x y -> veq y x.
Proof. intros x y H k. symmetry. apply H. Qed.

Lemma verlet_const : forall g h r v r' v', verlet (fun _ => g) h r v r' v' ->
  veq r' (parabola_r r v g h) /\ veq v' (parabola_v v g h).
Proof.
  intros g h r v r' v' [H1 H2]. split; intros k; [rewrite (H1 k) | rewrite (H2 k)];
  unfold parabola_r, parabola_v; field.
Qed.
Definition vneg (v : vec) : vec := fun k => - v k.
Lemma verlet_reverse : forall A h r v r' v' r'' v'', proper A ->
  verlet A h r v r' v' -> verlet A h r' (vneg v') r'' v'' -> veq r'' r /\ veq v'' (vneg v).
Proof.
  intros A h r v r' v' r'' v'' HA [H1 H2] [H3 H4].
  assert (veq r'' r) as Hr. { intros k. rewrite (H3 k). unfold vneg. rewrite (H1 k), (H2 k). field. }
  split; [exact Hr|]. intros k. rewrite (H4 k). unfold vneg. rewrite (H2 k), (HA _ _ Hr k). field.
Qed.
Lemma midpoint_const : forall g h r v r' v', midpoint (fun _ => g) h r v r' v' ->
  veq r' (parabola_r r v g h) /\ veq v' (parabola_v v g h).
Proof.
  intros g h r v r' v' [H1 H2]. split; intros k; [rewrite (H2 k), (H1 k) | rewrite (H1 k)];
  unfold parabola_r, parabola_v; field.
Qed.
Lemma midpoint_reverse : forall A h r v r' v' r'' v'', proper A ->
  midpoint A h r v r' v' -> midpoint A h r' (vneg v') r'' v'' -> veq r'' r /\ veq v'' (vneg v).
Proof.
  intros A h r v r' v' r'' v'' HA [H1 H2] [H3 H4].
  assert (veq (fun k => r' k + h / 2 * vneg v' k) (fun k => r k + h / 2 * v k)) as Hh.
  { intros k. unfold vneg. rewrite (H2 k). field. }
  assert (veq v'' (vneg v)) as Hv.
  { intros k. rewrite (H3 k), (HA _ _ Hh k). unfold vneg. rewrite (H1 k). field. }
  split; [|exact Hv]. intros k. rewrite (H4 k), (Hv k), (Hh k). unfold vneg. field.
Qed.

(** Running forward, reversing the velocity and running again. *)
Definition flip (p : lpart) : lpart :=
  mkLP (l_dead p) (l_active p) (l_end p) (l_r p) (vneg (l_v p)) (l_a p) (l_r0 p) (vneg (l_v0 p)) (l_a0 p)
    (l_u p) (l_u0 p) (l_dudt p) (l_dudt0 p) (l_alpha p) (l_dalphadt p)
    (l_nlast p) (l_nstep p) (l_tlast p) (l_dt p) (l_dtnext p).
Lemma KDK_reversible : forall c A U n0 t0 ts ns dtn m p, (0 < m)%nat -> at_start n0 t0 ts m p ->
  l_a0 p = A (l_r0 p) -> proper A ->
  let h := INR m * ts in
  let q := KDK_run c A U n0 t0 ts (Z.of_nat m) h m p in
  let s := KDK_run c A U (n0 + Z.of_nat m) (t0 + h) ts ns dtn m (flip q) in
  veq (l_r0 s) (l_r0 p) /\ veq (l_v0 s) (vneg (l_v0 p)).
Proof.
  intros c A U n0 t0 ts ns dtn m p Hm Hst Ha HA. cbv zeta.
  destruct (KDK_run_full c A U n0 t0 ts (Z.of_nat m) (INR m * ts) m p Hm Hst Ha) as
    (H1 & H2 & H3 & H4 & H5 & H6 & H7 & H8 & _).
  set (q := KDK_run c A U n0 t0 ts _ _ m p) in *.
  assert (at_start (n0 + Z.of_nat m) (t0 + INR m * ts) ts m (flip q)) as Hs2 by (repeat split; assumption).
  destruct (KDK_run_full c A U _ _ ts ns dtn m (flip q) Hm Hs2 H7) as (_ & _ & _ & _ & _ & _ & _ & H9 & _).
  cbn in H9. exact (verlet_reverse A _ _ _ _ _ _ _ HA H8 H9).
Qed.

(** ** DKD *)
Lemma DKD_run_mid : forall c A U n0 t0 ts ns dtn m p, proper A -> (0 < m)%nat -> at_start n0 t0 ts (2*m) p ->
  forall j, (j < 2*m)%nat ->
  let q := DKD_run c A U n0 t0 ts ns dtn j p in
  saved p q /\ ((m <= j)%nat -> veq (l_a q) (A (fun k => l_r0 p k + INR m * ts * l_v0 p k))).
Proof.
  intros c A U n0 t0 ts ns dtn m p HA Hm (Hd & He & Hn & Ht & Hs & Hdt).
  induction j as [|j IH]; intros Hj; [split; [apply saved_refl | lia]|].
  destruct IH as [IH1 IH2]; [lia|]. cbn [DKD_run].
  set (q := DKD_run c A U n0 t0 ts ns dtn j p) in *.
  pose proof IH1 as (E1 & E2 & E3 & E4 & E5 & E6 & E7 & E8 & E9 & E10 & _).
  destruct (DKD_mid c A U (n0 + Z.of_nat (S j)) (t0 + INR (S j) * ts) ts ns dtn q) as (H1 & H2 & H3);
    [congruence | congruence | rewrite E8, E9, Hn, Hs; lia |].
  split; [exact (saved_trans _ _ _ IH1 H1)|]. intros Hmj.
  rewrite E8, E9, Hn, Hs in H3. rewrite E3, E4, E10, Ht in H2.
  assert (Z.of_nat (2*m) / 2 = Z.of_nat m)%Z as E.
  { rewrite Nat2Z.inj_mul, Z.mul_comm. apply Z.div_mul. lia. }
  rewrite E in H3. destruct (Z.eqb_spec (n0 + Z.of_nat (S j) - n0) (Z.of_nat m)) as [Eq|Ne].
  - rewrite H3. apply HA. intros k. rewrite (H2 k). assert (m = S j) as -> by lia. ring.
  - rewrite H3. apply IH2. lia.
Qed.

Lemma DKD_run_full : forall c A U n0 t0 ts ns dtn m p, proper A -> (0 < m)%nat -> at_start n0 t0 ts (2*m) p ->
  let h := INR (2*m) * ts in let q := DKD_run c A U n0 t0 ts ns dtn (2*m) p in
  l_dead q = false /\ l_end q = false /\ l_nlast q = (n0 + Z.of_nat (2*m))%Z /\ l_tlast q = t0 + h /\
  l_dt q = dtn /\ l_nstep q = ns /\ midpoint A h (l_r0 p) (l_v0 p) (l_r0 q) (l_v0 q).
Proof.
  intros c A U n0 t0 ts ns dtn m p HA Hm Hst. cbv zeta.
  destruct (2*m)%nat as [|j] eqn:Ej; [lia|].
  rewrite <- Ej in Hst.
  pose proof (DKD_run_mid c A U n0 t0 ts ns dtn m p HA Hm Hst j ltac:(lia)) as [IH Ia].
  rewrite Ej in Hst. destruct Hst as (Hd & He & Hn & Ht & Hs & Hdt). cbn [DKD_run].
  set (q := DKD_run c A U n0 t0 ts ns dtn j p) in *.
  pose proof IH as (E1 & E2 & E3 & E4 & E5 & E6 & E7 & E8 & E9 & E10 & E11 & E12).
  pose proof (DKD_last c A U (n0 + Z.of_nat (S j)) (t0 + INR (S j) * ts) ts ns dtn q
    ltac:(congruence) ltac:(rewrite E8, E9, Hn, Hs; lia) ltac:(rewrite E9, Hs; lia)) as H. cbv zeta in H.
  rewrite E3, E4, E10, Ht in H.
  replace (t0 + INR (S j) * ts - t0) with (INR (S j) * ts) in H by ring.
  set (q' := DKD_loop _ _ _ _ _ _ _ _ _) in *.
  destruct H as (H1 & H2 & H3 & H4 & H5 & H6 & H7 & H8).
  specialize (Ia ltac:(lia)).
  repeat match goal with |- _ /\ _ => split end; try assumption.
  assert (INR (S j) = 2 * INR m) as EI. { rewrite <- Ej, mult_INR. cbn [INR]. ring. }
  assert (veq (fun k => l_r0 p k + INR m * ts * l_v0 p k) (fun k => l_r0 p k + INR (S j) * ts / 2 * l_v0 p k)) as Eh.
  { intros k. rewrite EI. field. }
  split.
  - intros k. rewrite (H7 k), (Ia k), (HA _ _ Eh k). field.
  - intros k. rewrite (H8 k). field.
Qed.

Lemma DKD_reversible : forall c A U n0 t0 ts ns dtn m p, proper A -> (0 < m)%nat -> at_start n0 t0 ts (2*m) p ->
  let h := INR (2*m) * ts in
  let q := DKD_run c A U n0 t0 ts (Z.of_nat (2*m)) h (2*m) p in
  let s := DKD_run c A U (n0 + Z.of_nat (2*m)) (t0 + h) ts ns dtn (2*m) (flip q) in
  veq (l_r0 s) (l_r0 p) /\ veq (l_v0 s) (vneg (l_v0 p)).
Proof.
  intros c A U n0 t0 ts ns dtn m p HA Hm Hst. cbv zeta.
  destruct (DKD_run_full c A U n0 t0 ts (Z.of_nat (2*m)) (INR (2*m) * ts) m p HA Hm Hst) as
    (H1 & H2 & H3 & H4 & H5 & H6 & H8).
  set (q := DKD_run c A U n0 t0 ts _ _ (2*m) p) in *.
  assert (at_start (n0 + Z.of_nat (2*m)) (t0 + INR (2*m) * ts) ts (2*m) (flip q)) as Hs2 by (repeat split; assumption).
  destruct (DKD_run_full c A U _ _ ts ns dtn m (flip q) HA Hm Hs2) as (_ & _ & _ & _ & _ & _ & H9).
  cbn [flip l_r0 l_v0] in H9. exact (midpoint_reverse A _ _ _ _ _ _ _ HA H8 H9).
Qed.
