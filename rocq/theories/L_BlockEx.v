(** Concrete runs. *)
From Verif Require Import Prelude M_Box M_Level L_Level M_Block S_Block L_Block L_Block2 L_Block3 L_Block4 L_Block5.
From Coq Require Import Reals ZArith List Bool Lia Lra Psatz.
Import ListNotations.
Local Open Scope Z_scope.

Lemma CTL_far : forall dm dt, (0 < dm)%R -> (4 * dm <= dt)%R -> ComputeTimestepLevel dt dm = 0.
Proof.
  intros dm dt Hm Hd. unfold ComputeTimestepLevel. pose proof inv_near as [Hc1 Hc2].
  assert (0 < invlogetwo)%R as Hcp by (unfold invlogetwo; lra).
  assert (0 < ln 2)%R by (rewrite <- ln_1; apply ln_increasing; lra).
  assert (ln (dm / dt) <= - (2 * ln 2))%R as Hl.
  { replace (- (2 * ln 2))%R with (ln (/ 4)); [|rewrite ln_Rinv by lra; replace 4%R with (2 * 2)%R by lra; rewrite ln_mult by lra; lra].
    assert (dm / dt <= / 4)%R as [G| -> ]; [|left; apply ln_increasing; [apply Rdiv_lt_0_compat; lra | exact G] | lra].
    apply Rmult_le_reg_r with dt; [lra|]. replace (dm / dt * dt)%R with dm by (field; lra). lra. }
  assert (/ invlogetwo < 2 * ln 2)%R as G by (assert (1/2 < ln 2)%R; [|lra]; pose proof ln2_near as [G1 _]; unfold ath in G1; lra).
  assert (invlogetwo * ln (dm / dt) < -1)%R as Hx.
  { apply Rle_lt_trans with (invlogetwo * - (2 * ln 2))%R; [apply Rmult_le_compat_l; lra|].
    apply Rmult_lt_reg_l with (/ invlogetwo)%R; [apply Rinv_0_lt_compat; lra|]. rewrite <- Rmult_assoc, Rinv_l by lra. lra. }
  destruct (ztrunc_neg (invlogetwo * ln (dm / dt))) as [H1 [H2 H3]]; [lra|].
  assert (ztrunc (invlogetwo * ln (dm / dt)) < 1)%Z by lia.
  assert (ztrunc (invlogetwo * ln (dm / dt)) - 1 < -1)%Z; [|lia]. apply lt_IZR. rewrite minus_IZR. lra.
Qed.

Lemma neib_refl : forall top l, Forall2 (neib_part top) l l.
Proof. intros top l. induction l as [|p l IH]; constructor; [|exact IH]. exists (b_neib p). split; [lia | destruct p; reflexivity]. Qed.
Lemma env_refl : forall k l, Forall (fun p => 0 < b_req p)%R l -> Forall2 (env_part k) l l.
Proof.
  intros k l H. induction H as [|p l Hp H IH]; constructor; [|exact IH]. exists (b_dead p), (b_req p), (b_sink p).
  destruct p; cbn in *; auto.
Qed.
(** One pass with the given levelneib updates before (h1) and after (h4) the limiter and new
    requests (h5, s5). *)
Lemma run_go : forall c chk st h1 h2 h4 h5 s5, run c chk st ->
  Forall2 (neib_part (top_level (tick st))) (s_h st) h1 ->
  Checks (chk (k_ldm c) (s_lstep st) (s_n st + 1)) h1 = Some (h2, 0) ->
  Forall2 (neib_part (top_level (with_h (tick st) h2))) h2 h4 ->
  Forall2 (env_part true) h4 h5 -> Forall2 (env_part false) (s_s st) s5 ->
  run c chk (EndTimesteps (ComputeBlockTimesteps c
    (mkS (s_n st + 1) (s_nresync st) (s_lmax st) (s_lstep st) (s_dtmax st) (s_ts st) (s_t st + s_ts st) h5 s5))).
Proof.
  intros c chk st h1 h2 h4 h5 s5 Hr F1 E F4 F5 G5. eapply run_pass; [exact Hr|].
  rewrite <- (app_nil_r s5).
  apply (pass_intro c chk st (with_h (with_h (tick st) h1) h2) (with_h (with_h (with_h (tick st) h1) h2) h4)).
  - apply rounds_last; [constructor; exact F1 | exact E].
  - constructor. exact F4.
  - apply (env_intro (with_h (with_h (with_h (tick st) h1) h2) h4)); cbn; [exact F5 | exact G5 | constructor].
Qed.
Lemma run_go2 : forall c chk st h1 k h2 h3 h4 h5 s5, run c chk st ->
  Forall2 (neib_part (top_level (tick st))) (s_h st) h1 ->
  Checks (chk (k_ldm c) (s_lstep st) (s_n st + 1)) h1 = Some (h2, k) -> 0 < k ->
  Checks (chk (k_ldm c) (s_lstep st) (s_n st + 1)) h2 = Some (h3, 0) ->
  Forall2 (neib_part (top_level (with_h (tick st) h3))) h3 h4 ->
  Forall2 (env_part true) h4 h5 -> Forall2 (env_part false) (s_s st) s5 ->
  run c chk (EndTimesteps (ComputeBlockTimesteps c
    (mkS (s_n st + 1) (s_nresync st) (s_lmax st) (s_lstep st) (s_dtmax st) (s_ts st) (s_t st + s_ts st) h5 s5))).
Proof.
  intros c chk st h1 k h2 h3 h4 h5 s5 Hr F1 E Hk E3 F4 F5 G5. eapply run_pass; [exact Hr|].
  rewrite <- (app_nil_r s5).
  apply (pass_intro c chk st (with_h (with_h (with_h (tick st) h1) h2) h3) (with_h (with_h (with_h (with_h (tick st) h1) h2) h3) h4)).
  - eapply rounds_more; [constructor; exact F1 | exact E | exact Hk |].
    apply (rounds_last c chk (with_h (with_h (tick st) h1) h2) (with_h (with_h (with_h (tick st) h1) h2) h2)); [|exact E3].
    apply (neibs_intro (with_h (with_h (tick st) h1) h2)). apply neib_refl.
  - constructor. exact F4.
  - apply (env_intro (with_h (with_h (with_h (with_h (tick st) h1) h2) h3) h4)); cbn; [exact F5 | exact G5 | constructor].
Qed.

Definition P0 (lev neib nstep nlast : Z) (dt dtn : R) (e : bool) (r : R) : bpart := mkB false lev neib nstep nlast dt dtn e r (-1).

Lemma ctl4_16 : ComputeTimestepLevel 16 4 = 0. Proof. apply CTL_far; lra. Qed.
Lemma ctl4_1 : ComputeTimestepLevel 1 4 = 2.
Proof. replace 1%R with (4 / 2 ^ 2)%R by (cbn; lra). apply (CTL_pow2 4 2); [lra | lia | lia]. Qed.

Definition cD : bconf := mkK 3 2 1 false.
Definition d0 : bstate := mkS 0 0 0 0 0 0 0 [P0 0 0 0 0 0 0 false 16; P0 0 0 0 0 0 0 false 1] [].

Lemma big_990 : (990 <= big_number)%R.
Proof. unfold big_number. assert (10 ^ 1 <= 10 ^ 49)%R by (apply Rle_pow; [lra | lia]). lra. Qed.
Ltac rmins := pose proof big_990; unfold minreq; cbn [s_h s_s fold_left b_dead b_req P0];
  repeat match goal with |- context [Rmin ?a ?b] => first [rewrite (Rmin_left a b) by lra | rewrite (Rmin_right a b) by lra] end; try lra.
Ltac bev := cbn -[ComputeTimestepLevel Rmult Rdiv Rplus IZR].

Lemma d0_ts : Rmin (minreq (s_h d0) big_number) (minreq (s_s d0) big_number) = 1%R.
Proof. unfold d0. rmins. Qed.
Lemma d0_h : minreq (s_h d0) big_number = 1%R.
Proof. unfold d0. rmins. Qed.
Lemma d1_eq : EndTimesteps (ComputeBlockTimesteps cD d0) =
  mkS 0 8 2 3 4 (4 / 8) 0 [P0 0 0 8 0 (8 * 1) 0 false 16; P0 2 2 2 0 (2 * 1) 0 false 1] [].
Proof.
  unfold ComputeBlockTimesteps. change (s_n d0 =? s_nresync d0) with true. cbv iota. unfold CBT_resync. rewrite d0_ts, d0_h.
  replace (1 * 2 ^ Z.to_nat (k_Nlevels cD - 1))%R with 4%R by (change (Z.to_nat (k_Nlevels cD - 1)) with 2%nat; simpl; lra).
  bev. unfold resync_hydro. bev. rewrite ctl4_16, ctl4_1. bev. reflexivity.
Qed.

Ltac nb := repeat constructor; unfold neib_part, P0; bev; eexists; (split; [|reflexivity]); bev; lia.
Ltac en := apply env_refl; repeat constructor; bev; lra.
Ltac nextpass ctls :=
  bev; unfold CBT_next, next_hydro, next_star; bev; ctls; bev; try reflexivity.
Notation D n a b := (exists t, run cD DKD_Check (mkS n 8 2 3 4 (4 / 8) t [a; b] [])).

Lemma D1 : D 0 (P0 0 0 8 0 (8 * 1) 0 false 16) (P0 2 2 2 0 (2 * 1) 0 false 1).
Proof.
  exists 0%R. rewrite <- d1_eq. apply run_start; [reflexivity | | constructor | constructor]. repeat constructor; cbn; lra.
Qed.
Ltac ctlD := rewrite ?ctl4_16, ?ctl4_1.
Ltac goD a b := match goal with H : exists t, run _ _ _ |- _ => destruct H as [t H]; eexists;
   eapply eq_ind; [eapply (run_go cD DKD_Check _ [a; b] [a; b] [a; b] [a; b] []); [exact H | nb | bev; reflexivity | apply neib_refl | en | constructor] | nextpass ctlD] end.
Lemma D2 : D 1 (P0 0 2 8 0 (8 * 1) 0 false 16) (P0 2 2 2 0 (2 * 1) 0 false 1).
Proof. pose proof D1 as H. goD (P0 0 2 8 0 (8 * 1) 0 false 16) (P0 2 2 2 0 (2 * 1) 0 false 1). Qed.
(** At n = 2 the limiter acts half way to a multiple of the new step. *)
Lemma D3 : D 2 (P0 1 1 4 2 (4 * (4 / 8)) 0 false 16) (P0 2 2 2 2 (2 * (4 / 8)) 0 false 1).
Proof.
  pose proof D2 as [t H]. eexists. eapply eq_ind.
  - eapply (run_go2 cD DKD_Check _ [P0 0 2 8 0 (8 * 1) 0 false 16; P0 2 2 2 0 (2 * 1) 0 false 1] 1
              [P0 1 2 2 0 (8 * 1) 0 false 16; P0 2 2 2 0 (2 * 1) 0 false 1]);
      [exact H | nb | bev; reflexivity | lia | bev; reflexivity | apply neib_refl | en | constructor].
  - nextpass ctlD.
Qed.
Definition dd : R := (4 / 8)%R.
Lemma D4 : D 3 (P0 1 2 4 2 (4 * dd) 0 false 16) (P0 2 2 2 2 (2 * dd) 0 false 1).
Proof. pose proof D3 as H. goD (P0 1 2 4 2 (4 * dd) 0 false 16) (P0 2 2 2 2 (2 * dd) 0 false 1). Qed.
Lemma D5 : D 4 (P0 1 2 4 2 (4 * dd) 0 false 16) (P0 2 2 2 4 (2 * dd) 0 false 1).
Proof. pose proof D4 as H. goD (P0 1 2 4 2 (4 * dd) 0 false 16) (P0 2 2 2 2 (2 * dd) 0 false 1). Qed.
Lemma D6 : D 5 (P0 1 2 4 2 (4 * dd) 0 false 16) (P0 2 2 2 4 (2 * dd) 0 false 1).
Proof. pose proof D5 as H. goD (P0 1 2 4 2 (4 * dd) 0 false 16) (P0 2 2 2 4 (2 * dd) 0 false 1). Qed.
Lemma D7 : D 6 (P0 1 1 4 6 (4 * dd) 0 false 16) (P0 2 2 2 6 (2 * dd) 0 false 1).
Proof. pose proof D6 as H. goD (P0 1 2 4 2 (4 * dd) 0 false 16) (P0 2 2 2 4 (2 * dd) 0 false 1). Qed.
Lemma D8 : D 7 (P0 1 2 4 6 (4 * dd) 0 false 16) (P0 2 2 2 6 (2 * dd) 0 false 1).
Proof. pose proof D7 as H. goD (P0 1 2 4 6 (4 * dd) 0 false 16) (P0 2 2 2 6 (2 * dd) 0 false 1). Qed.

Lemma choosing_go : forall c chk st h1 h2 h4 h5 s5,
  Forall2 (neib_part (top_level (tick st))) (s_h st) h1 ->
  Checks (chk (k_ldm c) (s_lstep st) (s_n st + 1)) h1 = Some (h2, 0) ->
  Forall2 (neib_part (top_level (with_h (tick st) h2))) h2 h4 ->
  Forall2 (env_part true) h4 h5 -> Forall2 (env_part false) (s_s st) s5 ->
  choosing c chk st
    (mkS (s_n st + 1) (s_nresync st) (s_lmax st) (s_lstep st) (s_dtmax st) (s_ts st) (s_t st + s_ts st) h5 s5).
Proof.
  intros c chk st h1 h2 h4 h5 s5 F1 E F4 F5 G5.
  exists (with_h (with_h (tick st) h1) h2), (with_h (with_h (with_h (tick st) h1) h2) h4). split; [|split].
  - apply rounds_last; [constructor; exact F1 | exact E].
  - constructor. exact F4.
  - rewrite <- (app_nil_r s5). apply (env_intro (with_h (with_h (with_h (tick st) h1) h2) h4)); cbn; [exact F5 | exact G5 | constructor].
Qed.

(** With the drift-kick-drift limiter a step can start at a time that is not a multiple of its
    length, and a particle can be in the middle of its step when everything is resynchronised. *)
Lemma DKD_misaligned : exists c st p, conf_ok c /\ run c DKD_Check st /\ In p (s_h st) /\ b_dead p = false /\
  b_nlast p = s_n st /\ ~ (b_nstep p | b_nlast p).
Proof.
  destruct D3 as [t H]. exists cD. eexists. exists (P0 1 1 4 2 (4 * (4 / 8)) 0 false 16).
  split; [unfold conf_ok, cD; cbn; lia|]. split; [exact H|]. cbn. bsplit; auto. intros [z Hz]. lia.
Qed.
Lemma DKD_resync : exists c st st3 p, conf_ok c /\ run c DKD_Check st /\ choosing c DKD_Check st st3 /\ In p (s_h st3) /\ b_dead p = false /\
  s_n st3 = s_nresync st3 /\ ~ at_end (s_n st3) p.
Proof.
  destruct D8 as [t H]. exists cD. eexists. eexists. exists (P0 1 2 4 6 (4 * dd) 0 false 16).
  split; [unfold conf_ok, cD; cbn; lia|]. split; [exact H|]. split.
  - set (l := [P0 1 2 4 6 (4 * dd) 0 false 16; P0 2 2 2 6 (2 * dd) 0 false 1]).
    eapply (choosing_go cD DKD_Check _ l l l l []); [apply neib_refl | bev; reflexivity | apply neib_refl | en | constructor].
  - cbn. bsplit; auto. unfold at_end, P0; cbn. lia.
Qed.
(** The limiter of the drift-kick-drift scheme ends a step at a time that is not a multiple of the new one. *)
Lemma DKD_limiter : exists c st st1 h k p, conf_ok c /\ run c DKD_Check st /\ checking c DKD_Check st st1 /\
  Checks (DKD_Check (k_ldm c) (s_lstep st1) (s_n st1)) (s_h st1) = Some (h, k) /\
  In p h /\ b_dead p = false /\ ~ In p (s_h st1) /\ ~ (2 ^ (s_lstep st1 - b_level p) | b_nlast p + b_nstep p).
Proof.
  destruct D2 as [t H]. exists cD. eexists. eexists. eexists. eexists. exists (P0 1 2 2 0 (8 * 1) 0 false 16).
  split; [unfold conf_ok, cD; cbn; lia|]. split; [exact H|]. split; [apply checking_first; constructor; apply neib_refl|].
  split; [bev; reflexivity|]. split; [left; reflexivity|]. split; [reflexivity|]. split.
  - cbn. unfold P0. intros [E|[E|[]]]; discriminate E.
  - bev. intros [z Hz]. lia.
Qed.

(** ** level_diff_max = 0 with sinks: division by zero in the limiter *)
Lemma ctl8_100 : ComputeTimestepLevel 100 8 = 0. Proof. apply CTL_far; lra. Qed.
Lemma ctl8_1 : ComputeTimestepLevel 1 8 = 3.
Proof. replace 1%R with (8 / 2 ^ 3)%R by (cbn; lra). apply (CTL_pow2 8 3); [lra | lia | lia]. Qed.
Lemma ctl8_2 : ComputeTimestepLevel 2 8 = 2.
Proof. replace 2%R with (8 / 2 ^ 2)%R by (cbn; lra). apply (CTL_pow2 8 2); [lra | lia | lia]. Qed.
Ltac ctlZ := rewrite ?ctl8_100, ?ctl8_1, ?ctl8_2.
Definition cZ : bconf := mkK 4 1 0 false.
Definition z0 : bstate := mkS 0 0 0 0 0 0 0 [P0 0 0 0 0 0 0 false 100] [P0 0 0 0 0 0 0 false 1].
Notation ZZ n nr lm ls a s := (exists t, run cZ KDK_Check (mkS n nr lm ls 8 (8 / IZR nr) t [a] [s])).
Lemma Z1 : ZZ 0 8 3 3 (P0 0 0 8 0 (8 * 1) 0 false 100) (P0 3 0 1 0 (1 * 1) 0 false 1).
Proof.
  exists 0%R. eapply eq_ind; [apply (run_start cZ KDK_Check z0); [reflexivity | repeat constructor; cbn; lra | repeat constructor; cbn; lra | repeat constructor]|].
  unfold ComputeBlockTimesteps. change (s_n z0 =? s_nresync z0) with true. cbv iota. unfold CBT_resync.
  replace (Rmin (minreq (s_h z0) big_number) (minreq (s_s z0) big_number)) with 1%R by (unfold z0; rmins).
  replace (minreq (s_h z0) big_number) with 100%R by (unfold z0; rmins).
  replace (1 * 2 ^ Z.to_nat (k_Nlevels cZ - 1))%R with 8%R by (change (Z.to_nat (k_Nlevels cZ - 1)) with 3%nat; simpl; lra).
  bev. unfold resync_hydro, resync_star. bev. ctlZ. bev. reflexivity.
Qed.
Ltac goZ a h4 s5 := match goal with H : exists t, run _ _ _ |- _ => destruct H as [t H]; eexists;
   eapply eq_ind; [eapply (run_go cZ KDK_Check _ [a] [a] [h4] [h4] [s5]); [exact H | apply neib_refl | bev; reflexivity | nb | en | ] | nextpass ctlZ] end.
Lemma Z2 : ZZ 1 8 3 3 (P0 0 0 8 0 (8 * 1) 0 false 100) (P0 3 0 1 1 (1 * (8 / 8)) 0 false 1).
Proof. pose proof Z1 as H. goZ (P0 0 0 8 0 (8 * 1) 0 false 100) (P0 0 0 8 0 (8 * 1) 0 false 100) (P0 3 0 1 0 (1 * 1) 0 false 1). en. Qed.
Lemma env_star : forall lev neib nstep nlast dt dtn e r r', (0 < r')%R ->
  Forall2 (env_part false) [P0 lev neib nstep nlast dt dtn e r] [P0 lev neib nstep nlast dt dtn e r'].
Proof. intros. repeat constructor. exists false, r', (-1). cbn. auto. Qed.
Lemma Z3 : ZZ 1 4 2 2 (P0 0 3 4 0 (8 * 1) 0 false 100) (P0 2 0 1 1 (2 * (8 / 8)) 0 false 2).
Proof.
  pose proof Z2 as H. goZ (P0 0 0 8 0 (8 * 1) 0 false 100) (P0 0 3 8 0 (8 * 1) 0 false 100) (P0 3 0 1 1 (1 * (8 / 8)) 0 false 2).
  apply env_star. lra.
Qed.
Lemma ldm0_divides_by_zero : exists c st st1, 2 <= k_Nlevels c /\ k_istep c = 1 /\ k_ldm c = 0 /\ run c KDK_Check st /\
  checking c KDK_Check st st1 /\ Checks (KDK_Check (k_ldm c) (s_lstep st1) (s_n st1)) (s_h st1) = None.
Proof.
  destruct Z3 as [t H]. exists cZ. eexists. eexists. split; [cbn; lia|]. split; [reflexivity|]. split; [reflexivity|]. split; [exact H|].
  split; [apply checking_first; constructor; apply neib_refl|]. bev. reflexivity.
Qed.

(** ** The stored step length *)
Lemma ctl4_half : ComputeTimestepLevel (1 / 2) 4 = 3.
Proof. replace (1 / 2)%R with (4 / 2 ^ 3)%R by (cbn; lra). apply (CTL_pow2 4 3); [lra | lia | lia]. Qed.
Ltac ctlE := rewrite ?ctl4_16, ?ctl4_1, ?ctl4_half.

(** (1) The limiter shortens nstep but not dt. *)
Definition cE : bconf := mkK 3 1 1 false.
Definition e0 : bstate := mkS 0 0 0 0 0 0 0 [P0 0 0 0 0 0 0 false 16; P0 0 0 0 0 0 0 false 1] [].
Notation EE n a b := (exists t, run cE KDK_Check (mkS n 4 2 2 4 (4 / 4) t [a; b] [])).
Lemma E1 : EE 0 (P0 0 0 4 0 (4 * 1) 0 false 16) (P0 2 2 1 0 (1 * 1) 0 false 1).
Proof.
  exists 0%R. eapply eq_ind; [apply (run_start cE KDK_Check e0); [reflexivity | repeat constructor; cbn; lra | repeat constructor | repeat constructor]|].
  unfold ComputeBlockTimesteps. change (s_n e0 =? s_nresync e0) with true. cbv iota. unfold CBT_resync.
  replace (Rmin (minreq (s_h e0) big_number) (minreq (s_s e0) big_number)) with 1%R by (unfold e0; rmins).
  replace (minreq (s_h e0) big_number) with 1%R by (unfold e0; rmins).
  replace (1 * 2 ^ Z.to_nat (k_Nlevels cE - 1))%R with 4%R by (change (Z.to_nat (k_Nlevels cE - 1)) with 2%nat; simpl; lra).
  bev. unfold resync_hydro. bev. ctlE. bev. reflexivity.
Qed.
Lemma E2 : EE 1 (P0 0 0 4 0 (4 * 1) 0 false 16) (P0 2 2 1 1 (1 * (4 / 4)) 0 false 1).
Proof.
  pose proof E1 as [t H]. eexists. eapply eq_ind.
  - set (l := [P0 0 0 4 0 (4 * 1) 0 false 16; P0 2 2 1 0 (1 * 1) 0 false 1]).
    eapply (run_go cE KDK_Check _ l l l l []); [exact H | nb | bev; reflexivity | apply neib_refl | en | constructor].
  - nextpass ctlE.
Qed.
Lemma limiter_dt : exists c st st3 p, conf_ok c /\ k_istep c = 1 /\ k_single c = false /\ run c KDK_Check st /\ choosing c KDK_Check st st3 /\
  In p (s_h st3) /\ b_dead p = false /\ at_end (s_n st3) p /\
  (b_dt p = 4 /\ t_end (s_ts st3) p - t_start (s_ts st3) p = 2)%R.
Proof.
  destruct E2 as [t H]. exists cE. eexists. eexists. exists (P0 1 2 2 0 (4 * 1) 0 false 16).
  split; [unfold conf_ok, cE; cbn; lia|]. split; [reflexivity|]. split; [reflexivity|]. split; [exact H|]. split.
  - set (st := mkS _ _ _ _ _ _ _ _ _). set (l1 := [P0 0 2 4 0 (4 * 1) 0 false 16; P0 2 2 1 1 (1 * (4 / 4)) 0 false 1]).
    set (l2 := [P0 1 2 2 0 (4 * 1) 0 false 16; P0 2 2 1 1 (1 * (4 / 4)) 0 false 1]).
    exists (with_h (with_h (with_h (tick st) l1) l2) l2), (with_h (with_h (with_h (with_h (tick st) l1) l2) l2) l2). split; [|split].
    + eapply rounds_more with (k := 1); [apply (neibs_intro (tick st)) with (h := l1); nb | bev; reflexivity | lia |].
      apply (rounds_last cE KDK_Check _ (with_h (with_h (with_h (tick st) l1) l2) l2)); [|bev; reflexivity].
      apply (neibs_intro (with_h (with_h (tick st) l1) l2)). apply neib_refl.
    + constructor. apply neib_refl.
    + apply (env_intro _ l2 [] []); [en | constructor | constructor].
  - cbn. unfold at_end, t_end, t_start, P0; cbn. bsplit; auto; lra.
Qed.

(** (2) A jump above the deepest level stores dt = 0; (3) hydro_single_timestep stores the step of
    the particle's own level. *)
Definition j0 : bstate := mkS 0 0 0 0 0 0 0 [P0 0 0 0 0 0 0 false 1; P0 0 0 0 0 0 0 false 1] [].
Definition cJ (single : bool) : bconf := mkK 3 1 1 single.
Lemma J1 : forall single, run (cJ single) KDK_Check (mkS 0 4 2 2 4 (4 / 4) 0 [P0 2 2 1 0 (1 * 1) 0 false 1; P0 2 2 1 0 (1 * 1) 0 false 1] []).
Proof.
  intros b. eapply eq_ind; [apply (run_start (cJ b) KDK_Check j0); [reflexivity | repeat constructor; cbn; lra | repeat constructor | repeat constructor]|].
  unfold ComputeBlockTimesteps. change (s_n j0 =? s_nresync j0) with true. cbv iota. unfold CBT_resync.
  replace (Rmin (minreq (s_h j0) big_number) (minreq (s_s j0) big_number)) with 1%R by (unfold j0; rmins).
  replace (minreq (s_h j0) big_number) with 1%R by (unfold j0; rmins).
  replace (1 * 2 ^ Z.to_nat (k_Nlevels (cJ b) - 1))%R with 4%R by (change (Z.to_nat (k_Nlevels (cJ b) - 1)) with 2%nat; simpl; lra).
  bev. unfold resync_hydro. bev. ctlE. destruct b; bev; reflexivity.
Qed.
Lemma J2 : forall single, exists t, run (cJ single) KDK_Check (mkS 2 8 3 3 4 (4 / 8) t
   [P0 (if single then 3 else 2) 2 (if single then 1 else 2) 2 (1 * (4 / 4)) 0 false 1; P0 3 3 1 2 (0 * (4 / 4)) 0 false (1 / 2)] []).
Proof.
  intros b. eexists. eapply eq_ind.
  - set (l := [P0 2 2 1 0 (1 * 1) 0 false 1; P0 2 2 1 0 (1 * 1) 0 false 1]).
    eapply (run_go (cJ b) KDK_Check _ l l l [P0 2 2 1 0 (1 * 1) 0 false 1; P0 2 2 1 0 (1 * 1) 0 false (1 / 2)] []);
      [apply J1 | apply neib_refl | bev; reflexivity | apply neib_refl | | constructor].
    repeat constructor; [exists false, 1%R, (-1) | exists false, (1 / 2)%R, (-1)]; cbn; (split; [lra|auto]).
  - bev. unfold CBT_next, next_hydro, next_star. bev. ctlE. destruct b; bev; reflexivity.
Qed.
Lemma jump_dt : exists c st p, conf_ok c /\ k_istep c = 1 /\ k_single c = false /\ run c KDK_Check st /\
  In p (s_h st) /\ b_dead p = false /\ b_nlast p = s_n st /\ (b_dt p = 0 /\ t_end (s_ts st) p - t_start (s_ts st) p = 1 / 2)%R.
Proof.
  destruct (J2 false) as [t H]. exists (cJ false). eexists. exists (P0 3 3 1 2 (0 * (4 / 4)) 0 false (1 / 2)).
  split; [unfold conf_ok, cJ; cbn; lia|]. split; [reflexivity|]. split; [reflexivity|]. split; [exact H|].
  cbn. unfold t_end, t_start, P0; cbn. bsplit; auto; lra.
Qed.
Lemma single_dt : exists c st p, conf_ok c /\ k_istep c = 1 /\ k_single c = true /\ run c KDK_Check st /\
  In p (s_h st) /\ b_dead p = false /\ b_nlast p = s_n st /\ (b_dt p = 1 /\ t_end (s_ts st) p - t_start (s_ts st) p = 1 / 2)%R.
Proof.
  destruct (J2 true) as [t H]. exists (cJ true). eexists. exists (P0 3 2 1 2 (1 * (4 / 4)) 0 false 1).
  split; [unfold conf_ok, cJ; cbn; lia|]. split; [reflexivity|]. split; [reflexivity|]. split; [exact H|].
  cbn. unfold t_end, t_start, P0; cbn. bsplit; auto; lra.
Qed.
(** (4) integration_step = 2: after a resynchronisation dt is twice the step. *)
Lemma K1 : exists t, run cD KDK_Check (mkS 0 8 2 3 4 (4 / 8) t [P0 0 0 8 0 (8 * 1) 0 false 16; P0 2 2 2 0 (2 * 1) 0 false 1] []).
Proof.
  exists 0%R. rewrite <- d1_eq. apply run_start; [reflexivity | | constructor | constructor]. repeat constructor; cbn; lra.
Qed.
Lemma istep2_dt : exists c st p, conf_ok c /\ k_istep c = 2 /\ k_single c = false /\ run c KDK_Check st /\
  In p (s_h st) /\ b_dead p = false /\ b_nlast p = s_n st /\ (b_dt p = 8 /\ t_end (s_ts st) p - t_start (s_ts st) p = 4)%R.
Proof.
  destruct K1 as [t H]. exists cD. eexists. exists (P0 0 0 8 0 (8 * 1) 0 false 16).
  split; [unfold conf_ok, cD; cbn; lia|]. split; [reflexivity|]. split; [reflexivity|]. split; [exact H|].
  cbn. unfold t_end, t_start, P0; cbn. bsplit; auto; lra.
Qed.
