From Verif Require Import Prelude L_Prelude Vec M_Box L_Box M_Force S_Stock L_Stock S_Force L_Force L_Force2.
From Coq Require Import Reals Lra.
Local Open Scope R_scope.

Lemma small_pos : 0 < small_number.
Proof. unfold small_number. apply Rinv_0_lt_compat. apply pow_lt. lra. Qed.

Section Heat.
Variables (n : nat) (w1 wgrav wpot : R -> R).
Variables (avisc : aviscenum) (acond : acondenum) (tdavisc : tdaviscenum) (al be almin : R) (Pr : fpart -> R).
Notation HF av ac := (ComputeSphHydroForces n w1 av ac tdavisc al be almin Pr).
Notation HGF av ac := (ComputeSphHydroGravForces n w1 wgrav wpot av ac tdavisc al be almin Pr).


Lemma gd_pos : forall p q, 0 < gd n p q.
Proof.
  intros. unfold gd. apply sqrt_lt_R0. pose proof (dot_nonneg n (vsub (f_r q) (f_r p))). pose proof small_pos. lra.
Qed.
(** The sign of the approach speed. *)
Lemma hv_sign : forall p q, hv n p q < 0 <-> approaching n p q.
Proof.
  intros p q. unfold hv, approaching. rewrite <- dot_sub_l.
  change (dot n (vsub (f_v q) (f_v p)) (he n p q) < 0 <-> dot n (vsub (f_v q) (f_v p)) (vsub (f_r q) (f_r p)) < 0).
  set (v := vsub (f_v q) (f_v p)). set (r := vsub (f_r q) (f_r p)).
  unfold he. fold r. destruct (rltb 0 (hd n p q)) eqn:E; [|reflexivity]. apply rltb_true in E.
  assert (D : dot n v (fun k => r k / hd n p q) = / hd n p q * dot n v r).
  { rewrite <- dot_scal_r. apply dot_ext; intros; unfold vscal, Rdiv; lra. }
  rewrite D. pose proof (Rinv_0_lt_compat _ E) as I.
  assert (X : dot n v r = hd n p q * (/ hd n p q * dot n v r)) by (field; lra).
  split; intros H; nra.
Qed.
Lemma gv_sign : forall p q, gv n p q < 0 <-> approaching n p q.
Proof.
  intros p q. unfold gv, approaching.
  set (v := vsub (f_v q) (f_v p)). set (r := vsub (f_r q) (f_r p)).
  pose proof (gd_pos p q) as E.
  assert (D : dot n v (ge n p q) = / gd n p q * dot n v r).
  { rewrite <- dot_scal_r. apply dot_ext; intros; unfold ge, vscal, Rdiv; fold r; lra. }
  rewrite D. pose proof (Rinv_0_lt_compat _ E) as I.
  assert (X : dot n v r = gd n p q * (/ gd n p q * dot n v r)) by (field; lra).
  split; intros H; nra.
Qed.

Lemma lsum_le : forall {A} (f g : A -> R) l, (forall x, In x l -> f x <= g x) -> lsum f l <= lsum g l.
Proof.
  induction l as [|a l IH]; intros H; cbn; [lra|]. assert (f a <= g a) by (apply H; now left).
  assert (lsum f l <= lsum g l) by (apply IH; intros; apply H; now right). lra.
Qed.
Lemma wi_neg : forall p d, (forall s, 0 <= s -> w1 s <= 0) -> 0 <= d -> physical p -> wi_ w1 p d <= 0.
Proof.
  intros p d H Hd (_ & _ & Hh & _ & _ & H0). unfold wi_.
  assert (0 <= d * (1 / f_h p)) by (apply Rmult_le_pos; [|apply Rlt_le, Rdiv_lt_0_compat]; lra).
  specialize (H (d * (1 / f_h p)) ltac:(assumption)). nra.
Qed.
Lemma hd_pos : forall p q, 0 <= hd n p q.
Proof. intros. apply sqrt_pos. Qed.
Lemma gd_pos' : forall p q, 0 <= gd n p q.
Proof. intros. apply Rlt_le, gd_pos. Qed.
(** The viscous part of the pair term. *)
Definition vd (p q : fpart) (v wi wj : R) : R :=
  du avisc acond al be p q v wi wj - du noav acond al be p q v wi wj.
Lemma vd_nonneg : forall p q v wi wj, physical p -> physical q -> 0 <= al -> 0 <= be -> wi <= 0 -> wj <= 0 ->
  0 <= vd p q v wi wj.
Proof.
  intros p q v wi wj (A1 & A2 & A3 & A4 & A5 & A6) (B1 & B2 & B3 & B4 & B5 & B6) Ha Hb Hwi Hwj.
  unfold vd, du, dissipation. destruct (rltb v 0) eqn:E; [|cbn; lra]. apply rltb_true in E.
  assert (I1 : 0 < 1 / f_rho p) by (apply Rdiv_lt_0_compat; lra).
  assert (I2 : 0 < 1 / f_rho q) by (apply Rdiv_lt_0_compat; lra).
  assert (W : 1 / 4 * (wi + wj) * (1 / f_rho p + 1 / f_rho q) <= 0).
  { replace (1 / 4 * (wi + wj) * (1 / f_rho p + 1 / f_rho q)) with (- (1 / 4 * - (wi + wj) * (1 / f_rho p + 1 / f_rho q))) by lra.
    apply Ropp_le_cancel. rewrite Ropp_0, Ropp_involutive. repeat apply Rmult_le_pos; lra. }
  set (W0 := 1 / 4 * (wi + wj) * (1 / f_rho p + 1 / f_rho q)) in *.
  assert (K : forall a, 0 <= a -> 0 <= - (1 / 2 * f_m q * a * (f_sound p + f_sound q - be * a * v) * v * v * W0)).
  { intros a Hv. assert (0 <= f_sound p + f_sound q - be * a * v) by (assert (0 <= be * a) by nra; nra).
    replace (- (1 / 2 * f_m q * a * (f_sound p + f_sound q - be * a * v) * v * v * W0))
      with (1 / 2 * f_m q * a * (f_sound p + f_sound q - be * a * v) * (v * v) * - W0) by ring.
    pose proof (Rle_0_sqr v) as V; unfold Rsqr in V; set (vv := v * v) in *; clearbody vv.
    repeat apply Rmult_le_pos; lra. }
  destruct avisc, acond; cbn [fst snd]; try lra;
    try (specialize (K al Ha); lra); specialize (K (1 / 2 * (f_alpha p + f_alpha q)) ltac:(lra)); lra.
Qed.
Lemma vd_away : forall p q v wi wj, 0 <= v -> vd p q v wi wj = 0 /\ dp avisc acond al be p q v wi wj = 0.
Proof.
  intros. unfold vd, du, dp, dissipation. assert (E : rltb v 0 = false) by (apply rltb_false; lra). rewrite E. cbn. lra.
Qed.
Hypothesis (Hw : forall s, 0 <= s -> w1 s <= 0) (Ha : 0 <= al) (Hb : 0 <= be).
Lemma dudt_diff_H : forall p l, a_dudt (HF avisc acond p acc0 l) - a_dudt (HF noav acond p acc0 l) =
  lsum (fun q => vd p q (hv n p q) (wi_ w1 p (hd n p q)) (wi_ w1 q (hd n p q))) l.
Proof.
  intros. rewrite !HF_dudt. induction l as [|q l IH]; cbn [lsum]; [lra|]. rewrite <- IH. unfold vd. lra.
Qed.
Lemma dudt_diff_HG : forall p l, a_dudt (HGF avisc acond p acc0 l) - a_dudt (HGF noav acond p acc0 l) =
  lsum (fun q => vd p q (gv n p q) (wi_ w1 p (gd n p q)) (wi_ w1 q (gd n p q))) l.
Proof.
  intros. rewrite !HGF_dudt. induction l as [|q l IH]; cbn [lsum]; [lra|]. rewrite <- IH. unfold vd. lra.
Qed.
Lemma heats : forall p l, physical p -> (forall q, In q l -> physical q) ->
  a_dudt (HF noav acond p acc0 l) <= a_dudt (HF avisc acond p acc0 l) /\
  a_dudt (HGF noav acond p acc0 l) <= a_dudt (HGF avisc acond p acc0 l).
Proof.
  intros p l Hp Hl. split.
  - assert (0 <= a_dudt (HF avisc acond p acc0 l) - a_dudt (HF noav acond p acc0 l)); [|lra].
    rewrite dudt_diff_H. apply lsum_nonneg. intros q Hq. apply vd_nonneg; auto; apply wi_neg; auto using hd_pos, gd_pos'.
  - assert (0 <= a_dudt (HGF avisc acond p acc0 l) - a_dudt (HGF noav acond p acc0 l)); [|lra].
    rewrite dudt_diff_HG. apply lsum_nonneg. intros q Hq. apply vd_nonneg; auto; apply wi_neg; auto using hd_pos, gd_pos'.
Qed.
Lemma only_approaching : forall p l, (forall q, In q l -> ~ approaching n p q) ->
  (a_dudt (HF avisc acond p acc0 l) = a_dudt (HF noav acond p acc0 l) /\
   forall k, a_a (HF avisc acond p acc0 l) k = a_a (HF noav acond p acc0 l) k) /\
  (a_dudt (HGF avisc acond p acc0 l) = a_dudt (HGF noav acond p acc0 l) /\
   forall k, a_a (HGF avisc acond p acc0 l) k = a_a (HGF noav acond p acc0 l) k).
Proof.
  intros p l Hl.
  assert (H1 : forall q, In q l -> 0 <= hv n p q).
  { intros q Hq. destruct (Rlt_dec (hv n p q) 0) as [H|H]; [|lra]. apply hv_sign in H. now apply Hl in Hq. }
  assert (H2 : forall q, In q l -> 0 <= gv n p q).
  { intros q Hq. destruct (Rlt_dec (gv n p q) 0) as [H|H]; [|lra]. apply gv_sign in H. now apply Hl in Hq. }
  assert (D0 : forall p q v wi wj, 0 <= v -> dp noav acond al be p q v wi wj = 0).
  { intros. unfold dp, dissipation. assert (E : rltb v 0 = false) by (apply rltb_false; lra). rewrite E. reflexivity. }
  repeat split.
  - assert (E : a_dudt (HF avisc acond p acc0 l) - a_dudt (HF noav acond p acc0 l) = 0); [|lra].
    rewrite dudt_diff_H. apply lsum_zero. intros q Hq. now apply vd_away, H1.
  - intros k. rewrite !HF_a. apply lsum_ext. intros q Hq. unfold pa.
    rewrite D0 by auto. destruct (vd_away p q (hv n p q) (wi_ w1 p (hd n p q)) (wi_ w1 q (hd n p q)) (H1 q Hq)) as [_ ->]. reflexivity.
  - assert (E : a_dudt (HGF avisc acond p acc0 l) - a_dudt (HGF noav acond p acc0 l) = 0); [|lra].
    rewrite dudt_diff_HG. apply lsum_zero. intros q Hq. now apply vd_away, H2.
  - intros k. rewrite !HGF_a. apply lsum_ext. intros q Hq. unfold pa.
    rewrite D0 by auto. destruct (vd_away p q (gv n p q) (wi_ w1 p (gd n p q)) (wi_ w1 q (gd n p q)) (H2 q Hq)) as [_ ->]. reflexivity.
Qed.
(** The viscous force pushes the particle away from the neighbour it approaches. *)
Lemma dp_neg : forall p q v wi wj, physical p -> physical q -> wi <= 0 -> wj <= 0 ->
  dp avisc acond al be p q v wi wj <= 0 /\ dp noav acond al be p q v wi wj = 0.
Proof.
  intros p q v wi wj (A1 & A2 & A3 & A4 & A5 & A6) (B1 & B2 & B3 & B4 & B5 & B6) Hwi Hwj.
  unfold dp, dissipation. destruct (rltb v 0) eqn:E; [|cbn; lra]. apply rltb_true in E.
  assert (I1 : 0 < 1 / f_rho p) by (apply Rdiv_lt_0_compat; lra).
  assert (I2 : 0 < 1 / f_rho q) by (apply Rdiv_lt_0_compat; lra).
  assert (W : 1 / 4 * (wi + wj) * (1 / f_rho p + 1 / f_rho q) <= 0).
  { replace (1 / 4 * (wi + wj) * (1 / f_rho p + 1 / f_rho q)) with (- (1 / 4 * - (wi + wj) * (1 / f_rho p + 1 / f_rho q))) by lra.
    apply Ropp_le_cancel. rewrite Ropp_0, Ropp_involutive. repeat apply Rmult_le_pos; lra. }
  set (W0 := 1 / 4 * (wi + wj) * (1 / f_rho p + 1 / f_rho q)) in *.
  assert (K : forall a, 0 <= a -> 0 <= a * (f_sound p + f_sound q - be * a * v) * v * W0).
  { intros a Hv. assert (0 <= f_sound p + f_sound q - be * a * v) by (assert (0 <= be * a) by nra; nra).
    replace (a * (f_sound p + f_sound q - be * a * v) * v * W0) with (a * (f_sound p + f_sound q - be * a * v) * - v * - W0) by ring.
    repeat apply Rmult_le_pos; lra. }
  split; [|destruct acond; reflexivity].
  destruct avisc, acond; cbn [fst snd]; try lra;
    try (specialize (K al Ha); lra); specialize (K (1 / 2 * (f_alpha p + f_alpha q)) ltac:(lra)); lra.
Qed.
Lemma opposes : forall p q, physical p -> physical q ->
  dot n (vsub (a_a (HF avisc acond p acc0 [q])) (a_a (HF noav acond p acc0 [q]))) (vsub (f_r q) (f_r p)) <= 0 /\
  dot n (vsub (a_a (HGF avisc acond p acc0 [q])) (a_a (HGF noav acond p acc0 [q]))) (vsub (f_r q) (f_r p)) <= 0.
Proof.
  intros p q Hp Hq.
  assert (HmQ : 0 <= f_m q) by apply Hq.
  assert (G : forall (e : vec) (d v : R) (A B : vec), 0 <= d -> 0 <= dot n e (vsub (f_r q) (f_r p)) ->
    (forall k, A k = f_m q * e k * pa w1 avisc acond al be p q d v + 0) ->
    (forall k, B k = f_m q * e k * pa w1 noav acond al be p q d v + 0) ->
    dot n (vsub A B) (vsub (f_r q) (f_r p)) <= 0).
  { intros e d v A B Hd He HA HB.
    destruct (dp_neg p q v (wi_ w1 p d) (wi_ w1 q d) Hp Hq) as [D1 D2]; try (apply wi_neg; auto using hd_pos, gd_pos').
    assert (E : dot n (vsub A B) (vsub (f_r q) (f_r p)) =
       f_m q * dp avisc acond al be p q v (wi_ w1 p d) (wi_ w1 q d) * dot n e (vsub (f_r q) (f_r p))).
    { rewrite <- dot_scal_l. apply dot_ext; [|reflexivity]. intros k _. unfold vsub, vscal. rewrite HA, HB. unfold pa. rewrite D2. ring. }
    rewrite E. assert (f_m q * dp avisc acond al be p q v (wi_ w1 p d) (wi_ w1 q d) <= 0) by nra. nra. }
  split.
  - apply (G (he n p q) (hd n p q) (hv n p q)); [apply hd_pos| | |].
    + unfold he. destruct (rltb 0 (hd n p q)) eqn:E; [|apply dot_nonneg]. apply rltb_true in E.
      rewrite (dot_ext n (fun k => vsub (f_r q) (f_r p) k / hd n p q) (vscal (/ hd n p q) (vsub (f_r q) (f_r p)))
                 (vsub (f_r q) (f_r p)) (vsub (f_r q) (f_r p))).
      * rewrite dot_scal_l. apply Rmult_le_pos; [left; now apply Rinv_0_lt_compat|apply dot_nonneg].
      * intros; unfold vscal, Rdiv; lra.
      * reflexivity.
    + intros. rewrite HF_a. reflexivity.
    + intros. rewrite HF_a. reflexivity.
  - apply (G (ge n p q) (gd n p q) (gv n p q)); [apply gd_pos'| | |].
    + rewrite (dot_ext n (ge n p q) (vscal (/ gd n p q) (vsub (f_r q) (f_r p)))
                 (vsub (f_r q) (f_r p)) (vsub (f_r q) (f_r p))).
      * rewrite dot_scal_l. apply Rmult_le_pos; [left; apply Rinv_0_lt_compat, gd_pos|apply dot_nonneg].
      * intros; unfold ge, vscal, Rdiv; lra.
      * reflexivity.
    + intros. rewrite HGF_a. reflexivity.
    + intros. rewrite HGF_a. reflexivity.
Qed.
(** Artificial conductivity. *)
Definition cd (p q : fpart) (v wi wj : R) : R :=
  du avisc acond al be p q v wi wj - du avisc noac al be p q v wi wj.
Lemma cd_sign : forall p q v wi wj, physical p -> physical q -> wi <= 0 -> wj <= 0 ->
  0 <= cd p q v wi wj * (f_u q - f_u p) /\ (0 <= v -> cd p q v wi wj = 0).
Proof.
  intros p q v wi wj (A1 & A2 & A3 & A4 & A5 & A6) (B1 & B2 & B3 & B4 & B5 & B6) Hwi Hwj.
  unfold cd, du, dissipation. destruct (rltb v 0) eqn:E; [|cbn; split; intros; lra]. apply rltb_true in E.
  split; [|intros; lra].
  assert (I1 : 0 < 1 / f_rho p) by (apply Rdiv_lt_0_compat; lra).
  assert (I2 : 0 < 1 / f_rho q) by (apply Rdiv_lt_0_compat; lra).
  set (i1 := 1 / f_rho p) in *. set (i2 := 1 / f_rho q) in *. set (w := f_u q - f_u p).
  assert (K1 : 0 <= f_m q * v * w * (i1 * wi + i2 * wj) * w).
  { replace (f_m q * v * w * (i1 * wi + i2 * wj) * w) with (f_m q * - v * (i1 * - wi + i2 * - wj) * (w * w)) by ring.
    assert (0 <= i1 * - wi) by nra. assert (0 <= i2 * - wj) by nra.
    pose proof (Rle_0_sqr w) as V; unfold Rsqr in V; set (vv := w * w) in *; clearbody vv. repeat apply Rmult_le_pos; lra. }
  set (sq := sqrt (Rabs (f_pressure p - f_pressure q))). assert (0 <= sq) by apply sqrt_pos.
  assert (K2 : 0 <= 1 / 2 * f_m q * (f_u p - f_u q) * (1 / 4 * (wi + wj) * (i1 + i2)) * (i1 + i2) * sq * w).
  { replace (1 / 2 * f_m q * (f_u p - f_u q) * (1 / 4 * (wi + wj) * (i1 + i2)) * (i1 + i2) * sq * w)
      with (1 / 2 * f_m q * (1 / 4 * - (wi + wj) * (i1 + i2)) * (i1 + i2) * sq * (w * w)) by (unfold w; ring).
    pose proof (Rle_0_sqr w) as V; unfold Rsqr in V; set (vv := w * w) in *; clearbody vv. repeat apply Rmult_le_pos; lra. }
  destruct avisc, acond; cbn [fst snd]; try lra; subst w; nra.
Qed.
Lemma cdudt_diff : forall p q, a_dudt (HF avisc acond p acc0 [q]) - a_dudt (HF avisc noac p acc0 [q]) =
    cd p q (hv n p q) (wi_ w1 p (hd n p q)) (wi_ w1 q (hd n p q)) /\
  a_dudt (HGF avisc acond p acc0 [q]) - a_dudt (HGF avisc noac p acc0 [q]) =
    cd p q (gv n p q) (wi_ w1 p (gd n p q)) (wi_ w1 q (gd n p q)).
Proof. intros. rewrite !HF_dudt, !HGF_dudt. cbn [lsum]. unfold cd. split; lra. Qed.
Lemma conducts : forall p q, physical p -> physical q ->
  0 <= (a_dudt (HF avisc acond p acc0 [q]) - a_dudt (HF avisc noac p acc0 [q])) * (f_u q - f_u p) /\
  0 <= (a_dudt (HGF avisc acond p acc0 [q]) - a_dudt (HGF avisc noac p acc0 [q])) * (f_u q - f_u p) /\
  (~ approaching n p q -> a_dudt (HF avisc acond p acc0 [q]) = a_dudt (HF avisc noac p acc0 [q]) /\
                          a_dudt (HGF avisc acond p acc0 [q]) = a_dudt (HGF avisc noac p acc0 [q])).
Proof.
  intros p q Hp Hq. destruct (cdudt_diff p q) as [E1 E2].
  destruct (cd_sign p q (hv n p q) (wi_ w1 p (hd n p q)) (wi_ w1 q (hd n p q)) Hp Hq) as [S1 Z1]; try (apply wi_neg; auto using hd_pos, gd_pos').
  destruct (cd_sign p q (gv n p q) (wi_ w1 p (gd n p q)) (wi_ w1 q (gd n p q)) Hp Hq) as [S2 Z2]; try (apply wi_neg; auto using hd_pos, gd_pos').
  rewrite E1, E2. repeat split; auto.
  - assert (0 <= hv n p q) by (destruct (Rlt_dec (hv n p q) 0) as [X|X]; [now apply hv_sign in X|lra]).
    rewrite (Z1 H0) in E1. lra.
  - assert (0 <= gv n p q) by (destruct (Rlt_dec (gv n p q) 0) as [X|X]; [now apply gv_sign in X|lra]).
    rewrite (Z2 H0) in E2. lra.
Qed.
End Heat.
