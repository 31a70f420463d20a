From Verif Require Import Prelude L_Prelude Vec M_Box L_Box M_Force S_Stock L_Stock S_Force L_Force L_Force2 L_Force3.
From Coq Require Import Reals Lra.
Local Open Scope R_scope.

(** ** Change of units *)
Section Units.
Variables (n : nat) (w1 : R -> R).
Variables (avisc : aviscenum) (acond : acondenum) (tdavisc : tdaviscenum) (al be almin : R) (Pr : fpart -> R).
Variables (ul um ut : R).
Hypothesis (Hl : 0 < ul) (Hm : 0 < um) (Ht : 0 < ut).
Notation sc := (rescale n ul um ut).
Notation HF := (ComputeSphHydroForces n w1 avisc acond tdavisc al be almin Pr).
Lemma uln : 0 < ul ^ n.
Proof. now apply pow_lt. Qed.
Lemma hd_sc : forall p q, hd n (sc p) (sc q) = ul * hd n p q.
Proof.
  intros. unfold hd.
  rewrite (dot_ext n (vsub (f_r (sc q)) (f_r (sc p))) (vscal ul (vsub (f_r q) (f_r p)))
                     (vsub (f_r (sc q)) (f_r (sc p))) (vscal ul (vsub (f_r q) (f_r p)))).
  - rewrite dot_scal_l, dot_scal_r, <- Rmult_assoc, sqrt_mult by (try apply dot_nonneg; nra).
    rewrite sqrt_square by lra. reflexivity.
  - intros. unfold vsub, vscal. cbn. ring.
  - intros. unfold vsub, vscal. cbn. ring.
Qed.
Lemma he_sc : forall p q k, he n (sc p) (sc q) k * (if rltb 0 (hd n p q) then ul else 1) = ul * he n p q k.
Proof.
  intros. unfold he. rewrite hd_sc.
  assert (E : rltb 0 (ul * hd n p q) = rltb 0 (hd n p q)).
  { unfold rltb. destruct (Rlt_dec 0 (ul * hd n p q)), (Rlt_dec 0 (hd n p q)); auto; exfalso; nra. }
  rewrite E. destruct (rltb 0 (hd n p q)) eqn:D.
  - apply rltb_true in D. unfold vsub. cbn. field. split; lra.
  - unfold vsub. cbn. ring.
Qed.
(** At zero distance the direction vanishes. *)
Lemma he_zero : forall p q k, (k < n)%nat -> rltb 0 (hd n p q) = false -> he n p q k = 0.
Proof.
  intros p q k Hk H. unfold he. rewrite H. apply rltb_false in H.
  assert (E : dot n (vsub (f_r q) (f_r p)) (vsub (f_r q) (f_r p)) = 0).
  { unfold hd in H. pose proof (sqrt_pos (dot n (vsub (f_r q) (f_r p)) (vsub (f_r q) (f_r p)))).
    apply sqrt_eq_0; [apply dot_nonneg|lra]. }
  unfold dot in E.
  assert (vsub (f_r q) (f_r p) k * vsub (f_r q) (f_r p) k <= 0).
  { rewrite <- E. apply (sumf_term_le n (fun k => vsub (f_r q) (f_r p) k * vsub (f_r q) (f_r p) k)); auto. intros. apply Rle_0_sqr. }
  nra.
Qed.
Lemma he_scn : forall p q k, (k < n)%nat -> he n (sc p) (sc q) k = he n p q k.
Proof.
  intros p q k Hk. pose proof (he_sc p q k) as E. destruct (rltb 0 (hd n p q)) eqn:D.
  - apply Rmult_eq_reg_l with ul; lra.
  - rewrite (he_zero p q k Hk D) in *. lra.
Qed.
Lemma hv_sc : forall p q, hv n (sc p) (sc q) = ul / ut * hv n p q.
Proof.
  intros. unfold hv. rewrite <- !dot_sub_l.
  rewrite <- dot_scal_l. apply dot_ext.
  - intros. unfold vsub, vscal. cbn. ring.
  - intros. now apply he_scn.
Qed.
Lemma wi_sc : forall p d, wi_ w1 (sc p) (ul * d) = / (ul ^ n * ul) * wi_ w1 p d.
Proof.
  intros. unfold wi_. cbn [rescale f_hfactor f_h].
  replace (ul * d * (1 / (ul * f_h p))) with (d * (1 / f_h p)).
  - ring.
  - unfold Rdiv. rewrite Rinv_mult. generalize (/ f_h p). intros. field. lra.
Qed.
Lemma inv_sc : forall x, 1 / (um / ul ^ n * x) = ul ^ n / um * (1 / x).
Proof. intros. pose proof uln. unfold Rdiv. rewrite Rinv_mult, Rinv_mult, Rinv_inv. ring. Qed.
Lemma ppair_sc : forall p q wi wj,
  ppair (sc p) (sc q) (/ (ul ^ n * ul) * wi) (/ (ul ^ n * ul) * wj) = ul / (um * ut ^ 2) * ppair p q wi wj.
Proof.
  intros. pose proof uln. unfold ppair. cbn [rescale f_pressure f_invomega f_rho].
  assert (K : forall P o r w, um / ul ^ n * (ul / ut) ^ 2 * P * o / (um / ul ^ n * r * (um / ul ^ n * r)) * (/ (ul ^ n * ul) * w) =
              ul / (um * ut ^ 2) * (P * o / (r * r) * w)).
  { intros. unfold Rdiv. rewrite !Rinv_mult, Rinv_inv. generalize (/ r). intros. field. repeat split; try lra; apply pow_nonzero; lra. }
  rewrite !K. ring.
Qed.
Hypothesis Hacond : acond <> price2008.
Lemma rltb_sc : forall v, rltb (ul / ut * v) 0 = rltb v 0.
Proof.
  intros. assert (0 < ul / ut) by now apply Rdiv_lt_0_compat.
  unfold rltb. destruct (Rlt_dec (ul / ut * v) 0), (Rlt_dec v 0); auto; exfalso; nra.
Qed.
Lemma diss_sc : forall p q v wi wj,
  dp avisc acond al be (sc p) (sc q) (ul / ut * v) (/ (ul ^ n * ul) * wi) (/ (ul ^ n * ul) * wj) =
    ul / (um * ut ^ 2) * dp avisc acond al be p q v wi wj /\
  du avisc acond al be (sc p) (sc q) (ul / ut * v) (/ (ul ^ n * ul) * wi) (/ (ul ^ n * ul) * wj) =
    ul ^ 2 / ut ^ 3 * du avisc acond al be p q v wi wj.
Proof.
  intros. pose proof uln. unfold dp, du, dissipation. rewrite rltb_sc. cbn [rescale f_rho f_sound f_alpha f_m f_u f_pressure].
  rewrite !inv_sc. generalize (1 / f_rho p) (1 / f_rho q). intros ip iq. destruct (rltb v 0); [|cbn; split; ring].
  destruct avisc, acond; try (exfalso; now apply Hacond); cbn [fst snd]; split; field; repeat split; try lra; apply pow_nonzero; lra.
Qed.
Lemma pa_sc : forall p q, pa w1 avisc acond al be (sc p) (sc q) (hd n (sc p) (sc q)) (hv n (sc p) (sc q)) =
  ul / (um * ut ^ 2) * pa w1 avisc acond al be p q (hd n p q) (hv n p q).
Proof.
  intros. unfold pa. rewrite hd_sc, hv_sc, !wi_sc, ppair_sc.
  destruct (diss_sc p q (hv n p q) (wi_ w1 p (hd n p q)) (wi_ w1 q (hd n p q))) as [-> _]. ring.
Qed.
Lemma units_ok : forall p l, (forall q, Pr (sc q) = um / ul ^ n * (ul / ut) ^ 2 * Pr q) ->
  let x := HF p acc0 l in let y := HF (sc p) acc0 (map sc l) in
  (forall k, (k < n)%nat -> a_a y k = ul / ut ^ 2 * a_a x k) /\
  a_dudt y = ul ^ 2 / ut ^ 3 * a_dudt x /\ a_divv y = / ut * a_divv x /\ a_dalphadt y = / ut * a_dalphadt x.
Proof.
  intros p l HPr x y. pose proof uln as Un.
  assert (M : forall f, lsum f (map sc l) = lsum (fun q => f (sc q)) l).
  { intros f. clear. induction l as [|a l IH]; [easy|]. cbn [map lsum]. now rewrite IH. }
  assert (V : a_divv y = / ut * a_divv x).
  { unfold x, y, ComputeSphHydroForces. cbn [a_divv].
    destruct (hydro_fold n w1 avisc acond al be p l acc0) as (_ & _ & _ & _ & _ & F & _). rewrite F.
    destruct (hydro_fold n w1 avisc acond al be (sc p) (map sc l) acc0) as (_ & _ & _ & _ & _ & G & _). rewrite G.
    rewrite M. cbn [acc0 a_divv]. cbn [rescale f_rho]. rewrite inv_sc. generalize (1 / f_rho p). intros ip.
    rewrite (lsum_ext (fun q => f_m (sc q) * hv n (sc p) (sc q) * wi_ w1 (sc p) (hd n (sc p) (sc q)))
                      (fun q => (um / (ul ^ n * ut)) * (f_m q * hv n p q * wi_ w1 p (hd n p q)))).
    - rewrite lsum_scal. field. repeat split; try lra; apply pow_nonzero; lra.
    - intros q _. rewrite hv_sc, hd_sc, wi_sc. cbn [rescale f_m]. field. repeat split; try lra; apply pow_nonzero; lra. }
  repeat split.
  - intros k Hk. unfold x, y. rewrite !HF_a, M, <- lsum_scal. apply lsum_ext. intros q _.
    rewrite pa_sc, he_scn by assumption. cbn [rescale f_m]. field. repeat split; lra.
  - unfold x, y. rewrite !HF_dudt, M, <- lsum_scal. apply lsum_ext. intros q _.
    rewrite hv_sc, hd_sc, !wi_sc. destruct (diss_sc p q (hv n p q) (wi_ w1 p (hd n p q)) (wi_ w1 q (hd n p q))) as [_ ->].
    unfold comph. rewrite HPr. cbn [rescale f_m f_rho f_invomega]. rewrite inv_sc. generalize (1 / f_rho p). intros ip.
    field_simplify_eq; [ring|]; repeat split; try lra; apply pow_nonzero; lra.
  - exact V.
  - unfold x, y, ComputeSphHydroForces in *. cbn [a_dalphadt a_divv] in *. rewrite V.
    destruct (hydro_fold n w1 avisc acond al be p l acc0) as (_ & _ & _ & D & _). rewrite D.
    destruct (hydro_fold n w1 avisc acond al be (sc p) (map sc l) acc0) as (_ & _ & _ & E & _). rewrite E.
    cbn [acc0 a_dalphadt rescale f_sound f_alpha f_h].
    assert (I : 1 / (ul * f_h p) = / ul * (1 / f_h p)) by (unfold Rdiv; rewrite Rinv_mult; ring).
    set (dv := a_divv (fold_left (hydro_neib n w1 avisc acond al be p) l acc0) * (1 / f_rho p)).
    destruct tdavisc; try (cbn; ring). rewrite I.
    assert (X : Rmax (- (/ ut * dv)) 0 = / ut * Rmax (- dv) 0).
    { assert (0 < / ut) by now apply Rinv_0_lt_compat. unfold Rmax.
      destruct (Rle_dec (- (/ ut * dv)) 0), (Rle_dec (- dv) 0); try ring; exfalso; nra. }
    rewrite X. generalize (1 / f_h p). intros ih. field_simplify_eq; [ring|]; repeat split; lra.
Qed.
End Units.

Lemma fold_max : forall {A} (f : A -> Z) l m, let r := fold_left (fun m q => Z.max m (f q)) l m in
  (m <= r)%Z /\ (forall q, In q l -> (f q <= r)%Z) /\ (r = m \/ exists q, In q l /\ r = f q).
Proof.
  induction l as [|a l IH]; intros m r; cbn in r.
  - subst r. repeat split; [lia|easy|now left].
  - destruct (IH (Z.max m (f a))) as (A1 & A2 & A3). fold r in A1, A2, A3. repeat split.
    + lia.
    + intros q [<-|Hq]; [lia|auto].
    + destruct A3 as [E|(q & Hq & E)].
      * destruct (Z.max_spec m (f a)) as [[_ M]|[_ M]]; rewrite M in E; [right; exists a|left]; auto. split; [now left|auto].
      * right. exists q. split; [now right|auto].
Qed.
(** ** What is stored after the force computation *)
Section Stored.
Variables (n : nat) (w1 wgrav wpot : R -> R).
Variables (avisc : aviscenum) (acond : acondenum) (tdavisc : tdaviscenum) (al be almin : R) (Pr : fpart -> R).
Notation UH := (UpdateHydro n w1 avisc acond tdavisc al be almin Pr).
Notation UA := (UpdateAll n w1 wgrav wpot avisc acond tdavisc al be almin Pr).

Lemma grav_fold : forall lev p l x j, let y := fst (fold_left (grav_neib n w1 wgrav wpot lev p) l (x, j)) in
  (forall k, a_atree y k = a_atree x k + lsum (fun q => f_m q * ge n p q k * gaux w1 wgrav p q (gd n p q)) l) /\
  a_gpot y = a_gpot x + lsum (fun q => pot wpot p q (gd n p q)) l /\
  a_a y = a_a x /\ a_dudt y = a_dudt x /\ a_divv y = a_divv x /\ a_dalphadt y = a_dalphadt x /\
  a_lneib y = fold_left (fun m i => Z.max m (lev i)) (seq j (length l)) (a_lneib x).
Proof.
  intros lev p. induction l as [|q l IH]; intros x j; cbn zeta.
  - cbn. repeat split; intros; lra.
  - cbn [fold_left length seq lsum]. set (x1 := grav_neib n w1 wgrav wpot lev p (x, j) q).
    destruct x1 as [x2 j2] eqn:E. unfold x1, grav_neib in E. injection E as E1 E2.
    specialize (IH x2 j2). cbn zeta in IH. destruct IH as (A & B & C & D & F & G & H).
    rewrite <- E1 in A, B, C, D, F, G, H. cbn [a_atree a_gpot a_a a_dudt a_divv a_dalphadt a_lneib] in *.
    rewrite E1 in A, B, C, D, F, G, H. subst j2. repeat split; auto.
    + intros k. rewrite A. unfold gaux, wi_, ge, gd. lra.
    + rewrite B. unfold pot, gd. lra.
Qed.
Lemma direct_fold : forall p l x, let y := fold_left (direct_neib n p) l x in
  (forall k, a_atree y k = a_atree x k + lsum (fun q => f_m q * vsub (f_r q) (f_r p) k * (1 / gd n p q * (1 / gd n p q) * (1 / gd n p q))) l) /\
  a_gpot y = a_gpot x + lsum (fun q => f_m q * (1 / gd n p q)) l /\
  a_a y = a_a x /\ a_dudt y = a_dudt x /\ a_divv y = a_divv x /\ a_dalphadt y = a_dalphadt x /\ a_lneib y = a_lneib x.
Proof.
  intros p. induction l as [|q l IH]; intros x; cbn zeta.
  - cbn. repeat split; intros; lra.
  - cbn [fold_left lsum]. specialize (IH (direct_neib n p x q)). cbn zeta in IH. destruct IH as (A & B & C & D & F & G & H).
    unfold direct_neib in *. cbn [a_atree a_gpot a_a a_dudt a_divv a_dalphadt a_lneib] in *.
    repeat split; auto.
    + intros k. rewrite A. unfold gd. lra.
    + rewrite B. unfold gd. lra.
Qed.

Lemma rate_hydro : tdavisc = mm97 -> forall p x l,
  a_dalphadt (UH p (ZeroAccelerations x) l) = a_dalphadt x + mm97_rate almin al p (a_divv (UH p (ZeroAccelerations x) l)).
Proof.
  intros -> p x l. unfold UpdateHydro, ComputeSphHydroForces, ZeroAccelerations, mm97_rate. cbn [a_dalphadt a_divv].
  rewrite !Rplus_0_l. unfold Rdiv. ring.
Qed.
Lemma rate_all : forall lev p x l s d, a_dalphadt (UA lev p (ZeroAccelerations x) l s d) = a_dalphadt x.
Proof. reflexivity. Qed.
Lemma potential_all : forall lev p x l s d,
  a_gpot (UA lev p (ZeroAccelerations x) l s d) =
  f_m p / f_h p * wpot 0 + lsum (fun q => pot wpot p q (gd n p q)) (l ++ s) + lsum (fun q => f_m q / gd n p q) d.
Proof.
  intros. unfold UpdateAll, ComputeDirectGravForces, ComputeSphGravForces. cbn [a_gpot ZeroAccelerations a_a a_dalphadt].
  match goal with |- 0 + a_gpot (fold_left _ _ ?X) = _ => destruct (direct_fold p d X) as (_ & -> & _) end.
  match goal with |- context [fold_left (grav_neib _ _ _ _ lev p) s (?X, _)] => destruct (grav_fold lev p s X O) as (_ & -> & _) end.
  rewrite lsum_app.
  assert (D : lsum (fun q => f_m q * (1 / gd n p q)) d = lsum (fun q => f_m q / gd n p q) d) by (apply lsum_ext; intros; unfold Rdiv; ring).
  rewrite D. destruct l as [|q l]; [cbn; lra|].
  unfold ComputeSphHydroGravForces. cbn [a_gpot].
  match goal with |- context [fold_left (hydrograv_neib _ _ _ _ _ _ _ _ p) _ ?X] => destruct (hydrograv_fold n w1 wgrav wpot avisc acond al be p (q :: l) X) as (_ & _ & -> & _) end.
  cbn [a_gpot]. lra.
Qed.
Lemma level_all : forall lev p x l s d, l <> [] ->
  a_lneib (UA lev p (ZeroAccelerations x) l s d) =
  Z.max 0 (fold_left (fun m i => Z.max m (lev i)) (seq 0 (length s)) (fold_left (fun m q => Z.max m (f_level q)) l 0%Z)).
Proof.
  intros lev p x l s d Hl. unfold UpdateAll, ComputeDirectGravForces, ComputeSphGravForces. cbn [a_lneib ZeroAccelerations].
  match goal with |- context [fold_left (direct_neib n p) d ?X] => destruct (direct_fold p d X) as (_ & _ & _ & _ & _ & _ & ->) end.
  match goal with |- context [fold_left (grav_neib _ _ _ _ lev p) s (?X, _)] => destruct (grav_fold lev p s X O) as (_ & _ & _ & _ & _ & _ & ->) end.
  destruct l as [|q l]; [easy|].
  unfold ComputeSphHydroGravForces. cbn [a_lneib].
  match goal with |- context [fold_left (hydrograv_neib _ _ _ _ _ _ _ _ p) _ ?X] => destruct (hydrograv_fold n w1 wgrav wpot avisc acond al be p (q :: l) X) as (_ & _ & _ & _ & _ & _ & ->) end.
  reflexivity.
Qed.
Lemma level_hydro : forall p x l,
  a_lneib (UH p (ZeroAccelerations x) l) = Z.max 0 (fold_left (fun m q => Z.max m (f_level q)) l 0%Z).
Proof.
  intros p x l. unfold UpdateHydro, ComputeSphHydroForces. cbn [a_lneib ZeroAccelerations].
  match goal with |- context [fold_left (hydro_neib _ _ _ _ _ _ p) _ ?X] => destruct (hydro_fold n w1 avisc acond al be p l X) as (_ & _ & _ & _ & _ & _ & ->) end.
  reflexivity.
Qed.
(** Stored accelerations: hydro plus gravity; the sums of the two routines. *)
Lemma stored_hydro : forall p x l,
  (forall k, a_a (UH p (ZeroAccelerations x) l) k = a_a (ComputeSphHydroForces n w1 avisc acond tdavisc al be almin Pr p acc0 l) k) /\
  a_dudt (UH p (ZeroAccelerations x) l) = a_dudt (ComputeSphHydroForces n w1 avisc acond tdavisc al be almin Pr p acc0 l).
Proof.
  intros p x l. unfold UpdateHydro, ZeroAccelerations. cbn [a_a a_atree a_dudt a_gpot a_divv].
  fold acc0. change {| a_a := fun _ => 0; a_atree := fun _ => 0; a_gpot := 0; a_dudt := 0; a_divv := 0; a_dalphadt := 0; a_lneib := 0 |} with acc0.
  split; [|lra]. intros k.
  assert (E : a_atree (ComputeSphHydroForces n w1 avisc acond tdavisc al be almin Pr p acc0 l) = fun _ => 0).
  { unfold ComputeSphHydroForces. cbn [a_atree]. destruct (hydro_fold n w1 avisc acond al be p l acc0) as (_ & -> & _). reflexivity. }
  rewrite E. lra.
Qed.
Lemma stored_all : forall lev p x l s d, let y := UA lev p (ZeroAccelerations x) l s d in
  let hg := ComputeSphHydroGravForces n w1 wgrav wpot avisc acond tdavisc al be almin Pr p acc0 l in
  (forall k, a_atree y k = a_atree hg k + a_atree (ComputeSphGravForces n w1 wgrav wpot lev p acc0 s) k +
     lsum (fun q => f_m q * (f_r q k - f_r p k) / (gd n p q) ^ 3) d) /\
  (forall k, a_a y k = a_a hg k + a_atree y k) /\ a_dudt y = a_dudt hg.
Proof.
  intros lev p x l s d. cbn zeta. unfold UpdateAll, ComputeDirectGravForces, ComputeSphGravForces, ZeroAccelerations. cbn [a_a a_atree a_dudt a_gpot a_divv].
  match goal with |- context [fold_left (direct_neib n p) d ?X] => destruct (direct_fold p d X) as (D1 & _ & D2 & D3 & _) end.
  match type of D1 with context [fold_left (grav_neib _ _ _ _ lev p) s (?X, _)] => destruct (grav_fold lev p s X O) as (G1 & _ & G2 & G3 & _) end.
  destruct (grav_fold lev p s acc0 O) as (H1 & _).
  assert (DD : forall k, lsum (fun q => f_m q * vsub (f_r q) (f_r p) k * (1 / gd n p q * (1 / gd n p q) * (1 / gd n p q))) d =
    lsum (fun q => f_m q * (f_r q k - f_r p k) / (gd n p q) ^ 3) d).
  { intros k. apply lsum_ext. intros q _. unfold vsub, Rdiv. cbn [pow]. rewrite !Rmult_1_l, !Rmult_1_r, !Rinv_mult. ring. }
  set (y0 := match l with [] => _ | _ => _ end) in *.
  set (hg := ComputeSphHydroGravForces _ _ _ _ _ _ _ _ _ _ _ p acc0 l).
  assert (Y : (forall k, a_atree y0 k = a_atree hg k) /\ (forall k, a_a y0 k = a_a hg k) /\ a_dudt y0 = a_dudt hg).
  { unfold y0, hg. destruct l as [|q l]; [cbn; repeat split; intros; lra|].
    unfold ComputeSphHydroGravForces. cbn [a_a a_atree a_dudt].
    match goal with |- context [fold_left (hydrograv_neib _ _ _ _ _ _ _ _ p) _ ?X] => 
      lazymatch X with acc0 => fail | _ => destruct (hydrograv_fold n w1 wgrav wpot avisc acond al be p (q :: l) X) as (A1 & A2 & _ & _ & A5 & A6 & _) end end.
    destruct (hydrograv_fold n w1 wgrav wpot avisc acond al be p (q :: l) acc0) as (B1 & B2 & _ & _ & B5 & B6 & _).
    split; [intros k; rewrite A2, B2; reflexivity|]. split; [intros k; rewrite A1, B1; reflexivity|]. rewrite A5, B5, A6, B6. reflexivity. }
  destruct Y as (Y1 & Y2 & Y3). split; [|split].
  - intros k. rewrite D1, G1, H1, Y1, DD. cbn [a_atree acc0]. lra.
  - intros k. rewrite D2, G2, Y2. lra.
  - rewrite D3, G3, Y3. lra.
Qed.
End Stored.
