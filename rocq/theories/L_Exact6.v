(** The star region the code computes; rotations; fluxes. *)
From Verif Require Import Prelude Vec M_Box L_Box M_Exact S_Exact L_Exact L_Exact2 L_Exact3 L_Exact4 L_Exact5 L_Eos.
From Coq Require Import Reals Lra Lia Psatz List.
Local Open Scope R_scope.

Section Star.
Variables (gamma pl pr dl dr cl cr ul ur : R).
Hypotheses (Hg : 1 < gamma) (Hpl : 0 < pl) (Hpr : 0 < pr) (Hdl : 0 < dl) (Hdr : 0 < dr)
  (Hcl : cl = sqrt (gamma * pl / dl)) (Hcr : cr = sqrt (gamma * pr / dr)).
Local Notation fl := (fside gamma pl dl cl).
Local Notation fr := (fside gamma pr dr cr).
Local Notation FF := (F gamma pl pr dl dr cl cr ul ur).
Local Notation CS := (ComputeStarRegion gamma pl pr dl dr cl cr ul ur).
Lemma star_root ps us : star gamma (dl, ul, pl) (dr, ur, pr) ps us <-> 0 < ps /\ FF ps = 0 /\ us = ul - fl ps /\ us = ur + fr ps.
Proof.
  unfold star, de, ve, pe, F; simpl. split.
  - intros [H [WL WR]]. pose proof (wave_fs gamma pl dl cl Hg Hpl Hdl Hcl ps _ H WL). pose proof (wave_fs gamma pr dr cr Hg Hpr Hdr Hcr ps _ H WR). repeat split; lra.
  - intros [H [E [E1 E2]]]. split; [exact H|]. replace (ul - us) with (fl ps) by lra. replace (us - ur) with (fr ps) by lra.
    split; [apply (fs_wave gamma pl dl cl Hg Hpl Hdl Hcl ps H)|apply (fs_wave gamma pr dr cr Hg Hpr Hdr Hcr ps H)].
Qed.
Lemma fs_near p d c po r : 0 < p -> 0 < d -> c = sqrt (gamma * p / d) -> 0 < po -> 0 < r -> Rabs (po - r) <= 2 / 10 ^ 6 * r ->
  Rabs (fside gamma p d c po - fside gamma p d c r) <= 3 / 10 ^ 6 * (Rmax r p / (d * c)).
Proof.
  intros Hp Hd Hc Hpo Hr Ha. pose proof (c_pos gamma p d c Hg Hp Hd Hc) as C. assert (DC : 0 < d * c) by nra.
  assert (MP : 0 < Rmax r p / (d * c)). { apply Rdiv_lt_0_compat; [|exact DC]. apply Rlt_le_trans with r; [exact Hr|apply Rmax_l]. }
  assert (T : 10 ^ 6 = 1000000) by ring. rewrite T in *. destruct (Rabs_def2 (po - r) (21 / 10000000 * r)) as [A1 A2]; [nra|].
  assert (G : forall a b, 0 < a -> a <= b -> a <= r -> 999 / 1000 * r <= a -> b - a <= 2 / 1000000 * r -> 0 <= fside gamma p d c b - fside gamma p d c a <= 3 / 1000000 * (Rmax r p / (d * c))).
  { intros a b Ha0 Hab Har Ha9 Hba. destruct (fs_mvt gamma p d c Hg Hp Hd Hc a b Ha0 Hab) as [[L U] _].
    pose proof (fp_pos gamma p d c Hg Hp Hd Hc b ltac:(lra)). pose proof (fp_pos gamma p d c Hg Hp Hd Hc a Ha0). split; [nra|]. apply Rle_trans with (1 := U).
    pose proof (fp_bound gamma p d c Hg Hp Hd Hc a Ha0) as B. 
    assert (B2 : Rmax a p / (d * c) <= Rmax r p / (d * c)). { apply Rmult_le_compat_r; [left; apply Rinv_0_lt_compat; lra|]. apply Rle_max_compat_r. exact Har. }
    set (f := fprime gamma p d c a) in *. set (M := Rmax r p / (d * c)) in *. apply Rle_trans with (f * (2 / 1000000 * r)); [apply Rmult_le_compat_l; lra|].
    assert (f * r <= 1000 / 999 * (a * f)) by nra. nra. }
  destruct (Rle_dec po r) as [L|L].
  - rewrite Rabs_left1 in Ha by lra. destruct (G po r) as [G1 G2]; try lra. rewrite Rabs_left1; lra.
  - rewrite Rabs_right in Ha by lra. destruct (G r po) as [G1 G2]; try lra. rewrite Rabs_right; lra.
Qed.
Lemma star_close ps us : star gamma (dl, ul, pl) (dr, ur, pr) ps us -> small_number <= ps <= 10 ^ 100 ->
  exists q v, CS = Ok (q, v) /\ 0 < q /\ q <= ps <= q * (1 + 2 / 10 ^ 6) /\
    Rabs (v - us) <= 3 / 2 / 10 ^ 6 * (Rmax ps pl / (dl * cl) + Rmax ps pr / (dr * cr)).
Proof.
  intros S [H1 H2]. destruct (proj1 (star_root ps us) S) as [P [E [E1 E2]]].
  assert (NV : 0 < cl + cr - g7 gamma * (ur - ul)). { apply Rnot_le_lt. intros N. pose proof (vacuum_no_root gamma pl pr dl dr cl cr ul ur Hg Hpl Hpr Hdl Hdr Hcl Hcr ps N P). lra. }
  unfold ComputeStarRegion. rewrite (proj2 (rleb_false _ _) NV).
  destruct (guess_ok gamma pl pr dl dr cl cr ul ur Hg Hpl Hpr Hdl Hdr Hcl Hcr NV) as [p0 [G1 G2]]. rewrite G1. cbn [bind].
  pose proof (newton_close gamma pl pr dl dr cl cr ul ur Hg Hpl Hpr Hdl Hdr Hcl Hcr ps H1 E p0 H2 G2) as N.
  destruct (newton _ _ _ _ _ _ _ _ _ _ _) as [[q a] b]. destruct N as [N1 [N2 [N3 [po [Q1 [Q2 [Q3 Q4]]]]]]].
  exists q, (1 / 2 * (ul + ur) + 1 / 2 * (b - a)). split; [reflexivity|]. split; [exact N3|]. split; [lra|]. rewrite Q2, Q3.
  pose proof (fs_near pl dl cl po ps Hpl Hdl Hcl Q1 P Q4) as A. pose proof (fs_near pr dr cr po ps Hpr Hdr Hcr Q1 P Q4) as B.
  replace (1 / 2 * (ul + ur) + 1 / 2 * (fr po - fl po) - us) with (1 / 2 * ((fr po - fr ps) - (fl po - fl ps))) by lra.
  rewrite Rabs_mult, (Rabs_right (1 / 2)) by lra. pose proof (Rabs_triang (fr po - fr ps) (- (fl po - fl ps))) as T. rewrite Rabs_Ropp in T. unfold Rminus at 1. lra.
Qed.
(** Two rarefactions: the guess is the solution. *)
Lemma star_rare ps us : star gamma (dl, ul, pl) (dr, ur, pr) ps us -> small_number <= ps -> ps <= pl -> ps <= pr ->
  ppv pl pr dl dr cl cr ul ur < Rmin pl pr -> CS = Ok (ps, us).
Proof.
  intros S H1 HL HR Hv. destruct (proj1 (star_root ps us) S) as [P [E [E1 E2]]].
  assert (NV : 0 < cl + cr - g7 gamma * (ur - ul)). { apply Rnot_le_lt. intros N. pose proof (vacuum_no_root gamma pl pr dl dr cl cr ul ur Hg Hpl Hpr Hdl Hdr Hcl Hcr ps N P). lra. }
  pose proof (c_pos gamma pl dl cl Hg Hpl Hdl Hcl) as Cl. pose proof (c_pos gamma pr dr cr Hg Hpr Hdr Hcr) as Cr. pose proof (g47 gamma Hg) as G47. pose proof (g4_pos gamma Hg) as G4.
  unfold ComputeStarRegion. rewrite (proj2 (rleb_false _ _) NV). unfold guess.
  rewrite (proj2 (rleb_false (Rmin pl pr) _)) by exact Hv. rewrite Bool.andb_false_r. cbn [andb]. rewrite (proj2 (rltb_true _ _) Hv). cbv zeta.
  set (pq := Rpower (pl / pr) (g1 gamma)). set (um := (pq * ul / cl + ur / cr + g4 gamma * (pq - 1)) / (pq / cl + 1 / cr)).
  set (ptl := 1 + g7 gamma * (ul - um) / cl). set (ptr := 1 + g7 gamma * (um - ur) / cr).
  assert (PQ : 0 < pq) by apply rpower_pos.
  destruct (two_rarefactions gamma pl pr dl dr cl cr ul ur Hg Hpl Hpr Hdl Hdr Hcl Hcr pq um ptl ptr NV PQ eq_refl eq_refl eq_refl) as [X [P1 P2]].
  assert (QL : 0 < ps / pl) by (apply Rdiv_lt_0_compat; lra). assert (QR : 0 < ps / pr) by (apply Rdiv_lt_0_compat; lra).
  assert (TL : Rpower (ps / pl) (g1 gamma) = ptl).
  { assert (FE := E). unfold F in FE. rewrite (fs_lo gamma pl dl cl), (fs_lo gamma pr dr cr) in FE by lra. cbv beta in FE.
    assert (TR : Rpower (ps / pr) (g1 gamma) = pq * Rpower (ps / pl) (g1 gamma)).
    { unfold pq. rewrite <- rpower_prod by (try exact QL; apply Rdiv_lt_0_compat; lra). f_equal. field. lra. }
    rewrite TR in FE. set (t := Rpower (ps / pl) (g1 gamma)) in *.
    assert (LE : cl * ptl + cr * ptr = cl + cr + g7 gamma * (ul - ur)) by (unfold ptl, ptr; field; lra). rewrite X in LE.
    assert (LT : cl * t + cr * (pq * t) = cl + cr + g7 gamma * (ul - ur)).
    { apply Rmult_eq_reg_l with (g4 gamma); [|lra]. replace (g4 gamma * (cl + cr + g7 gamma * (ul - ur))) with (g4 gamma * (cl + cr) + (g4 gamma * g7 gamma) * (ul - ur)) by ring. rewrite G47. lra. }
    apply Rmult_eq_reg_r with (cl + cr * pq); [|nra]. lra. }
  assert (E13 : g1 gamma * g3 gamma = 1) by (unfold g1, g3; field; lra).
  assert (AL : pl * Rpower ptl (g3 gamma) = ps). { rewrite <- TL, Rpower_mult, E13, (Rpower_1 (ps / pl)) by exact QL. field. lra. }
  assert (AR : pr * Rpower ptr (g3 gamma) = ps).
  { rewrite X, rpower_prod by lra. unfold pq. rewrite Rpower_mult, E13, (Rpower_1 (pl / pr)) by (apply Rdiv_lt_0_compat; lra).
    replace (pr * (pl / pr * Rpower ptl (g3 gamma))) with (pl * Rpower ptl (g3 gamma)) by (field; lra). exact AL. }
  rewrite (pw_pos _ _ P1), (pw_pos _ _ P2). cbn [bind]. rewrite AL, AR. replace (1 / 2 * (ps + ps)) with ps by field. rewrite Rmax_left by lra.
  unfold Niterationmax. change (100 - 1)%nat with 99%nat. rewrite newton_eq. unfold step. rewrite E. replace (ps - 0 / F' gamma pl pr dl dr cl cr ps) with ps by (unfold Rdiv; ring).
  rewrite (proj2 (rltb_false _ _)) by lra. rewrite Rminus_eq_0, Rabs_R0. pose proof small_pos.
  rewrite (proj2 (rltb_true _ _)); [|unfold tol; replace (2 * 0 / (ps + ps)) with 0 by (field; lra); apply Rinv_0_lt_compat, pow_lt; lra].
  f_equal. f_equal. lra.
Qed.
Lemma star_iff : (exists ps us, star gamma (dl, ul, pl) (dr, ur, pr) ps us) <-> 0 < cl + cr - g7 gamma * (ur - ul).
Proof.
  split.
  - intros [ps [us S]]. destruct (proj1 (star_root ps us) S) as [P [E _]]. apply Rnot_le_lt. intros N. pose proof (vacuum_no_root gamma pl pr dl dr cl cr ul ur Hg Hpl Hpr Hdl Hdr Hcl Hcr ps N P). lra.
  - intros NV. destruct (root_exists gamma pl pr dl dr cl cr ul ur Hg Hpl Hpr Hdl Hdr Hcl Hcr NV) as [ps [P E]]. exists ps, (ul - fl ps). apply star_root. unfold F in *. repeat split; lra.
Qed.
Lemma star_once ps us ps' us' : star gamma (dl, ul, pl) (dr, ur, pr) ps us -> star gamma (dl, ul, pl) (dr, ur, pr) ps' us' -> ps = ps' /\ us = us'.
Proof.
  intros S S'. destruct (proj1 (star_root ps us) S) as [P [E [E1 _]]]. destruct (proj1 (star_root ps' us') S') as [P' [E' [E1' _]]].
  assert (X : ps = ps') by (apply (root_unique gamma pl pr dl dr cl cr ul ur Hg Hpl Hpr Hdl Hdr Hcl Hcr); assumption). split; [exact X|]. rewrite E1, E1', X. reflexivity.
Qed.
(** The sampled velocity has the sign of the contact. *)
Lemma sample_sign ps us w : star gamma (dl, ul, pl) (dr, ur, pr) ps us -> SampleExactSolution gamma pl pr dl dr cl cr ul ur ps us 0 = Ok w ->
  (0 < us -> 0 < f_u w) /\ (us < 0 -> f_u w < 0).
Proof.
  intros S Ew. destruct (proj1 (star_root ps us) S) as [P [_ [E1 E2]]].
  pose proof (c_pos gamma pl dl cl Hg Hpl Hdl Hcl) as Cl. pose proof (c_pos gamma pr dr cr Hg Hpr Hdr Hcr) as Cr.
  assert (QL : 0 < ps / pl) by (apply Rdiv_lt_0_compat; lra). assert (QR : 0 < ps / pr) by (apply Rdiv_lt_0_compat; lra).
  split; intros Hu.
  - rewrite (SS_left gamma pl pr dl dr cl cr ul ur ps us) in Ew by lra. unfold sample_left in Ew. destruct (Rle_dec ps pl) as [L|L].
    + rewrite (proj2 (rleb_true _ _) L) in Ew. destruct (Rle_dec 0 (ul - cl)) as [A|A].
      { rewrite (proj2 (rleb_true _ _) A) in Ew. injection Ew as <-. cbn [f_u]. lra. }
      rewrite (proj2 (rleb_false _ _)) in Ew by lra. rewrite (pw_pos (ps / pl)) in Ew by exact QL. cbn [bind] in Ew. cbv zeta in Ew. change (cl * Rpower (ps / pl) (g1 gamma)) with (cm gamma pl cl ps) in Ew.
      destruct (Rlt_dec (us - cm gamma pl cl ps) 0) as [B|B].
      { rewrite (proj2 (rltb_true _ _) B) in Ew. rewrite pw_pos in Ew by exact QL. cbn [bind] in Ew. injection Ew as <-. exact Hu. }
      rewrite (proj2 (rltb_false _ _)) in Ew by lra. fold (kfan gamma cl ul 0) in Ew. assert (K : 0 < kfan gamma cl ul 0) by (apply (kfan_pos gamma pl dl cl ul ps us); lra).
      rewrite !pw_pos in Ew by (apply Rdiv_lt_0_compat; lra). cbn [bind] in Ew. injection Ew as <-. cbn [f_u]. unfold kfan in K. replace (g5 gamma * (cl + g7 gamma * ul + 0)) with (g5 gamma * (cl + g7 gamma * (ul - 0))) by ring. exact K.
    + rewrite (proj2 (rleb_false _ _)) in Ew by lra. cbv zeta in Ew. destruct (rleb 0 _) eqn:Z; injection Ew as <-; cbn [f_u]; [|exact Hu].
      apply rleb_true in Z. assert (0 < cl * sqrt (g2 gamma * (ps / pl) + g1 gamma)); [|lra]. apply Rmult_lt_0_compat; [lra|]. apply sqrt_lt_R0. pose proof (g1_pos gamma Hg). pose proof (g2_pos gamma Hg). nra.
  - rewrite (SS_right gamma pl pr dl dr cl cr ul ur ps us) in Ew by lra. unfold sample_right in Ew. destruct (Rle_dec pr ps) as [L|L].
    + rewrite (proj2 (rleb_true _ _) L) in Ew. cbv zeta in Ew. destruct (rleb _ 0) eqn:Z; injection Ew as <-; cbn [f_u]; [|exact Hu].
      apply rleb_true in Z. assert (0 < cr * sqrt (g2 gamma * (ps / pr) + g1 gamma)); [|lra]. apply Rmult_lt_0_compat; [lra|]. apply sqrt_lt_R0. pose proof (g1_pos gamma Hg). pose proof (g2_pos gamma Hg). nra.
    + rewrite (proj2 (rleb_false _ _)) in Ew by lra. destruct (Rle_dec (ur + cr) 0) as [A|A].
      { rewrite (proj2 (rleb_true _ _) A) in Ew. injection Ew as <-. cbn [f_u]. lra. }
      rewrite (proj2 (rleb_false _ _)) in Ew by lra. rewrite (pw_pos (ps / pr)) in Ew by exact QR. cbn [bind] in Ew. cbv zeta in Ew. change (cr * Rpower (ps / pr) (g1 gamma)) with (cm gamma pr cr ps) in Ew.
      destruct (Rle_dec 0 (us + cm gamma pr cr ps)) as [B|B].
      { rewrite (proj2 (rleb_true _ _) B) in Ew. rewrite pw_pos in Ew by exact QR. cbn [bind] in Ew. injection Ew as <-. exact Hu. }
      rewrite (proj2 (rleb_false _ _)) in Ew by lra.
      assert (K : 0 < g5 gamma * (cr - g7 gamma * (ur - 0))). { replace (g5 gamma * (cr - g7 gamma * (ur - 0))) with (kfan gamma cr (- ur) (- 0)) by (unfold kfan; ring). apply (kfan_pos gamma pr dr cr (- ur) ps (- us)); lra. }
      rewrite !pw_pos in Ew by (apply Rdiv_lt_0_compat; lra). cbn [bind] in Ew. injection Ew as <-. cbn [f_u]. replace (g5 gamma * (- cr + g7 gamma * ur + 0)) with (- (g5 gamma * (cr - g7 gamma * (ur - 0)))) by ring. lra.
Qed.
End Star.

(** ** Rotations *)
Lemma cossin x : cos x * cos x + sin x * sin x = 1.
Proof. pose proof (sin2_cos2 x). unfold Rsqr in H. lra. Qed.
Lemma atan2_spec y x r : 0 < r -> r * r = x * x + y * y -> r * cos (atan2 y x) = x /\ r * sin (atan2 y x) = y.
Proof.
  intros Hr E.
  assert (G : forall x, x <> 0 -> r * r = x * x + y * y -> sqrt (1 + (y / x)²) = r / Rabs x).
  { intros z Hz Ez. assert (0 < Rabs z) by (apply Rabs_pos_lt; exact Hz). rewrite <- (sqrt_square (r / Rabs z)) by (left; apply Rdiv_lt_0_compat; lra). f_equal.
    replace (r / Rabs z * (r / Rabs z)) with (r * r / (Rabs z * Rabs z)) by (field; lra). rewrite <- Rabs_mult, Rabs_right by nra. rewrite Ez. unfold Rsqr. field. exact Hz. }
  unfold atan2. destruct (Rlt_dec 0 x) as [A|A]; [|destruct (Rlt_dec x 0) as [B|B]].
  - rewrite (proj2 (rltb_true _ _) A), cos_atan, sin_atan, (G x) by lra. rewrite Rabs_right by lra. split; field; lra.
  - rewrite (proj2 (rltb_false _ _)) by lra. rewrite (proj2 (rltb_true _ _) B). pose proof (G x ltac:(lra) E) as Gx. rewrite Rabs_left in Gx by lra.
    destruct (rleb 0 y).
    + rewrite neg_cos, neg_sin, cos_atan, sin_atan, Gx. split; field; lra.
    + unfold Rminus. rewrite <- (cos_period (_ + - PI) 1), <- (sin_period (_ + - PI) 1). simpl INR.
      replace (atan (y / x) + - PI + 2 * 1 * PI) with (atan (y / x) + PI) by ring. rewrite neg_cos, neg_sin, cos_atan, sin_atan, Gx. split; field; lra.
  - assert (x = 0) as -> by lra. rewrite !(proj2 (rltb_false _ _)) by lra. destruct (Rlt_dec 0 y) as [C|C]; [|destruct (Rlt_dec y 0) as [D|D]].
    + rewrite (proj2 (rltb_true _ _) C), cos_PI2, sin_PI2. assert (r = y) by nra. split; lra.
    + rewrite (proj2 (rltb_false _ _)) by lra. rewrite (proj2 (rltb_true _ _) D), cos_neg, sin_neg, cos_PI2, sin_PI2. assert (r = - y) by nra. split; lra.
    + exfalso. nra.
Qed.
Lemma row0 ndim n : (1 <= ndim <= 3)%nat -> dot ndim n n = 1 -> forall k, (k < ndim)%nat -> invRotMat ndim n 0 k = n k.
Proof.
  intros Hn U k Hk. unfold dot in U. destruct ndim as [|[|[|[|]]]]; try lia.
  - assert (k = 0)%nat as -> by lia. reflexivity.
  - cbn [sumf] in U. destruct (atan2_spec (n 1%nat) (n 0%nat) 1) as [A B]; [lra|lra|]. destruct k as [|[|]]; try lia; cbn [invRotMat]; cbv zeta; lra.
  - cbn [sumf] in U. set (a := n 0%nat) in *. set (b := n 1%nat) in *. set (c := n 2%nat) in *.
    assert (Q : 0 <= a * a + b * b) by nra. set (rho := sqrt (a * a + b * b)). assert (RR : rho * rho = a * a + b * b) by (unfold rho; apply sqrt_sqrt; exact Q).
    destruct (atan2_spec c rho 1) as [A B]; [lra|lra|].
    destruct (Req_dec rho 0) as [Z|Z].
    + assert (a = 0 /\ b = 0) as [Ea Eb] by (rewrite Z in RR; nra).
      destruct k as [|[|[|]]]; try lia; cbn [invRotMat]; fold a b c; cbv zeta; fold rho; [| |lra]; assert (cos (atan2 c rho) = 0) as -> by lra; lra.
    + assert (0 < rho) by (unfold rho in *; pose proof (sqrt_pos (a * a + b * b)); lra). destruct (atan2_spec b a rho) as [C D]; [lra|lra|].
      destruct k as [|[|[|]]]; try lia; cbn [invRotMat]; fold a b c; cbv zeta; fold rho; [| |lra].
      * replace (cos (atan2 c rho)) with rho by lra. exact C.
      * replace (cos (atan2 c rho)) with rho by lra. exact D.
Qed.
Lemma rot_back ndim n w k : (1 <= ndim <= 3)%nat -> dot ndim n n = 1 -> (k < ndim)%nat ->
  RotateVector ndim (rotMat ndim n) (RotateVector ndim (invRotMat ndim n) w) k = w k.
Proof.
  intros Hn U Hk. unfold RotateVector, rotMat. unfold dot in U. destruct ndim as [|[|[|[|]]]]; try lia.
  - assert (k = 0)%nat as -> by lia. cbn [sumf invRotMat] in *. replace (0 + n 0%nat * (0 + n 0%nat * w 0%nat)) with ((0 + n 0%nat * n 0%nat) * w 0%nat) by ring. rewrite U. ring.
  - cbn [sumf invRotMat]. cbv zeta. pose proof (cossin (atan2 (n 1%nat) (n 0%nat))) as CS. set (c := cos _) in *. set (s := sin _) in *. clearbody c s. clear U.
    destruct k as [|[|]]; try lia.
    + replace (0 + c * (0 + c * w 0%nat + s * w 1%nat) + - s * (0 + - s * w 0%nat + c * w 1%nat)) with ((c * c + s * s) * w 0%nat) by ring. rewrite CS. ring.
    + replace (0 + s * (0 + c * w 0%nat + s * w 1%nat) + c * (0 + - s * w 0%nat + c * w 1%nat)) with ((c * c + s * s) * w 1%nat) by ring. rewrite CS. ring.
  - cbn [sumf invRotMat]. cbv zeta. clear U. generalize (atan2 (n 2%nat) (sqrt (n 0%nat * n 0%nat + n 1%nat * n 1%nat))) as delta. generalize (atan2 (n 1%nat) (n 0%nat)) as phi.
    intros phi delta. pose proof (cossin phi) as CS. pose proof (cossin delta) as CS2. 
    generalize dependent (cos phi). generalize dependent (sin phi). generalize dependent (cos delta). generalize dependent (sin delta). intros Q C CS2 s c CS.
    set (x := w 0%nat). set (y := w 1%nat). set (z := w 2%nat).
    destruct k as [|[|[|]]]; try lia; fold x y z.
    + transitivity ((C * C + Q * Q) * (c * c) * x + (C * C + Q * Q) * (c * s) * y + s * s * x - s * c * y); [ring|]. rewrite CS2. replace (s * s) with (1 - c * c) by lra. ring.
    + transitivity ((C * C + Q * Q) * (s * c) * x + (C * C + Q * Q) * (s * s) * y - c * s * x + c * c * y); [ring|]. rewrite CS2. replace (c * c) with (1 - s * s) by lra. ring.
    + transitivity (Q * C * (c * c + s * s) * 0 + (Q * Q + C * C) * z); [ring|]. replace (Q * Q + C * C) with 1 by lra. ring.
Qed.
Lemma rot_face ndim n w u k : (1 <= ndim <= 3)%nat -> dot ndim n n = 1 -> (k < ndim)%nat ->
  RotateVector ndim (rotMat ndim n) (fun j => if Nat.eqb j 0 then u else RotateVector ndim (invRotMat ndim n) w j) k = w k + (u - dot ndim w n) * n k.
Proof.
  intros Hn U Hk. set (a := RotateVector ndim (invRotMat ndim n) w).
  assert (A0 : a 0%nat = dot ndim w n). { unfold a, RotateVector, dot. apply sumf_ext. intros j Hj. rewrite row0 by assumption. ring. }
  transitivity (RotateVector ndim (rotMat ndim n) a k + (u - a 0%nat) * n k); [|rewrite A0; unfold a; rewrite rot_back by assumption; reflexivity].
  unfold RotateVector. replace (n k) with (rotMat ndim n k 0%nat) by (unfold rotMat; apply row0; assumption).
  assert (G : forall m, (1 <= m)%nat -> sumf m (fun j => rotMat ndim n k j * (if Nat.eqb j 0 then u else a j)) = sumf m (fun j => rotMat ndim n k j * a j) + (u - a 0%nat) * rotMat ndim n k 0).
  { induction m as [|m IH]; intros Hm; [lia|]. destruct m as [|m]; [cbn [sumf Nat.eqb]; ring|]. cbn [sumf] in *. rewrite IH by lia. cbn [Nat.eqb]. ring. }
  apply G. lia.
Qed.
Lemma rot_normal ndim n w : (1 <= ndim <= 3)%nat -> dot ndim n n = 1 -> RotateVector ndim (invRotMat ndim n) w 0%nat = dot ndim w n.
Proof. intros. unfold RotateVector, dot. apply sumf_ext. intros j Hj. rewrite row0 by assumption. ring. Qed.
