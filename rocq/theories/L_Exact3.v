(** Existence of the pressure between the waves, the first guess, and the meaning of the functions of a side. *)
From Verif Require Import Prelude Vec M_Box L_Box M_Exact S_Exact L_Exact L_Exact2 L_Eos.
From Coq Require Import Reals Ranalysis5 Lra Lia Psatz.
From Coquelicot Require Import Coquelicot.
Local Open Scope R_scope.

Lemma rpower_1_l e : Rpower 1 e = 1.
Proof. unfold Rpower. rewrite ln_1, Rmult_0_r. apply exp_0. Qed.
Lemma rpower_inj x y e : 0 < x -> 0 < y -> e <> 0 -> Rpower x e = Rpower y e -> x = y.
Proof.
  intros Hx Hy He E. unfold Rpower in E. apply exp_inv in E. apply Rmult_eq_reg_l in E; [|exact He]. apply ln_inv; assumption.
Qed.
Lemma rpower_quot x y e : 0 < x -> 0 < y -> Rpower (x / y) e = Rpower x e / Rpower y e.
Proof. intros. unfold Rpower. rewrite ln_div by lra. unfold Rdiv. rewrite <- exp_Ropp, <- exp_plus. f_equal. ring. Qed.
Lemma rpower_prod x y e : 0 < x -> 0 < y -> Rpower (x * y) e = Rpower x e * Rpower y e.
Proof. intros. unfold Rpower. rewrite ln_mult by lra. rewrite <- exp_plus. f_equal. ring. Qed.

Section Side.
Variables (gamma p d c : R).
Hypotheses (Hg : 1 < gamma) (Hp : 0 < p) (Hdd : 0 < d) (Hc : c = sqrt (gamma * p / d)).
Local Notation fs := (fside gamma p d c).
Local Notation fp := (fprime gamma p d c).
Local Definition cp : 0 < c := c_pos gamma p d c Hg Hp Hdd Hc.

Lemma fs_cont x : 0 < x -> continuity_pt fs x.
Proof.
  intros Hx. intros eps He. set (k := fp (x / 2)). assert (Hk : 0 < k) by (apply (fp_pos gamma p d c Hg Hp Hdd Hc); lra).
  exists (Rmin (x / 2) (eps / k)). split; [apply Rlt_gt, Rmin_Rgt_r; split; [lra|apply Rdiv_lt_0_compat; lra]|].
  intros y [_ Hy]. simpl in Hy |- *. unfold R_dist in *. apply Rmin_Rgt_l in Hy. destruct Hy as [H1 H2].
  assert (x / 2 < y) by (apply Rabs_def2 in H1; lra).
  assert (Rabs (fs y - fs x) <= k * Rabs (y - x)).
  { destruct (Rle_dec x y).
    - destruct (fs_mvt gamma p d c Hg Hp Hdd Hc x y) as [[G1 G2] _]; try lra. pose proof (fp_anti gamma p d c Hg Hp Hdd Hc (x / 2) x ltac:(lra) ltac:(lra)).
      pose proof (fp_pos gamma p d c Hg Hp Hdd Hc y ltac:(lra)). fold k in H0. rewrite !Rabs_pos_eq by nra. nra.
    - destruct (fs_mvt gamma p d c Hg Hp Hdd Hc y x) as [[G1 G2] _]; try lra. pose proof (fp_anti gamma p d c Hg Hp Hdd Hc (x / 2) y ltac:(lra) ltac:(lra)).
      pose proof (fp_pos gamma p d c Hg Hp Hdd Hc x ltac:(lra)). fold k in H0. rewrite !Rabs_left1 by nra. nra. }
  apply Rle_lt_trans with (1 := H0). apply Rmult_lt_reg_r with (/ k); [apply Rinv_0_lt_compat; lra|].
  replace (k * Rabs (y - x) * / k) with (Rabs (y - x)) by (field; lra). exact H2.
Qed.
Lemma fs_low x : 0 < x -> - (g4 gamma * c) < fs x.
Proof.
  intros Hx. pose proof cp. pose proof (g4_pos gamma Hg). destruct (Rle_dec x p).
  - rewrite (fs_lo gamma p d c) by lra. cbv beta. pose proof (rpower_pos (x / p) (g1 gamma)). assert (0 < g4 gamma * c) by nra. nra.
  - pose proof (fs_incr gamma p d c Hg Hp Hdd Hc p x Hp ltac:(lra)) as G. rewrite (fs_p gamma p d c Hp) in G. nra.
Qed.
(** Close to vacuum. *)
Lemma fs_small eps : 0 < eps < 1 -> forall x, 0 < x -> x <= p * Rpower eps (/ g1 gamma) -> fs x <= g4 gamma * c * (eps - 1).
Proof.
  intros He x Hx Hxe. pose proof cp. pose proof (g4_pos gamma Hg). pose proof (g1_pos gamma Hg).
  assert (Rpower eps (/ g1 gamma) < 1). { rewrite <- (rpower_1_l (/ g1 gamma)). apply Rlt_Rpower_l; [apply Rinv_0_lt_compat; lra|lra]. }
  assert (x <= p) by nra. rewrite (fs_lo gamma p d c) by lra. cbv beta. apply Rmult_le_compat_l; [nra|].
  assert (Rpower (x / p) (g1 gamma) <= eps); [|lra].
  apply Rle_trans with (Rpower (Rpower eps (/ g1 gamma)) (g1 gamma)).
  - apply Rle_Rpower_l; [lra|]. split; [apply Rdiv_lt_0_compat; lra|]. apply Rmult_le_reg_r with p; [lra|]. replace (x / p * p) with x by (field; lra). lra.
  - rewrite Rpower_mult, Rinv_l, Rpower_1 by lra. lra.
Qed.
Lemma fs_big M x : 0 <= M -> p * exp M <= x -> p / (d * c) * M <= fs x.
Proof.
  intros HM Hx. pose proof cp. assert (1 <= exp M) by (pose proof (exp_ineq1_le M); lra). assert (p <= x) by nra.
  destruct (fs_mvt gamma p d c Hg Hp Hdd Hc p x) as [_ G]; try lra. rewrite (fs_p gamma p d c Hp) in G.
  assert (E : fp p = / (d * c)). { rewrite (fp_hi gamma p d c Hg Hp Hdd Hc) by lra. cbv beta. rewrite (sh_p gamma p d c Hg Hp Hdd Hc). pose proof (B_pos gamma p Hg Hp). field. repeat split; nra. }
  rewrite E in G. assert (M <= ln (x / p)). { rewrite <- (ln_exp M). apply ln_le_mono; [apply exp_pos|]. apply Rmult_le_reg_r with p; [lra|]. replace (x / p * p) with x by (field; lra). lra. }
  assert (0 < p * / (d * c)) by (apply Rdiv_lt_0_compat; nra). unfold Rdiv. nra.
Qed.

(** The mass flux of a shock. *)
Definition qshock (ps : R) : R := sqrt (d / 2 * ((gamma + 1) * ps + (gamma - 1) * p)).
Lemma qshock_pos ps : 0 < ps -> 0 < qshock ps.
Proof. intros. apply sqrt_lt_R0. apply Rmult_lt_0_compat; [lra|]. nra. Qed.
Lemma qshock_sqr ps : 0 < ps -> qshock ps * qshock ps = d / 2 * ((gamma + 1) * ps + (gamma - 1) * p).
Proof. intros. apply sqrt_sqrt. left. apply Rmult_lt_0_compat; [lra|]. nra. Qed.
Lemma qshock_inv ps : 0 < ps -> sqrt (g5 gamma / d / (ps + p * g6 gamma)) = / qshock ps.
Proof.
  intros. pose proof (qshock_pos ps H). pose proof (qshock_sqr ps H).
  replace (g5 gamma / d / (ps + p * g6 gamma)) with (/ qshock ps * / qshock ps). { apply sqrt_square. left. apply Rinv_0_lt_compat. lra. }
  rewrite <- Rinv_mult_distr by lra. rewrite H1. unfold g5, g6. field. repeat split; nra.
Qed.
Lemma fs_shock ps : p <= ps -> qshock ps * fs ps = ps - p.
Proof. intros. rewrite (fs_hi gamma p d c Hp) by lra. cbv beta. rewrite qshock_inv by lra. pose proof (qshock_pos ps ltac:(lra)). field. lra. Qed.
Lemma sound_fan ps : 0 < ps -> speed_of_sound gamma ps (d * Rpower (ps / p) (invgamma gamma)) = c * Rpower (ps / p) (g1 gamma).
Proof.
  intros Hps. pose proof cp. assert (Q : 0 < ps / p) by (apply Rdiv_lt_0_compat; lra). pose proof (rpower_pos (ps / p) (invgamma gamma)). pose proof (rpower_pos (ps / p) (g1 gamma)).
  unfold speed_of_sound.
  replace (gamma * ps / (d * Rpower (ps / p) (invgamma gamma))) with ((c * Rpower (ps / p) (g1 gamma)) * (c * Rpower (ps / p) (g1 gamma))); [apply sqrt_square; nra|].
  replace (c * Rpower (ps / p) (g1 gamma) * (c * Rpower (ps / p) (g1 gamma))) with (c * c * (Rpower (ps / p) (g1 gamma) * Rpower (ps / p) (g1 gamma))) by ring.
  rewrite (c_sqr gamma p d c Hg Hp Hdd Hc), <- Rpower_plus.
  replace (g1 gamma + g1 gamma) with (1 + - invgamma gamma) by (unfold g1, invgamma; field; lra).
  rewrite Rpower_plus, Rpower_Ropp. rewrite (Rpower_1 (ps / p)) by exact Q. field. repeat split; lra.
Qed.
Lemma entropy_fan ps : 0 < ps -> ps * Rpower (d * Rpower (ps / p) (invgamma gamma)) (- gamma) = p * Rpower d (- gamma).
Proof.
  intros. assert (Q : 0 < ps / p) by (apply Rdiv_lt_0_compat; lra). rewrite rpower_prod by (try lra; apply rpower_pos).
  rewrite Rpower_mult. replace (invgamma gamma * - gamma) with (Ropp 1) by (unfold invgamma; field; lra). rewrite (Rpower_Ropp (ps / p) 1), (Rpower_1 (ps / p)) by exact Q. field. lra.
Qed.
Lemma fs_wave ps : 0 < ps -> wave gamma p d ps (fs ps).
Proof.
  intros Hps. split.
  - intros H. exists (qshock ps). repeat split; [apply qshock_pos; lra|apply qshock_sqr; lra|apply fs_shock; lra].
  - intros H. exists c, (d * Rpower (ps / p) (invgamma gamma)). pose proof (rpower_pos (ps / p) (invgamma gamma)).
    repeat split; [exact Hc|apply entropy_fan; exact Hps|nra|].
    rewrite sound_fan by exact Hps. rewrite (fs_lo gamma p d c) by lra. cbv beta. unfold g4. ring.
Qed.
Lemma wave_fs ps df : 0 < ps -> wave gamma p d ps df -> df = fs ps.
Proof.
  intros Hps [W1 W2]. destruct (Rlt_dec p ps).
  - destruct (W1 r) as [q [Hq [Hq2 E]]]. pose proof (qshock_pos ps Hps). pose proof (qshock_sqr ps Hps). pose proof (fs_shock ps ltac:(lra)).
    assert (q = qshock ps) as -> by nra. apply Rmult_eq_reg_l with (qshock ps); lra.
  - destruct (W2 ltac:(lra)) as [c' [d' [Hc' [He [Hd' E]]]]]. rewrite <- (entropy_fan ps Hps) in He.
    pose proof (rpower_pos (ps / p) (invgamma gamma)).
    apply Rmult_eq_reg_l in He; [|lra]. apply rpower_inj in He; [|exact Hd'|nra|lra].
    rewrite E, He, sound_fan by exact Hps. rewrite Hc'. unfold speed_of_sound. rewrite <- Hc. rewrite (fs_lo gamma p d c) by lra. cbv beta. unfold g4. ring.
Qed.
End Side.

Section Both.
Variables (gamma pl pr dl dr cl cr ul ur : R).
Hypotheses (Hg : 1 < gamma) (Hpl : 0 < pl) (Hpr : 0 < pr) (Hdl : 0 < dl) (Hdr : 0 < dr)
  (Hcl : cl = sqrt (gamma * pl / dl)) (Hcr : cr = sqrt (gamma * pr / dr)).
Local Notation fl := (fside gamma pl dl cl).
Local Notation fr := (fside gamma pr dr cr).
Local Notation FF := (F gamma pl pr dl dr cl cr ul ur).
Local Definition Cl : 0 < cl := c_pos gamma pl dl cl Hg Hpl Hdl Hcl.
Local Definition Cr : 0 < cr := c_pos gamma pr dr cr Hg Hpr Hdr Hcr.
Lemma g47 : g4 gamma * g7 gamma = 1.
Proof. unfold g4, g7. field. lra. Qed.

Lemma root_exists : 0 < cl + cr - g7 gamma * (ur - ul) -> exists r, 0 < r /\ FF r = 0.
Proof.
  intros Hv. pose proof Cl. pose proof Cr. pose proof (g4_pos gamma Hg) as G4. pose proof g47.
  set (K := g4 gamma * (cl + cr)). assert (HK : 0 < K) by (unfold K; nra).
  set (de := K - (ur - ul)). assert (Hde : 0 < de). { unfold de, K. replace (g4 gamma * (cl + cr) - (ur - ul)) with (g4 gamma * (cl + cr - g7 gamma * (ur - ul)) + (g4 gamma * g7 gamma - 1) * (ur - ul)) by ring. rewrite H1. assert (0 < g4 gamma * (cl + cr - g7 gamma * (ur - ul))) by (apply Rmult_lt_0_compat; lra). lra. }
  set (eps := Rmin (1 / 2) (de / (2 * K))). assert (He : 0 < eps <= 1 / 2 /\ eps <= de / (2 * K)).
  { unfold eps. split; [split|]; [apply Rmin_glb_lt; [lra|apply Rdiv_lt_0_compat; lra]|apply Rmin_l|apply Rmin_r]. }
  set (z := Rpower eps (/ g1 gamma)). assert (Hz : 0 < z) by apply rpower_pos.
  set (a := Rmin pl pr * z). assert (Ha : 0 < a) by (unfold a; apply Rmult_lt_0_compat; [apply Rmin_glb_lt; lra|lra]).
  assert (Fa : FF a < 0).
  { unfold F. pose proof (fs_small gamma pl dl cl Hg Hpl Hdl Hcl eps ltac:(lra) a Ha ltac:(unfold a; apply Rmult_le_compat_r; [left; exact Hz|apply Rmin_l])).
    pose proof (fs_small gamma pr dr cr Hg Hpr Hdr Hcr eps ltac:(lra) a Ha ltac:(unfold a; apply Rmult_le_compat_r; [left; exact Hz|apply Rmin_r])).
    assert (eps * K <= de / 2). { apply Rle_trans with (de / (2 * K) * K); [apply Rmult_le_compat_r; lra|]. replace (de / (2 * K) * K) with (de / 2) by (field; lra). lra. }
    assert (g4 gamma * cl * (eps - 1) + g4 gamma * cr * (eps - 1) = eps * K - K) by (unfold K; ring). unfold de in *. lra. }
  set (M := (Rabs (ur - ul) + 1) / (pl / (dl * cl))). assert (HM : 0 <= M).
  { unfold M. pose proof (Rabs_pos (ur - ul)). apply Rmult_le_pos; [lra|]. left. apply Rinv_0_lt_compat. apply Rdiv_lt_0_compat; nra. }
  set (b := Rmax pl pr * exp M). pose proof (exp_pos M).
  assert (E1 : 1 <= exp M) by (pose proof (exp_ineq1_le M); lra).
  assert (Hb : pl * exp M <= b /\ pr * exp 0 <= b).
  { unfold b. split; [apply Rmult_le_compat_r; [lra|apply Rmax_l]|]. rewrite exp_0. pose proof (Rmax_r pl pr). pose proof (Rmax_l pl pr). nra. }
  assert (Fb : 0 < FF b).
  { unfold F. pose proof (fs_big gamma pl dl cl Hg Hpl Hdl Hcl M b HM (proj1 Hb)). pose proof (fs_big gamma pr dr cr Hg Hpr Hdr Hcr 0 b ltac:(lra) (proj2 Hb)).
    replace (pl / (dl * cl) * M) with (Rabs (ur - ul) + 1) in H3 by (unfold M; field; repeat split; nra).
    pose proof (Rle_abs (- (ur - ul))). rewrite Rabs_Ropp in H5. lra. }
  assert (Hab : a < b). { destruct (Rlt_le_dec a b) as [|G]; [assumption|]. exfalso. destruct G as [G| ->]; [|lra].
    assert (0 < b) by (unfold b; pose proof (Rmax_l pl pr); nra). pose proof (F_incr gamma pl pr dl dr cl cr ul ur Hg Hpl Hpr Hdl Hdr Hcl Hcr b a H3 G). lra. }
  destruct (IVT_interv FF a b) as [r [Hr E]]; [|exact Hab|exact Fa|exact Fb|exists r; split; [lra|exact E]].
  intros x Hx. unfold F. apply continuity_pt_minus; [|apply continuity_pt_const; intros ? ?; reflexivity].
  apply continuity_pt_plus; [|apply continuity_pt_const; intros ? ?; reflexivity].
  apply continuity_pt_plus; [apply fs_cont|apply fs_cont]; try assumption; lra.
Qed.
Lemma vacuum_no_root r : cl + cr - g7 gamma * (ur - ul) <= 0 -> 0 < r -> 0 < FF r.
Proof.
  intros Hv Hr. unfold F. pose proof (fs_low gamma pl dl cl Hg Hpl Hdl Hcl r Hr). pose proof (fs_low gamma pr dr cr Hg Hpr Hdr Hcr r Hr).
  pose proof (g4_pos gamma Hg). pose proof g47. assert (0 <= g4 gamma * - (cl + cr - g7 gamma * (ur - ul))) by (apply Rmult_le_pos; lra).
  replace (g4 gamma * - (cl + cr - g7 gamma * (ur - ul))) with ((g4 gamma * g7 gamma) * (ur - ul) - g4 gamma * cl - g4 gamma * cr) in H3 by ring. rewrite H2 in H3. lra.
Qed.
(** The guess is a number. *)
Lemma two_rarefactions (pq um ptl ptr : R) : 0 < cl + cr - g7 gamma * (ur - ul) -> 0 < pq ->
  um = (pq * ul / cl + ur / cr + g4 gamma * (pq - 1)) / (pq / cl + 1 / cr) ->
  ptl = 1 + g7 gamma * (ul - um) / cl -> ptr = 1 + g7 gamma * (um - ur) / cr -> ptr = pq * ptl /\ 0 < ptl /\ 0 < ptr.
Proof.
  intros Hv Hq Hu Hl Hr. pose proof Cl. pose proof Cr. pose proof g47 as G47. pose proof (g4_pos gamma Hg) as G4.
  assert (Q : 0 < pq / cl + 1 / cr). { assert (0 < pq / cl) by (apply Rdiv_lt_0_compat; lra). assert (0 < 1 / cr) by (apply Rdiv_lt_0_compat; lra). lra. }
  assert (E : ptr = pq * ptl).
  { rewrite Hl, Hr. assert (E : um * (pq / cl + 1 / cr) = pq * ul / cl + ur / cr + g4 gamma * (pq - 1)) by (rewrite Hu; field; repeat split; try lra; assert (0 < cr * pq) by nra; lra).
    assert (E2 : g7 gamma * (um * (pq / cl + 1 / cr)) = g7 gamma * (pq * ul / cl + ur / cr) + (pq - 1)) by (rewrite E; replace (pq - 1) with (g4 gamma * g7 gamma * (pq - 1)) at 2 by (rewrite G47; ring); ring).
    unfold Rdiv in *. lra. }
  assert (S : cl * ptl + cr * ptr = cl + cr - g7 gamma * (ur - ul)) by (rewrite Hl, Hr; field; lra).
  split; [exact E|]. rewrite E in S. assert (0 < (cl + cr * pq) * ptl) by nra. assert (0 < ptl). { apply Rmult_lt_reg_l with (cl + cr * pq); [nra|]. rewrite Rmult_0_r. exact H1. }
  split; [assumption|]. rewrite E. nra.
Qed.
Lemma pw_pos b e : 0 < b -> pw b e = Ok (Rpower b e).
Proof. intros. unfold pw. rewrite (proj2 (rltb_true _ _)) by lra. reflexivity. Qed.
Lemma guess_ok : 0 < cl + cr - g7 gamma * (ur - ul) -> exists p0, guess gamma pl pr dl dr cl cr ul ur = Ok p0 /\ small_number <= p0.
Proof.
  intros Hv. unfold guess.
  assert (M : forall x, small_number <= Rmax x small_number) by (intros; apply Rmax_r).
  destruct (_ && _)%bool; [cbn [bind]; eauto|]. destruct (rltb _ _); [|cbn [bind]; eauto].
  destruct (two_rarefactions (Rpower (pl / pr) (g1 gamma)) _ _ _ Hv (rpower_pos _ _) eq_refl eq_refl eq_refl) as [_ [P1 P2]].
  cbv zeta. rewrite (pw_pos _ _ P1), (pw_pos _ _ P2). cbn [bind]. eauto.
Qed.
End Both.
