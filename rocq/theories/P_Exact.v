(** C79: the exact Riemann solver. *)
From Verif Require Import Prelude Vec M_Box L_Box M_Exact S_Exact L_Exact L_Exact2 L_Exact3 L_Exact4 L_Exact5 L_Exact6 L_Eos.
From Coq Require Import Reals Lra Lia Psatz List.
Local Open Scope R_scope.

(** Pressures and velocities between the waves exist and are unique, unless the sides part so fast that they leave a vacuum. *)
Theorem C79_exists : forall gamma dl ul pl dr ur pr, 1 < gamma -> 0 < pl -> 0 < pr -> 0 < dl -> 0 < dr ->
  ((exists ps us, star gamma (dl, ul, pl) (dr, ur, pr) ps us) <->
   ur - ul < 2 / (gamma - 1) * (speed_of_sound gamma pl dl + speed_of_sound gamma pr dr)) /\
  (forall ps us ps' us', star gamma (dl, ul, pl) (dr, ur, pr) ps us -> star gamma (dl, ul, pl) (dr, ur, pr) ps' us' -> ps = ps' /\ us = us').
Proof.
  intros gamma dl ul pl dr ur pr Hg Hpl Hpr Hdl Hdr. split.
  - rewrite (star_iff gamma pl pr dl dr _ _ ul ur Hg Hpl Hpr Hdl Hdr eq_refl eq_refl). unfold speed_of_sound, g7.
    set (a := sqrt (gamma * pl / dl)). set (b := sqrt (gamma * pr / dr)). split; intros H.
    + apply Rmult_lt_reg_l with ((gamma - 1) / 2); [lra|]. replace ((gamma - 1) / 2 * (2 / (gamma - 1) * (a + b))) with (a + b) by (field; lra). lra.
    + apply Rmult_lt_compat_l with (r := (gamma - 1) / 2) in H; [|lra]. replace ((gamma - 1) / 2 * (2 / (gamma - 1) * (a + b))) with (a + b) in H by (field; lra). lra.
  - intros. apply (star_once gamma pl pr dl dr _ _ ul ur Hg Hpl Hpr Hdl Hdr eq_refl eq_refl); assumption.
Qed.
(** The iteration, from any guess, within its hundred steps: the pressure is at most two millionths too low, the velocity is within
    three halves of a millionth of the speeds that belong to that pressure.  No step is a NaN. *)
Theorem C79_star : forall gamma dl ul pl dr ur pr ps us, 1 < gamma -> 0 < pl -> 0 < pr -> 0 < dl -> 0 < dr ->
  star gamma (dl, ul, pl) (dr, ur, pr) ps us -> / 10 ^ 20 <= ps <= 10 ^ 100 ->
  let cl := speed_of_sound gamma pl dl in let cr := speed_of_sound gamma pr dr in
  exists q v, ComputeStarRegion gamma pl pr dl dr cl cr ul ur = Ok (q, v) /\ 0 < q /\ q <= ps <= q * (1 + 2 / 10 ^ 6) /\
    Rabs (v - us) <= 3 / 2 / 10 ^ 6 * (Rmax ps pl / (dl * cl) + Rmax ps pr / (dr * cr)).
Proof. intros gamma dl ul pl dr ur pr ps us Hg Hpl Hpr Hdl Hdr H1 H2. apply star_close; try assumption; reflexivity. Qed.
(** Between two rarefactions (found by the code from the linear estimate [ppv]) the first guess is the solution itself. *)
Theorem C79_rarefactions : forall gamma dl ul pl dr ur pr ps us, 1 < gamma -> 0 < pl -> 0 < pr -> 0 < dl -> 0 < dr ->
  star gamma (dl, ul, pl) (dr, ur, pr) ps us -> / 10 ^ 20 <= ps -> ps <= pl -> ps <= pr ->
  let cl := speed_of_sound gamma pl dl in let cr := speed_of_sound gamma pr dr in
  ppv pl pr dl dr cl cr ul ur < Rmin pl pr -> ComputeStarRegion gamma pl pr dl dr cl cr ul ur = Ok (ps, us).
Proof. intros gamma dl ul pl dr ur pr ps us Hg Hpl Hpr Hdl Hdr S Hs HL HR cl cr Hp. apply (star_rare gamma pl pr dl dr cl cr ul ur Hg Hpl Hpr Hdl Hdr eq_refl eq_refl ps us); assumption. Qed.
(** Between two shocks (estimate [ppv] above both pressures) the first guess solves the equation of the two shocks with the shock
    speeds taken at the estimate. *)
Theorem C79_shock_guess : forall gamma dl ul pl dr ur pr, 1 < gamma -> 0 < pl -> 0 < pr -> 0 < dl -> 0 < dr ->
  let p0 := ppv pl pr dl dr (speed_of_sound gamma pl dl) (speed_of_sound gamma pr dr) ul ur in
  let k p d := sqrt (2 / ((gamma + 1) * d) / (p0 + (gamma - 1) / (gamma + 1) * p)) in
  pl < p0 -> pr < p0 ->
  exists q, guess gamma pl pr dl dr (speed_of_sound gamma pl dl) (speed_of_sound gamma pr dr) ul ur = Ok (Rmax q (/ 10 ^ 20)) /\
    (q - pl) * k pl dl + (q - pr) * k pr dr + (ur - ul) = 0.
Proof.
  intros gamma dl ul pl dr ur pr Hg Hpl Hpr Hdl Hdr p0 k H1 H2. unfold guess. fold p0.
  assert (M : Rmax pl pr < p0) by (now apply Rmax_lub_lt). pose proof (Rmin_l pl pr). pose proof (Rmax_l pl pr).
  rewrite (proj2 (rleb_false p0 (Rmax pl pr))) by lra. rewrite Bool.andb_false_r. rewrite (proj2 (rltb_false p0 (Rmin pl pr))) by lra. cbn [bind].
  assert (K : forall p d, 0 < p -> 0 < d -> sqrt (g5 gamma / d / (g6 gamma * p + p0)) = k p d /\ 0 < k p d).
  { intros p d Hp Hd. assert (0 < (gamma - 1) / (gamma + 1) * p) by (apply Rmult_lt_0_compat; [apply Rdiv_lt_0_compat|]; lra). split.
    - unfold k, g5, g6. f_equal. replace ((gamma - 1) / (gamma + 1) * p + p0) with (p0 + (gamma - 1) / (gamma + 1) * p) by ring.
      replace (2 / (gamma + 1) / d) with (2 / ((gamma + 1) * d)) by (field; lra). reflexivity.
    - unfold k. apply sqrt_lt_R0. apply Rdiv_lt_0_compat; [|lra]. apply Rdiv_lt_0_compat; [lra|]. apply Rmult_lt_0_compat; lra. }
  destruct (K pl dl Hpl Hdl) as [E1 P1]. destruct (K pr dr Hpr Hdr) as [E2 P2]. rewrite E1, E2.
  eexists. split; [unfold small_number; reflexivity|]. field. lra.
Qed.
Example C79_shock_guess_ex : let p0 := ppv 1 1 1 1 (speed_of_sound (5 / 3) 1 1) (speed_of_sound (5 / 3) 1 1) 2 (-2) in 1 < p0.
Proof.
  unfold ppv, speed_of_sound. cbv zeta. assert (0 < sqrt (5 / 3 * 1 / 1)) by (apply sqrt_lt_R0; lra).
  apply Rlt_le_trans with (2 := Rmax_r _ _). lra.
Qed.
(** Sampled with the pressure and velocity between the waves, the code gives a solution of the Riemann problem: smooth solutions of
    the equations of Euler, joined by discontinuities that conserve mass, momentum and energy and do not lower entropy. *)
Theorem C79_solution : forall gamma dl ul pl dr ur pr ps us, 1 < gamma -> 0 < pl -> 0 < pr -> 0 < dl -> 0 < dr ->
  star gamma (dl, ul, pl) (dr, ur, pr) ps us ->
  exists W, solves gamma (dl, ul, pl) (dr, ur, pr) W /\
    forall s, SampleExactSolution gamma pl pr dl dr (speed_of_sound gamma pl dl) (speed_of_sound gamma pr dr) ul ur ps us s = Ok (mkfl (de (W s)) (ve (W s)) (pe (W s))).
Proof.
  intros gamma dl ul pl dr ur pr ps us Hg Hpl Hpr Hdl Hdr S.
  destruct (proj1 (star_root gamma pl pr dl dr _ _ ul ur Hg Hpl Hpr Hdl Hdr eq_refl eq_refl ps us) S) as [P [_ [E1 E2]]].
  pose proof (sample_solves gamma pl pr dl dr _ _ ul ur ps us Hg Hpl Hpr Hdl Hdr eq_refl eq_refl P E1 E2) as H. cbv zeta in H. destruct H as [H1 H2].
  eexists. split; [exact H2|]. intros s. destruct (H1 s) as [w [Ew Et]]. unfold speed_of_sound. rewrite <- Et. rewrite Ew. destruct w. reflexivity.
Qed.
(** The shock tube: with two rarefactions the whole profile is a solution. *)
Theorem C79_shocktube : forall gamma dl ul pl dr ur pr ps us, 1 < gamma -> 0 < pl -> 0 < pr -> 0 < dl -> 0 < dr ->
  star gamma (dl, ul, pl) (dr, ur, pr) ps us -> / 10 ^ 20 <= ps -> ps <= pl -> ps <= pr ->
  ppv pl pr dl dr (speed_of_sound gamma pl dl) (speed_of_sound gamma pr dr) ul ur < Rmin pl pr ->
  exists W, solves gamma (dl, ul, pl) (dr, ur, pr) W /\
    forall s, shocktube gamma dl dr ul ur pl pr s = Ok (mkfl (de (W s)) (ve (W s)) (pe (W s))).
Proof.
  intros gamma dl ul pl dr ur pr ps us Hg Hpl Hpr Hdl Hdr S Hs HL HR Hp.
  destruct (C79_solution gamma dl ul pl dr ur pr ps us Hg Hpl Hpr Hdl Hdr S) as [W [W1 W2]]. exists W. split; [exact W1|].
  intros s. unfold shocktube. pose proof (C79_rarefactions gamma dl ul pl dr ur pr ps us Hg Hpl Hpr Hdl Hdr S Hs HL HR Hp) as C.
  unfold speed_of_sound in *. rewrite C. cbn [bind fst snd]. apply W2.
Qed.

(** ** Fluxes *)
(** The flux is that of the sampled gas: its velocity along the normal is the sampled one, across it that of the side the gas comes from. *)
Theorem C79_flux : forall gamma ndim Wl Wr n vf ps us w, (1 <= ndim <= 3)%nat -> dot ndim n n = 1 ->
  let cl := speed_of_sound gamma (w_p Wl) (w_d Wl) in let cr := speed_of_sound gamma (w_p Wr) (w_d Wr) in
  let ul := dot ndim (w_v Wl) n in let ur := dot ndim (w_v Wr) n in
  ComputeStarRegion gamma (w_p Wl) (w_p Wr) (w_d Wl) (w_d Wr) cl cr ul ur = Ok (ps, us) -> 0 < ps ->
  SampleExactSolution gamma (w_p Wl) (w_p Wr) (w_d Wl) (w_d Wr) cl cr ul ur ps us 0 = Ok w -> 0 < f_d w ->
  exists X v, ComputeFluxes gamma ndim false Wl Wr n vf = Ok X /\
    (forall k, (k < ndim)%nat -> let up := if Rlt_dec 0 (f_u w) then w_v Wl else w_v Wr in v k = vf k + up k + (f_u w - dot ndim up n) * n k) /\
    dot ndim v n = f_u w + dot ndim vf n /\
    (forall k, (k < ndim)%nat -> x_rho X k = mass_flux (f_d w) v vf k /\ x_e X k = en_flux gamma (dot ndim v v) (f_d w) (f_p w) v vf k /\ x_vface X k = vf k /\
       forall kv, (kv < ndim)%nat -> x_mom X kv k = mom_flux (f_d w) (f_p w) v vf kv k).
Proof.
  intros gamma ndim Wl Wr n vf ps us w Hn U cl cr ul ur HS Hps HW Hd.
  unfold ComputeFluxes. rewrite !(rot_normal ndim n _ Hn U). fold cl cr ul ur. change (sqrt (gamma * w_p Wl / w_d Wl)) with cl. change (sqrt (gamma * w_p Wr / w_d Wr)) with cr. rewrite HS. cbn [bind fst snd].
  rewrite (proj2 (rltb_true _ _) Hps), HW. cbn [bind].
  set (v := fun k => RotateVector ndim (rotMat ndim n) (fun k => if Nat.eqb k 0 then f_u w else if rltb 0 (f_u w) then RotateVector ndim (invRotMat ndim n) (w_v Wl) k else RotateVector ndim (invRotMat ndim n) (w_v Wr) k) k + vf k).
  set (up := if Rlt_dec 0 (f_u w) then w_v Wl else w_v Wr).
  assert (V : forall k, (k < ndim)%nat -> v k = vf k + up k + (f_u w - dot ndim up n) * n k).
  { intros k Hk. unfold v. assert (E : rltb 0 (f_u w) = if Rlt_dec 0 (f_u w) then true else false).
    { destruct (Rlt_dec 0 (f_u w)); [apply rltb_true; assumption|apply rltb_false; lra]. } rewrite E. unfold up.
    destruct (Rlt_dec 0 (f_u w)); rewrite (rot_face ndim n _ _ k Hn U Hk); ring. }
  eexists. exists v. split; [reflexivity|]. split; [exact V|]. split.
  - unfold dot in *. rewrite (sumf_ext ndim _ (fun k => vf k * n k + (up k * n k + (f_u w - sumf ndim (fun k => up k * n k)) * (n k * n k)))) by (intros k Hk; rewrite (V k Hk); ring).
    rewrite !sumf_plus, sumf_scal, U. ring.
  - intros k Hk. cbn [x_rho x_e x_mom x_vface]. fold (v k). split; [reflexivity|]. split; [|split; [reflexivity|]].
    + unfold en_flux. assert (DD : sumf ndim (fun k => v k * v k) = dot ndim v v) by reflexivity. rewrite <- DD. fold v.
      change (fun k0 => (RotateVector ndim (rotMat ndim n) (fun k1 => if Nat.eqb k1 0 then f_u w else if rltb 0 (f_u w) then RotateVector ndim (invRotMat ndim n) (w_v Wl) k1 else RotateVector ndim (invRotMat ndim n) (w_v Wr) k1) k0 + vf k0) *
         (RotateVector ndim (rotMat ndim n) (fun k1 => if Nat.eqb k1 0 then f_u w else if rltb 0 (f_u w) then RotateVector ndim (invRotMat ndim n) (w_v Wl) k1 else RotateVector ndim (invRotMat ndim n) (w_v Wr) k1) k0 + vf k0)) with (fun k0 => v k0 * v k0).
      set (T := sumf ndim (fun k0 => v k0 * v k0)). 
      replace (f_d w * (1 / 2 * T + f_p w / (gamma - 1) / f_d w)) with (1 / 2 * f_d w * T + f_p w / (gamma - 1) * (f_d w / f_d w)) by (unfold Rdiv; ring).
      replace (f_d w / f_d w) with 1 by (field; lra). rewrite Rmult_1_r. reflexivity.
    + intros kv Hkv. fold (v kv). unfold mom_flux. destruct (Nat.eqb_spec kv k) as [->|]; ring.
Qed.
(** From the exact states: the gas through the face comes from the side of the contact on which the face lies. *)
Theorem C79_upwind : forall gamma dl ul pl dr ur pr ps us w, 1 < gamma -> 0 < pl -> 0 < pr -> 0 < dl -> 0 < dr ->
  star gamma (dl, ul, pl) (dr, ur, pr) ps us ->
  SampleExactSolution gamma pl pr dl dr (speed_of_sound gamma pl dl) (speed_of_sound gamma pr dr) ul ur ps us 0 = Ok w ->
  (0 < us -> 0 < f_u w) /\ (us < 0 -> f_u w < 0).
Proof.
  intros gamma dl ul pl dr ur pr ps us w Hg Hpl Hpr Hdl Hdr S E.
  apply (sample_sign gamma pl pr dl dr _ _ ul ur Hg Hpl Hpr Hdl Hdr eq_refl eq_refl ps us w S E).
Qed.
(** Equal states on both sides: the flux is the flux of that state, whatever the face. *)
Theorem C79_same : forall gamma ndim W n vf, (1 <= ndim <= 3)%nat -> dot ndim n n = 1 -> 1 < gamma -> / 10 ^ 20 <= w_p W -> 0 < w_d W ->
  exists X v, ComputeFluxes gamma ndim false W W n vf = Ok X /\ (forall k, (k < ndim)%nat -> v k = w_v W k + vf k) /\
    forall k, (k < ndim)%nat -> x_rho X k = mass_flux (w_d W) v vf k /\ x_e X k = en_flux gamma (dot ndim v v) (w_d W) (w_p W) v vf k /\
       forall kv, (kv < ndim)%nat -> x_mom X kv k = mom_flux (w_d W) (w_p W) v vf kv k.
Proof.
  intros gamma ndim W n vf Hn U Hg Hp Hd. pose proof small_pos as SP. unfold small_number in SP. assert (P : 0 < w_p W) by lra.
  set (u := dot ndim (w_v W) n). set (p := w_p W) in *. set (d := w_d W) in *. set (c := speed_of_sound gamma p d).
  pose proof (c_pos gamma p d c Hg P Hd eq_refl) as C.
  assert (FS : fside gamma p d c p = 0) by (apply (fs_p gamma p d c); assumption).
  assert (CS : ComputeStarRegion gamma p p d d c c u u = Ok (p, u)).
  { unfold ComputeStarRegion. rewrite (proj2 (rleb_false _ _)) by (unfold g7; lra). unfold guess.
    assert (PV : ppv p p d d c c u u = p). { unfold ppv. cbv zeta. replace (1 / 2 * (p + p) + 1 / 2 * (u - u) * (1 / 4 * (d + d) * (c + c))) with p by field. apply Rmax_right. lra. }
    rewrite PV. rewrite Rmin_left, Rmax_left by lra. replace (p / p) with 1 by (field; lra). rewrite !(proj2 (rleb_true _ _)) by lra. cbn [andb bind].
    rewrite Rmax_left by (unfold small_number; lra). unfold Niterationmax. change (100 - 1)%nat with 99%nat. rewrite newton_eq. unfold step.
    assert (FF : F gamma p p d d c c u u p = 0) by (unfold F; rewrite FS; ring). rewrite FF, FS.
    replace (p - 0 / F' gamma p p d d c c p) with p by (unfold Rdiv; ring).
    rewrite (proj2 (rltb_false _ _)) by (unfold small_number; lra). rewrite Rminus_eq_0, Rabs_R0.
    rewrite (proj2 (rltb_true _ _)); [|unfold tol; replace (2 * 0 / (p + p)) with 0 by (field; lra); apply Rinv_0_lt_compat, pow_lt; lra].
    f_equal. f_equal. field. }
  assert (SS : exists w, SampleExactSolution gamma p p d d c c u u p u 0 = Ok w /\ w = mkfl d u p).
  { assert (EL : u = u - fside gamma p d c p) by (rewrite FS; ring). assert (ER : u = u + fside gamma p d c p) by (rewrite FS; ring).
    exists (mkfl d u p). split; [|reflexivity].
    destruct (Rle_dec 0 u) as [L|L].
    - rewrite (SS_left gamma p p d d c c u u p u) by (try reflexivity; lra). unfold sample_left. rewrite (proj2 (rleb_true p p)) by lra.
      replace (p / p) with 1 by (field; lra). rewrite !pw_pos by lra. rewrite !rpower_1_l. cbn [bind]. rewrite !Rmult_1_r.
      destruct (Rle_dec 0 (u - c)) as [A|A]; [rewrite (proj2 (rleb_true _ _) A); reflexivity|].
      rewrite (proj2 (rleb_false _ _)) by lra. rewrite (proj2 (rltb_true _ _)) by lra. reflexivity.
    - rewrite (SS_right gamma p p d d c c u u p u) by (try reflexivity; lra). unfold sample_right. rewrite (proj2 (rleb_true p p)) by lra.
      replace (p / p) with 1 by (field; lra). cbv zeta. pose proof (g6_pos gamma Hg). replace (d * (1 + g6 gamma) / (1 * g6 gamma + 1)) with d by (field; lra). destruct (rleb _ _); reflexivity. }
  destruct SS as [w [SS ->]].
  destruct (C79_flux gamma ndim W W n vf p u (mkfl d u p) Hn U CS P SS Hd) as [X [v [E [V [_ G]]]]]. cbn [f_d f_u f_p] in *.
  exists X, v. split; [exact E|]. split.
  - intros k Hk. rewrite (V k Hk). cbv zeta. fold u. destruct (Rlt_dec 0 u); fold u; ring.
  - intros k Hk. destruct (G k Hk) as [G1 [G2 [G3 G4]]]. repeat split; assumption.
Qed.
(** Faces without mass flux (finite-mass scheme): no mass passes, the momentum is the sampled pressure, the energy its work at the
    velocity of the face. *)
Theorem C79_zmf : forall gamma ndim Wl Wr n vf X, (1 <= ndim <= 3)%nat -> ComputeFluxes gamma ndim true Wl Wr n vf = Ok X ->
  exists p, forall k, (k < ndim)%nat -> x_rho X k = 0 /\ x_e X k = p * x_vface X k /\ forall kv, (kv < ndim)%nat -> x_mom X kv k = if Nat.eqb kv k then p else 0.
Proof.
  intros gamma ndim Wl Wr n vf X Hn E. unfold ComputeFluxes in E. destruct (ComputeStarRegion _ _ _ _ _ _ _ _ _) as [[ps us]| | |]; try discriminate. cbn [bind fst snd] in E.
  destruct (rltb 0 ps).
  - destruct (SampleExactSolution _ _ _ _ _ _ _ _ _ _ _ _) as [w| | |]; try discriminate. cbn [bind] in E. injection E as <-. exists (f_p w). intros k Hk. cbn [x_rho x_e x_mom x_vface].
    assert (Z : forall k, RotateVector ndim (rotMat ndim n) (fun _ => 0) k = 0).
    { intros j. unfold RotateVector. rewrite (sumf_ext ndim _ (fun _ => 0)) by (intros; ring). apply sumf_zero. }
    rewrite Z. split; [ring|]. split; [ring|]. intros kv Hkv. rewrite Z. destruct (Nat.eqb_spec kv k) as [->|]; ring.
  - injection E as <-. exists 0. intros k Hk. cbn [x_rho x_e x_mom x_vface]. split; [ring|]. split; [ring|]. intros kv _. destruct (Nat.eqb kv k); reflexivity.
Qed.

(** ** Where they fail *)
Lemma pow_fifth : Rpower (1 / 32 / 1) (g1 (5 / 3)) = 1 / 2.
Proof.
  replace (1 / 32 / 1) with ((1 / 2) ^ 5) by field. rewrite <- Rpower_pow by lra. rewrite Rpower_mult. replace (INR 5 * g1 (5 / 3)) with 1 by (unfold g1; simpl; field). apply Rpower_1. lra.
Qed.
Lemma sound_one : speed_of_sound (5 / 3) 1 (5 / 3) = 1.
Proof. unfold speed_of_sound. replace (5 / 3 * 1 / (5 / 3)) with 1 by field. apply sqrt_1. Qed.
Lemma star_two : star (5 / 3) (5 / 3, 17 / 2, 1) (5 / 3, 23 / 2, 1) (1 / 32) 10.
Proof.
  assert (F32 : fside (5 / 3) 1 (5 / 3) 1 (1 / 32) = - (3 / 2)). { unfold fside. rewrite (proj2 (rltb_false _ _)) by lra. rewrite pow_fifth. unfold g4. field. }
  apply (star_root (5 / 3) 1 1 (5 / 3) (5 / 3) 1 1 (17 / 2) (23 / 2) ltac:(lra) ltac:(lra) ltac:(lra) ltac:(lra) ltac:(lra) (eq_sym sound_one) (eq_sym sound_one)). unfold F. rewrite F32. repeat split; lra.
Qed.
Lemma star_two_code : ComputeStarRegion (5 / 3) 1 1 (5 / 3) (5 / 3) 1 1 (17 / 2) (23 / 2) = Ok (1 / 32, 10).
Proof.
  pose proof (C79_rarefactions (5 / 3) (5 / 3) (17 / 2) 1 (5 / 3) (23 / 2) 1 (1 / 32) 10) as H. cbv zeta in H. rewrite sound_one in H. apply H; try lra; [apply star_two|].
  rewrite Rmin_left by lra. unfold ppv. cbv zeta. rewrite Rmax_left by lra. lra.
Qed.
(** The face of the finite-mass scheme should move with the gas between the waves and feel its pressure.  The code takes both from the
    ray of the old face: here gas that parts at 10 with pressure 1/32 gives a face at 8.5 with pressure 1. *)
Theorem C79_zmf_refuted : exists gamma Wl Wr ps us X, star gamma (w_d Wl, w_v Wl 0%nat, w_p Wl) (w_d Wr, w_v Wr 0%nat, w_p Wr) ps us /\
  ComputeFluxes gamma 1 true Wl Wr (fun _ => 1) (fun _ => 0) = Ok X /\ ps = 1 / 32 /\ us = 10 /\ x_mom X 0%nat 0%nat = 1 /\ x_vface X 0%nat = 17 / 2 /\ x_rho X 0%nat = 0.
Proof.
  exists (5 / 3), (mkpr (fun _ => 17 / 2) (5 / 3) 1), (mkpr (fun _ => 23 / 2) (5 / 3) 1), (1 / 32), 10. eexists. split; [apply star_two|].
  assert (N : RotateVector 1 (invRotMat 1 (fun _ => 1)) (fun _ => 17 / 2) 0%nat = 17 / 2) by (unfold RotateVector; cbn [sumf invRotMat]; ring).
  assert (N' : RotateVector 1 (invRotMat 1 (fun _ => 1)) (fun _ => 23 / 2) 0%nat = 23 / 2) by (unfold RotateVector; cbn [sumf invRotMat]; ring).
  split.
  - unfold ComputeFluxes. cbn [w_p w_d w_v]. rewrite N, N'. fold (speed_of_sound (5 / 3) 1 (5 / 3)). rewrite sound_one. rewrite star_two_code. cbn [bind fst snd].
    rewrite (proj2 (rltb_true _ _)) by lra. unfold SampleExactSolution. rewrite (proj2 (rleb_true 0 10)) by lra. unfold sample_left.
    rewrite (proj2 (rleb_true (1 / 32) 1)) by lra. rewrite (proj2 (rleb_true 0 _)) by lra. cbn [bind f_p f_d f_u]. rewrite (proj2 (rltb_false 1 0)) by lra. cbn [bind f_p f_d f_u]. reflexivity.
  - cbn [x_mom x_vface x_rho]. unfold RotateVector. cbn [sumf Nat.eqb]. repeat split; ring.
Qed.
(** A vacuum between the sides: all fluxes are set to zero, *)
Theorem C79_vacuum : forall gamma ndim zmf Wl Wr n vf, (1 <= ndim <= 3)%nat -> dot ndim n n = 1 -> 1 < gamma -> 0 < w_p Wl -> 0 < w_p Wr -> 0 < w_d Wl -> 0 < w_d Wr ->
  ~ (exists ps us, star gamma (w_d Wl, dot ndim (w_v Wl) n, w_p Wl) (w_d Wr, dot ndim (w_v Wr) n, w_p Wr) ps us) ->
  exists X, ComputeFluxes gamma ndim zmf Wl Wr n vf = Ok X /\ forall k, x_rho X k = 0 /\ x_e X k = 0 /\ forall kv, x_mom X kv k = 0.
Proof.
  intros gamma ndim zmf Wl Wr n vf Hn U Hg H1 H2 H3 H4 NS. unfold ComputeFluxes. rewrite !(rot_normal ndim n _ Hn U). unfold ComputeStarRegion.
  rewrite (star_iff gamma (w_p Wl) (w_p Wr) (w_d Wl) (w_d Wr) _ _ _ _ Hg H1 H2 H3 H4 eq_refl eq_refl) in NS.
  rewrite (proj2 (rleb_true _ _)) by lra. cbn [bind fst snd]. rewrite (proj2 (rltb_false 0 0)) by lra. eexists. split; [reflexivity|]. intros k. repeat split; reflexivity.
Qed.
(** ... also where the gas of the left side crosses the face faster than sound, ahead of every wave. *)
Theorem C79_vacuum_refuted : exists gamma Wl Wr X, 0 < w_v Wl 0%nat - speed_of_sound gamma (w_p Wl) (w_d Wl) /\ 0 < w_v Wr 0%nat - speed_of_sound gamma (w_p Wr) (w_d Wr) /\
  ComputeFluxes gamma 1 false Wl Wr (fun _ => 1) (fun _ => 0) = Ok X /\ x_rho X 0%nat = 0 /\ mass_flux (w_d Wl) (w_v Wl) (fun _ => 0) 0 = 50 / 3.
Proof.
  exists (5 / 3), (mkpr (fun _ => 10) (5 / 3) 1), (mkpr (fun _ => 20) (5 / 3) 1). eexists. cbn [w_v w_p w_d]. rewrite sound_one.
  assert (N : RotateVector 1 (invRotMat 1 (fun _ => 1)) (fun _ => 10) 0%nat = 10) by (unfold RotateVector; cbn [sumf invRotMat]; ring).
  assert (N' : RotateVector 1 (invRotMat 1 (fun _ => 1)) (fun _ => 20) 0%nat = 20) by (unfold RotateVector; cbn [sumf invRotMat]; ring).
  split; [lra|]. split; [lra|]. split.
  - unfold ComputeFluxes. cbn [w_p w_d w_v]. rewrite N, N'. fold (speed_of_sound (5 / 3) 1 (5 / 3)). rewrite sound_one. unfold ComputeStarRegion.
    rewrite (proj2 (rleb_true _ _)) by (unfold g7; lra). cbn [bind fst snd]. rewrite (proj2 (rltb_false 0 0)) by lra. reflexivity.
  - cbn [x_rho]. split; [reflexivity|]. unfold mass_flux. field.
Qed.

(** ** Concrete cases *)
Lemma star_shocks : star (5 / 3) (1, 7 / 8, 1) (1, - (7 / 8), 1) (11 / 4) 0.
Proof.
  apply (star_root (5 / 3) 1 1 1 1 (speed_of_sound (5 / 3) 1 1) (speed_of_sound (5 / 3) 1 1) (7 / 8) (- (7 / 8)) ltac:(lra) ltac:(lra) ltac:(lra) ltac:(lra) ltac:(lra) eq_refl eq_refl).
  assert (FS : fside (5 / 3) 1 1 (speed_of_sound (5 / 3) 1 1) (11 / 4) = 7 / 8).
  { unfold fside. rewrite (proj2 (rltb_true _ _)) by lra. replace (g5 (5 / 3) / 1 / (11 / 4 + 1 * g6 (5 / 3))) with (1 / 2 * (1 / 2)) by (unfold g5, g6; field). rewrite sqrt_square by lra. field. }
  unfold F. rewrite FS. repeat split; lra.
Qed.
Example C79_star_case : exists q v, ComputeStarRegion (5 / 3) 1 1 1 1 (speed_of_sound (5 / 3) 1 1) (speed_of_sound (5 / 3) 1 1) (7 / 8) (- (7 / 8)) = Ok (q, v) /\ q <= 11 / 4 <= q * (1 + 2 / 10 ^ 6).
Proof.
  destruct (C79_star (5 / 3) 1 (7 / 8) 1 1 (- (7 / 8)) 1 (11 / 4) 0) as [q [v [H1 [_ [H2 _]]]]]; try lra; [apply star_shocks|exists q, v; split; assumption].
Qed.
Example C79_exists_case : (exists ps us, star (5 / 3) (1, 7 / 8, 1) (1, - (7 / 8), 1) ps us) /\ ~ (exists ps us, star (5 / 3) (5 / 3, 0, 1) (5 / 3, 10, 1) ps us).
Proof.
  split; [exists (11 / 4), 0; apply star_shocks|]. destruct (C79_exists (5 / 3) (5 / 3) 0 1 (5 / 3) 10 1) as [H _]; try lra. rewrite H, sound_one. lra.
Qed.
Example C79_rarefactions_case : ComputeStarRegion (5 / 3) 1 1 (5 / 3) (5 / 3) 1 1 (17 / 2) (23 / 2) = Ok (1 / 32, 10).
Proof. exact star_two_code. Qed.
Example C79_solution_case : exists W, solves (5 / 3) (1, 7 / 8, 1) (1, - (7 / 8), 1) W /\
  forall s, SampleExactSolution (5 / 3) 1 1 1 1 (speed_of_sound (5 / 3) 1 1) (speed_of_sound (5 / 3) 1 1) (7 / 8) (- (7 / 8)) (11 / 4) 0 s = Ok (mkfl (de (W s)) (ve (W s)) (pe (W s))).
Proof. apply C79_solution; try lra. apply star_shocks. Qed.
Example C79_shocktube_case : exists W, solves (5 / 3) (5 / 3, 17 / 2, 1) (5 / 3, 23 / 2, 1) W /\
  forall s, shocktube (5 / 3) (5 / 3) (5 / 3) (17 / 2) (23 / 2) 1 1 s = Ok (mkfl (de (W s)) (ve (W s)) (pe (W s))).
Proof.
  apply (C79_shocktube (5 / 3) (5 / 3) (17 / 2) 1 (5 / 3) (23 / 2) 1 (1 / 32) 10); try lra; [apply star_two|].
  rewrite sound_one, Rmin_left by lra. unfold ppv. cbv zeta. rewrite Rmax_left by lra. lra.
Qed.
Example C79_same_case : exists X, ComputeFluxes (5 / 3) 2 false (mkpr (fun k => if Nat.eqb k 0 then 2 else 3) 1 1) (mkpr (fun k => if Nat.eqb k 0 then 2 else 3) 1 1) (fun k => if Nat.eqb k 0 then 3 / 5 else 4 / 5) (fun _ => 1) = Ok X /\
  x_rho X 0%nat = 2 /\ x_rho X 1%nat = 3 /\ x_mom X 1%nat 0%nat = 8.
Proof.
  destruct (C79_same (5 / 3) 2 (mkpr (fun k => if Nat.eqb k 0 then 2 else 3) 1 1) (fun k => if Nat.eqb k 0 then 3 / 5 else 4 / 5) (fun _ => 1)) as [X [v [E [V G]]]]; cbn [w_p w_d]; try lra; try lia.
  - unfold dot. cbn [sumf Nat.eqb]. field.
  - exists X. split; [exact E|]. destruct (G 0%nat ltac:(lia)) as [G1 [_ G2]]. destruct (G 1%nat ltac:(lia)) as [G3 _]. specialize (G2 1%nat ltac:(lia)).
    rewrite G1, G3, G2. unfold mass_flux, mom_flux. rewrite !V by lia. cbn [w_v w_d w_p Nat.eqb]. repeat split; ring.
Qed.

Print Assumptions C79_exists.
Print Assumptions C79_star.
Print Assumptions C79_rarefactions.
Print Assumptions C79_shock_guess.
Print Assumptions C79_solution.
Print Assumptions C79_shocktube.
Print Assumptions C79_flux.
Print Assumptions C79_upwind.
Print Assumptions C79_same.
Print Assumptions C79_zmf.
Print Assumptions C79_zmf_refuted.
Print Assumptions C79_vacuum.
Print Assumptions C79_vacuum_refuted.
