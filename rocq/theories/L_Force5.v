From Verif Require Import Prelude L_Prelude Vec M_Box L_Box M_Kernel L_Kernel M_Force S_Stock L_Stock S_Force L_Force L_Force2 L_Force3 L_Force4.
From Coq Require Import Reals Lra Permutation.
Local Open Scope R_scope.

(** Example particles on a line. *)
Definition exf (m x v u : R) (lev : Z) : fpart :=
  {| f_m := m; f_r := fun k => match k with 0%nat => x | _ => 0 end; f_v := fun k => match k with 0%nat => v | _ => 0 end;
     f_h := 1; f_rho := 1; f_pressure := u; f_invomega := 1; f_hfactor := 1; f_sound := 1; f_alpha := 0; f_u := u; f_zeta := 0;
     f_hr2 := 4; f_level := lev |}.
Definition m4F := ComputeSphHydroForces 1 (m4_w1 1).

Lemma exf_hd : forall m v u l m' v' u' l', hd 1 (exf m 0 v u l) (exf m' 1 v' u' l') = 1.
Proof. intros. unfold hd, dot, vsub. cbn. replace (0 + (1 - 0) * (1 - 0)) with 1 by ring. apply sqrt_1. Qed.
Lemma exf_hv : forall m v u l m' v' u' l', hv 1 (exf m 0 v u l) (exf m' 1 v' u' l') = v' - v.
Proof.
  intros. unfold hv, he. rewrite exf_hd. assert (E : rltb 0 1 = true) by (apply rltb_true; lra). rewrite E.
  unfold dot, vsub. cbn. field.
Qed.
Lemma m4_w1_1 : m4_w1 1 1 = - (1 / 2).
Proof. unfold m4_w1, rltb, m4_kernnorm. destruct (Rlt_dec 1 1), (Rlt_dec 1 2); lra. Qed.

(** Units with price2008. *)
Lemma units_bad : exists p q,
  let F := ComputeSphHydroForces 1 (m4_w1 1) noav price2008 notdav 1 2 0 f_pressure in
  a_dudt (F (rescale 1 1 4 1 p) acc0 [rescale 1 1 4 1 q]) <> 1 ^ 2 / 1 ^ 3 * a_dudt (F p acc0 [q]).
Proof.
  exists (exf 1 0 1 2 0), (exf 1 1 0 1 0). cbn zeta. rewrite !HF_dudt. cbn [lsum].
  rewrite (hd_sc 1 1 4 1) by lra. rewrite (hv_sc 1 1 4 1) by lra. rewrite !(wi_sc 1 (m4_w1 1) 1 4 1) by lra.
  rewrite exf_hd, exf_hv. unfold du, dissipation. rewrite (rltb_sc 1 1) by lra.
  assert (E : rltb (0 - 1) 0 = true) by (apply rltb_true; lra). rewrite E.
  unfold wi_, comph. cbn [rescale exf f_hfactor f_h f_rho f_m f_u f_pressure f_invomega snd fst].
  replace (1 * (1 / 1)) with 1 by field. rewrite m4_w1_1.
  replace (4 / 1 ^ 1 * (1 / 1) ^ 2 * 2 - 4 / 1 ^ 1 * (1 / 1) ^ 2 * 1) with 4 by field.
  replace (2 - 1) with 1 by ring. rewrite !Rabs_right by lra. rewrite sqrt_1.
  assert (Q : sqrt 4 = 2) by (replace 4 with (2 * 2) by ring; apply sqrt_square; lra). rewrite Q. intros H. field_simplify in H. lra.
Qed.

(** The stored viscosity rate. *)
Definition alp (a : R) : fpart :=
  {| f_m := 1; f_r := fun _ => 0; f_v := fun _ => 0; f_h := 1; f_rho := 1; f_pressure := 1; f_invomega := 1; f_hfactor := 1;
     f_sound := 1; f_alpha := a; f_u := 1; f_zeta := 0; f_hr2 := 4; f_level := 0 |}.
Lemma UH_divv : forall n w1 avisc acond tdavisc al be almin Pr p x y l,
  a_divv (UpdateHydro n w1 avisc acond tdavisc al be almin Pr p (ZeroAccelerations x) l) =
  a_divv (UpdateHydro n w1 avisc acond tdavisc al be almin Pr p (ZeroAccelerations y) l).
Proof. reflexivity. Qed.
Lemma accumulates : forall n w1 avisc acond al be almin Pr p x l (k : nat),
  let U y := UpdateHydro n w1 avisc acond mm97 al be almin Pr p (ZeroAccelerations y) l in
  a_dalphadt (Nat.iter k U x) = a_dalphadt x + INR k * mm97_rate almin al p (a_divv (U x)).
Proof.
  intros n w1 avisc acond al be almin Pr p x l k U. induction k as [|k IH]; [cbn; lra|].
  change (Nat.iter (S k) U x) with (U (Nat.iter k U x)). rewrite S_INR. unfold U at 1. rewrite rate_hydro by reflexivity.
  rewrite IH. rewrite (UH_divv _ _ _ _ _ _ _ _ _ _ (Nat.iter k U x) x). fold (U x). ring.
Qed.
Lemma rate_bad : exists p l,
  let U y := UpdateHydro 1 (m4_w1 1) mon97mm97 noac mm97 1 2 (1 / 10) f_pressure p (ZeroAccelerations y) l in
  l = filter (interacts 1 p) l /\ a_dalphadt (U (U acc0)) <> mm97_rate (1 / 10) 1 p (a_divv (U (U acc0))).
Proof.
  exists (alp 1), [alp 1]. intros U. split.
  - cbn [filter]. unfold interacts, rleb. cbn [alp f_hr2]. destruct (Rle_dec 4 _) as [H|H]; [|reflexivity].
    exfalso. unfold dot, vsub in H. cbn in H. lra.
  - pose proof (accumulates 1 (m4_w1 1) mon97mm97 noac 1 2 (1 / 10) f_pressure (alp 1) acc0 [alp 1] 2) as A. cbn zeta in A. fold U in A.
    change (Nat.iter 2 U acc0) with (U (U acc0)) in A. rewrite A.
    assert (E : a_divv (U (U acc0)) = a_divv (U acc0)) by apply UH_divv. rewrite E.
    assert (V : forall d, mm97_rate (1 / 10) 1 (alp 1) d = - (9 / 100)).
    { intros. unfold mm97_rate. cbn [alp f_sound f_alpha f_h]. field. }
    rewrite V. cbn [acc0 a_dalphadt INR]. lra.
Qed.
Lemma rate_lost : exists p l,
  let y := UpdateAll 1 (m4_w1 1) m4_wgrav m4_wpot mon97mm97 noac mm97 1 2 (1 / 10) f_pressure (fun _ => 0%Z) p (ZeroAccelerations acc0) l [] [] in
  l = filter (interacts 1 p) l /\ a_dalphadt y <> mm97_rate (1 / 10) 1 p (a_divv y).
Proof.
  exists (alp 1), [alp 1]. cbn zeta. split.
  - cbn [filter]. unfold interacts, rleb. cbn [alp f_hr2]. destruct (Rle_dec 4 _) as [H|H]; [|reflexivity].
    exfalso. unfold dot, vsub in H. cbn in H. lra.
  - rewrite rate_all. cbn [acc0 a_dalphadt].
    assert (V : forall d, mm97_rate (1 / 10) 1 (alp 1) d = - (9 / 100)).
    { intros. unfold mm97_rate. cbn [alp f_sound f_alpha f_h]. field. }
    rewrite V. lra.
Qed.
(** With gravity the rate rises where the gas expands. *)
Lemma small_lt : small_number < 1.
Proof. unfold small_number. rewrite <- Rinv_1. apply Rinv_lt_contravar; [rewrite Rmult_1_l; apply pow_lt; lra|]. apply Rlt_pow_R1; [lra|lia]. Qed.
Lemma gd_exf : forall m v u l m' v' u' l', 1 < gd 1 (exf m 0 v u l) (exf m' 1 v' u' l') < 2.
Proof.
  intros. unfold gd, dot, vsub. cbn [sumf exf f_r]. pose proof small_pos. pose proof small_lt.
  split.
  - apply Rle_lt_trans with (sqrt 1); [rewrite sqrt_1; lra|apply sqrt_lt_1; lra].
  - apply Rlt_le_trans with (sqrt (2 * 2)); [apply sqrt_lt_1; lra|rewrite sqrt_square; lra].
Qed.
Lemma rate_sign : exists p q,
  let y := ComputeSphHydroGravForces 1 (m4_w1 1) m4_wgrav m4_wpot mon97mm97 noac mm97 1 2 (1 / 10) f_pressure p acc0 [q] in
  interacts 1 p q = true /\ 0 < a_divv y /\ mm97_rate (1 / 10) 1 p (a_divv y) = 1 / 100 /\
  a_dalphadt y = 1 / 100 + a_divv y.
Proof.
  exists (exf 1 0 0 1 0), (exf 1 1 1 1 0).
  intros y. set (p := exf 1 0 0 1 0) in *. set (q := exf 1 1 1 1 0) in *.
  assert (D : 0 < a_divv y).
  { unfold y, ComputeSphHydroGravForces. cbn [a_divv].
    destruct (hydrograv_fold 1 (m4_w1 1) m4_wgrav m4_wpot mon97mm97 noac 1 2 p [q] acc0) as (_ & _ & _ & _ & _ & F & _). rewrite F.
    cbn [lsum acc0 a_divv]. pose proof (gd_exf 1 0 1 0 1 1 1 0) as G. fold p q in G.
    assert (V : gv 1 p q = 1 / gd 1 p q). { unfold gv, dot, ge, vsub. cbn [sumf p q exf f_v f_r]. ring. }
    rewrite V. unfold wi_. set (d := gd 1 p q) in *. cbn [p q exf f_m f_rho f_hfactor f_h].
    replace (d * (1 / 1)) with d by field.
    assert (W : m4_w1 1 d < 0).
    { unfold m4_w1, rltb, m4_kernnorm. destruct (Rlt_dec d 1), (Rlt_dec d 2); try lra. nra. }
    assert (0 < 1 / d) by (apply Rdiv_lt_0_compat; lra). nra. }
  split; [|split; [exact D|split]].
  - unfold interacts, rleb. cbn [p q exf f_hr2]. destruct (Rle_dec 4 _) as [H|H]; [|reflexivity].
    exfalso. unfold dot, vsub in H. cbn [p q exf f_r sumf] in H. lra.
  - unfold mm97_rate. rewrite Rmax_right by lra. cbn [p exf f_sound f_alpha f_h]. field.
  - unfold y, ComputeSphHydroGravForces in D |- *. cbn [a_dalphadt a_divv] in D |- *. rewrite Rmax_left by lra.
    set (X := a_divv _ * _). cbn [p exf f_sound f_alpha f_h]. field.
Qed.

(** The particle's own potential. *)
Lemma pot_soft : forall wpot p q d, pot wpot p q d = soft_pot wpot p q d.
Proof. intros. unfold pot, soft_pot, Rdiv. rewrite !Rmult_1_l. ring. Qed.
Lemma potential_spec : forall n w1 wgrav wpot avisc acond tdavisc al be almin Pr lev p x l s d,
  a_gpot (UpdateAll n w1 wgrav wpot avisc acond tdavisc al be almin Pr lev p (ZeroAccelerations x) l s d) =
  f_m p / f_h p * wpot 0 + lsum (fun q => soft_pot wpot p q (gd n p q)) (l ++ s) + lsum (fun q => f_m q / gd n p q) d.
Proof.
  intros. rewrite potential_all. rewrite (lsum_ext _ (fun q => soft_pot wpot p q (gd n p q))); [reflexivity|]. intros; apply pot_soft.
Qed.
Lemma self_twice : exists p,
  let y := UpdateAll 3 (m4_w1 3) m4_wgrav m4_wpot mon97 noac notdav 1 2 0 f_pressure (fun _ => 0%Z) p (ZeroAccelerations acc0)
             (filter (interacts 3 p) [p]) [] [] in
  19 / 10 * (f_m p / f_h p * m4_wpot 0) < a_gpot y.
Proof.
  exists (alp 1). intros y. unfold y. rewrite potential_spec.
  assert (E : filter (interacts 3 (alp 1)) [alp 1] = [alp 1]).
  { cbn [filter]. unfold interacts, rleb. cbn [alp f_hr2]. destruct (Rle_dec 4 _) as [H|H]; [|reflexivity].
    exfalso. unfold dot, vsub in H. cbn in H. lra. }
  rewrite E, app_nil_r. cbn [lsum]. unfold soft_pot. cbn [alp f_m f_h].
  pose proof (gd_pos 3 (alp 1) (alp 1)) as P0.
  assert (P2 : gd 3 (alp 1) (alp 1) * gd 3 (alp 1) (alp 1) = small_number).
  { unfold gd, dot, vsub. cbn [sumf alp f_r]. rewrite sqrt_sqrt; pose proof small_pos; lra. }
  set (d := gd 3 (alp 1) (alp 1)) in *.
  assert (S : small_number <= 1 / 100).
  { unfold small_number. replace (1 / 100) with (/ 10 ^ 2) by field. apply Rinv_le_contravar; [apply pow_lt; lra|]. apply Rle_pow; [lra|lia]. }
  assert (d <= 1 / 10) by nra. replace (d / 1) with d by field.
  assert (W0 : m4_wpot 0 = 7 / 5). { unfold m4_wpot, rltb. destruct (Rlt_dec 0 1); [ring|lra]. }
  assert (W : 139 / 100 <= m4_wpot d).
  { unfold m4_wpot, rltb. destruct (Rlt_dec d 1); [|lra]. rewrite Rmult_assoc, P2.
    assert (X4 : d ^ 4 = small_number * small_number) by (rewrite <- P2; ring).
    assert (X5 : d ^ 5 = d * (small_number * small_number)) by (rewrite <- P2; ring). rewrite X4, X5. pose proof small_pos. nra. }
  rewrite W0. lra.
Qed.

(** Levels of the neighbours. *)
Lemma level_hydro_spec : forall n w1 avisc acond tdavisc al be almin Pr p x l, (forall q, In q l -> (0 <= f_level q)%Z) ->
  let y := a_lneib (UpdateHydro n w1 avisc acond tdavisc al be almin Pr p (ZeroAccelerations x) l) in
  (forall q, In q l -> (f_level q <= y)%Z) /\ (y = 0%Z \/ exists q, In q l /\ y = f_level q).
Proof.
  intros n w1 avisc acond tdavisc al be almin Pr p x l H y. unfold y. rewrite level_hydro.
  destruct (fold_max f_level l 0%Z) as (A & B & C). rewrite Z.max_r by lia. now split.
Qed.
Lemma level_all_spec : forall n w1 wgrav wpot avisc acond tdavisc al be almin Pr lev p x l d, (forall q, In q l -> (0 <= f_level q)%Z) ->
  l <> [] ->
  let y := a_lneib (UpdateAll n w1 wgrav wpot avisc acond tdavisc al be almin Pr lev p (ZeroAccelerations x) l [] d) in
  (forall q, In q l -> (f_level q <= y)%Z) /\ (y = 0%Z \/ exists q, In q l /\ y = f_level q).
Proof.
  intros n w1 wgrav wpot avisc acond tdavisc al be almin Pr lev p x l d H Hl y. unfold y. rewrite level_all by assumption.
  cbn [length seq fold_left]. destruct (fold_max f_level l 0%Z) as (A & B & C). rewrite Z.max_r by lia. now split.
Qed.
Lemma level_bad : exists p q : fpart,
  let lev j := nth j [f_level p; f_level q] 0%Z in
  (a_lneib (UpdateAll 1 (m4_w1 1) m4_wgrav m4_wpot mon97 noac notdav 1 2 0 f_pressure lev p (ZeroAccelerations acc0) [p] [q] []) < f_level q)%Z.
Proof.
  exists (exf 1 0 0 1 2), (exf 1 1 0 1 5). cbn zeta. rewrite level_all by easy. cbn. lia.
Qed.
