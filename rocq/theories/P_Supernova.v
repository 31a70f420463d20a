(** C82: supernovae put in the mass and energy asked for, at the place and times asked for. *)
From Verif Require Import Prelude L_Prelude Vec M_Box L_Box M_Leapfrog M_Supernova S_Supernova L_Supernova.
From Coq Require Import Reals Lra Psatz.
Local Open Scope R_scope.

(** New particles lie in the injection sphere. *)
Theorem C82_sphere fuel ndim N c rad rs i l j : AddRandomSphere fuel ndim N c rad rs i = Ok (l, j) ->
  length l = N /\ Forall (fun r => norm ndim (vsub r c) <= Rabs rad) l.
Proof.
  intros H. apply sphere_ok in H as [A B]. split; [assumption|]. eapply Forall_impl; [|exact B]. intros r K. cbn in K.
  unfold norm. rewrite <- sqrt_Rsqr_abs. apply sqrt_le_1_alt. unfold Rsqr. lra.
Qed.

(** Mass: as many particles of the mean mass as fit into the mass asked for, in the sphere; no
    other mass or position changes; particles outside are untouched. *)
Theorem C82_mass fuel ndim n nstep t c E Rt Mi Ri m neib rs i g g' :
  NoDup neib -> Forall (fun i => (0 <= i < zlen (g_real g))%Z) neib -> 0 < m -> 0 <= Mi ->
  SupernovaInjection fuel ndim n nstep t c E Rt Mi Ri m neib rs i g = Ok g' ->
  (exists N : nat, length (g_real g') = (length (g_real g) + N)%nat /\ INR N * m <= Mi < INR N * m + m /\
     mass (g_real g') = mass (g_real g) + INR N * m) /\
  Forall (fun p => s_m p = m /\ away ndim c p <= Rabs Ri /\ l_r0 (s_l p) = l_r (s_l p) /\ l_v0 (s_l p) = l_v (s_l p) /\ l_u0 (s_l p) = l_u (s_l p) /\
            l_tlast (s_l p) = t /\ (l_nlast (s_l p) + l_nstep (s_l p) = n)%Z /\ l_dead (s_l p) = false /\ l_active (s_l p) = true)
    (skipn (length (g_real g)) (g_real g')) /\
  (forall j p, nth_error (g_real g) j = Some p -> exists p', nth_error (g_real g') j = Some p' /\
     s_m p' = s_m p /\ l_r (s_l p') = l_r (s_l p) /\ (~ In (Z.of_nat j) neib -> p' = p)).
Proof.
  intros Hn Hf Hm HM H. destruct (supernova_real _ _ _ _ _ _ _ _ _ _ _ _ _ _ _ _ Hn Hf H) as (hot & pos & G & L & P & LH & NH & T & Q).
  set (vr := vrad_mag _ _ _ _) in *. set (ui := u_inj _ _ _ _) in *.
  pose proof (Ninject_nonneg Mi m Hm HM) as N0.
  split; [|split].
  - exists (Z.to_nat (Ninject Mi m)). rewrite INR_IZR_INZ, Z2Nat.id by assumption.
    split; [rewrite G, app_length, map_length, LH, L; reflexivity|]. split; [apply Ninject_spec; assumption|].
    unfold mass. rewrite G, total_app, T, total_map.
    change (fun p => s_m (heat_one ndim c vr ui p)) with s_m.
    rewrite (total_const _ m pos) by reflexivity. unfold zlen. rewrite L, Z2Nat.id by assumption. ring.
  - rewrite G, <- LH, skipn_app, skipn_all, Nat.sub_diag. cbn [skipn app]. apply Forall_forall. intros p Hp. apply in_map_iff in Hp as (r & <- & Hr).
    rewrite Forall_forall in P. specialize (P r Hr). unfold thrown, new_particle, away. cbn [s_m s_l l_r l_r0 l_v l_v0 l_u l_u0 l_tlast l_nlast l_nstep l_dead l_active].
    repeat split; try reflexivity; try lia. unfold norm. rewrite <- sqrt_Rsqr_abs. apply sqrt_le_1_alt. unfold Rsqr. lra.
  - intros j p Hj. rewrite G, nth_error_app1 by (rewrite LH; apply nth_error_Some; congruence). rewrite (NH j p Hj).
    eexists. split; [reflexivity|]. destruct (in_dec Z.eq_dec (Z.of_nat j) neib); repeat split; try reflexivity. intros K; contradiction.
Qed.

(** Energy: when the neighbours are real particles of the mean mass, the thermal energy rises by
    exactly the thermal share; the kinetic energy of the particles hit is the kinetic share, up
    to the number added to the distance, whatever it was before; velocities point outwards. *)
Theorem C82_energy fuel ndim n nstep t c E Rt Mi Ri m neib rs i g g' :
  NoDup neib -> Forall (fun i => (0 <= i < zlen (g_real g))%Z) neib -> 0 < m -> 0 <= Mi -> 0 <= E -> 0 < Rt ->
  ((0 < zlen neib)%Z \/ m <= Mi) ->
  (forall p, In p (at_ (g_real g) neib) -> s_m p = m) ->
  SupernovaInjection fuel ndim n nstep t c E Rt Mi Ri m neib rs i g = Ok g' ->
  let new := skipn (length (g_real g)) (g_real g') in
  let K := kinetic ndim (g_real g') - (kinetic ndim (g_real g) - kinetic ndim (at_ (g_real g) neib)) in
  thermal (g_real g') = thermal (g_real g) + E * (Rt / (Rt + 1)) /\
  K <= E / (Rt + 1) /\
  (forall d, 0 <= d -> (forall p, In p (at_ (g_real g) neib) \/ In p new -> d <= away ndim c p) ->
     E / (Rt + 1) * (d / (d + / 10 ^ 20)) ^ 2 <= K).
Proof.
  intros Hn Hf Hm HM HE HR Hpos Hmass H new K0.
  destruct (supernova_real _ _ _ _ _ _ _ _ _ _ _ _ _ _ _ _ Hn Hf H) as (hot & pos & G & L & P & LH & NH & T & Q).
  set (nSN := (Ninject Mi m + zlen neib)%Z) in *. set (vr := vrad_mag _ _ _ _) in *. set (ui := u_inj _ _ _ _) in *.
  pose proof (Ninject_nonneg Mi m Hm HM) as N0.
  assert (HN : (0 < nSN)%Z).
  { unfold nSN. destruct Hpos as [A|A]; [lia|]. destruct (Ninject_spec Mi m Hm) as [_ B]. assert (0 < IZR (Ninject Mi m)) by nra. apply lt_IZR in H0.
    unfold zlen. lia. }
  pose proof (IZR_lt _ _ HN) as HN'.
  assert (Z1 : IZR (zlen pos) + IZR (zlen (at_ (g_real g) neib)) = IZR nSN).
  { rewrite <- plus_IZR. f_equal. unfold zlen, nSN in *. rewrite L, Q. unfold zlen. lia. }
  assert (NEW : new = map (thrown ndim n nstep t m vr ui c) pos).
  { unfold new. rewrite G, <- LH, skipn_app, skipn_all, Nat.sub_diag. reflexivity. }
  assert (U : m * ui = E * (Rt / (Rt + 1)) / IZR nSN). { unfold ui, u_inj. field. repeat split; lra. }
  assert (V : 1 / 2 * m * vr ^ 2 = E / (Rt + 1) / IZR nSN) by (apply vrad_sq; assumption).
  assert (KE : K0 = total (fun p => (away ndim c p / (away ndim c p + small_number)) ^ 2 * (E / (Rt + 1) / IZR nSN)) (at_ (g_real g) neib ++ new)).
  { unfold K0, kinetic. rewrite G, total_app, T, (total_app _ _ new), NEW, !total_map.
    rewrite (total_ext (fun p => 1 / 2 * s_m (heat_one ndim c vr ui p) * dot ndim (l_v (s_l (heat_one ndim c vr ui p))) (l_v (s_l (heat_one ndim c vr ui p))))
       (fun p => (away ndim c p / (away ndim c p + small_number)) ^ 2 * (E / (Rt + 1) / IZR nSN)) (at_ (g_real g) neib)).
    2:{ intros p Hp. rewrite heat_kin, (Hmass p Hp), V. reflexivity. }
    rewrite (total_ext (fun r => 1 / 2 * s_m (thrown ndim n nstep t m vr ui c r) * dot ndim (l_v (s_l (thrown ndim n nstep t m vr ui c r))) (l_v (s_l (thrown ndim n nstep t m vr ui c r))))
       (fun r => (away ndim c (thrown ndim n nstep t m vr ui c r) / (away ndim c (thrown ndim n nstep t m vr ui c r) + small_number)) ^ 2 * (E / (Rt + 1) / IZR nSN)) pos).
    2:{ intros r _. rewrite thrown_kin, V. reflexivity. }
    ring. }
  assert (LEN : IZR (zlen (at_ (g_real g) neib ++ new)) = IZR nSN).
  { rewrite <- Z1, <- plus_IZR. f_equal. unfold zlen. rewrite app_length, NEW, map_length. lia. }
  assert (EP : 0 <= E / (Rt + 1) / IZR nSN) by (apply Rmult_le_pos; [apply Rmult_le_pos; [lra|]|]; apply Rlt_le, Rinv_0_lt_compat; lra).
  split; [|split].
  - unfold thermal. rewrite G, total_app, T, total_map.
    assert (X : total (fun p => s_m (heat_one ndim c vr ui p) * l_u (s_l (heat_one ndim c vr ui p))) (at_ (g_real g) neib)
       = total (fun p => s_m p * l_u (s_l p)) (at_ (g_real g) neib) + IZR (zlen (at_ (g_real g) neib)) * (m * ui)).
    { clear -Hmass. induction (at_ (g_real g) neib) as [|p l IH]; cbn [total]; unfold zlen in *; [cbn; ring|]. rewrite IH by (intros; apply Hmass; now right).
      cbn [length]. rewrite Nat2Z.inj_succ, succ_IZR. unfold heat_one. cbn [s_m s_l l_u]. rewrite (Hmass p (or_introl eq_refl)). ring. }
    rewrite X, (total_const _ (m * ui) pos) by reflexivity.
    transitivity (total (fun p => s_m p * l_u (s_l p)) (g_real g) + (IZR (zlen pos) + IZR (zlen (at_ (g_real g) neib))) * (m * ui)); [ring|].
    rewrite Z1, U. field. lra.
  - rewrite KE. apply Rle_trans with (total (fun _ : spart => E / (Rt + 1) / IZR nSN) (at_ (g_real g) neib ++ new)).
    + apply total_le. intros p _. destruct (frac_le1 (away ndim c p)) as [A B]; [unfold away, norm; apply sqrt_pos|].
      assert ((away ndim c p / (away ndim c p + small_number)) ^ 2 <= 1) by nra. nra.
    + rewrite (total_const _ (E / (Rt + 1) / IZR nSN)) by reflexivity. rewrite LEN. right. field. split; lra.
  - intros d Hd Hall. rewrite KE. fold small_number.
    apply Rle_trans with (total (fun _ : spart => (d / (d + small_number)) ^ 2 * (E / (Rt + 1) / IZR nSN)) (at_ (g_real g) neib ++ new)).
    + rewrite (total_const _ ((d / (d + small_number)) ^ 2 * (E / (Rt + 1) / IZR nSN))) by reflexivity. rewrite LEN. right. field. pose proof small_pos. repeat split; lra.
    + apply total_le. intros p Hp. apply in_app_iff in Hp. apply Rmult_le_compat_r; [assumption|].
      apply pow_incr. split; [apply frac_le1; assumption|]. apply frac_mono. split; [assumption|]. now apply Hall.
Qed.

(** Each particle hit moves straight away from the supernova, with the same speed. *)
Theorem C82_radial fuel ndim n nstep t c E Rt Mi Ri m neib rs i g g' :
  NoDup neib -> Forall (fun i => (0 <= i < zlen (g_real g))%Z) neib -> 0 < m -> 0 <= Mi -> 0 <= E -> 0 < Rt ->
  SupernovaInjection fuel ndim n nstep t c E Rt Mi Ri m neib rs i g = Ok g' ->
  exists v, 0 <= v /\ forall j p, nth_error (g_real g') j = Some p -> In (Z.of_nat j) neib \/ (length (g_real g) <= j)%nat ->
    forall k, l_v (s_l p) k * (away ndim c p + / 10 ^ 20) = v * (l_r (s_l p) k - c k).
Proof.
  intros Hn Hf Hm HM HE HR H. destruct (supernova_real _ _ _ _ _ _ _ _ _ _ _ _ _ _ _ _ Hn Hf H) as (hot & pos & G & L & P & LH & NH & T & Q).
  set (vr := vrad_mag _ _ _ _) in *. set (ui := u_inj _ _ _ _) in *. exists vr. split; [apply sqrt_pos|].
  intros j p Hj Hor k. fold small_number. pose proof small_pos. rewrite G in Hj. destruct (Nat.lt_ge_cases j (length hot)) as [Hl|Hl].
  - rewrite nth_error_app1 in Hj by assumption. destruct (nth_error (g_real g) j) as [q|] eqn:Eq; [|apply nth_error_None in Eq; lia].
    rewrite (NH j q Eq) in Hj. destruct (in_dec Z.eq_dec (Z.of_nat j) neib) as [Hin|Hin]; [|destruct Hor; [contradiction|lia]].
    injection Hj as <-. unfold heat_one, away, norm. cbn [s_l l_v l_r].
    pose proof (sqrt_pos (dot ndim (vsub (l_r (s_l q)) c) (vsub (l_r (s_l q)) c))). field. lra.
  - rewrite nth_error_app2 in Hj by assumption. apply nth_error_In, in_map_iff in Hj as (r & <- & _).
    unfold thrown, new_particle, away, norm. cbn [s_l l_v l_r]. pose proof (sqrt_pos (dot ndim (vsub r c) (vsub r c))). field. lra.
Qed.

(** A particle at rest at [x], and one supernova at the origin. *)
Definition gp (x v u m : R) : spart :=
  mksp (mkLP false false false (fun _ => x) (fun _ => v) (fun _ => 0) (fun _ => x) (fun _ => v) (fun _ => 0) u u 0 0 0 0 0 4 0 4 4) m.
Definition o3 : vec := fun _ => 0.
Lemma sn0 fuel ndim n nstep t c E Rt Mi Ri neib rs i g : 0 <= Mi < 1 ->
  SupernovaInjection fuel ndim n nstep t c E Rt Mi Ri 1 neib rs i g = heat ndim c (vrad_mag (zlen neib) 1 E Rt) (u_inj (zlen neib) 1 E Rt) neib g.
Proof.
  intros H. unfold SupernovaInjection. destruct (Ninject_spec Mi 1) as [A B]; [lra|].
  assert (A' : IZR (Ninject Mi 1) < 1) by lra. assert (B' : -1 < IZR (Ninject Mi 1)) by lra. apply lt_IZR in A', B'.
  replace (Ninject Mi 1) with 0%Z by lia. cbn [Z.to_nat AddRandomSphere bind]. rewrite Z.add_0_l.
  destruct (heat _ _ _ _ _ _); reflexivity.
Qed.
Lemma ui1 E : u_inj 1 1 E 1 = E / 2.
Proof. unfold u_inj. field. Qed.
Lemma vr1 E : vrad_mag 1 1 E 1 = sqrt E.
Proof. unfold vrad_mag. f_equal. field. Qed.
Definition sn1 (E : R) (neib : list Z) (g : gas) : res gas := SupernovaInjection 1 1 0 1 0 o3 E 1 (1 / 2) 1 1 neib (fun _ => 0) 0 g.

(** The velocities are replaced, not added to: gas that already moves loses its kinetic energy,
    and the total energy can fall although the supernova was to add energy. *)
Theorem C82_kinetic_refuted : exists g g' E, 0 < E /\ (forall p, In p (g_real g) -> s_m p = 1) /\ sn1 E [0%Z] g = Ok g' /\
  thermal (g_real g') + kinetic 1 (g_real g') < thermal (g_real g) + kinetic 1 (g_real g).
Proof.
  exists (mkg [gp 1 10 1 1] [] 10), (mkg [heat_one 1 o3 (sqrt 2) 1 (gp 1 10 1 1)] [] 10), 2. split; [lra|]. split; [intros p [<-|[]]; reflexivity|].
  split. { unfold sn1. rewrite sn0 by lra. change (zlen [0%Z]) with 1%Z. rewrite vr1, ui1. replace (2 / 2) with 1 by lra. reflexivity. }
  unfold thermal, kinetic. cbn [g_real total]. rewrite (heat_kin 1 o3 (sqrt 2) 1 (gp 1 10 1 1)).
  replace (sqrt 2 ^ 2) with 2 by (rewrite <- Rsqr_pow2, Rsqr_sqrt; lra).
  destruct (frac_le1 (away 1 o3 (gp 1 10 1 1))) as [A B]; [unfold away, norm; apply sqrt_pos|].
  set (f := away 1 o3 (gp 1 10 1 1) / (away 1 o3 (gp 1 10 1 1) + small_number)) in *.
  unfold heat_one, gp, dot. cbn [s_m s_l l_u l_v sumf]. assert (f ^ 2 <= 1) by nra. lra.
Qed.

(** The momentum of the gas changes: a lone particle at rest flies off. *)
Theorem C82_momentum_refuted : exists g g' E, 0 < E /\ sn1 E [0%Z] g = Ok g' /\ momentum 0 (g_real g) = 0 /\ 0 < momentum 0 (g_real g').
Proof.
  exists (mkg [gp 1 0 1 1] [] 10), (mkg [heat_one 1 o3 (sqrt 2) 1 (gp 1 0 1 1)] [] 10), 2. split; [lra|].
  split. { unfold sn1. rewrite sn0 by lra. change (zlen [0%Z]) with 1%Z. rewrite vr1, ui1. replace (2 / 2) with 1 by lra. reflexivity. }
  unfold momentum, heat_one, gp, o3. cbn [g_real total s_m s_l l_v l_r]. split; [ring|]. pose proof small_pos.
  assert (0 < sqrt 2) by (apply sqrt_lt_R0; lra).
  match goal with |- context [sqrt ?x + small_number] => set (d := sqrt x); assert (0 <= d) by apply sqrt_pos end.
  assert (0 < / (d + small_number)) by (apply Rinv_0_lt_compat; lra).
  rewrite Rminus_0_r, Rmult_1_l, Rplus_0_r. unfold Rdiv. rewrite Rmult_1_l. apply Rmult_lt_0_compat; lra.
Qed.

(** The energy per particle is for the mean mass: other masses change the energy put in. *)
Theorem C82_masses_refuted : exists g g' E, 0 < E /\ sn1 E [0%Z] g = Ok g' /\ thermal (g_real g') = thermal (g_real g) + 2 * (E * (1 / (1 + 1))).
Proof.
  exists (mkg [gp 1 0 1 2] [] 10), (mkg [heat_one 1 o3 (sqrt 2) 1 (gp 1 0 1 2)] [] 10), 2. split; [lra|].
  split. { unfold sn1. rewrite sn0 by lra. change (zlen [0%Z]) with 1%Z. rewrite vr1, ui1. replace (2 / 2) with 1 by lra. reflexivity. }
  unfold thermal, heat_one, gp. cbn [g_real total s_m s_l l_u]. lra.
Qed.

(** Ghosts are in the list of neighbours: what they get is lost. *)
Theorem C82_ghost_refuted : exists g g' E, 0 < E /\ sn1 E [0%Z; 1%Z] g = Ok g' /\ (forall p, In p (g_real g) \/ In p (g_ghost g) -> s_m p = 1) /\
  thermal (g_real g') = thermal (g_real g) + E * (1 / (1 + 1)) / 2.
Proof.
  set (v := vrad_mag 2 1 4 1). 
  exists (mkg [gp 1 0 1 1] [gp (-1) 0 1 1] 10), (mkg [heat_one 1 o3 v 1 (gp 1 0 1 1)] [heat_one 1 o3 v 1 (gp (-1) 0 1 1)] 10), 4. split; [lra|].
  split. { unfold sn1. rewrite sn0 by lra. change (zlen [0%Z; 1%Z]) with 2%Z. fold v. replace (u_inj 2 1 4 1) with 1 by (unfold u_inj; field). reflexivity. }
  split. { intros p [[<-|[]]|[<-|[]]]; reflexivity. }
  unfold thermal, heat_one, gp. cbn [g_real total s_m s_l l_u]. lra.
Qed.

(** With no neighbour and too little mass for a new particle nothing at all happens. *)
Theorem C82_empty_refuted fuel ndim n nstep t c E Rt Mi Ri rs i g : 0 <= Mi < 1 ->
  SupernovaInjection fuel ndim n nstep t c E Rt Mi Ri 1 [] rs i g = Ok g.
Proof. intros H. rewrite sn0 by assumption. reflexivity. Qed.

(** *** With individual timesteps *)
Definition hit (ndim : nat) (c : vec) (vr ui m : R) (p : lpart) : lpart := s_l (heat_one ndim c vr ui (mksp p m)).
(** A particle at the end of its step keeps its new velocity and energy in the values from which
    it is advanced. *)
Theorem C82_kept ndim c vr ui m cf A U n t ts ns dtn p : l_dead p = false -> (n - l_nlast p)%Z = l_nstep p ->
  let q := pass (hit ndim c vr ui m) cf A U n t ts ns dtn p in
  let r := l_r (KDK_Advance cf n t ts p) in
  let e := l_u (KDK_Advance cf n t ts p) + ui + 1 / 2 * (U r - l_dudt0 p) * l_dt p in
  (forall k, l_r0 q k = r k /\ l_v0 q k = (r k - c k) / (norm ndim (vsub r c) + / 10 ^ 20) * vr + 1 / 2 * l_dt p * (A r k - l_a0 p k)) /\
  (c_energy cf = true -> 0 < e -> l_u0 q = e) /\ l_tlast q = t.
Proof.
  intros Hd Hn. unfold pass. set (x := hit ndim c vr ui m (KDK_Advance cf n t ts p)).
  assert (X : l_dead x = false /\ l_active x = true /\ l_nlast x = l_nlast p /\ l_nstep x = l_nstep p).
  { unfold x, hit, heat_one, KDK_Advance. rewrite Hd. cbn [s_l l_dead l_active l_nlast l_nstep]. rewrite (proj2 (Z.eqb_eq _ _) Hn). auto. }
  assert (Y : l_dudt0 x = l_dudt0 p /\ l_dt x = l_dt p /\ l_a0 x = l_a0 p).
  { unfold x, hit, heat_one, KDK_Advance. rewrite Hd. cbn [s_l l_dudt0 l_dt l_a0]. auto. }
  destruct X as (X1 & X2 & X3 & X4). destruct Y as (Y1 & Y2 & Y3).
  destruct (pass_end cf A U n t ns dtn x X1 X2) as (P1 & P2 & P3); [congruence|]. rewrite Y2, Y3 in P1. rewrite Y1, Y2 in P2.
  split; [exact P1|]. split; [exact P2|exact P3].
Qed.

(** A particle in the middle of its step: at the next pass every trace of the supernova is gone
    from position, velocity and energy. *)
Theorem C82_lost_refuted ndim c vr ui m cf A U n t ts ns dtn n' t' ts' ns' dtn' p : l_dead p = false -> l_end p = false ->
  (n - l_nlast p)%Z <> l_nstep p -> c_energy cf = true ->
  let q := KDK_loop cf A U n' t' ts' ns' dtn' (pass (hit ndim c vr ui m) cf A U n t ts ns dtn p) in
  let q0 := KDK_loop cf A U n' t' ts' ns' dtn' (pass (fun x => x) cf A U n t ts ns dtn p) in
  l_r q = l_r q0 /\ l_v q = l_v q0 /\ l_u q = l_u q0 /\ l_r0 q = l_r0 q0 /\ l_v0 q = l_v0 q0 /\ l_u0 q = l_u0 q0.
Proof.
  intros Hd He Hn Hc. unfold pass. set (x0 := KDK_Advance cf n t ts p).
  assert (X : l_dead x0 = false /\ l_active x0 = false /\ l_end x0 = false /\ l_nlast x0 = l_nlast p /\ l_nstep x0 = l_nstep p).
  { unfold x0, KDK_Advance. rewrite Hd. cbn [l_dead l_active l_nlast l_nstep l_end]. rewrite (proj2 (Z.eqb_neq _ _) Hn). auto. }
  destruct X as (X1 & X2 & X3 & X4 & X5). clearbody x0.
  rewrite (pass_mid cf A U n t ns dtn x0); [|assumption|assumption|congruence].
  rewrite (pass_mid cf A U n t ns dtn (hit ndim c vr ui m x0)); [|assumption|assumption|cbn [hit heat_one s_l l_nlast l_nstep]; congruence].
  apply loop_same; [assumption| |assumption]. unfold same_start, hit, heat_one. cbn [s_l l_dead l_end l_r0 l_v0 l_a0 l_u0 l_dudt0 l_nlast l_nstep l_tlast l_dt l_dtnext].
  repeat split; auto.
Qed.

(** *** Memory *)
Theorem C82_memory fuel ndim n nstep t c E Rt Mi Ri m neib rs i g :
  NoDup neib -> Forall (fun i => (0 <= i < zlen (g_real g))%Z) neib -> (5 <= g_max g)%Z -> (zlen (g_real g) <= g_max g)%Z ->
  SupernovaInjection fuel ndim n nstep t c E Rt Mi Ri m neib rs i g <> UB.
Proof.
  intros Hn Hf H5 Hm. unfold SupernovaInjection.
  assert (S : forall N i, AddRandomSphere fuel ndim N c Ri rs i <> UB).
  { assert (R1 : forall fuel i, random_point fuel ndim rs i <> UB) by (induction fuel0 as [|f IH]; intros ? ; cbn [random_point]; [discriminate|]; destruct (rltb _ _); [apply IH|discriminate]).
    induction N as [|N IH]; intros i0; cbn [AddRandomSphere]; [discriminate|]. destruct (random_point fuel ndim rs i0) as [[p j]| | |] eqn:K; cbn [bind]; try discriminate; [|intros _; exact (R1 _ _ K)].
    specialize (IH j). destruct (AddRandomSphere fuel ndim N c Ri rs j) as [[l j2]| | |]; cbn [bind]; try discriminate. intros _. now apply IH. }
  specialize (S (Z.to_nat (Ninject Mi m)) i). destruct (AddRandomSphere _ _ _ _ _ _ _) as [[pos j]| | |]; cbn [bind]; try discriminate; [|intros _; now apply S].
  set (nSN := (Ninject Mi m + zlen neib)%Z). set (vr := vrad_mag _ _ _ _). set (ui := u_inj _ _ _ _).
  destruct (heat_real ndim c vr ui neib g Hn Hf) as (g2 & E2 & _ & Mx & L & _). rewrite E2. cbn [bind].
  destruct (inject_total ndim n nstep t m vr ui c pos g2) as (g3 & E3 & _); [lia|unfold zlen in *; lia|]. rewrite E3. discriminate.
Qed.
(** 1.2 times at most four is cut back to the same number: no room is made. *)
Theorem C82_memory_refuted n nstep t m u r v g : (0 <= g_max g <= 4)%Z -> (g_max g <= zlen (g_real g))%Z -> CreateNewParticle n nstep t m u r v g = UB.
Proof.
  intros H1 H2. unfold CreateNewParticle. replace (zlen (g_real g) >=? g_max g)%Z with true by lia.
  assert (K : grow (g_max g) = g_max g). { unfold grow. destruct (12 * g_max g / 10 >? g_max g)%Z eqn:E; [|reflexivity]. assert (12 * g_max g / 10 < g_max g + 1)%Z by (apply Z.div_lt_upper_bound; lia). lia. }
  rewrite K. replace (zlen (g_real g) >=? g_max g)%Z with true by lia. reflexivity.
Qed.

(** *** Drivers *)
Theorem C82_single ts : let (N, es) := run single_Update ts 0%nat in
  (made es <= 1)%nat /\ (made es = 1%nat <-> Exists (fun t => 1 <= t) ts) /\ made es = N.
Proof. pose proof (single_one ts) as H. destruct (run single_Update ts 0%nat). destruct H as (A & B & C). subst. auto. Qed.
(** Random: the k-th is never early, and with calls at most one interval apart none is due after
    the last call. *)
Theorem C82_random ts t0 : let (s, es) := run random_Update ts random_start in
  length (when ts es) = made es /\ (forall k t, nth_error (when ts es) k = Some t -> (INR k + 1 / 2) * tsupernova <= t) /\
  (t0 < 1 / 2 * tsupernova -> close t0 ts -> ts <> [] -> last ts t0 < (INR (made es) + 1 / 2) * tsupernova).
Proof.
  assert (RS : random_start = (0%nat, due 0)) by (unfold random_start, due; cbn [INR]; f_equal; ring). rewrite RS.
  pose proof (random_inv ts 0) as A. pose proof (random_prompt ts 0 t0) as B. destruct (run random_Update ts (0%nat, due 0)) as [s es].
  destruct A as (_ & A1 & A2). split; [assumption|]. split; [exact A1|]. intros H1 H2 H3. apply B; auto. unfold due. cbn [INR]. lra.
Qed.
(** A table: the supernovae are those of the table, in order, none before its time. *)
Theorem C82_table ndim nSN rows table ts id es : (length rows <= nSN)%nat -> read_table nSN rows = Ok table ->
  silcc_run ndim table ts 0 = Ok (id, es) ->
  map snd es = firstn (length es) rows /\ Forall (fun p => e_t (snd p) <= fst p /\ In (fst p) ts) es /\ id = zlen es /\ (es <> [] -> (3 <= ndim)%nat).
Proof.
  intros Hl Hr H. unfold read_table in Hr. destruct (fill_ok rows 0 (repeat None nSN)) as (a & A & B & C & D); [lia|unfold zlen; rewrite repeat_length; lia|].
  rewrite A in Hr. injection Hr as ->. destruct (silcc_order _ _ _ _ _ _ H) as [I1 I2].
  assert (EV : forall k t e, nth_error es k = Some (t, e) -> nth_error rows k = Some e).
  { intros k t e K. destruct (I2 k t e K) as (K1 & _ & _). rewrite Z.add_0_l in K1. destruct (nth_error rows k) as [e'|] eqn:R.
    - specialize (C k e' R). rewrite Z.add_0_l in C. congruence.
    - exfalso. apply nth_error_None in R. rewrite D in K1 by (unfold zlen; lia). apply aget_Ok_inv in K1 as [_ K1]. apply nth_error_In, repeat_spec in K1. discriminate. }
  repeat split.
  - assert (X : forall (rows : list event) (es : list (R * event)), (forall k t e, nth_error es k = Some (t, e) -> nth_error rows k = Some e) -> map snd es = firstn (length es) rows).
    { clear. intros rows es. revert rows. induction es as [|[t e] es IH]; intros rows H; [reflexivity|]. pose proof (H 0%nat t e eq_refl) as H0.
      destruct rows as [|e' rows]; [discriminate|]. injection H0 as ->. cbn [map snd length firstn]. f_equal. apply IH. intros k u f K. exact (H (S k) u f K). }
    now apply X.
  - apply Forall_forall. intros [t e] K. apply In_nth_error in K as (k & K). destruct (I2 k t e K) as (_ & K2 & K3). split; assumption.
  - lia.
  - intros Hne. destruct (Nat.le_gt_cases 3 ndim) as [|Hlt]; [assumption|]. exfalso. clear -H Hne Hlt.
    assert (X : forall ts id id' es, silcc_run ndim table ts id = Ok (id', es) -> es = []).
    { induction ts0 as [|t l IH]; intros i i' e; cbn [silcc_run]; [now intros [= _ <-]|]. intros K. apply bindOk in K as ((i1 & e1) & K1 & K). apply bindOk in K as ((i2 & e2) & K2 & K). injection K as <- <-.
      unfold silcc_Update in K1. apply bindOk in K1 as (oe & _ & K1). destruct oe as [ev|]; [|discriminate]. destruct (rleb _ _); [destruct (Nat.leb_spec 3 ndim); [lia|discriminate]|]. injection K1 as _ <-. eapply IH; eauto. }
    apply Hne. eapply X; eauto.
Qed.
(** After the last one of the table the driver reads past its end. *)
Theorem C82_last_refuted rows table ts : read_table (length rows) rows = Ok table -> (length rows < length ts)%nat ->
  (forall t e, In t ts -> In e rows -> e_t e <= t) -> silcc_run 3 table ts 0 = UB.
Proof.
  intros Hr Hl Hd. unfold read_table in Hr. destruct (fill_ok rows 0 (repeat None (length rows))) as (a & A & B & C & D); [lia|unfold zlen; rewrite repeat_length; lia|].
  rewrite A in Hr. injection Hr as ->. change 0%Z with (Z.of_nat 0). apply (silcc_fails table rows ts 0); auto; try lia.
  left. replace (zlen rows) with (zlen table) by (rewrite B; unfold zlen; now rewrite repeat_length). apply aget_over.
Qed.
(** More rows than the file announces are written past the end; fewer leave entries never set,
    which are used. *)
Theorem C82_rows_refuted nSN rows : (nSN < length rows)%nat -> read_table nSN rows = UB.
Proof. intros H. unfold read_table. apply fill_over; unfold zlen; rewrite repeat_length; lia. Qed.
Theorem C82_short_refuted nSN rows table ts : (length rows < nSN)%nat -> read_table nSN rows = Ok table -> (length rows < length ts)%nat ->
  (forall t e, In t ts -> In e rows -> e_t e <= t) -> silcc_run 3 table ts 0 = UB.
Proof.
  intros Hn Hr Hl Hd. unfold read_table in Hr. destruct (fill_ok rows 0 (repeat None nSN)) as (a & A & B & C & D); [lia|unfold zlen; rewrite repeat_length; lia|].
  rewrite A in Hr. injection Hr as ->. change 0%Z with (Z.of_nat 0). apply (silcc_fails table rows ts 0); auto; try lia.
  right. rewrite D by (unfold zlen; lia). apply aget_repeat_none. unfold zlen. lia.
Qed.
(** In fewer than three dimensions the first supernova of a table writes past its position. *)
Theorem C82_plane_refuted ndim e l t : (ndim < 3)%nat -> e_t e <= t -> silcc_Update ndim (Some e :: l) t 0 = UB.
Proof.
  intros H1 H2. unfold silcc_Update. cbn [aget Z.ltb Z.compare Z.to_nat nth_error bind]. 
  rewrite (proj2 (rleb_true _ _) H2). destruct (Nat.leb_spec 3 ndim); [lia|reflexivity].
Qed.
(** One per call: of two due together the second waits for the next call, however late. *)
Theorem C82_delay_refuted e1 e2 l t t' : e_t e1 <= t -> e_t e2 <= t -> t <= t' ->
  exists id, silcc_run 3 (Some e1 :: Some e2 :: l) [t; t'] 0 = Ok (id, [(t, e1); (t', e2)]).
Proof.
  intros H1 H2 H3. exists 2%Z. cbn [silcc_run]. unfold silcc_Update. cbn [aget Z.ltb Z.compare Z.to_nat nth_error bind Z.add].
  rewrite (proj2 (rleb_true _ _) H1). cbn [Nat.leb bind]. change (aget (Some e1 :: Some e2 :: l) 1) with (Ok (Some e2)). cbn [bind].
  rewrite (proj2 (rleb_true (e_t e2) t')) by lra. reflexivity.
Qed.

(** *** Examples *)
(** Two particles one unit from the supernova, energy 4, equal shares: hypotheses of mass,
    energy and memory hold, and the call succeeds. *)
Example C82_energy_example : exists g', sn1 4 [0%Z; 1%Z] (mkg [gp 1 0 1 1; gp (-1) 0 1 1; gp 5 0 1 1] [] 10) = Ok g' /\
  thermal (g_real g') = 5 /\ nth_error (g_real g') 2 = Some (gp 5 0 1 1).
Proof.
  set (v := vrad_mag 2 1 4 1). exists (mkg [heat_one 1 o3 v 1 (gp 1 0 1 1); heat_one 1 o3 v 1 (gp (-1) 0 1 1); gp 5 0 1 1] [] 10).
  unfold sn1. rewrite sn0 by lra. change (zlen [0%Z; 1%Z]) with 2%Z. fold v. replace (u_inj 2 1 4 1) with 1 by (unfold u_inj; field).
  split; [reflexivity|]. split; [|reflexivity]. unfold thermal, heat_one, gp. cbn [g_real total s_m s_l l_u]. lra.
Qed.
(** One particle put in: random number 1/4 gives the point 1/2. *)
Example C82_mass_example : exists g', SupernovaInjection 1 1 0 1 0 o3 2 1 1 2 1 [] (fun _ => 1 / 4) 0 (mkg [] [] 10) = Ok g' /\
  length (g_real g') = 1%nat /\ Forall (fun p => l_r (s_l p) 0%nat = 1) (g_real g').
Proof.
  assert (N1 : Ninject 1 1 = 1%Z). { destruct (Ninject_spec 1 1) as [A B]; [lra|]. assert (A' : IZR (Ninject 1 1) < 2) by lra. assert (B' : 0 < IZR (Ninject 1 1)) by lra. apply lt_IZR in A', B'. lia. }
  unfold SupernovaInjection. rewrite N1. change (Z.to_nat 1) with 1%nat. cbn [AddRandomSphere random_point].
  rewrite (proj2 (rltb_false _ _)) by (unfold dot; cbn [sumf]; lra). cbn [bind heat inject].
  unfold CreateNewParticle. cbn [g_real g_max g_ghost]. change (zlen (@nil spart) >=? 10)%Z with false. cbv iota. change (zlen (@nil spart) >=? 10)%Z with false. cbv iota. cbn [bind inject].
  eexists. split; [reflexivity|]. cbn [g_real app length]. split; [reflexivity|]. constructor; [|constructor].
  unfold new_particle, o3. cbn [s_l l_r]. lra.
Qed.
Example C82_driver_example : snd (run single_Update [0; 2; 3] 0%nat) = [false; true; false] /\
  snd (run random_Update [0; 1 / 2; 1] random_start) = [false; true; true].
Proof.
  unfold run, single_Update, random_Update, random_start, tsupernova. cbn [Nat.eqb andb].
  rewrite (proj2 (rleb_false 1 0)) by lra. rewrite (proj2 (rleb_true 1 2)) by lra. cbn [Nat.eqb andb snd]. split; [reflexivity|].
  rewrite (proj2 (rleb_false (1 / 2 * (1 / 2)) 0)) by lra. rewrite (proj2 (rleb_true (1 / 2 * (1 / 2)) (1 / 2))) by lra.
  rewrite (proj2 (rleb_true ((INR 1 + 1 / 2) * (1 / 2)) 1)) by (cbn [INR]; lra). reflexivity.
Qed.
Example C82_table_example : let e := mkev 1 o3 2 in exists table, read_table 2 [e; mkev 3 o3 2] = Ok table /\
  silcc_run 3 table [0; 2; 2] 0 = Ok (1%Z, [(2, e)]).
Proof.
  intros e. exists [Some e; Some (mkev 3 o3 2)]. split; [reflexivity|]. cbn [silcc_run]. unfold silcc_Update.
  change (aget [Some e; Some (mkev 3 o3 2)] 0) with (Ok (Some e)). cbn [bind]. change (e_t e) with 1.
  rewrite (proj2 (rleb_false 1 0)) by lra. cbn [bind]. change (aget [Some e; Some (mkev 3 o3 2)] 0) with (Ok (Some e)). cbn [bind]. change (e_t e) with 1. rewrite (proj2 (rleb_true 1 2)) by lra. cbn [Nat.leb bind].
  match goal with |- context [aget ?l (0 + 1)] => change (aget l (0 + 1)) with (Ok (Some (mkev 3 o3 2))) end. cbn [bind e_t].
  rewrite (proj2 (rleb_false 3 2)) by lra. reflexivity.
Qed.
(** A particle in the middle of a step of four. *)
Example C82_lost_example : l_dead (s_l (gp 1 0 1 1)) = false /\ l_end (s_l (gp 1 0 1 1)) = false /\ (1 - l_nlast (s_l (gp 1 0 1 1)))%Z <> l_nstep (s_l (gp 1 0 1 1)) /\
  (4 - l_nlast (s_l (gp 1 0 1 1)))%Z = l_nstep (s_l (gp 1 0 1 1)).
Proof. cbn. repeat split; lia. Qed.

Print Assumptions C82_sphere.
Print Assumptions C82_mass.
Print Assumptions C82_energy.
Print Assumptions C82_radial.
Print Assumptions C82_kinetic_refuted.
Print Assumptions C82_momentum_refuted.
Print Assumptions C82_masses_refuted.
Print Assumptions C82_ghost_refuted.
Print Assumptions C82_empty_refuted.
Print Assumptions C82_kept.
Print Assumptions C82_lost_refuted.
Print Assumptions C82_memory.
Print Assumptions C82_memory_refuted.
Print Assumptions C82_single.
Print Assumptions C82_random.
Print Assumptions C82_table.
Print Assumptions C82_last_refuted.
Print Assumptions C82_rows_refuted.
Print Assumptions C82_short_refuted.
Print Assumptions C82_plane_refuted.
Print Assumptions C82_delay_refuted.
