(** C27, C28, C29, C44, C45, C46, C47: the forces of grad-h SPH. *)
From Verif Require Import Prelude L_Prelude Vec M_Box L_Box M_Kernel L_Kernel M_Force S_Stock L_Stock S_Force L_Force L_Force2 L_Force3 L_Force4 L_Force5.
From Coq Require Import Reals Lra Permutation.
Local Open Scope R_scope.

(** * C27 *)
(** Particles acting on each other through any set of mutual links, including copies displaced
    by whole periods: the hydrodynamical forces (first two theorems with the routines without
    and with gravity) and the softened gravity of neighbours (third) give no net force, whatever
    the kernel, viscosity and conductivity. *)
Theorem C27_momentum : forall n w1 avisc acond tdavisc al be almin Pr L ps P, mutual (length ps) P -> forall k,
  total (force k) (fun i p => a_a (ComputeSphHydroForces n w1 avisc acond tdavisc al be almin Pr p acc0 (neibs_of L ps P i))) ps = 0.
Proof. exact momentum_H. Qed.
Print Assumptions C27_momentum.
Theorem C27_momentum_with_gravity : forall n w1 wgrav wpot avisc acond tdavisc al be almin Pr L ps P, mutual (length ps) P -> forall k,
  total (force k) (fun i p => a_a (ComputeSphHydroGravForces n w1 wgrav wpot avisc acond tdavisc al be almin Pr p acc0 (neibs_of L ps P i))) ps = 0.
Proof. exact momentum_HG. Qed.
Print Assumptions C27_momentum_with_gravity.
Theorem C27_momentum_gravity : forall n w1 wgrav wpot avisc acond tdavisc al be almin Pr L ps P, mutual (length ps) P -> forall k,
  total (force k) (fun i p => a_atree (ComputeSphHydroGravForces n w1 wgrav wpot avisc acond tdavisc al be almin Pr p acc0 (neibs_of L ps P i))) ps = 0.
Proof. exact momentum_G. Qed.
Print Assumptions C27_momentum_gravity.
(** Kinetic plus internal energy is constant: the work done equals the heat taken, with any
    viscosity and conductivity.  The stored pressure must be that of the equation of state
    (ComputeThermalProperties sets it before the forces are computed). *)
Theorem C27_energy : forall n w1 avisc acond tdavisc al be almin Pr L ps P, mutual (length ps) P ->
  (forall p, In p ps -> f_rho p <> 0 /\ Pr p = f_pressure p) ->
  total (power n) (fun i p => ComputeSphHydroForces n w1 avisc acond tdavisc al be almin Pr p acc0 (neibs_of L ps P i)) ps = 0.
Proof. exact energy_H. Qed.
Print Assumptions C27_energy.
Theorem C27_energy_with_gravity : forall n w1 wgrav wpot avisc acond tdavisc al be almin Pr L ps P, mutual (length ps) P ->
  (forall p, In p ps -> f_rho p <> 0 /\ Pr p = f_pressure p) ->
  total (power n) (fun i p => ComputeSphHydroGravForces n w1 wgrav wpot avisc acond tdavisc al be almin Pr p acc0 (neibs_of L ps P i)) ps = 0.
Proof. exact energy_HG. Qed.
Print Assumptions C27_energy_with_gravity.
(** Angular momentum, about the origin and in every plane (k,l): all the particles of an open
    domain with the neighbour lists of the search. *)
Theorem C27_angular_momentum : forall n w1 avisc acond tdavisc al be almin Pr ps k l,
  lsum (fun p => torque k l p (a_a (ComputeSphHydroForces n w1 avisc acond tdavisc al be almin Pr p acc0 (filter (interacts n p) ps)))) ps = 0.
Proof. exact iso_torque_H. Qed.
Print Assumptions C27_angular_momentum.
Theorem C27_angular_momentum_with_gravity : forall n w1 wgrav wpot avisc acond tdavisc al be almin Pr ps k l,
  let F p := ComputeSphHydroGravForces n w1 wgrav wpot avisc acond tdavisc al be almin Pr p acc0 (filter (interacts n p) ps) in
  lsum (fun p => torque k l p (a_a (F p))) ps = 0 /\ lsum (fun p => torque k l p (a_atree (F p))) ps = 0.
Proof.
  exact (fun n w1 wgrav wpot avisc acond tdavisc al be almin Pr ps k l =>
    conj (iso_torque_HG n w1 wgrav wpot avisc acond tdavisc al be almin Pr ps k l)
         (iso_torque_G n w1 wgrav wpot avisc acond tdavisc al be almin Pr ps k l)).
Qed.
Print Assumptions C27_angular_momentum_with_gravity.
(** Momentum and energy for these lists. *)
Theorem C27_open_domain : forall n w1 avisc acond tdavisc al be almin Pr ps,
  (forall p, In p ps -> f_rho p <> 0 /\ Pr p = f_pressure p) ->
  let F p := ComputeSphHydroForces n w1 avisc acond tdavisc al be almin Pr p acc0 (filter (interacts n p) ps) in
  (forall k, lsum (fun p => force k p (a_a (F p))) ps = 0) /\ lsum (fun p => power n p (F p)) ps = 0.
Proof.
  exact (fun n w1 avisc acond tdavisc al be almin Pr ps H =>
    conj (iso_momentum_H n w1 avisc acond tdavisc al be almin Pr ps) (iso_energy_H n w1 avisc acond tdavisc al be almin Pr ps H)).
Qed.
Print Assumptions C27_open_domain.
(** These are the values stored by the force loop. *)
Theorem C27_stored : forall n w1 avisc acond tdavisc al be almin Pr p x l,
  let y := UpdateHydro n w1 avisc acond tdavisc al be almin Pr p (ZeroAccelerations x) l in
  let z := ComputeSphHydroForces n w1 avisc acond tdavisc al be almin Pr p acc0 l in
  (forall k, a_a y k = a_a z k) /\ a_dudt y = a_dudt z.
Proof. exact stored_hydro. Qed.
Print Assumptions C27_stored.
(** With self-gravity the acceleration stored is the hydrodynamical one plus the gravitational one,
    and the latter is that of the three lists: neighbours, particles within softening range, and
    point masses. *)
Theorem C27_stored_with_gravity : forall n w1 wgrav wpot avisc acond tdavisc al be almin Pr lev p x l s d,
  let y := UpdateAll n w1 wgrav wpot avisc acond tdavisc al be almin Pr lev p (ZeroAccelerations x) l s d in
  let hg := ComputeSphHydroGravForces n w1 wgrav wpot avisc acond tdavisc al be almin Pr p acc0 l in
  (forall k, a_atree y k = a_atree hg k + a_atree (ComputeSphGravForces n w1 wgrav wpot lev p acc0 s) k +
     lsum (fun q => f_m q * (f_r q k - f_r p k) / (sqrt (dot n (vsub (f_r q) (f_r p)) (vsub (f_r q) (f_r p)) + small_number)) ^ 3) d) /\
  (forall k, a_a y k = a_a hg k + a_atree y k) /\ a_dudt y = a_dudt hg.
Proof. exact stored_all. Qed.
Print Assumptions C27_stored_with_gravity.

(** Two particles in a periodic line of length 3 that see each other directly and through the boundary. *)
Example C27_ex : mutual (length [exf 1 0 1 2 0; exf 1 1 0 1 0]) [(0, 1, (0, 0, 0)%Z); (1, 0, (0, 0, 0)%Z); (0, 1, (-1, 0, 0)%Z); (1, 0, (1, 0, 0)%Z)]%nat
  /\ forall p, In p [exf 1 0 1 2 0; exf 1 1 0 1 0] -> f_rho p <> 0 /\ f_pressure p = f_pressure p.
Proof.
  split; [split|].
  - cbn. apply Permutation_sym. eapply perm_trans; [apply perm_swap|]. do 2 apply perm_skip. apply perm_swap.
  - intros i j s H. cbn in H. repeat (destruct H as [H|H]; [injection H as <- <- <-; cbn; lia|]). easy.
  - intros p [<-|[<-|[]]]; cbn; split; lra.
Qed.

(** * C28 *)
(** With physical values and a kernel that decreases outwards the viscosity never cools; *)
Theorem C28_heats : forall n w1 wgrav wpot avisc acond tdavisc al be almin Pr,
  (forall s, 0 <= s -> w1 s <= 0) -> 0 <= al -> 0 <= be -> forall p l, physical p -> (forall q, In q l -> physical q) ->
  a_dudt (ComputeSphHydroForces n w1 noav acond tdavisc al be almin Pr p acc0 l) <=
  a_dudt (ComputeSphHydroForces n w1 avisc acond tdavisc al be almin Pr p acc0 l) /\
  a_dudt (ComputeSphHydroGravForces n w1 wgrav wpot noav acond tdavisc al be almin Pr p acc0 l) <=
  a_dudt (ComputeSphHydroGravForces n w1 wgrav wpot avisc acond tdavisc al be almin Pr p acc0 l).
Proof. exact heats. Qed.
Print Assumptions C28_heats.
(** it does nothing when no neighbour approaches; *)
Theorem C28_only_approaching : forall n w1 wgrav wpot avisc acond tdavisc al be almin Pr p l,
  (forall q, In q l -> ~ approaching n p q) ->
  (a_dudt (ComputeSphHydroForces n w1 avisc acond tdavisc al be almin Pr p acc0 l) =
   a_dudt (ComputeSphHydroForces n w1 noav acond tdavisc al be almin Pr p acc0 l) /\
   forall k, a_a (ComputeSphHydroForces n w1 avisc acond tdavisc al be almin Pr p acc0 l) k =
             a_a (ComputeSphHydroForces n w1 noav acond tdavisc al be almin Pr p acc0 l) k) /\
  (a_dudt (ComputeSphHydroGravForces n w1 wgrav wpot avisc acond tdavisc al be almin Pr p acc0 l) =
   a_dudt (ComputeSphHydroGravForces n w1 wgrav wpot noav acond tdavisc al be almin Pr p acc0 l) /\
   forall k, a_a (ComputeSphHydroGravForces n w1 wgrav wpot avisc acond tdavisc al be almin Pr p acc0 l) k =
             a_a (ComputeSphHydroGravForces n w1 wgrav wpot noav acond tdavisc al be almin Pr p acc0 l) k).
Proof. exact only_approaching. Qed.
Print Assumptions C28_only_approaching.
(** and its force points away from the neighbour. *)
Theorem C28_opposes : forall n w1 wgrav wpot avisc acond tdavisc al be almin Pr,
  (forall s, 0 <= s -> w1 s <= 0) -> 0 <= al -> 0 <= be -> forall p q, physical p -> physical q ->
  dot n (vsub (a_a (ComputeSphHydroForces n w1 avisc acond tdavisc al be almin Pr p acc0 [q]))
              (a_a (ComputeSphHydroForces n w1 noav acond tdavisc al be almin Pr p acc0 [q]))) (vsub (f_r q) (f_r p)) <= 0 /\
  dot n (vsub (a_a (ComputeSphHydroGravForces n w1 wgrav wpot avisc acond tdavisc al be almin Pr p acc0 [q]))
              (a_a (ComputeSphHydroGravForces n w1 wgrav wpot noav acond tdavisc al be almin Pr p acc0 [q]))) (vsub (f_r q) (f_r p)) <= 0.
Proof. exact opposes. Qed.
Print Assumptions C28_opposes.
(** The M4 kernel in every dimension, two approaching particles. *)
Example C28_ex : (forall n s, (1 <= n <= 3)%nat -> 0 <= s -> m4_w1 n s <= 0) /\ physical (exf 1 0 1 2 0) /\ physical (exf 1 1 0 1 0) /\
  approaching 1 (exf 1 0 1 2 0) (exf 1 1 0 1 0).
Proof.
  split; [exact m4_w1_neg|]. unfold physical, approaching, dot, vsub. cbn. repeat split; lra.
Qed.

(** * C29 *)
(** Without gravity each evaluation adds the rate of Morris and Monaghan to what was stored: it is
    right only for the first one. *)
Theorem C29_rate_partial : forall n w1 avisc acond al be almin Pr p x l,
  let y := UpdateHydro n w1 avisc acond mm97 al be almin Pr p (ZeroAccelerations x) l in
  a_dalphadt x = 0 -> a_dalphadt y = mm97_rate almin al p (a_divv y).
Proof.
  exact (fun n w1 avisc acond al be almin Pr p x l H =>
    eq_trans (rate_hydro n w1 avisc acond mm97 al be almin Pr eq_refl p x l) (eq_trans (f_equal (fun z => z + _) H) (Rplus_0_l _))).
Qed.
Print Assumptions C29_rate_partial.
Theorem C29_accumulates_refuted : exists p l,
  let U y := UpdateHydro 1 (m4_w1 1) mon97mm97 noac mm97 1 2 (1 / 10) f_pressure p (ZeroAccelerations y) l in
  l = filter (interacts 1 p) l /\ a_dalphadt (U (U acc0)) <> mm97_rate (1 / 10) 1 p (a_divv (U (U acc0))).
Proof. exact rate_bad. Qed.
Print Assumptions C29_accumulates_refuted.
(** After k evaluations the stored rate is k times too large. *)
Theorem C29_accumulates : forall n w1 avisc acond al be almin Pr p x l (k : nat),
  let U y := UpdateHydro n w1 avisc acond mm97 al be almin Pr p (ZeroAccelerations y) l in
  a_dalphadt (Nat.iter k U x) = a_dalphadt x + INR k * mm97_rate almin al p (a_divv (U x)).
Proof. exact accumulates. Qed.
Print Assumptions C29_accumulates.
(** With gravity the rate is never stored, *)
Theorem C29_not_stored_refuted : exists p l,
  let y := UpdateAll 1 (m4_w1 1) m4_wgrav m4_wpot mon97mm97 noac mm97 1 2 (1 / 10) f_pressure (fun _ => 0%Z) p (ZeroAccelerations acc0) l [] [] in
  l = filter (interacts 1 p) l /\ a_dalphadt y <> mm97_rate (1 / 10) 1 p (a_divv y).
Proof. exact rate_lost. Qed.
Print Assumptions C29_not_stored_refuted.
Theorem C29_never_stored : forall n w1 wgrav wpot avisc acond tdavisc al be almin Pr lev p x l s d,
  a_dalphadt (UpdateAll n w1 wgrav wpot avisc acond tdavisc al be almin Pr lev p (ZeroAccelerations x) l s d) = a_dalphadt x.
Proof. exact rate_all. Qed.
Print Assumptions C29_never_stored.
(** and what is computed grows in an expanding flow. *)
Theorem C29_sign_refuted : exists p q,
  let y := ComputeSphHydroGravForces 1 (m4_w1 1) m4_wgrav m4_wpot mon97mm97 noac mm97 1 2 (1 / 10) f_pressure p acc0 [q] in
  interacts 1 p q = true /\ 0 < a_divv y /\ mm97_rate (1 / 10) 1 p (a_divv y) = 1 / 100 /\
  a_dalphadt y = 1 / 100 + a_divv y.
Proof. exact rate_sign. Qed.
Print Assumptions C29_sign_refuted.
Example C29_ex : a_dalphadt (UpdateHydro 1 (m4_w1 1) mon97mm97 noac mm97 1 2 (1 / 10) f_pressure (alp 1) (ZeroAccelerations acc0) []) = - (9 / 100).
Proof. rewrite C29_rate_partial by reflexivity. unfold mm97_rate. cbn [alp f_sound f_alpha f_h]. field. Qed.

(** * C44 *)
(** Artificial conductivity moves heat from the hotter to the colder of two approaching
    particles, and nothing between the others; it conserves energy by C27_energy. *)
Theorem C44_hot_to_cold : forall n w1 wgrav wpot avisc acond tdavisc al be almin Pr,
  (forall s, 0 <= s -> w1 s <= 0) -> forall p q, physical p -> physical q ->
  let H ac := a_dudt (ComputeSphHydroForces n w1 avisc ac tdavisc al be almin Pr p acc0 [q]) in
  let G ac := a_dudt (ComputeSphHydroGravForces n w1 wgrav wpot avisc ac tdavisc al be almin Pr p acc0 [q]) in
  0 <= (H acond - H noac) * (f_u q - f_u p) /\ 0 <= (G acond - G noac) * (f_u q - f_u p) /\
  (~ approaching n p q -> H acond = H noac /\ G acond = G noac).
Proof. exact conducts. Qed.
Print Assumptions C44_hot_to_cold.
(** Heat does flow. *)
Example C44_ex : let p := exf 1 0 1 2 0 in let q := exf 1 1 0 1 0 in
  let H ac := a_dudt (ComputeSphHydroForces 1 (m4_w1 1) noav ac notdav 1 2 0 f_pressure p acc0 [q]) in
  H wadsley2008 - H noac = - 1.
Proof.
  cbv zeta beta. rewrite !HF_dudt. cbn [lsum]. rewrite exf_hd, exf_hv. unfold du, dissipation.
  assert (E : rltb (0 - 1) 0 = true) by (apply rltb_true; lra). rewrite E. unfold wi_.
  cbn [exf f_hfactor f_h f_rho f_m f_u f_pressure f_invomega snd fst].
  replace (1 * (1 / 1)) with 1 by field. rewrite m4_w1_1. field.
Qed.

(** * C45 *)
(** The potential of a particle is its own term m/h wpot(0), plus the softened potential of
    every particle of the two softened lists, plus the point-mass potential of the others; *)
Theorem C45_potential : forall n w1 wgrav wpot avisc acond tdavisc al be almin Pr lev p x l s d,
  a_gpot (UpdateAll n w1 wgrav wpot avisc acond tdavisc al be almin Pr lev p (ZeroAccelerations x) l s d) =
  f_m p / f_h p * wpot 0 +
  lsum (fun q => soft_pot wpot p q (sqrt (dot n (vsub (f_r q) (f_r p)) (vsub (f_r q) (f_r p)) + small_number))) (l ++ s) +
  lsum (fun q => f_m q / sqrt (dot n (vsub (f_r q) (f_r p)) (vsub (f_r q) (f_r p)) + small_number)) d.
Proof. exact potential_spec. Qed.
Print Assumptions C45_potential.
(** but the particle is in its own list, and a lone particle gets its own potential twice. *)
Theorem C45_self_twice_refuted : exists p,
  let y := UpdateAll 3 (m4_w1 3) m4_wgrav m4_wpot mon97 noac notdav 1 2 0 f_pressure (fun _ => 0%Z) p (ZeroAccelerations acc0)
             (filter (interacts 3 p) [p]) [] [] in
  19 / 10 * (f_m p / f_h p * m4_wpot 0) < a_gpot y.
Proof. exact self_twice. Qed.
Print Assumptions C45_self_twice_refuted.

(** * C46 *)
(** levelneib after the force computation is the largest level of the interacting neighbours
    (the particle itself is one of them), *)
Theorem C46_hydro : forall n w1 avisc acond tdavisc al be almin Pr p x l, (forall q, In q l -> (0 <= f_level q)%Z) ->
  let y := a_lneib (UpdateHydro n w1 avisc acond tdavisc al be almin Pr p (ZeroAccelerations x) l) in
  (forall q, In q l -> (f_level q <= y)%Z) /\ (y = 0%Z \/ exists q, In q l /\ y = f_level q).
Proof. exact level_hydro_spec. Qed.
Print Assumptions C46_hydro.
Theorem C46_gravity_partial : forall n w1 wgrav wpot avisc acond tdavisc al be almin Pr lev p x l d,
  (forall q, In q l -> (0 <= f_level q)%Z) -> l <> [] ->
  let y := a_lneib (UpdateAll n w1 wgrav wpot avisc acond tdavisc al be almin Pr lev p (ZeroAccelerations x) l [] d) in
  (forall q, In q l -> (f_level q <= y)%Z) /\ (y = 0%Z \/ exists q, In q l /\ y = f_level q).
Proof. exact level_all_spec. Qed.
Print Assumptions C46_gravity_partial.
(** but with neighbours for gravity only, it is taken from unrelated particles. *)
Theorem C46_gravity_refuted : exists p q : fpart,
  let lev j := nth j [f_level p; f_level q] 0%Z in
  (a_lneib (UpdateAll 1 (m4_w1 1) m4_wgrav m4_wpot mon97 noac notdav 1 2 0 f_pressure lev p (ZeroAccelerations acc0) [p] [q] []) < f_level q)%Z.
Proof. exact level_bad. Qed.
Print Assumptions C46_gravity_refuted.
Example C46_ex : a_lneib (UpdateHydro 1 (m4_w1 1) mon97 noac notdav 1 2 0 f_pressure (exf 1 0 0 1 2) (ZeroAccelerations acc0)
                            [exf 1 0 0 1 2; exf 1 1 0 1 5; exf 1 1 0 1 3]) = 5%Z.
Proof. rewrite level_hydro. reflexivity. Qed.

(** * C47 *)
(** Changing the units of length, mass and time changes the hydrodynamical accelerations and
    rates only by the factors their dimensions demand, with every viscosity and without
    conductivity or with that of Wadsley (2008); *)
Theorem C47_units_partial : forall n w1 avisc acond tdavisc al be almin Pr ul um ut, 0 < ul -> 0 < um -> 0 < ut ->
  acond <> price2008 -> forall p l,
  (forall q, Pr (rescale n ul um ut q) = um / ul ^ n * (ul / ut) ^ 2 * Pr q) ->
  let F := ComputeSphHydroForces n w1 avisc acond tdavisc al be almin Pr in
  let x := F p acc0 l in let y := F (rescale n ul um ut p) acc0 (map (rescale n ul um ut) l) in
  (forall k, (k < n)%nat -> a_a y k = ul / ut ^ 2 * a_a x k) /\
  a_dudt y = ul ^ 2 / ut ^ 3 * a_dudt x /\ a_divv y = / ut * a_divv x /\ a_dalphadt y = / ut * a_dalphadt x.
Proof. exact units_ok. Qed.
Print Assumptions C47_units_partial.
(** not so with price2008. *)
Theorem C47_price2008_refuted : exists p q,
  let F := ComputeSphHydroForces 1 (m4_w1 1) noav price2008 notdav 1 2 0 f_pressure in
  a_dudt (F (rescale 1 1 4 1 p) acc0 [rescale 1 1 4 1 q]) <> 1 ^ 2 / 1 ^ 3 * a_dudt (F p acc0 [q]).
Proof. exact units_bad. Qed.
Print Assumptions C47_price2008_refuted.
Example C47_ex : forall q, f_pressure (rescale 3 2 3 5 q) = 3 / 2 ^ 3 * (2 / 5) ^ 2 * f_pressure q.
Proof. reflexivity. Qed.
