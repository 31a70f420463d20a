(** C73: reported totals, the frame of the centre of mass, MPI collection and external potentials. *)
From Verif Require Import Prelude Vec M_Box M_Periodic L_Box L_Periodic S_Periodic M_Hermite S_Hermite L_Hermite L_Hermite2 L_Hermite3 L_Hermite4 L_Hermite5 L_Hermite6 L_Hermite9 L_Hermite11 L_Hermite12 L_Hermite14 P_Hermite S_Kernel M_Diag S_Diag L_Diag L_Diag2 L_Diag3.
From Coq Require Import Reals List.
From Coquelicot Require Import Coquelicot.
Import ListNotations.
Local Open Scope R_scope.

(** ** Totals *)
(** The numbers reported are sums over the stars and the gas particles that are not dead; the angular momentum includes the
    spin kept by sinks; the energy is kinetic, thermal (with hydro forces) and potential (with self-gravity or stars). *)
Theorem C73_totals : forall n hf sg Nstar gas stars sinks, (n <= 3)%nat ->
  let d := CalculateDiagnostics n hf sg Nstar gas stars sinks in
  let living := filter (fun p => negb (p_dead p)) gas in let all := living ++ stars in
  d_Nhydro d = length gas /\ d_Nstar d = Nstar /\ (length living + d_Ndead d = length gas)%nat /\
  d_mtot d = lsum p_m all /\ (forall k, d_mom d k = lsum (fun p => p_m p * p_v p k) all) /\ (forall k, d_force d k = lsum (fun p => p_m p * p_a p k) all) /\
  (0 < d_mtot d -> forall k, d_mtot d * d_rcom d k = lsum (fun p => p_m p * p_r p k) all /\ d_mtot d * d_vcom d k = d_mom d k) /\
  (forall k, (k < 3)%nat -> d_angmom d k = lsum (fun p => p_m p * cross n (p_r p) (p_v p) k) all + lsum (fun s : vec => s k) sinks) /\
  d_ketot d = lsum (fun p => 1 / 2 * p_m p * dot n (p_v p) (p_v p)) all /\ d_utot d = lsum (fun p => p_m p * p_u p) living /\
  d_gpetot d = - (1 / 2 * lsum (fun p => p_m p * p_gpot p) all) /\
  d_Etot d = d_ketot d + (if hf then d_utot d else 0) + (if sg || Nat.ltb 0 Nstar then d_gpetot d else 0).
Proof.
  intros n hf sg Nstar gas stars sinks Hn. cbv zeta. destruct (calc_is n hf sg Nstar gas stars sinks Hn) as (A1 & A2 & A3 & A4 & A5 & A6 & A7 & A8 & A9 & A10 & A11 & A12 & A13).
  unfold alive in *. set (d := CalculateDiagnostics _ _ _ _ _ _ _) in *. repeat split; auto.
  - rewrite A3. clear. induction gas as [|p l IH]; cbn; [reflexivity|]. destruct (p_dead p); cbn; lia.
  - rewrite (A9 k), (proj2 (rltb_true _ _) H). field. lra.
  - rewrite (A10 k), (A11 k), (proj2 (rltb_true _ _) H). field. lra.
  - intros k Hk. rewrite (A13 k). f_equal. apply lsum_ext. intros p _. unfold ang. now rewrite (proj2 (Nat.ltb_lt k 3) Hk).
Qed.
Print Assumptions C73_totals.

(** ** The frame of the centre of mass *)
(** After SetComFrame the centre of mass is at rest at the origin; mass, relative positions and velocities, thermal and potential
    energy are unchanged; kinetic energy and angular momentum lose those of the centre of mass. *)
Theorem C73_frame : forall n hf sg gas stars sinks, (n <= 3)%nat -> let d := CalculateDiagnostics n hf sg (length stars) gas stars sinks in 0 < d_mtot d ->
  let '(gas', stars', d') := SetComFrame n hf sg gas stars sinks in
  (forall k, d_rcom d' k = 0 /\ d_vcom d' k = 0 /\ d_mom d' k = 0) /\
  d_mtot d' = d_mtot d /\ d_Ndead d' = d_Ndead d /\ d_utot d' = d_utot d /\ d_gpetot d' = d_gpetot d /\
  d_ketot d' = d_ketot d - 1 / 2 * d_mtot d * dot n (d_vcom d) (d_vcom d) /\
  (forall k, (k < 3)%nat -> d_angmom d' k = d_angmom d k - d_mtot d * cross n (d_rcom d) (d_vcom d) k) /\
  length gas' = length gas /\ length stars' = length stars /\
  (forall i j p q p' q', nth_error (gas ++ stars) i = Some p -> nth_error (gas ++ stars) j = Some q ->
     nth_error (gas' ++ stars') i = Some p' -> nth_error (gas' ++ stars') j = Some q' ->
     p_m p' = p_m p /\ p_u p' = p_u p /\ p_dead p' = p_dead p /\
     (forall k, p_r p' k - p_r q' k = p_r p k - p_r q k) /\ (forall k, p_v p' k - p_v q' k = p_v p k - p_v q k)).
Proof.
  intros n hf sg gas stars sinks Hn. cbv zeta. intros HM.
  destruct (frame_is n hf sg Hn gas stars sinks HM) as (_ & _ & E3 & E4 & E5 & E6 & E7 & E8 & E9 & _ & E11 & E12).
  unfold SetComFrame in *. cbn [snd] in *. set (d := CalculateDiagnostics n hf sg (length stars) gas stars sinks) in *.
  repeat split; auto; try apply map_length; intros; rewrite <- map_app in *.
  all: rewrite nth_error_map in H1, H2; rewrite H in H1; rewrite H0 in H2; injection H1 as <-; injection H2 as <-; cbn; try reflexivity; ring.
Qed.
Print Assumptions C73_frame.

(** ** Collection from MPI processes *)
(** What process 0 holds after collecting is what one process with all bodies would report (the number of dead particles excepted,
    see below); every process has mass or only bodies without mass. *)
Theorem C73_collate : forall n hf sg Nstar p0 ps, (n <= 3)%nat ->
  let ok := fun p : list part * list part * list vec =>
    let l := filter (fun q => negb (p_dead q)) (fst (fst p)) ++ snd (fst p) in 0 < lsum p_m l \/ (forall q, In q l -> p_m q = 0) in
  let rep := fun p : list part * list part * list vec => CalculateDiagnostics n hf sg Nstar (fst (fst p)) (snd (fst p)) (snd p) in
  (forall p, In p (p0 :: ps) -> ok p) ->
  let e := CollateDiagnosticsData (rep p0) (map rep ps) in
  let d := rep (concat (map (fun p => fst (fst p)) (p0 :: ps)), concat (map (fun p => snd (fst p)) (p0 :: ps)), concat (map snd (p0 :: ps))) in 0 < d_mtot d ->
  d_Nhydro e = d_Nhydro d /\ d_Nstar e = d_Nstar d /\ d_mtot e = d_mtot d /\ d_Etot e = d_Etot d /\ d_utot e = d_utot d /\ d_ketot e = d_ketot d /\ d_gpetot e = d_gpetot d /\
  (forall k, d_rcom e k = d_rcom d k /\ d_vcom e k = d_vcom d k /\ d_mom e k = d_mom d k /\ d_force e k = d_force d k /\ d_angmom e k = d_angmom d k).
Proof.
  intros n hf sg Nstar p0 ps Hn. cbv zeta. intros HM H0. cbn [fst snd] in *.
  pose proof (collate_is n hf sg Hn p0 ps Nstar HM H0) as C. cbv zeta in C.
  assert (L : forall p, local n hf sg Nstar p = CalculateDiagnostics n hf sg Nstar (fst (fst p)) (snd (fst p)) (snd p)) by (intros [[g s] q]; reflexivity).
  rewrite (map_ext _ _ L), L in C. destruct C as (C1 & C2 & C3 & C4 & C5 & C6 & C7 & C8 & C9 & C10 & C11 & C12).
  repeat split; auto.
Qed.
Print Assumptions C73_collate.
(** The dead particles of the other processes are not counted. *)
Definition body (dead : bool) : part := mkpart 1 0 0 (fun _ => 0) (fun _ => 0) (fun _ => 0) dead.
Theorem C73_collate_refuted : exists g0 g1, let rep := fun g => CalculateDiagnostics 3 true true 0 g nil nil in
  d_Ndead (CollateDiagnosticsData (rep g0) (rep g1 :: nil)) <> d_Ndead (rep (g0 ++ g1)) /\
  d_Nhydro (CollateDiagnosticsData (rep g0) (rep g1 :: nil)) = d_Nhydro (rep (g0 ++ g1)).
Proof. exists (body false :: nil), (body true :: body false :: nil). cbv zeta. split; [cbn; discriminate|reflexivity]. Qed.
Print Assumptions C73_collate_refuted.

(** ** External potentials *)
(** The Plummer potential (and none): the acceleration is the gradient of half of what is added to gpot (pair potentials are counted
    twice in gpot, see d_gpetot above), and the jerk is its derivative in time. *)
Theorem C73_plummer : forall n x r, (match x with VerticalPot _ _ _ => False | _ => True end) ->
  (match x with PlummerPot _ rp => 0 < dot n r r + rp * rp | _ => True end) ->
  (match x with PlummerPot m rp => ext_pot n x r / 2 = m / sqrt (dot n r r + rp * rp) | _ => ext_pot n x r = 0 end) /\
  (forall k, (k < n)%nat -> is_derive (fun u => ext_pot n x (with_comp r k u) / 2) (r k) (ext_a n x r k)).
Proof.
  intros n x r Hx Hr. split; [|intros k Hk; now apply ext_gradient].
  destruct x; [reflexivity|contradiction|]. cbn. rewrite rpower_half by assumption. field. apply Rgt_not_eq, sqrt_lt_R0, Hr.
Qed.
Print Assumptions C73_plummer.
Theorem C73_jerk : forall n x (X V : R -> vec) t k, (k < n)%nat -> (match x with PlummerPot _ rp => 0 < dot n (X t) (X t) + rp * rp | _ => True end) ->
  (forall k, (k < n)%nat -> is_derive (fun u => X u k) t (V t k)) -> is_derive (fun u => ext_a n x (X u) k) t (ext_adot n x (X t) (V t) k).
Proof. exact ext_jerk. Qed.
Print Assumptions C73_jerk.

(** ** The energy that is reported is conserved *)
Lemma stars_energy : forall n hf sg x N (F : R -> stars) t0 m (pot : R -> nat -> R) (A : nat -> vec), (n <= 3)%nat ->
  (match x with VerticalPot _ _ _ => False | _ => True end) ->
  (forall t i, (i < N)%nat -> s_active (F t i) = true /\ s_m (F t i) = m i /\ s_gpot (F t i) = pot t i) ->
  (forall i k, (i < N)%nat -> (k < n)%nat -> s_a (F t0 i) k = A i k) ->
  (forall i k, (i < N)%nat -> (k < n)%nat -> is_derive (fun t => s_r (F t i) k) t0 (s_v (F t0 i) k)) ->
  (forall i k, (i < N)%nat -> (k < n)%nat -> is_derive (fun t => s_v (F t i) k) t0 (s_a (AddExternalPotential n x (F t0 i)) k)) ->
  (forall i, (i < N)%nat -> regular n x (s_r (F t0 i))) ->
  is_derive (fun t => 1 / 2 * sumf N (fun i => m i * pot t i)) t0 (sumf N (fun i => m i * dot n (s_v (F t0 i)) (A i))) ->
  is_derive (fun t => d_Etot (CalculateDiagnostics n hf sg N nil (map (fun i => part_of (AddExternalPotential n x (F t i))) (seq 0 N)) nil)) t0 0.
Proof.
  intros n hf sg x N F t0 m pot A Hn Hx HF HA HX HV HR HP.
  eapply is_derive_ext; [intros t; symmetry; apply (etot_stars n hf sg N (fun i => AddExternalPotential n x (F t i)) Hn)|].
  apply (is_derive_ext (fun t => sumf N (fun i => 1 / 2 * m i * dot n (s_v (F t i)) (s_v (F t i))) -
    (1 / 2 * sumf N (fun i => m i * pot t i) + sumf N (fun i => m i * (ext_pot n x (s_r (F t i)) / 2))))).
  { intros t. f_equal.
    - apply sumf_ext. intros i Hi. destruct (HF t i Hi) as (E1 & E2 & E3). rewrite aep_active by assumption. cbn. now rewrite E2.
    - rewrite <- !sumf_scal, <- sumf_plus. apply sumf_ext. intros i Hi. destruct (HF t i Hi) as (E1 & E2 & E3). rewrite aep_active by assumption.
      cbn. rewrite E2, E3. field. }
  apply (energy_conserved n N m (fun i t => s_r (F t i)) (fun i t => s_v (F t i)) (fun i => s_a (AddExternalPotential n x (F t0 i))) (fun t =>
    1 / 2 * sumf N (fun i => m i * pot t i) + sumf N (fun i => m i * (ext_pot n x (s_r (F t i)) / 2)))); [exact HV|].
  eapply der_val.
  - apply (is_derive_plus (fun t => 1 / 2 * sumf N (fun i => m i * pot t i)) (fun t => sumf N (fun i => m i * (ext_pot n x (s_r (F t i)) / 2)))); [exact HP|].
    apply (der_sumf N (fun i t => m i * (ext_pot n x (s_r (F t i)) / 2)) (fun i => m i * dot n (s_v (F t0 i)) (ext_a n x (s_r (F t0 i))))). intros i Hi.
    apply (is_derive_scal (fun t => ext_pot n x (s_r (F t i)) / 2) t0 (m i)).
    apply (ext_rate n x (fun t => s_r (F t i)) (fun t => s_v (F t i))); auto.
  - unfold plus. cbn. rewrite <- sumf_plus. apply sumf_ext. intros i Hi. rewrite <- Rmult_plus_distr_l. f_equal.
    unfold dot. rewrite <- sumf_plus. apply sumf_ext. intros k Hk. destruct (HF t0 i Hi) as (E1 & _). rewrite aep_active by assumption. cbn.
    rewrite HA by assumption. ring.
Qed.
Lemma forces_active : forall n b soft c N S i, all_active N S -> (i < N)%nat -> s_active (Forces n b soft c N (Zero N S) i) = true.
Proof.
  intros n b soft c N S i HA Hi. assert (HZ : s_active (Zero N S i) = true) by (rewrite (proj2 (zero_kin N S i)); now apply HA). unfold Forces. destruct soft as [K|].
  - unfold DirectSmoothed. rewrite upd_in by assumption. destruct (pair_loop_smooth n b K (soft_e c) N (Zero N S) i (Zero N S i) HZ) as (g & a & ad & -> & _). exact HZ.
  - assert (G : s_active (DirectGrav n b N (Zero N S) i) = true).
    { unfold DirectGrav. rewrite upd_in by assumption. destruct (pair_loop_grav n b 0 N (Zero N S) i (Zero N S i) HZ) as (g & a & ad & -> & _). exact HZ. }
    destruct c; try exact G. destruct (direct6_is n b N S i Hi (HA i Hi)) as (a2 & -> & _). cbn. apply pass1_active; auto.
Qed.
(** Stars moving with the accelerations that the code computes (point masses): the reported total energy does not change. *)
Theorem C73_energy : forall n hf sg b c x N (S : R -> stars) t0, (n <= 3)%nat -> no_wrap n b ->
  (match x with VerticalPot _ _ _ => False | _ => True end) ->
  let F := fun t i => AddExternalPotential n x (Forces n b None c N (Zero N (S t)) i) in
  (forall t, all_active N (S t)) -> (forall t i, (i < N)%nat -> s_m (S t i) = s_m (S t0 i)) ->
  velocity_of (fun i t => s_r (S t i)) (fun i t => s_v (S t i)) ->
  (forall i k, (i < N)%nat -> (k < n)%nat -> is_derive (fun t => s_v (S t i) k) t0 (s_a (F t0 i) k)) ->
  (forall i j, (i < N)%nat -> (j < N)%nat -> i <> j -> 0 < separation n (added_to c) (s_r (S t0 j)) (s_r (S t0 i))) ->
  (forall i, (i < N)%nat -> match x with PlummerPot _ rp => 0 < dot n (s_r (S t0 i)) (s_r (S t0 i)) + rp * rp | _ => True end) ->
  is_derive (fun t => d_Etot (CalculateDiagnostics n hf sg N nil (map (fun i => part_of (F t i)) (seq 0 N)) nil)) t0 0.
Proof.
  intros n hf sg b c x N S t0 Hn Hb Hx F HA Hm HV HW Hs HR.
  assert (K : forall t i, (i < N)%nat -> same_kin (S t i) (Forces n b None c N (Zero N (S t)) i) /\
    s_gpot (Forces n b None c N (Zero N (S t)) i) = newton_pot n N (added_to c) (fun j => s_m (S t0 j)) (fun j => s_r (S t j)) i (s_r (S t i)) /\
    (forall k, s_a (Forces n b None c N (Zero N (S t)) i) k = newton_acc n N (added_to c) (fun j => s_m (S t0 j)) (fun j => s_r (S t j)) i k)).
  { intros t i Hi. destruct (newton_forces n b c N (S t) i (HA t) Hi) as (K & EP & EA & _). split; [exact K|]. split.
    - rewrite EP, newton_pot_is by assumption. apply others_ext. intros j Hj _. now rewrite (Hm t j Hj).
    - intros k. rewrite EA, newton_acc_is by assumption. apply others_ext. intros j Hj _. now rewrite (Hm t j Hj). }
  apply (stars_energy n hf sg x N (fun t i => Forces n b None c N (Zero N (S t)) i) t0 (fun i => s_m (S t0 i))
    (fun t i => newton_pot n N (added_to c) (fun j => s_m (S t0 j)) (fun j => s_r (S t j)) i (s_r (S t i)))
    (newton_acc n N (added_to c) (fun j => s_m (S t0 j)) (fun j => s_r (S t0 j)))); auto.
  - intros t i Hi. destruct (K t i Hi) as ((E1 & _) & E2 & _). split; [now apply forces_active|]. split; [rewrite E1; now apply Hm|exact E2].
  - intros i k Hi Hk. now apply K.
  - intros i k Hi Hk. destruct (K t0 i Hi) as ((_ & _ & _ & E4) & _). cbv beta. rewrite E4.
    eapply is_derive_ext; [|apply (HV i k t0)]. intros t. cbv beta. destruct (K t i Hi) as ((_ & _ & E3 & _) & _). now rewrite E3.
  - intros i k Hi Hk. eapply is_derive_ext; [|apply (HW i k Hi Hk)]. intros t. cbv beta. destruct (K t i Hi) as ((_ & _ & _ & E4) & _). now rewrite E4.
  - intros i Hi. destruct (K t0 i Hi) as ((_ & _ & E3 & _) & _). rewrite E3. now apply HR.
  - eapply der_val; [apply (newton_power n N (added_to c) (fun i => s_m (S t0 i)) (fun i t => s_r (S t i)) (fun i t => s_v (S t i)) t0 HV Hs)|].
    apply sumf_ext. intros i Hi. destruct (K t0 i Hi) as ((_ & _ & _ & E4) & _). now rewrite E4.
Qed.
Print Assumptions C73_energy.
(** The same for softened stars, with the Hermite schemes. *)
Theorem C73_soft_energy : forall n hf sg b c kern range zeta x N (S : R -> stars) t0, (n <= 3)%nat -> no_wrap n b -> c <> LeapKDK ->
  gravity_kernel range (k_wgrav kern) (k_wpot kern) zeta ->
  (match x with VerticalPot _ _ _ => False | _ => True end) ->
  let F := fun t i => AddExternalPotential n x (Forces n b (Some kern) c N (Zero N (S t)) i) in
  (forall t, all_active N (S t)) -> (forall t i, (i < N)%nat -> s_m (S t i) = s_m (S t0 i) /\ s_h (S t i) = s_h (S t0 i) /\ 0 < s_h (S t i)) ->
  velocity_of (fun i t => s_r (S t i)) (fun i t => s_v (S t i)) ->
  (forall i k, (i < N)%nat -> (k < n)%nat -> is_derive (fun t => s_v (S t i) k) t0 (s_a (F t0 i) k)) ->
  (forall i j, (i < N)%nat -> (j < N)%nat -> i <> j -> 0 < separation n 0 (s_r (S t0 j)) (s_r (S t0 i))) ->
  (forall i, (i < N)%nat -> match x with PlummerPot _ rp => 0 < dot n (s_r (S t0 i)) (s_r (S t0 i)) + rp * rp | _ => True end) ->
  is_derive (fun t => d_Etot (CalculateDiagnostics n hf sg N nil (map (fun i => part_of (F t i)) (seq 0 N)) nil)) t0 0.
Proof.
  intros n hf sg b c kern range zeta x N S t0 Hn Hb Hc G Hx F HA Hm HV HW Hs HR.
  assert (K : forall t i, (i < N)%nat -> same_kin (S t i) (Forces n b (Some kern) c N (Zero N (S t)) i) /\
    s_gpot (Forces n b (Some kern) c N (Zero N (S t)) i) = soft_pot n N (k_wpot kern) (fun j => s_m (S t0 j)) (fun j => s_h (S t0 j)) (fun j => s_r (S t j)) i (s_r (S t i)) /\
    (forall k, s_a (Forces n b (Some kern) c N (Zero N (S t)) i) k = soft_acc n N (k_wgrav kern) (fun j => s_m (S t0 j)) (fun j => s_h (S t0 j)) (fun j => s_r (S t j)) i k)).
  { intros t i Hi. destruct (C71_soft n b c kern range zeta N (S t) i Hc Hb (HA t)) as (EP & EA & _); auto; [intros j Hj; now apply Hm|]. split; [|split].
    - unfold Forces. now apply smooth_forces; [|apply HA].
    - rewrite EP. apply others_ext. intros j Hj _. unfold hmean. destruct (Hm t j Hj) as (-> & -> & _). destruct (Hm t i Hi) as (_ & -> & _). reflexivity.
    - intros k. rewrite EA. apply others_ext. intros j Hj _. unfold hmean. destruct (Hm t j Hj) as (-> & -> & _). destruct (Hm t i Hi) as (_ & -> & _). reflexivity. }
  apply (stars_energy n hf sg x N (fun t i => Forces n b (Some kern) c N (Zero N (S t)) i) t0 (fun i => s_m (S t0 i))
    (fun t i => soft_pot n N (k_wpot kern) (fun j => s_m (S t0 j)) (fun j => s_h (S t0 j)) (fun j => s_r (S t j)) i (s_r (S t i)))
    (soft_acc n N (k_wgrav kern) (fun j => s_m (S t0 j)) (fun j => s_h (S t0 j)) (fun j => s_r (S t0 j)))); auto.
  - intros t i Hi. destruct (K t i Hi) as ((E1 & _) & E2 & _). split; [now apply forces_active|]. split; [rewrite E1; now apply Hm|exact E2].
  - intros i k Hi Hk. now apply K.
  - intros i k Hi Hk. destruct (K t0 i Hi) as ((_ & _ & _ & E4) & _). cbv beta. rewrite E4.
    eapply is_derive_ext; [|apply (HV i k t0)]. intros t. cbv beta. destruct (K t i Hi) as ((_ & _ & E3 & _) & _). now rewrite E3.
  - intros i k Hi Hk. eapply is_derive_ext; [|apply (HW i k Hi Hk)]. intros t. cbv beta. destruct (K t i Hi) as ((_ & _ & _ & E4) & _). now rewrite E4.
  - intros i Hi. destruct (K t0 i Hi) as ((_ & _ & E3 & _) & _). rewrite E3. now apply HR.
  - eapply der_val; [apply (soft_power n N range (k_wgrav kern) (k_wpot kern) zeta (fun i => s_m (S t0 i)) (fun i => s_h (S t0 i)) (fun i t => s_r (S t i)) (fun i t => s_v (S t i)) t0 G HV Hs)|].
    apply sumf_ext. intros i Hi. destruct (K t0 i Hi) as ((_ & _ & _ & E4) & _). now rewrite E4.
Qed.
Print Assumptions C73_soft_energy.

(** ** Where it fails *)
(** A star that falls in the constant field of VerticalPotential: the reported energy is not constant, since its potential is not
    twice the potential as that of PlummerPotential is. *)
Definition falling (t : R) (i : nat) : star := set_active (set_rv (moving_star (fun _ => 0) (fun _ => 0)) (fun _ => t * t / 2) (fun _ => t)) true.
Lemma falling_force : forall b t, let q := Forces 1 b None Hermite4 1 (Zero 1 (falling t)) 0%nat in
  s_active q = true /\ s_m q = 1 /\ s_gpot q = 0 /\ s_a q 0%nat = 0 /\ s_r q = s_r (falling t 0%nat) /\ s_v q = s_v (falling t 0%nat).
Proof.
  intros b t. cbv zeta. assert (HA : all_active 1 (falling t)) by (intros i _; reflexivity).
  split; [apply forces_active; auto|]. destruct (newton_forces 1 b Hermite4 1 (falling t) 0 HA ltac:(lia)) as ((E1 & _ & E3 & E4) & EP & EA & _).
  rewrite E1, EP, (EA 0%nat), E3, E4. unfold others. cbn. repeat split; ring.
Qed.
Theorem C73_vertical_refuted : forall hf sg, exists b x (S : R -> stars), no_wrap 1 b /\ let F := fun t i => AddExternalPotential 1 x (Forces 1 b None Hermite4 1 (Zero 1 (S t)) i) in
  (forall t, all_active 1 (S t)) /\
  (forall t, is_derive (fun t => s_r (S t 0%nat) 0%nat) t (s_v (S t 0%nat) 0%nat) /\ is_derive (fun t => s_v (S t 0%nat) 0%nat) t (s_a (F t 0%nat) 0%nat)) /\
  forall t, d_Etot (CalculateDiagnostics 1 hf sg 1 nil (map (fun i => part_of (F t i)) (seq 0 1)) nil) = t * t / 4.
Proof.
  intros hf sg. exists (mkbox (fun _ => 0) (fun _ => 1) (fun _ => openB) (fun _ => openB)), (VerticalPot 0 1 0), falling. set (b := mkbox _ _ _ _).
  split; [intros k _ (H & _); discriminate H|]. cbv zeta. split; [intros t i _; reflexivity|]. split.
  - intros t. destruct (falling_force b t) as (E1 & E2 & E3 & E4 & E5 & E6). rewrite aep_active by exact E1. cbn [set_force s_a]. rewrite E4. cbn. split.
    + auto_derive; [exact I|]. field.
    + auto_derive; [exact I|]. ring.
  - intros t. rewrite (etot_stars 1 hf sg 1 (fun i => AddExternalPotential 1 (VerticalPot 0 1 0) (Forces 1 b None Hermite4 1 (Zero 1 (falling t)) i))) by lia.
    cbn [sumf]. destruct (falling_force b t) as (E1 & E2 & E3 & E4 & E5 & E6). rewrite aep_active by exact E1. cbn [set_force s_m s_v s_gpot]. rewrite E2, E3, E5, E6. unfold dot. cbn. field.
Qed.
Print Assumptions C73_vertical_refuted.
(** Gas without self-gravity and without stars: what an external potential adds to gpot is left out of the total energy, so this energy
    changes at the rate at which the potential does work. *)
Theorem C73_gas_refuted : forall n x m u (X V : R -> vec) t0, (n <= 3)%nat ->
  let P := fun t => AddExternalGas n x (mkpart m u 0 (X t) (V t) (fun _ => 0) false) in
  (forall k, (k < n)%nat -> is_derive (fun t => V t k) t0 (p_a (P t0) k)) ->
  is_derive (fun t => d_Etot (CalculateDiagnostics n true false 0 (P t :: nil) nil nil)) t0 (m * dot n (V t0) (ext_a n x (X t0))).
Proof.
  intros n x m u X V t0 Hn P HV.
  apply (is_derive_ext (fun t => 1 / 2 * m * dot n (V t) (V t) + m * u)).
  - intros t. destruct (calc_is n true false 0 (P t :: nil) nil nil Hn) as (_ & _ & _ & _ & E5 & E6 & _ & E8 & _). rewrite E8, E5, E6. cbn. ring.
  - eapply der_val.
    + apply (is_derive_plus (fun t => 1 / 2 * m * dot n (V t) (V t)) (fun _ => m * u)); [|apply (is_derive_const (m * u) t0)].
      apply (is_derive_scal (fun t => dot n (V t) (V t)) t0 (1 / 2 * m)), (der_dot n V V (fun _ => p_a (P t0)) (fun _ => p_a (P t0))); assumption.
    + rewrite (dot_sym n (p_a (P t0))). unfold plus, zero. cbn. eqR. replace (dot n (V t0) (fun k => 0 + ext_a n x (X t0) k)) with (dot n (V t0) (ext_a n x (X t0))); [field|].
      unfold dot. apply sumf_ext. intros; ring.
Qed.
Print Assumptions C73_gas_refuted.

(** ** Cases *)
(** Two bodies in two dimensions, one gas particle (and one dead), one star, one sink. *)
Definition v2 (x y : R) : vec := fun k => match k with 0%nat => x | 1%nat => y | _ => 0 end.
Example C73_two : let d := CalculateDiagnostics 2 true true 1 (mkpart 1 5 2 (v2 1 0) (v2 0 2) (v2 0 0) false :: mkpart 7 1 1 (v2 1 1) (v2 1 1) (v2 0 0) true :: nil)
    (mkpart 3 0 1 (v2 0 1) (v2 1 0) (v2 0 0) false :: nil) (v2 0 0 :: nil) in
  d_mtot d = 4 /\ d_Ndead d = 1%nat /\ d_ketot d = 7 / 2 /\ d_gpetot d = - (5 / 2) /\ d_Etot d = 6 /\ d_angmom d 2%nat = -1 /\ d_rcom d 0%nat = 1 / 4 /\ d_vcom d 1%nat = 1 / 2.
Proof.
  cbv zeta. destruct (calc_is 2 true true 1 (mkpart 1 5 2 (v2 1 0) (v2 0 2) (v2 0 0) false :: mkpart 7 1 1 (v2 1 1) (v2 1 1) (v2 0 0) true :: nil)
    (mkpart 3 0 1 (v2 0 1) (v2 1 0) (v2 0 0) false :: nil) (v2 0 0 :: nil) ltac:(lia)) as (_ & _ & A3 & A4 & A5 & A6 & A7 & A8 & A9 & A10 & _ & _ & A13).
  set (d := CalculateDiagnostics _ _ _ _ _ _ _) in *. clearbody d. unfold dot, ang, cross, S_Diag.comp in *. cbn in A3, A4, A5, A6, A7, A8. specialize (A9 0%nat). specialize (A10 1%nat). specialize (A13 2%nat). cbn in A9, A10, A13.
  assert (M : d_mtot d = 4) by lra. rewrite M in *. rewrite (proj2 (rltb_true 0 4) ltac:(lra)) in *.
  repeat split; try lra. exact A3.
Qed.
(** Work is done on a gas particle that moves outwards in the Plummer potential. *)
Example C73_work : dot 1 (fun _ => 1) (ext_a 1 (PlummerPot 1 1) (fun _ => 1)) < 0.
Proof.
  unfold dot, ext_a. cbn. assert (0 < Rpower (0 + 1 * 1 + 1 * 1) (- (3 / 2))) by apply exp_pos. unfold dot. cbn. nra.
Qed.
(** A star on a circle about a unit mass meets what C73_energy asks of a motion. *)
Definition orbit (t : R) (i : nat) : star := set_active (set_rv (moving_star (fun _ => 0) (fun _ => 0)) (v2 (cos t) (sin t)) (v2 (- sin t) (cos t))) true.
Example C73_orbit : forall b, no_wrap 2 b -> let x := PlummerPot 1 0 in
  (forall t, all_active 1 (orbit t)) /\ velocity_of (fun i t => s_r (orbit t i)) (fun i t => s_v (orbit t i)) /\
  (forall i k t, (i < 1)%nat -> (k < 2)%nat -> is_derive (fun t => s_v (orbit t i) k) t (s_a (AddExternalPotential 2 x (Forces 2 b None Hermite4 1 (Zero 1 (orbit t)) i)) k)) /\
  (forall t i, (i < 1)%nat -> 0 < dot 2 (s_r (orbit t i)) (s_r (orbit t i)) + 0 * 0) /\
  forall hf sg t0, is_derive (fun t => d_Etot (CalculateDiagnostics 2 hf sg 1 nil (map (fun i => part_of (AddExternalPotential 2 x (Forces 2 b None Hermite4 1 (Zero 1 (orbit t)) i))) (seq 0 1)) nil)) t0 0.
Proof.
  intros b Hb. cbv zeta.
  assert (HA : forall t, all_active 1 (orbit t)) by (intros t i _; reflexivity).
  assert (HV : velocity_of (fun i t => s_r (orbit t i)) (fun i t => s_v (orbit t i))).
  { intros i k t. destruct k as [|[|k]]; cbn; auto_derive; auto; ring. }
  assert (HD : forall t i, dot 2 (s_r (orbit t i)) (s_r (orbit t i)) + 0 * 0 = 1).
  { intros t i. unfold dot. cbn. pose proof (sin2_cos2 t) as H. unfold Rsqr in H. lra. }
  assert (HW : forall i k t, (i < 1)%nat -> (k < 2)%nat -> is_derive (fun t => s_v (orbit t i) k) t (s_a (AddExternalPotential 2 (PlummerPot 1 0) (Forces 2 b None Hermite4 1 (Zero 1 (orbit t)) i)) k)).
  { intros i k t Hi Hk. rewrite aep_active by (apply forces_active; auto). cbn [set_force s_a].
    destruct (newton_forces 2 b Hermite4 1 (orbit t) i (HA t) Hi) as ((_ & _ & E3 & _) & _ & EA & _). rewrite E3, (EA k). unfold ext_a. rewrite HD.
    assert (P1 : Rpower 1 (- (3 / 2)) = 1) by (unfold Rpower; rewrite ln_1, Rmult_0_r; apply exp_0). rewrite P1.
    assert (i = 0)%nat as -> by lia. unfold others. cbn [sumf Nat.eqb]. destruct k as [|[|k]]; [| |lia]; cbn; auto_derive; auto; ring. }
  split; [exact HA|]. split; [exact HV|]. split; [exact HW|]. split; [intros; rewrite HD; lra|].
  intros hf sg t0. apply (C73_energy 2 hf sg b Hermite4 (PlummerPot 1 0) 1 orbit t0); auto.
  - intros; lia.
  - intros i Hi. cbv beta. rewrite HD. lra.
Qed.
