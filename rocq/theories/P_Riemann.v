(** C62: the HLLC Riemann solver. *)
From Verif Require Import Prelude Vec M_Box L_Box M_Mfv M_Riemann S_Riemann L_Riemann L_Riemann2 L_Riemann3 L_Mfv4.
From Coq Require Import Reals Lra Psatz.
Local Open Scope R_scope.

(** States with positive density and pressure of an equation of state with positive sound speed. *)
Definition proper (ndim : nat) (W : vec) : Prop := 0 < W ndim /\ 0 < W (S ndim).
Section C62.
Variable ndim : nat.
Variables (gammam1 : R) (sound : R -> R -> R).
Hypothesis gamma_ok : 0 < gammam1.
Hypothesis sound_ok : forall rho u, 0 < rho -> 0 < u -> 0 < sound rho u.
Notation st := (state_of ndim gammam1 sound).
Lemma st_wf : forall W n, proper ndim W -> wf ndim n (st W n).
Proof.
  intros W n (A & B). apply state_wf. split; [exact A|]. apply sound_ok; [exact A|]. apply Rdiv_lt_0_compat; [exact B|]. now apply Rmult_lt_0_compat.
Qed.
Notation proper := (proper ndim).

(** Equal states on both sides: exactly what the flow carries through the moving face. *)
Theorem C62_consistent : forall iso W n w i j, (i <= S ndim)%nat -> unit ndim n -> proper W ->
  hllc ndim false iso gammam1 sound W W n w i j = crossing ndim (gas ndim gammam1 W w) n w i * n j.
Proof. intros iso W n w i j Hi U P. apply hllc_consistent; try easy. destruct (st_wf W n P) as (A & B & _). now split. Qed.

(** Any two states: the flux is that of a flow of four states separated by three waves, each of which satisfies the jump conditions, the outer ones not
    slower than sound in the states given; the normal velocities and pressures of the middle states agree. *)
Theorem C62_waves : forall Wl Wr n w, unit ndim n -> proper Wl -> proper Wr ->
  exists Smin Smax vm A B, let l := gas ndim gammam1 Wl w in let r := gas ndim gammam1 Wr w in
  Smin <= normal_speed ndim l n w - sound (Wl ndim) (Wl (S ndim) / (Wl ndim * gammam1)) /\
  normal_speed ndim r n w + sound (Wr ndim) (Wr (S ndim) / (Wr ndim * gammam1)) <= Smax /\
  (Smin <> vm -> jump ndim l A n w Smin) /\ (Smax <> vm -> jump ndim r B n w Smax) /\
  normal_speed ndim A n w = vm /\ normal_speed ndim B n w = vm /\ d_p A = d_p B /\
  forall i j, (i <= S ndim)%nat -> hllc ndim false false gammam1 sound Wl Wr n w i j =
    crossing ndim (if rleb Smax 0 then r else if rleb 0 Smin then l else if rltb 0 vm then A else B) n w i * n j.
Proof.
  intros Wl Wr n w U Pl Pr. destruct (waves ndim (st Wl n) (st Wr n) n w U (st_wf _ _ Pl) (st_wf _ _ Pr)) as (Smin & Smax & vm & E & B1 & B2 & F).
  cbv zeta in F. destruct F as (J1 & J2 & N1 & N2 & P & X). 
  assert (GL : lab ndim (st Wl n) w = gas ndim gammam1 Wl w) by (apply lab_gas; [exact gamma_ok|apply Pl]).
  assert (GR : lab ndim (st Wr n) w = gas ndim gammam1 Wr w) by (apply lab_gas; [exact gamma_ok|apply Pr]).
  rewrite GL in J1, X. rewrite GR in J2, X.
  assert (NS : forall W, normal_speed ndim (gas ndim gammam1 W w) n w = dot ndim W n).
  { intros W. unfold normal_speed, gas, dot. cbn [d_v]. apply sumf_ext. intros; ring. }
  exists Smin, Smax, vm, (lab ndim (star ndim (st Wl n) n Smin vm) w), (lab ndim (star ndim (st Wr n) n Smax vm) w). cbv zeta. rewrite !NS. split; [exact B1|]. split; [exact B2|]. split; [exact J1|]. split; [exact J2|]. split; [exact N1|]. split; [exact N2|]. split; [exact P|].
  intros i j Hi. unfold hllc. now rewrite X.
Qed.
(** The contact wave satisfies the jump conditions too. *)
Theorem C62_contact_jump : forall A B n w vm, normal_speed ndim A n w = vm -> normal_speed ndim B n w = vm -> d_p A = d_p B -> unit ndim n -> jump ndim A B n w vm.
Proof.
  intros A B n w vm HA HB HP U i Hi. unfold normal_speed in *. unfold crossing, density. rewrite HA, HB.
  assert (V : forall s, sumf ndim (fun k => d_v s k * n k) = sumf ndim (fun k => (d_v s k - w k) * n k) + sumf ndim (fun k => w k * n k)).
  { intros s. rewrite <- sumf_plus. apply sumf_ext. intros; ring. }
  rewrite !V, HA, HB, HP. destruct (Nat.ltb i ndim); [ring|]. destruct (Nat.eqb i ndim); ring.
Qed.
(** Contact discontinuities and shear flows are resolved exactly: the state upwind of the face passes. *)
Theorem C62_contact : forall Wl Wr n w i j, (i <= S ndim)%nat -> unit ndim n -> proper Wl -> proper Wr ->
  sumf ndim (fun k => Wl k * n k) = sumf ndim (fun k => Wr k * n k) -> Wl (S ndim) = Wr (S ndim) ->
  hllc ndim false false gammam1 sound Wl Wr n w i j =
  crossing ndim (gas ndim gammam1 (if rltb 0 (sumf ndim (fun k => Wl k * n k)) then Wl else Wr) w) n w i * n j.
Proof.
  intros Wl Wr n w i j Hi U Pl Pr Ev Ep. unfold hllc. f_equal. rewrite contact; try easy; try (now apply st_wf).
  change (s_vline (st Wl n)) with (sumf ndim (fun k => Wl k * n k)). destruct (rltb 0 _); (rewrite lab_gas; [reflexivity|exact gamma_ok|apply Pl || apply Pr]).
Qed.
(** Exchanging the sides and turning the normal round changes nothing. *)
Theorem C62_sides : forall zmf iso Wl Wr n w i j, (i <= S ndim)%nat -> proper Wl -> proper Wr ->
  hllc ndim zmf iso gammam1 sound Wr Wl (fun k => - n k) w i j = hllc ndim zmf iso gammam1 sound Wl Wr n w i j.
Proof. intros zmf iso Wl Wr n w i j Hi (A & B) (C & D). now apply (hllc_swap ndim zmf iso gammam1 sound gamma_ok sound_ok Wl Wr n w i j). Qed.

(** In the mode without mass flux: if the contact lies between the outer waves, a face moving with it is passed by no mass; the momentum is
    that of the common pressure and the energy is the work done by it. *)
Theorem C62_zero_mass_flux : forall Wl Wr n w, unit ndim n -> proper Wl -> proper Wr ->
  exists Smin Smax vm A B, let l := gas ndim gammam1 Wl w in let r := gas ndim gammam1 Wr w in
  (Smin <> vm -> jump ndim l A n w Smin) /\ (Smax <> vm -> jump ndim r B n w Smax) /\
  normal_speed ndim A n w = vm /\ normal_speed ndim B n w = vm /\ d_p A = d_p B /\
  (Smin < vm < Smax -> forall i j, (i <= S ndim)%nat -> hllc ndim true false gammam1 sound Wl Wr n w i j =
    (if Nat.ltb i ndim then d_p A * n i else if Nat.eqb i ndim then 0 else d_p A * sumf ndim (fun k => (w k + vm * n k) * n k)) * n j).
Proof.
  intros Wl Wr n w U Pl Pr. pose proof (st_wf _ n Pl) as Fl. pose proof (st_wf _ n Pr) as Fr.
  destruct (HLL_Speeds ndim (st Wl n) (st Wr n)) as (Smin, Smax) eqn:E.
  exists Smin, Smax, (compute_central_wave_speed false (st Wl n) (st Wr n) Smin Smax).
  set (vm := compute_central_wave_speed false (st Wl n) (st Wr n) Smin Smax).
  exists (lab ndim (star ndim (st Wl n) n Smin vm) w), (lab ndim (star ndim (st Wr n) n Smax vm) w). cbv zeta.
  destruct (dm_ne ndim _ _ n _ _ Fl Fr E) as (D1 & D2 & D3 & D4).
  assert (NS : forall s S_, s_vline s = dot ndim (s_v s) n -> normal_speed ndim (lab ndim (star ndim s n S_ vm) w) n w = vm).
  { intros s S_ Hv. unfold normal_speed, lab. cbn [d_v]. change vm with (s_vline (star ndim s n S_ vm)) at 2. rewrite star_vline by easy. unfold dot. apply sumf_ext. intros; ring. }
  assert (N1 : normal_speed ndim (lab ndim (star ndim (st Wl n) n Smin vm) w) n w = vm) by now apply NS.
  rewrite <- (lab_gas ndim gammam1 sound gamma_ok Wl n w), <- (lab_gas ndim gammam1 sound gamma_ok Wr n w) by (apply Pl || apply Pr).
  split; [intros N; apply outer_jump; try easy; apply Fl|]. split; [intros N; apply outer_jump; try easy; apply Fr|].
  split; [exact N1|]. split; [now apply NS|]. split; [change (pstar (st Wl n) Smin vm = pstar (st Wr n) Smax vm); unfold vm; apply pstar_eq; lra|].
  intros H i j Hi. unfold hllc. f_equal. destruct (zero_mass_flux ndim _ _ n w _ _ i Hi U Fl Fr E H) as (X & _). fold vm in X. rewrite X.
  set (A := lab ndim (star ndim (st Wl n) n Smin vm) w) in *.
  assert (Rel : sumf ndim (fun k => (d_v A k - (w k + vm * n k)) * n k) = 0).
  { unfold normal_speed in N1. rewrite (sumf_ext ndim _ (fun k => (d_v A k - w k) * n k + - vm * (n k * n k))) by (intros; ring).
    rewrite sumf_plus, N1, sumf_scal. unfold unit in U. rewrite U. ring. }
  unfold crossing. rewrite Rel. destruct (Nat.ltb i ndim); [ring|]. destruct (Nat.eqb i ndim); [ring|].
  rewrite (sumf_ext ndim (fun k => d_v A k * n k) (fun k => (d_v A k - (w k + vm * n k)) * n k + (w k + vm * n k) * n k)) by (intros; ring).
  rewrite sumf_plus, Rel. ring.
Qed.
(** Isothermal gas (and states for which the code treats the gas so): the flux is that of a flow of three states separated by two waves; [U] is what a unit
    of volume between the waves holds and [F] what crosses a face there. *)
Theorem C62_two_waves : forall Wl Wr n w, unit ndim n -> proper Wl -> proper Wr ->
  exists Smin Smax U F, let l := gas ndim gammam1 Wl w in let r := gas ndim gammam1 Wr w in
  Smin <= normal_speed ndim l n w - sound (Wl ndim) (Wl (S ndim) / (Wl ndim * gammam1)) /\
  normal_speed ndim r n w + sound (Wr ndim) (Wr (S ndim) / (Wr ndim * gammam1)) <= Smax /\ Smin < Smax /\
  (forall i, (i <= S ndim)%nat -> F i - crossing ndim l n w i = Smin * (U i - density ndim l i)) /\
  (forall i, (i <= S ndim)%nat -> crossing ndim r n w i - F i = Smax * (density ndim r i - U i)) /\
  forall i j, (i <= S ndim)%nat -> hllc ndim false true gammam1 sound Wl Wr n w i j =
    (if rleb Smax 0 then crossing ndim r n w i else if rleb 0 Smin then crossing ndim l n w i else F i) * n j.
Proof.
  intros Wl Wr n w U Pl Pr. pose proof (st_wf _ n Pl) as Fl. pose proof (st_wf _ n Pr) as Fr.
  destruct (HLL_Speeds ndim (st Wl n) (st Wr n)) as (Smin, Smax) eqn:E.
  destruct (speeds ndim _ _ _ _ E) as (B1 & B2). pose proof (speeds_order ndim _ _ _ _ _ Fl Fr E) as O.
  set (mid := fun i => (Smax * cons_of ndim (st Wr n) i - Smin * cons_of ndim (st Wl n) i - (Hydro_Flux ndim (st Wr n) n i - Hydro_Flux ndim (st Wl n) n i)) / (Smax - Smin)).
  exists Smin, Smax, (lab_frame ndim false mid w), (lab_frame ndim false (compute_HLL_flux ndim (st Wl n) (st Wr n) Smin Smax n) w). cbv zeta.
  assert (NS : forall W, normal_speed ndim (gas ndim gammam1 W w) n w = dot ndim W n).
  { intros W. unfold normal_speed, gas. cbn [d_v]. unfold dot. apply sumf_ext. intros; ring. }
  rewrite !NS. split; [exact B1|]. split; [exact B2|]. split; [exact O|].
  rewrite <- (lab_gas ndim gammam1 sound gamma_ok Wl n w), <- (lab_gas ndim gammam1 sound gamma_ok Wr n w) by (apply Pl || apply Pr).
  split; [|split].
  - intros i Hi. rewrite <- lab_flux, <- lab_cons by (exact Hi || apply Fl).
    rewrite (lab_ext ndim false _ (fun k => (Hydro_Flux ndim (st Wl n) n k + Smin * mid k) + (- Smin) * cons_of ndim (st Wl n) k) w i Hi).
    2:{ intros k Hk. unfold compute_HLL_flux, mid. field. lra. }
    rewrite lab_lin, lab_lin. ring.
  - intros i Hi. rewrite <- lab_flux, <- lab_cons by (exact Hi || apply Fr).
    rewrite (lab_ext ndim false (compute_HLL_flux _ _ _ _ _ _) (fun k => (Hydro_Flux ndim (st Wr n) n k + Smax * mid k) + (- Smax) * cons_of ndim (st Wr n) k) w i Hi).
    2:{ intros k Hk. unfold compute_HLL_flux, mid. field. lra. }
    rewrite lab_lin, lab_lin. ring.
  - intros i j Hi. unfold hllc, solve. rewrite E. f_equal. unfold frame_flux. cbn [negb].
    destruct (rleb Smax 0); [rewrite lab_flux; [reflexivity | exact Hi | apply Fr]|].
    destruct (rleb 0 Smin); [rewrite lab_flux; [reflexivity | exact Hi | apply Fl]|]. reflexivity.
Qed.
End C62.
Print Assumptions C62_consistent.
Print Assumptions C62_waves.
Print Assumptions C62_two_waves.
Print Assumptions C62_contact_jump.
Print Assumptions C62_contact.
Print Assumptions C62_sides.
Print Assumptions C62_zero_mass_flux.

(** ** Where the mode without mass flux fails *)
(** gamma = 21/20; hot gas at rest against cold gas flowing towards it. *)
Definition z_l : vec := fun k => match k with O => 0 | 1%nat => 1 | _ => 240 / 7 end.
Definition z_r : vec := fun k => match k with O => -3 | 1%nat => 1 / 16 | _ => 1 / 1680 end.
Definition z_n : vec := fun _ => 1.
Definition z_w : vec := fun _ => 0.
Definition z_c : R := sqrt (28838 / 1000).

Lemma z_c_bounds : 537 / 100 < z_c < 5371 / 1000.
Proof.
  unfold z_c. split.
  - rewrite <- (sqrt_square (537 / 100)) by lra. apply sqrt_lt_1; lra.
  - rewrite <- (sqrt_square (5371 / 1000)) by lra. apply sqrt_lt_1; lra.
Qed.
Notation zst := (state_of 1 (1/20) (adiabatic_sound (21/20))).
Lemma z_cl : s_cs (zst z_l z_n) = 6.
Proof.
  cbn. unfold adiabatic_sound, M_Mfv.ietot. cbn. replace (21 / 20 * (21 / 20 - 1) * (240 / 7 / (1 * (1 / 20)))) with (6 * 6) by field. apply sqrt_square. lra.
Qed.
Lemma z_cr : s_cs (zst z_r z_n) = 1 / 10.
Proof.
  cbn. unfold adiabatic_sound, M_Mfv.ietot. cbn. replace (21 / 20 * (21 / 20 - 1) * (1 / 1680 / (1 / 16 * (1 / 20)))) with (1 / 10 * (1 / 10)) by field. apply sqrt_square. lra.
Qed.
Lemma z_speeds : HLL_Speeds 1 (zst z_l z_n) (zst z_r z_n) = (-6, -3 / 5 + z_c).
Proof.
  unfold HLL_Speeds. rewrite z_cl, z_cr. cbn [s_rho s_vline s_v s_press state_of]. unfold M_Mfv.irho, M_Mfv.ietot, dot. cbn [sumf z_l z_r z_n].
  replace (1 / 16 / 1) with (1 / 4 * (1 / 4)) by field. rewrite sqrt_square by lra.
  match goal with |- context [Rmax ?a 1] => replace a with (21 / 20) by field end. rewrite (Rmax_left (21 / 20) 1) by lra.
  match goal with |- context [sqrt ?a] => replace a with (28838 / 1000) by field end. fold z_c. pose proof z_c_bounds.
  unfold z_n. replace (1 / (1 + 1 / 4) * (0 + 0 * 1) + (1 - 1 / (1 + 1 / 4)) * (0 + -3 * 1)) with (-3 / 5) by field.
  rewrite Rmin_left by lra. rewrite Rmax_right by lra. f_equal; field.
Qed.
Lemma z_vm : -3 / 5 + z_c < compute_central_wave_speed false (zst z_l z_n) (zst z_r z_n) (-6) (-3 / 5 + z_c).
Proof.
  unfold compute_central_wave_speed. cbn [negb s_rho s_vline s_press state_of]. unfold M_Mfv.irho, M_Mfv.ietot, dot. cbn [sumf z_l z_r]. unfold z_n. pose proof z_c_bounds.
  set (c := z_c) in *. clearbody c.
  match goal with |- _ < ?a / ?b => assert (b < 0) by lra; replace (a / b) with ((- a) / (- b)) by (field; lra) end.
  match goal with |- _ < ?a / ?b => assert (0 < b) by lra; apply (Rmult_lt_reg_r b); [lra|]; replace (a / b * b) with a by (field; lra) end. nra.
Qed.

(** No mass passes, yet the energy that passes is not the work done on the face that moves with the contact, nor on any other moving
    between the states given and the contact. *)
Theorem C62_zero_mass_flux_refuted : exists gammam1 sound Wl Wr vm, 0 < gammam1 /\ (forall rho u, 0 < rho -> 0 < u -> 0 < sound rho u) /\ proper 1 Wl /\ proper 1 Wr /\
  let Smm := HLL_Speeds 1 (state_of 1 gammam1 sound Wl z_n) (state_of 1 gammam1 sound Wr z_n) in
  vm = compute_central_wave_speed false (state_of 1 gammam1 sound Wl z_n) (state_of 1 gammam1 sound Wr z_n) (fst Smm) (snd Smm) /\ snd Smm < vm /\
  let f := fun i => hllc 1 true false gammam1 sound Wl Wr z_n z_w i O in
  f 1%nat = 0 /\ 0 < f O /\ f 2%nat < f O * vm.
Proof.
  exists (1/20), (adiabatic_sound (21/20)), z_l, z_r. eexists. split; [lra|]. split; [intros; apply adiabatic_pos; lra|]. split; [split; cbn; lra|]. split; [split; cbn; lra|].
  cbv zeta. rewrite z_speeds. cbn [fst snd]. split; [reflexivity|]. split; [exact z_vm|].
  pose proof z_vm as Hv. pose proof z_c_bounds as Hc. unfold hllc, solve. rewrite z_speeds. set (vm := compute_central_wave_speed false _ _ _ _) in *. clearbody vm.
  unfold frame_flux. replace (rleb (-3 / 5 + z_c - vm) 0) with true by (symmetry; apply rleb_true; lra).
  unfold lab_frame, M_Mfv.irho, M_Mfv.ietot, vupd, Hydro_Flux. cbn. unfold dot, z_n, z_w. cbn. split; [ring|]. split; nra.
Qed.
Print Assumptions C62_zero_mass_flux_refuted.

(** The hypotheses: an ideal gas, a shock tube in three dimensions seen through a moving face. *)
Example C62_case : let n := (fun k => match k with O => 3/5 | 1%nat => 4/5 | _ => 0 end) in
  unit 3 n /\ proper 3 (fun k => match k with O => 1 | 3%nat => 1 | 4%nat => 1 | _ => 0 end) /\ proper 3 (fun k => match k with O => -1 | 3%nat => 1/8 | 4%nat => 1/10 | _ => 0 end) /\
  0 < 2/3 /\ forall rho u, 0 < rho -> 0 < u -> 0 < adiabatic_sound (5/3) rho u.
Proof.
  cbv zeta. split; [unfold unit; cbn; lra|]. split; [split; cbn; lra|]. split; [split; cbn; lra|]. split; [lra|]. intros. apply adiabatic_pos; lra.
Qed.
(** A flux that is not zero. *)
Example C62_flux : hllc 1 false false (2/3) (adiabatic_sound (5/3)) (fun k => match k with O => 2 | 1%nat => 3 | _ => 1 end) (fun k => match k with O => 2 | 1%nat => 5 | _ => 1 end)
  (fun _ => 1) (fun _ => 7) 1%nat O = 6.
Proof.
  rewrite C62_contact; try lia; try lra; try (split; cbn; lra); try (unfold unit; cbn; lra).
  - replace (rltb 0 (sumf 1 (fun k => match k with O => 2 | 1%nat => 3 | _ => 1 end * 1))) with true by (symmetry; apply rltb_true; cbn; lra). unfold crossing, gas. cbn. ring.
  - intros. apply adiabatic_pos; lra.
Qed.
