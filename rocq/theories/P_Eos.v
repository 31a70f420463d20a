(** C76: equations of state. *)
From Verif Require Import Prelude Vec M_Box L_Box M_Eos S_Eos L_Eos.
From Coq Require Import Reals String Lra Lia.
Local Open Scope R_scope.

Definition good (P : eospar) : Prop :=
  1 < gamma_eos P /\ 1 < eta_eos P /\ 0 < Kpoly P /\ 0 < temp0 P /\ 0 < mu_bar P /\ 0 < rho_bary P /\ 0 < tempmin P /\
  0 < DiscIcHr P /\ 0 < DiscIcRin P /\ 0 < temp_ion P /\ 0 < mu_ion P.
(** What [select] makes. *)
Definition made (e : eos) : Prop :=
  match e with Plain _ => True | IonisingRadiation b | MCRadiation b => b = Adiabatic \/ b = Isothermal \/ b = Barotropic end.
Definition real (x : proxy) : Prop := 0 < x_rho x /\ 0 < x_u x /\ 0 <= x_ionfrac x <= 1.

Section Eos.
Variable n : nat.
Variable P : eospar.
Variable stars : list vec.
Variable star0 : vec.
Hypothesis G : good P.
Let g := gamma_eos P.
Notation th := (thermal n P stars star0).
Notation ui b := (bSpecificInternalEnergy n P stars star0 b).

Ltac gg := destruct G as (Gg & Ge & GK & GT & Gm & Gr & Gt & GH & GR & Gti & Gmi).

Lemma disc_pos x : 0 < discsound n P star0 x.
Proof.
  gg. unfold discsound, discnorm. apply Rmult_lt_0_compat; [|apply rpower_pos]. apply Rmult_lt_0_compat; [exact GH|].
  apply sqrt_lt_R0. apply Rdiv_lt_0_compat; lra.
Qed.
Lemma loc_pos x : 0 < loctemp n P stars x.
Proof. gg. unfold loctemp. eapply Rlt_le_trans; [exact Gt|apply Rmax_r]. Qed.
Lemma ui_pos b x : 0 < x_u x -> 0 < ui b x.
Proof.
  gg. intros U. assert (D := disc_pos x). assert (L := loc_pos x).
  assert (X : 0 < gamma_eos P - 1) by lra. assert (Y : 0 < eta_eos P - 1) by lra.
  assert (B : 0 < temp0 P * (1 + Rpower (x_rho x * invrho_bary P) (gamma_eos P - 1)))
    by (apply Rmult_lt_0_compat; [exact GT|pose proof (rpower_pos (x_rho x * invrho_bary P) (gamma_eos P - 1)); lra]).
  assert (B2 : 0 < temp0 P * Rpower (x_rho x * invrho_bary P) (gamma_eos P - 1)) by (apply Rmult_lt_0_compat; [exact GT|apply rpower_pos]).
  destruct b; cbn [bSpecificInternalEnergy]; unfold bgammam1; cbn [bgamma]; auto; cbv zeta; repeat apply Rdiv_lt_0_compat; auto.
  - apply Rmult_lt_0_compat; auto.
  - apply Rmult_lt_0_compat; auto. apply rpower_pos.
  - destruct (rltb _ _); repeat apply Rdiv_lt_0_compat; auto.
Qed.
Lemma ue_pos e x : real x -> 0 < SpecificInternalEnergy n P stars star0 e x.
Proof.
  intros (A & B & C & D). gg. destruct e as [b|b|b]; cbn [SpecificInternalEnergy].
  - apply ui_pos; exact B.
  - destruct (Z.eqb _ _); [apply ui_pos; exact B|]. cbv zeta. destruct (rltb _ _); [exact B|apply ui_pos; exact B].
  - cbn [egammam1]. pose proof (ui_pos b x B) as W. assert (X : 0 < temp_ion P / (gamma_eos P - 1) / mu_ion P) by (repeat apply Rdiv_lt_0_compat; lra).
    replace (x_ionfrac x * temp_ion P / (gamma_eos P - 1) / mu_ion P) with (x_ionfrac x * (temp_ion P / (gamma_eos P - 1) / mu_ion P)) by (field; lra).
    destruct (Req_dec (x_ionfrac x) 0) as [E|E]; [rewrite E; lra|].
    assert (0 < x_ionfrac x * (temp_ion P / (gamma_eos P - 1) / mu_ion P)) by (apply Rmult_lt_0_compat; lra).
    assert (0 <= (1 - x_ionfrac x) * ui b x) by (apply Rmult_le_pos; lra). lra.
Qed.

(** Energy, pressure and sound speed are positive and agree with p = (gamma-1) rho u; nothing else of
    the particle changes, and dust keeps what it has. *)
Theorem C76_energy : forall e x, made e -> real x -> e <> Plain Polytropic ->
  let '(x', cs) := th e x in
  0 < x_u x' /\ 0 < x_p x' /\ 0 < cs /\ gamma_law g (x_rho x') (x_u x') (x_p x') /\
  (x_r x', x_v x', x_rho x', x_ionfrac x', x_ionstate x') = (x_r x, x_v x, x_rho x, x_ionfrac x, x_ionstate x) /\
  (forall c0, ComputeThermalSph n P stars star0 e false (x, c0) = (x', cs) /\ ComputeThermalMfv n P stars star0 e true (x, c0) = Ok (x', cs) /\
    ComputeThermalSph n P stars star0 e true (x, c0) = (x, c0) /\ ComputeThermalMfv n P stars star0 e false (x, c0) = Ok (x, c0)).
Proof.
  intros e x M Rx N. destruct (th e x) as (x', cs) eqn:E. revert E. unfold thermal. cbv zeta. intros E. injection E as E1 E2.
  pose proof (ue_pos e x Rx) as U. set (u := SpecificInternalEnergy n P stars star0 e x) in *.
  pose proof Rx as (A & B & C & D). gg.
  assert (GL : Pressure P e (set_u x u) = (g - 1) * x_rho x * u).
  { destruct e as [b|b|b]; cbn [Pressure]; [|reflexivity|reflexivity]. destruct b; try reflexivity. congruence. }
  assert (PP : 0 < Pressure P e (set_u x u)). { rewrite GL. unfold g. repeat apply Rmult_lt_0_compat; lra. }
  assert (SB : forall b, b <> Polytropic -> 0 < bSoundSpeed n P star0 b (set_u x u)).
  { intros b NB. destruct b; cbn [bSoundSpeed]; unfold bgammam1; cbn [bgamma]; try congruence; try (apply sqrt_lt_R0; cbn [x_u set_u]; repeat apply Rmult_lt_0_compat; lra).
    apply disc_pos. }
  assert (SS : 0 < SoundSpeed n P star0 e (set_u x u)).
  { destruct e as [b|b|b]; cbn [SoundSpeed].
    - apply SB. congruence.
    - apply SB. intros ->. destruct M as [M|[M|M]]; discriminate.
    - cbn [x_ionfrac set_u]. assert (S1 : 0 < sqrt (temp_ion P / mu_ion P)) by (apply sqrt_lt_R0; apply Rdiv_lt_0_compat; lra).
      assert (S2 : 0 < bSoundSpeed n P star0 b (set_u x u)) by (apply SB; intros ->; destruct M as [M|[M|M]]; discriminate).
      destruct (Req_dec (x_ionfrac x) 0) as [Z|Z]; [rewrite Z; lra|].
      assert (0 < x_ionfrac x * sqrt (temp_ion P / mu_ion P)) by (apply Rmult_lt_0_compat; lra).
      assert (0 <= (1 - x_ionfrac x) * bSoundSpeed n P star0 b (set_u x u)) by (apply Rmult_le_pos; lra). lra. }
  rewrite <- E1, <- E2. cbn [x_u x_p x_rho x_r x_v x_ionfrac x_ionstate set_u set_p].
  split; [exact U|]. split; [exact PP|]. split; [exact SS|]. split; [exact GL|]. split; [reflexivity|]. intros c0. split; [reflexivity|]. split; [|split; reflexivity].
  - unfold ComputeThermalMfv, thermal. cbv zeta. cbn [fst]. fold u. cbn [x_u x_p set_u set_p].
    rewrite (proj2 (rltb_true _ _) U), (proj2 (rltb_true _ _) PP), (proj2 (rltb_true _ _) SS). reflexivity.
Qed.
(** A polytrope: p = K rho^gamma_eos; with eta_eos = gamma_eos the energy agrees. *)
Theorem C76_polytrope : forall x, real x -> let '(x', cs) := th (Plain Polytropic) x in
  x_p x' = Kpoly P * Rpower (x_rho x) g /\ (eta_eos P = g -> gamma_law g (x_rho x') (x_u x') (x_p x') /\ x_rho x' * (cs * cs) = x_p x') /\
  (gamma_law (eta_eos P) (x_rho x') (x_u x') (x_p x') -> x_rho x <> 1 -> eta_eos P = g).
Proof.
  intros x (A & B & _). destruct (th (Plain Polytropic) x) as (x', cs) eqn:E. revert E. unfold thermal. cbv zeta. intros E. injection E as E1 E2. gg.
  rewrite <- E1, <- E2. cbn [x_u x_p x_rho set_u set_p Pressure bPressure SoundSpeed bSoundSpeed SpecificInternalEnergy bSpecificInternalEnergy].
  unfold bgammam1, poly_eta. cbn [bgamma]. fold g. split; [reflexivity|].
  assert (Q : (eta_eos P - 1) * x_rho x * (Kpoly P * Rpower (x_rho x) (eta_eos P - 1) / (eta_eos P - 1)) = Kpoly P * Rpower (x_rho x) (eta_eos P)).
  { assert (E : Rpower (x_rho x) (eta_eos P) = Rpower (x_rho x) (eta_eos P - 1) * x_rho x) by (rewrite <- rpower_succ by exact A; f_equal; ring).
    rewrite E. field. lra. }
  split.
  - intros H. rewrite <- H. split; [unfold gamma_law; symmetry; exact Q|]. rewrite sqrt_sqrt.
    + rewrite <- Q. ring.
    + pose proof (rpower_pos (x_rho x) (eta_eos P - 1)). apply Rmult_le_pos; [lra|]. apply Rlt_le, Rdiv_lt_0_compat; [apply Rmult_lt_0_compat|]; lra.
  - unfold gamma_law. intros H N. rewrite Q in H. apply Rmult_eq_reg_l in H; [|lra]. unfold Rpower in H. apply exp_inv in H.
    apply Rmult_eq_reg_r in H; [symmetry; exact H|]. intros L. apply N. apply ln_inv; [exact A|lra|]. rewrite L, ln_1. reflexivity.
Qed.

(** The temperature reported is that of an ideal gas of mean molecular weight mu_bar; for gas with an energy equation of weight 1. *)
Theorem C76_temperature : forall b x, real x -> b <> Polytropic -> let x' := fst (th (Plain b) x) in
  ideal_gas (if match b with Adiabatic => true | _ => false end then 1 else mu_bar P) (x_rho x') (bTemperature n P stars star0 b x') (x_p x').
Proof.
  intros b x (A & B & _) N. gg. unfold ideal_gas, thermal. cbv zeta. cbn [fst x_u x_p x_rho set_u set_p Pressure SpecificInternalEnergy].
  destruct b; try congruence; cbn [bTemperature bSpecificInternalEnergy bPressure x_u x_p x_rho set_u set_p]; unfold bgammam1; cbn [bgamma].
  - ring.
  - field. lra.
  - change (loctemp n P stars (set_p _ _)) with (loctemp n P stars x). field. lra.
  - change (discsound n P star0 (set_p _ _)) with (discsound n P star0 x). field. lra.
  - field. lra.
  - destruct (rltb _ _); field; lra.
Qed.

(** The speed of sound belongs to the pressure the equation of state gives at other densities: gas held at the temperature of its place. *)
Theorem C76_sound : forall b x, real x -> b = Isothermal \/ b = LocallyIsothermal \/ b = DiscLocallyIsothermal \/ (b = Barotropic2 /\ x_rho x < rho_bary P) ->
  sound_of (fun s => x_p (fst (th (Plain b) (set_rho x s)))) (x_rho x) (snd (th (Plain b) x)).
Proof.
  intros b x (A & B & _) H. gg. unfold sound_of, thermal. cbv zeta. cbn [fst snd]. cbn [x_u x_p x_rho set_u set_p set_rho Pressure SoundSpeed SpecificInternalEnergy].
  assert (X : 0 < gamma_eos P - 1) by lra.
  assert (W : forall c f, 0 < c -> (forall z, x_rho x / 2 < z < x_rho x + 1 -> f z = c * z) -> derivable_pt_lim f (x_rho x) c).
  { intros c f C F. apply dext with (f := fun z => c * z); [intros z Z; symmetry; apply F; exact Z|exact A|apply dlinear]. }
  destruct H as [->|[->|[->|(-> & L)]]]; cbn [bSoundSpeed bPressure bSpecificInternalEnergy x_u x_rho set_u set_rho]; unfold bgammam1; cbn [bgamma].
  - split; [apply sqrt_pos|]. assert (C : 0 < temp0 P / mu_bar P) by (apply Rdiv_lt_0_compat; lra).
    replace ((gamma_eos P - 1) * (temp0 P / (gamma_eos P - 1) / mu_bar P)) with (temp0 P / mu_bar P) by (field; lra).
    rewrite sqrt_sqrt by lra. apply W; [exact C|]. intros z _. field. lra.
  - split; [apply sqrt_pos|]. pose proof (loc_pos x) as LP. assert (C : 0 < loctemp n P stars x / mu_bar P) by (apply Rdiv_lt_0_compat; lra).
    replace ((gamma_eos P - 1) * (loctemp n P stars x / (gamma_eos P - 1) / mu_bar P)) with (loctemp n P stars x / mu_bar P) by (field; lra).
    rewrite sqrt_sqrt by lra. apply W; [exact C|]. intros z _. change (loctemp n P stars (set_rho x z)) with (loctemp n P stars x). field. lra.
  - change (discsound n P star0 (set_u _ _)) with (discsound n P star0 x). pose proof (disc_pos x) as LP. split; [lra|].
    apply W; [apply Rmult_lt_0_compat; lra|]. intros z _. change (discsound n P star0 (set_rho x z)) with (discsound n P star0 x). field. lra.
  - split; [apply sqrt_pos|]. assert (C : 0 < temp0 P / mu_bar P) by (apply Rdiv_lt_0_compat; lra). rewrite (proj2 (rltb_true _ _) L).
    replace ((gamma_eos P - 1) * (temp0 P / (gamma_eos P - 1) / mu_bar P)) with (temp0 P / mu_bar P) by (field; lra).
    rewrite sqrt_sqrt by lra.
    apply derivable_pt_lim_locally_ext with (f := fun z => temp0 P / mu_bar P * z) (a := x_rho x / 2) (b := rho_bary P); [lra| |apply dlinear].
    intros z Z. rewrite (proj2 (rltb_true _ _) (proj2 Z)). field. lra.
Qed.

(** With an energy equation: the speed of sound at constant entropy.  [f] is the energy at other densities along the adiabat. *)
Theorem C76_sound_adiabatic : forall x f, real x -> f (x_rho x) = x_u x ->
  (forall s, 0 < s -> EntropicFunction P (Plain Adiabatic) (set_u (set_rho x s) (f s)) = EntropicFunction P (Plain Adiabatic) x) ->
  sound_of (fun s => Pressure P (Plain Adiabatic) (set_u (set_rho x s) (f s))) (x_rho x) (snd (th (Plain Adiabatic) x)).
Proof.
  intros x f (A & B & _) F0 F. gg. unfold sound_of, thermal. cbv zeta. cbn [snd SoundSpeed SpecificInternalEnergy bSpecificInternalEnergy bSoundSpeed x_u set_u].
  split; [apply sqrt_pos|]. unfold bgammam1. cbn [bgamma].
  rewrite sqrt_sqrt by (repeat apply Rmult_le_pos; lra).
  set (K := (gamma_eos P - 1) * x_u x * Rpower (x_rho x) (1 - gamma_eos P)).
  apply dext with (f := fun s => K * Rpower s (gamma_eos P)); [|exact A|].
  - intros z Z. assert (Z0 : 0 < z) by lra. specialize (F z Z0). cbn [EntropicFunction Pressure] in *. unfold bEntropicFunction, bgammam1 in F.
    cbn [bgamma bPressure x_u x_rho set_u set_rho] in *. unfold bgammam1. cbn [bgamma]. fold K in F. rewrite <- F.
    rewrite Rmult_assoc, <- Rpower_plus. replace (1 - gamma_eos P + gamma_eos P) with 1 by ring. rewrite Rpower_1 by exact Z0. ring.
  - replace (gamma_eos P * (gamma_eos P - 1) * x_u x) with (K * (gamma_eos P * Rpower (x_rho x) (gamma_eos P - 1))); [apply dpower; exact A|].
    unfold K. replace ((gamma_eos P - 1) * x_u x * Rpower (x_rho x) (1 - gamma_eos P) * (gamma_eos P * Rpower (x_rho x) (gamma_eos P - 1)))
      with ((gamma_eos P - 1) * x_u x * gamma_eos P * (Rpower (x_rho x) (1 - gamma_eos P) * Rpower (x_rho x) (gamma_eos P - 1))) by ring.
    rewrite <- Rpower_plus. replace (1 - gamma_eos P + (gamma_eos P - 1)) with 0 by ring. rewrite Rpower_O by exact A. ring.
Qed.

(** Where pressure rises faster than density the speed of sound is too small, by at most a factor sqrt(gamma). *)
Theorem C76_sound_low : forall b x, real x -> b = Barotropic \/ (b = Barotropic2 /\ rho_bary P < x_rho x) \/ (b = Polytropic /\ eta_eos P = g) ->
  exists l, derivable_pt_lim (fun s => x_p (fst (th (Plain b) (set_rho x s)))) (x_rho x) l /\
    let cs := snd (th (Plain b) x) in cs * cs < l <= g * (cs * cs) /\ (b <> Barotropic -> l = g * (cs * cs)).
Proof.
  intros b x (A & B & _) H. gg. unfold thermal. cbv zeta. cbn [fst snd]. cbn [x_u x_p x_rho set_u set_p set_rho Pressure SoundSpeed SpecificInternalEnergy].
  assert (X : 0 < gamma_eos P - 1) by lra.
  assert (IB : 0 < invrho_bary P) by (unfold invrho_bary; apply Rdiv_lt_0_compat; lra).
  assert (SP : forall s y, 0 < s -> Rpower (s * invrho_bary P) y = Rpower (invrho_bary P) y * Rpower s y) by (intros; rewrite Rpower_mult_distr by assumption; f_equal; ring).
  set (T := temp0 P / mu_bar P). assert (TP : 0 < T) by (apply Rdiv_lt_0_compat; lra).
  set (q := Rpower (x_rho x * invrho_bary P) (gamma_eos P - 1)). assert (QP : 0 < q) by apply rpower_pos.
  set (J := Rpower (invrho_bary P) (gamma_eos P - 1)).
  assert (QE : J * Rpower (x_rho x) (gamma_eos P - 1) = q) by (unfold q, J; rewrite SP by exact A; reflexivity).
  assert (PS : forall s, 0 < s -> s * Rpower (s * invrho_bary P) (gamma_eos P - 1) = J * Rpower s (gamma_eos P)).
  { intros s S. rewrite SP by exact S. assert (E : Rpower s (gamma_eos P) = Rpower s (gamma_eos P - 1) * s) by (rewrite <- rpower_succ by exact S; f_equal; ring).
    rewrite E. unfold J. ring. }
  destruct H as [->|[(-> & L)|(-> & L)]]; cbn [bSoundSpeed bPressure bSpecificInternalEnergy x_u x_rho set_u set_rho]; unfold bgammam1; cbn [bgamma]; fold q.
  - exists (T + T * J * (gamma_eos P * Rpower (x_rho x) (gamma_eos P - 1))).
    replace ((gamma_eos P - 1) * (temp0 P * (1 + q) / (gamma_eos P - 1) / mu_bar P)) with (T * (1 + q)) by (unfold T; field; lra).
    rewrite sqrt_sqrt by (apply Rmult_le_pos; lra). split.
    + apply dext with (f := fun s => T * s + T * J * Rpower s (gamma_eos P)); [|exact A|].
      * intros z Z. assert (Z0 : 0 < z) by lra. rewrite (Rmult_assoc T J), <- PS by exact Z0. unfold T. field. lra.
      * apply (derivable_pt_lim_plus (fun s => T * s) (fun s => T * J * Rpower s (gamma_eos P))); [apply dlinear|apply dpower; exact A].
    + replace (T + T * J * (gamma_eos P * Rpower (x_rho x) (gamma_eos P - 1))) with (T + T * gamma_eos P * (J * Rpower (x_rho x) (gamma_eos P - 1))) by ring.
      rewrite QE. assert (0 < T * q) by (apply Rmult_lt_0_compat; lra). unfold g. split; [|congruence]. split; nra.
  - exists (T * J * (gamma_eos P * Rpower (x_rho x) (gamma_eos P - 1))).
    assert (RL : rltb (x_rho x) (rho_bary P) = false) by (apply rltb_false; lra). rewrite RL.
    replace ((gamma_eos P - 1) * (temp0 P * q / (gamma_eos P - 1) / mu_bar P)) with (T * q) by (unfold T; field; lra).
    rewrite sqrt_sqrt by (apply Rmult_le_pos; lra). split.
    + apply derivable_pt_lim_locally_ext with (f := fun s => T * J * Rpower s (gamma_eos P)) (a := rho_bary P) (b := x_rho x + 1); [lra| |apply dpower; exact A].
      intros z Z. assert (Z0 : 0 < z) by lra. assert (RZ : rltb z (rho_bary P) = false) by (apply rltb_false; lra). rewrite RZ.
      rewrite (Rmult_assoc T J), <- PS by exact Z0. unfold T. field. lra.
    + replace (T * J * (gamma_eos P * Rpower (x_rho x) (gamma_eos P - 1))) with (T * gamma_eos P * (J * Rpower (x_rho x) (gamma_eos P - 1))) by ring.
      rewrite QE. assert (0 < T * q) by (apply Rmult_lt_0_compat; lra). unfold g. split; [split; nra|]. intros _. ring.
  - exists (Kpoly P * (g * Rpower (x_rho x) (g - 1))). rewrite L. fold g in X |- *.
    replace ((g - 1) * (Kpoly P * Rpower (x_rho x) (g - 1) / (g - 1))) with (Kpoly P * Rpower (x_rho x) (g - 1)) by (field; lra).
    pose proof (rpower_pos (x_rho x) (g - 1)) as RP. assert (0 < Kpoly P * Rpower (x_rho x) (g - 1)) by (apply Rmult_lt_0_compat; lra).
    rewrite sqrt_sqrt by lra. split.
    + unfold poly_eta. fold g. apply dpower; exact A.
    + split; [split; nra|]. intros _. ring.
Qed.

(** The entropic function A of a particle: p = A rho^gamma. *)
Theorem C76_entropy : forall e x, made e -> real x -> e <> Plain Polytropic -> let x' := fst (th e x) in
  x_p x' = EntropicFunction P e x' * Rpower (x_rho x') g.
Proof.
  intros e x M Rx N. pose proof (C76_energy e x M Rx N) as H. destruct (th e x) as (x', cs) eqn:E. cbn [fst].
  destruct H as (U & PP & S & GL & F & _). rewrite GL. pose proof Rx as (A & _). assert (A' : 0 < x_rho x') by (injection F as _ _ F _ _; lra).
  assert (Q : EntropicFunction P e x' = (g - 1) * x_u x' * Rpower (x_rho x') (1 - g)).
  { destruct e as [b|b|b]; cbn [EntropicFunction]; unfold bEntropicFunction, bgammam1; destruct b; try reflexivity; try congruence; destruct M as [M|[M|M]]; discriminate. }
  rewrite Q, (Rmult_assoc ((g - 1) * x_u x')), <- Rpower_plus. replace (1 - g + g) with 1 by ring. rewrite Rpower_1 by exact A'. ring.
Qed.

(** From the pressure back to the energy, and the conserved variables at a face. *)
Theorem C76_face : forall e x, made e -> 0 < x_rho x -> e <> Plain Polytropic -> let u := InternalEnergyFromPressure P e x in
  let w := face_state n P star0 e x in
  gamma_law g (x_rho x) u (x_p x) /\ (forall y, real y -> let x' := fst (th e y) in InternalEnergyFromPressure P e x' = x_u x') /\
  w_density w = x_rho x /\ w_pressure w = x_p x /\ c_density w = x_rho x /\ (forall k, w_velocity w k = x_v x k) /\
  (forall k, c_momentum w k = c_density w * w_velocity w k) /\
  c_energy w = x_rho x * (u + dot n (x_v x) (x_v x) / 2) /\
  w_pressure w = (g - 1) * (c_energy w - dot n (c_momentum w) (c_momentum w) / (2 * c_density w)).
Proof.
  intros e x M A N u w. gg.
  assert (EG : egammam1 P e = g - 1) by (destruct e as [b|b|b]; try reflexivity; destruct b; try reflexivity; congruence).
  assert (GL : gamma_law g (x_rho x) u (x_p x)).
  { unfold gamma_law, u, InternalEnergyFromPressure. rewrite EG. unfold g. field. lra. }
  split; [exact GL|]. split.
  { intros y Ry. pose proof (C76_energy e y M Ry N) as H. destruct (th e y) as (x', cs) eqn:E. cbn [fst]. destruct H as (U & PP & S & H & F & _).
    unfold InternalEnergyFromPressure. rewrite EG, H. pose proof Ry as (Ay & _). injection F as _ _ F _ _. unfold g. field. lra. }
  unfold w, face_state, ConstructStateVector. cbn [w_density w_pressure c_density w_velocity c_momentum c_energy x_rho x_v x_p x_u set_u].
  fold u. repeat (split; [reflexivity|]). rewrite fold_energy.
  split; [lra|]. assert (MD : dot n (fun i => x_rho x * x_v x i) (fun i => x_rho x * x_v x i) = x_rho x * x_rho x * dot n (x_v x) (x_v x)).
  { unfold dot. clear. induction n as [|m IH]; cbn [sumf]; [ring|]. rewrite IH. ring. }
  rewrite MD, GL. field. lra.
Qed.

(** Setting the thermal properties again changes nothing. *)
Theorem C76_again : forall e x, made e -> e <> MCRadiation Adiabatic -> th e (fst (th e x)) = th e x.
Proof.
  assert (U : forall b x u p, b <> Adiabatic -> ui b (set_p (set_u x u) p) = ui b x) by (intros b x u p N; destruct b; try congruence; reflexivity).
  assert (K : forall e x, (let u := SpecificInternalEnergy n P stars star0 e x in SpecificInternalEnergy n P stars star0 e (set_p (set_u x u) (Pressure P e (set_u x u))) = u) -> th e (fst (th e x)) = th e x).
  { intros e x H. cbv zeta in H. unfold thermal. cbv zeta. cbn [fst]. rewrite H. generalize (SpecificInternalEnergy n P stars star0 e x). intros u.
    apply f_equal2; destruct e as [b|b|b]; destruct b; reflexivity. }
  intros e x M N. apply K. cbv zeta. destruct e as [b|b|b]; cbn [SpecificInternalEnergy].
  - destruct b; reflexivity.
  - destruct M as [-> | [-> | ->]]; cbn [x_ionstate set_u set_p].
    + destruct (Z.eqb _ _); cbn [bSpecificInternalEnergy x_u set_u set_p]; [reflexivity|]. cbv zeta. destruct (rltb (x_u x) (x_u x)); destruct (rltb _ _); reflexivity.
    + destruct (Z.eqb _ _); [apply U; discriminate|]. cbv zeta. rewrite U by discriminate. cbn [x_u set_u set_p].
      destruct (rltb (ui Isothermal x) (x_u x)) eqn:E; [rewrite E; reflexivity|]. destruct (rltb (ui Isothermal x) (ui Isothermal x)); reflexivity.
    + destruct (Z.eqb _ _); [apply U; discriminate|]. cbv zeta. rewrite U by discriminate. cbn [x_u set_u set_p].
      destruct (rltb (ui Barotropic x) (x_u x)) eqn:E; [rewrite E; reflexivity|]. destruct (rltb (ui Barotropic x) (ui Barotropic x)); reflexivity.
  - rewrite U by congruence. reflexivity.
Qed.

(** Barotropic gas: its temperature rises from temp0, is 2 temp0 (or temp0) at rho_bary, and far above grows as rho^(gamma-1); pressure
    rises with density. *)
Theorem C76_barotropic : forall x s, real x -> x_rho x < s ->
  let T b r := bTemperature n P stars star0 b (set_rho x r) in let p b r := x_p (fst (th (Plain b) (set_rho x r))) in
  temp0 P < T Barotropic (x_rho x) < T Barotropic s /\ T Barotropic (rho_bary P) = 2 * temp0 P /\
  temp0 P <= T Barotropic2 (x_rho x) <= T Barotropic2 s /\ (s <= rho_bary P -> T Barotropic2 s = temp0 P) /\
  (rho_bary P <= x_rho x -> T Barotropic2 s / T Barotropic2 (x_rho x) = Rpower (s / x_rho x) (g - 1)) /\
  T Barotropic s = temp0 P * (1 + Rpower (s / rho_bary P) (g - 1)) /\
  p Barotropic (x_rho x) < p Barotropic s /\ p Barotropic2 (x_rho x) < p Barotropic2 s.
Proof.
  intros x s (A & B & _) L. cbv zeta. gg. unfold g.
  assert (PT : forall b r, 0 < r -> b = Barotropic \/ b = Barotropic2 -> x_p (fst (th (Plain b) (set_rho x r))) = r * bTemperature n P stars star0 b (set_rho x r) / mu_bar P).
  { intros b r R0 [-> | ->]; unfold thermal; cbv zeta; cbn [fst x_p x_u x_rho set_p set_u set_rho Pressure bPressure SpecificInternalEnergy bSpecificInternalEnergy bTemperature]; unfold bgammam1; cbn [bgamma].
    - field. lra.
    - destruct (rltb _ _); field; lra. }
  assert (ID : forall r, r * invrho_bary P = r / rho_bary P) by (intros; unfold invrho_bary, Rdiv; ring).
  assert (DP : forall r, 0 < r -> 0 < r / rho_bary P) by (intros; apply Rdiv_lt_0_compat; lra).
  assert (LT : forall r t, 0 < r -> r < t -> Rpower (r / rho_bary P) (gamma_eos P - 1) < Rpower (t / rho_bary P) (gamma_eos P - 1)).
  { intros r t R0 RT. apply Rlt_Rpower_l; [lra|]. split; [apply DP; exact R0|]. apply Rmult_lt_compat_r; [apply Rinv_0_lt_compat; lra|exact RT]. }
  assert (ONE : Rpower (rho_bary P / rho_bary P) (gamma_eos P - 1) = 1).
  { replace (rho_bary P / rho_bary P) with 1 by (field; lra). unfold Rpower. rewrite ln_1, Rmult_0_r. apply exp_0. }
  set (r := x_rho x) in *. assert (R0 : 0 < r) by exact A.
  assert (T1 : forall t, bTemperature n P stars star0 Barotropic (set_rho x t) = temp0 P * (1 + Rpower (t / rho_bary P) (gamma_eos P - 1))).
  { intros t. cbn [bTemperature x_rho set_rho]. rewrite ID. reflexivity. }
  assert (T2 : forall t, bTemperature n P stars star0 Barotropic2 (set_rho x t) = if rltb t (rho_bary P) then temp0 P else temp0 P * Rpower (t / rho_bary P) (gamma_eos P - 1)).
  { intros t. cbn [bTemperature x_rho set_rho]. rewrite ID. reflexivity. }
  assert (HI : forall t, rho_bary P <= t -> 1 <= Rpower (t / rho_bary P) (gamma_eos P - 1)).
  { intros t [TT|<-]; [|rewrite ONE; lra]. apply Rlt_le. eapply Rle_lt_trans; [right; symmetry; exact ONE|]. apply LT; lra. }
  assert (M1 : temp0 P < bTemperature n P stars star0 Barotropic (set_rho x r) < bTemperature n P stars star0 Barotropic (set_rho x s)).
  { rewrite !T1. pose proof (LT r s R0 L) as Q. pose proof (rpower_pos (r / rho_bary P) (gamma_eos P - 1)) as RP.
    pose proof (Rmult_lt_0_compat _ _ GT RP). pose proof (Rmult_lt_compat_l _ _ _ GT Q). split; lra. }
  assert (M2 : temp0 P <= bTemperature n P stars star0 Barotropic2 (set_rho x r) <= bTemperature n P stars star0 Barotropic2 (set_rho x s)).
  { rewrite !T2. pose proof (LT r s R0 L) as Q. destruct (rltb r (rho_bary P)) eqn:E1; destruct (rltb s (rho_bary P)) eqn:E2; try apply rltb_true in E1; try apply rltb_false in E1; try apply rltb_true in E2; try apply rltb_false in E2; try lra.
    - pose proof (Rmult_le_compat_l _ _ _ (Rlt_le _ _ GT) (HI s E2)). lra.
    - pose proof (Rmult_lt_compat_l _ _ _ GT Q). pose proof (Rmult_le_compat_l _ _ _ (Rlt_le _ _ GT) (HI r E1)). lra. }
  split; [exact M1|]. split; [rewrite T1, ONE; ring|]. split; [exact M2|]. split; [|split; [|split; [apply T1|]]].
  - intros SB. rewrite T2. destruct (rltb s (rho_bary P)) eqn:E; [reflexivity|]. apply rltb_false in E. replace s with (rho_bary P) by lra. rewrite ONE. ring.
  - intros RB. rewrite !T2, (proj2 (rltb_false s _)), (proj2 (rltb_false r _)) by lra.
    replace (s / rho_bary P) with ((s / r) * (r / rho_bary P)) by (field; lra). rewrite <- Rpower_mult_distr; [|apply Rdiv_lt_0_compat; lra|apply DP; exact R0].
    pose proof (rpower_pos (r / rho_bary P) (gamma_eos P - 1)). field. split; lra.
  - rewrite !PT by (auto; lra). assert (IM : 0 < / mu_bar P) by (apply Rinv_0_lt_compat; lra).
    split; unfold Rdiv; (apply Rmult_lt_compat_r; [exact IM|]).
    + apply Rmult_gt_0_lt_compat; lra.
    + eapply Rle_lt_trans; [apply Rmult_le_compat_l; [lra|apply M2]|]. apply Rmult_lt_compat_r; lra.
Qed.

(** Locally isothermal gas: a power of the distance to the nearest star, but not below tempmin. *)
Theorem C76_locally : forall x, stars <> [] -> (forall s, In s stars -> dot n (vsub (x_r x) s) (vsub (x_r x) s) <= 10 ^ 30) ->
  exists d, nearest n stars (x_r x) d /\ let T := bTemperature n P stars star0 LocallyIsothermal x in
    T = Rmax (temp0 P * Rpower d (- templaw P)) (tempmin P) /\ (d = 1 -> tempmin P <= temp0 P -> T = temp0 P) /\ tempmin P <= T.
Proof.
  intros x N H. exists (stardist n stars x). split; [apply sqrt_fold_min; assumption|]. cbn [bTemperature]. unfold loctemp. repeat split.
  - intros E M. rewrite E. unfold Rpower. rewrite ln_1, Rmult_0_r, exp_0, Rmult_1_r. apply Rmax_left. exact M.
  - apply Rmax_r.
Qed.
(** Disc: the speed of sound is a power of the distance to the first star; at the inner edge it is the given aspect ratio times the
    circular velocity about a star of mass 1. *)
Theorem C76_disc : forall x, let r := norm n (vsub (x_r x) star0) in let cs := snd (th (Plain DiscLocallyIsothermal) x) in 0 < r ->
  cs / sqrt (1 / DiscIcRin P) = DiscIcHr P * Rpower (r / DiscIcRin P) (- DiscIcQ P) /\ (r = DiscIcRin P -> cs = DiscIcHr P * sqrt (1 / r)) /\
  (forall y, let r2 := norm n (vsub (x_r y) star0) in 0 < r2 -> snd (th (Plain DiscLocallyIsothermal) y) = cs * Rpower (r2 / r) (- DiscIcQ P)).
Proof.
  intros x r cs R0. gg. unfold cs, thermal. cbv zeta. cbn [snd SoundSpeed bSoundSpeed]. unfold discsound. cbv zeta. cbn [x_r set_u]. unfold discnorm.
  change (sqrt (dot n (vsub (x_r x) star0) (vsub (x_r x) star0))) with (norm n (vsub (x_r x) star0)). fold r.
  assert (S : 0 < sqrt (1 / DiscIcRin P)) by (apply sqrt_lt_R0, Rdiv_lt_0_compat; lra). split; [field; lra|split].
  - intros ->. replace (DiscIcRin P / DiscIcRin P) with 1 by (field; lra). unfold Rpower. rewrite ln_1, Rmult_0_r, exp_0. ring.
  - intros y R2. change (sqrt (dot n (vsub (x_r y) star0) (vsub (x_r y) star0))) with (norm n (vsub (x_r y) star0)). set (r2 := norm n (vsub (x_r y) star0)) in *.
    replace (r2 / DiscIcRin P) with ((r / DiscIcRin P) * (r2 / r)) by (field; lra).
    rewrite <- Rpower_mult_distr by (apply Rdiv_lt_0_compat; lra). ring.
Qed.

(** Ionised gas keeps the energy it was given unless that is below the energy of neutral gas. *)
Theorem C76_ionised : forall b x, let u := x_u (fst (th (IonisingRadiation b) x)) in let un := x_u (fst (th (Plain b) x)) in
  un <= u /\ (x_ionstate x = 0%Z -> u = un) /\ (x_ionstate x <> 0%Z -> x_u x <= u /\ (un <= x_u x -> u = x_u x) /\ (x_u x <= un -> u = un)).
Proof.
  intros b x. unfold thermal. cbv zeta. cbn [fst x_u set_u set_p SpecificInternalEnergy]. destruct (Z.eqb (x_ionstate x) 0) eqn:E.
  - apply Z.eqb_eq in E. split; [lra|]. split; [reflexivity|]. intros NE. destruct (NE E).
  - apply Z.eqb_neq in E. split; [|split; [congruence|]]; (destruct (rltb (ui b x) (x_u x)) eqn:F; [apply rltb_true in F|apply rltb_false in F]; intros; repeat split; intros; lra).
Qed.
(** A mixture of neutral and ionised gas: the two ends, and the energy between. *)
Theorem C76_mixture : forall b x, b = Isothermal \/ b = Barotropic -> real x -> let '(x', cs) := th (MCRadiation b) x in
  let '(xn, cn) := th (Plain b) x in
  (x_ionfrac x = 0 -> x_u x' = x_u xn /\ x_p x' = x_p xn /\ cs = cn /\ Temperature n P stars star0 (MCRadiation b) x' = Temperature n P stars star0 (Plain b) xn) /\
  (x_ionfrac x = 1 -> Temperature n P stars star0 (MCRadiation b) x' = temp_ion P /\ ideal_gas (mu_ion P) (x_rho x) (temp_ion P) (x_p x') /\ x_rho x * (cs * cs) = x_p x') /\
  x_p x' = x_ionfrac x * (x_rho x * temp_ion P / mu_ion P) + (1 - x_ionfrac x) * x_p xn.
Proof.
  intros b x Hb (A & B & C & D). unfold thermal. cbv zeta. gg. unfold ideal_gas.
  cbn [x_u x_p x_rho x_ionfrac set_u set_p SoundSpeed SpecificInternalEnergy Pressure Temperature egammam1].
  assert (PB : forall u, bPressure P b (set_u x u) = (gamma_eos P - 1) * x_rho x * u) by (intros; destruct Hb as [-> | ->]; reflexivity).
  split; [|split].
  - intros Z. rewrite Z. assert (Q : 0 * temp_ion P / (gamma_eos P - 1) / mu_ion P + (1 - 0) * ui b x = ui b x) by (field; lra). rewrite !Q, PB.
    split; [reflexivity|]. split; [reflexivity|]. split; [ring|]. ring.
  - intros Z. rewrite Z. repeat split; [ring|field; lra|].
    replace ((1 * sqrt (temp_ion P / mu_ion P) + (1 - 1) * bSoundSpeed n P star0 b (set_u x (1 * temp_ion P / (gamma_eos P - 1) / mu_ion P + (1 - 1) * ui b x)))) with (sqrt (temp_ion P / mu_ion P)) by ring.
    rewrite sqrt_sqrt by (apply Rlt_le, Rdiv_lt_0_compat; lra). field. lra.
  - rewrite PB. field. lra.
Qed.
End Eos.

(** Which class is made of which names; anything else stops the run. *)
Theorem C76_select : forall gas rad,
  (~ In gas names -> select gas rad = Raise) /\
  (rad <> "ionisation"%string -> rad <> "monoionisation"%string ->
    (gas = "energy_eqn"%string \/ gas = "constant_temp"%string -> select gas rad = Ok (inl (Plain Adiabatic))) /\
    (gas = "isothermal"%string -> select gas rad = Ok (inl (Plain Isothermal))) /\ (gas = "polytropic"%string -> select gas rad = Ok (inl (Plain Polytropic))) /\
    (gas = "barotropic"%string -> select gas rad = Ok (inl (Plain Barotropic))) /\ (gas = "barotropic2"%string -> select gas rad = Ok (inl (Plain Barotropic2)))) /\
  (gas = "locally_isothermal"%string -> select gas rad = Ok (inl (Plain LocallyIsothermal))) /\
  (gas = "disc_locally_isothermal"%string -> select gas rad = Ok (inl (Plain DiscLocallyIsothermal))) /\ (gas = "radws"%string -> select gas rad = Ok (inr tt)) /\
  (forall c, (rad = "ionisation"%string /\ c = IonisingRadiation) \/ (rad = "monoionisation"%string /\ c = MCRadiation) ->
    (gas = "energy_eqn"%string \/ gas = "constant_temp"%string -> select gas rad = Ok (inl (c Adiabatic))) /\
    (gas = "isothermal"%string -> select gas rad = Ok (inl (c Isothermal))) /\ (gas = "barotropic"%string -> select gas rad = Ok (inl (c Barotropic)))) /\
  (forall e, select gas rad = Ok (inl e) -> made e).
Proof.
  intros gas rad. split; [|split; [|split; [|split; [|split; [|split]]]]].
  - intros N. unfold select, names in *. cbn [In] in N.
    repeat match goal with |- context [String.eqb gas ?s] => destruct (String.eqb_spec gas s); [exfalso; apply N; subst gas; tauto|] end. reflexivity.
  - intros N1 N2. apply String.eqb_neq in N1, N2. repeat split; intros H; try destruct H as [H|H]; subst gas; unfold select; rewrite N1, N2; reflexivity.
  - intros ->. reflexivity.
  - intros ->. reflexivity.
  - intros ->. reflexivity.
  - intros c [(-> & ->)|(-> & ->)]; repeat split; intros H; try destruct H as [H|H]; subst gas; reflexivity.
  - intros e. unfold select, inner. repeat match goal with |- context [String.eqb gas ?s] => destruct (String.eqb gas s) end; cbn [orb andb];
      repeat match goal with |- context [String.eqb rad ?s] => destruct (String.eqb rad s) end; cbn [bind]; intros H; try discriminate; injection H as <-; cbn [made]; tauto.
Qed.
(** Not every equation of state the code accepts together with ionising stars can be made: polytropic and barotropic2 gas pass the first
    test and fail the second. *)
Theorem C76_select_refuted : forall rad, rad = "ionisation"%string \/ rad = "monoionisation"%string ->
  select "polytropic" rad = Raise /\ select "barotropic2" rad = Raise /\ select "polytropic" "none" = Ok (inl (Plain Polytropic)) /\ select "barotropic2" "none" = Ok (inl (Plain Barotropic2)).
Proof. intros rad [-> | ->]; repeat split. Qed.

(** Default parameters (Parameters.cpp:264-271), gamma_eos as 5/3; no stars. *)
Definition dflt : eospar := mkep (5 / 3) (7 / 5) 1 1 1 1 (3 / 4) (1 / 100) (1 / 4) (1 / 20) (1 / 2) 10 1.
Definition gas (rho u : R) : proxy := mkpx (fun _ => 0) (fun _ => 0) rho u 0 0 0.
Lemma dflt_good : good dflt.
Proof. unfold good, dflt. cbn. repeat split; lra. Qed.
Lemma gas_real rho u : 0 < rho -> 0 < u -> real (gas rho u).
Proof. unfold real, gas. cbn. intros. repeat split; lra. Qed.

(** A polytrope with the default parameters: the constructor exchanges gamma_eos and eta_eos, so its energy does not belong to its pressure. *)
Theorem C76_polytrope_refuted : forall rho, 0 < rho < 1 ->
  let '(x', cs) := thermal 3 dflt [] (fun _ => 0) (Plain Polytropic) (gas rho 1) in
  x_u x' = Rpower rho (7 / 5 - 1) / (7 / 5 - 1) /\ x_p x' = Rpower rho (5 / 3) /\
  ~ gamma_law (5 / 3) rho (x_u x') (x_p x') /\ ~ gamma_law (7 / 5) rho (x_u x') (x_p x').
Proof.
  intros rho (A & B). unfold thermal, gamma_law. cbv zeta. cbn [x_u x_p x_rho set_u set_p gas Pressure bPressure SpecificInternalEnergy bSpecificInternalEnergy].
  unfold bgammam1, poly_eta. cbn [bgamma dflt gamma_eos eta_eos Kpoly]. rewrite !Rmult_1_l. split; [reflexivity|]. split; [reflexivity|].
  assert (E : Rpower rho (7 / 5) = Rpower rho (7 / 5 - 1) * rho) by (rewrite <- rpower_succ by exact A; f_equal; ring).
  assert (L : Rpower rho (5 / 3) < Rpower rho (7 / 5)).
  { unfold Rpower. apply exp_increasing. assert (ln rho < 0) by (rewrite <- ln_1; apply ln_increasing; lra). nra. }
  pose proof (rpower_pos rho (7 / 5)). split; intros H1.
  - replace ((5 / 3 - 1) * rho * (Rpower rho (7 / 5 - 1) / (7 / 5 - 1))) with (5 / 3 * Rpower rho (7 / 5)) in H1 by (rewrite E; field). lra.
  - replace ((7 / 5 - 1) * rho * (Rpower rho (7 / 5 - 1) / (7 / 5 - 1))) with (Rpower rho (7 / 5)) in H1 by (rewrite E; field). lra.
Qed.

(** With an energy equation the temperature reported leaves out mu_bar: molecular gas (mu_bar = 2) is given half its temperature. *)
Definition molecular : eospar := mkep (7 / 5) (7 / 5) 1 10 2 1 (3 / 4) (1 / 100) (1 / 4) (1 / 20) (1 / 2) 100 1.
Theorem C76_temperature_refuted : let x := gas 1 (10 / (7 / 5 - 1) / 2) in let T b := Temperature 3 molecular [] (fun _ => 0) (Plain b) in
  let th b := fst (thermal 3 molecular [] (fun _ => 0) (Plain b) x) in
  good molecular /\ real x /\ x_u (th Isothermal) = x_u (th Adiabatic) /\ x_p (th Isothermal) = x_p (th Adiabatic) /\
  T Isothermal (th Isothermal) = 10 /\ T Adiabatic (th Adiabatic) = 5 /\ ~ ideal_gas (mu_bar molecular) 1 (T Adiabatic (th Adiabatic)) (x_p (th Adiabatic)).
Proof.
  cbv zeta. split; [unfold good, molecular; cbn; repeat split; lra|]. split; [apply gas_real; lra|]. unfold thermal, ideal_gas. cbv zeta.
  cbn [fst x_u x_p x_rho set_u set_p gas Pressure bPressure SpecificInternalEnergy bSpecificInternalEnergy Temperature bTemperature]. unfold bgammam1. cbn [bgamma molecular gamma_eos temp0 mu_bar].
  repeat split; lra.
Qed.

(** The speed of sound of barotropic gas is not that of its pressure: at rho_bary it is smaller by sqrt((1+gamma)/2). *)
Theorem C76_sound_refuted : let x := gas 1 1 in let p s := x_p (fst (thermal 3 dflt [] (fun _ => 0) (Plain Barotropic) (set_rho x s))) in
  let cs := snd (thermal 3 dflt [] (fun _ => 0) (Plain Barotropic) x) in
  real x /\ cs * cs = 2 /\ derivable_pt_lim p 1 (8 / 3) /\ ~ sound_of p 1 cs.
Proof.
  cbv zeta. assert (Q : forall y, Rpower (1 * invrho_bary dflt) y = 1).
  { intros y. unfold invrho_bary. cbn [dflt rho_bary]. replace (1 * (1 / 1)) with 1 by field. unfold Rpower. rewrite ln_1, Rmult_0_r. apply exp_0. }
  assert (C : let cs := snd (thermal 3 dflt [] (fun _ => 0) (Plain Barotropic) (gas 1 1)) in cs * cs = 2).
  { cbv zeta. unfold thermal. cbv zeta. cbn [snd SoundSpeed bSoundSpeed SpecificInternalEnergy bSpecificInternalEnergy x_u x_rho set_u gas]. rewrite Q.
    rewrite sqrt_sqrt; unfold bgammam1; cbn [bgamma dflt gamma_eos temp0 mu_bar]; lra. }
  assert (D : derivable_pt_lim (fun s => x_p (fst (thermal 3 dflt [] (fun _ => 0) (Plain Barotropic) (set_rho (gas 1 1) s)))) 1 (8 / 3)).
  { replace (8 / 3) with (1 + 1 * (5 / 3 * Rpower 1 (5 / 3 - 1))).
    2:{ unfold Rpower. rewrite ln_1, Rmult_0_r, exp_0. lra. }
    apply dext with (f := fun s => 1 * s + 1 * Rpower s (5 / 3)); [|lra|].
    - intros z Z. unfold thermal. cbv zeta. cbn [fst x_u x_p x_rho set_u set_p set_rho gas Pressure bPressure SpecificInternalEnergy bSpecificInternalEnergy]. unfold bgammam1, invrho_bary. cbn [bgamma dflt gamma_eos temp0 mu_bar rho_bary].
      replace (z * (1 / 1)) with z by field. assert (E : Rpower z (5 / 3) = Rpower z (5 / 3 - 1) * z) by (rewrite <- rpower_succ by lra; f_equal; ring). rewrite E. field.
    - apply (derivable_pt_lim_plus (fun s => 1 * s) (fun s => 1 * Rpower s (5 / 3))); [apply dlinear|apply dpower; lra]. }
  split; [apply gas_real; lra|]. split; [exact C|]. split; [exact D|]. intros (_ & S).
  pose proof (uniqueness_limite _ _ _ _ D S) as E. cbv zeta in C. rewrite C in E. lra.
Qed.

(** Gas kept by the energy equation and partly ionised: each time the thermal properties are set its energy is mixed again. *)
Theorem C76_again_refuted : let x := mkpx (fun _ => 0) (fun _ => 0) 1 1 0 (1 / 2) 0 in
  let th := fun y => fst (thermal 3 dflt [] (fun _ => 0) (MCRadiation Adiabatic) y) in
  real x /\ x_u (th x) = 8 /\ x_u (th (th x)) = 23 / 2 /\ forall k, 15 - x_u (Nat.iter k th x) = 14 / 2 ^ k.
Proof.
  cbv zeta. set (x := mkpx (fun _ => 0) (fun _ => 0) 1 1 0 (1 / 2) 0). set (th := fun y => fst (thermal 3 dflt [] (fun _ => 0) (MCRadiation Adiabatic) y)).
  assert (S : forall y, x_ionfrac y = 1 / 2 -> x_u (th y) = 15 / 2 + x_u y / 2 /\ x_ionfrac (th y) = 1 / 2).
  { intros y H. unfold th, thermal. cbv zeta. cbn [fst x_u x_ionfrac set_u set_p SpecificInternalEnergy bSpecificInternalEnergy egammam1]. rewrite H.
    cbn [dflt gamma_eos temp_ion mu_ion]. split; [field|reflexivity]. }
  assert (X : x_ionfrac x = 1 / 2) by reflexivity. destruct (S x X) as (U1 & F1). destruct (S (th x) F1) as (U2 & _).
  split; [unfold real, x; cbn; repeat split; lra|]. split; [rewrite U1; cbn; lra|]. split; [rewrite U2, U1; cbn; lra|].
  assert (I : forall k, x_ionfrac (Nat.iter k th x) = 1 / 2 /\ 15 - x_u (Nat.iter k th x) = 14 / 2 ^ k).
  { induction k as [|k (IF & IU)]; [split; [reflexivity|cbn; lra]|]. change (Nat.iter (Datatypes.S k) th x) with (th (Nat.iter k th x)).
    set (y := Nat.iter k th x) in *. destruct (S y IF) as (U & F). split; [exact F|]. rewrite U.
    replace (14 / 2 ^ Datatypes.S k) with ((14 / 2 ^ k) / 2) by (cbn [pow]; field; apply pow_nonzero; lra). lra. }
  intros k. apply I.
Qed.

(** Half-ionised isothermal gas: the speed of sound is not that of its pressure, and the temperature is not that of any one mean
    molecular weight between the two. *)
Definition hii : eospar := mkep (5 / 3) (7 / 5) 1 1 1 1 (3 / 4) (1 / 100) (1 / 4) (1 / 20) (1 / 2) 14 2.
Theorem C76_mixture_refuted : let x := mkpx (fun _ => 0) (fun _ => 0) 1 1 0 (1 / 2) 0 in
  let '(x', cs) := thermal 3 hii [] (fun _ => 0) (MCRadiation Isothermal) x in
  good hii /\ real x /\ x_p x' = 4 /\ x_rho x' * (cs * cs) > 5 /\ Temperature 3 hii [] (fun _ => 0) (MCRadiation Isothermal) x' = 15 / 2 /\
  (forall mu, ideal_gas mu 1 (15 / 2) (x_p x') -> mu = 15 / 8).
Proof.
  cbv zeta. unfold thermal, ideal_gas. cbv zeta. cbn [x_u x_p x_rho x_ionfrac set_u set_p SoundSpeed bSoundSpeed Pressure SpecificInternalEnergy bSpecificInternalEnergy Temperature bTemperature egammam1].
  unfold bgammam1. cbn [bgamma hii gamma_eos temp_ion mu_ion temp0 mu_bar].
  assert (U : 1 / 2 * 14 / (5 / 3 - 1) / 2 + (1 - 1 / 2) * (1 / (5 / 3 - 1) / 1) = 6) by lra. rewrite U.
  split; [unfold good; cbn; repeat split; lra|]. split; [unfold real; cbn; repeat split; lra|]. split; [lra|].
  assert (S2 : sqrt ((5 / 3 - 1) * 6) = 2) by (replace ((5 / 3 - 1) * 6) with (2 * 2) by lra; apply sqrt_square; lra).
  assert (S7 : 5 / 2 < sqrt (14 / 2)) by (rewrite <- (sqrt_square (5 / 2)) by lra; apply sqrt_lt_1_alt; lra).
  rewrite S2. split; [nra|]. split; [lra|]. intros mu H. lra.
Qed.
(** Isothermal gas heated by an ionising star: its energy is kept, the temperature reported is still that of the neutral gas. *)
Theorem C76_ionised_refuted : let x := mkpx (fun _ => 0) (fun _ => 0) 1 30 0 0 2 in
  let '(x', cs) := thermal 3 dflt [] (fun _ => 0) (IonisingRadiation Isothermal) x in
  real x /\ x_u x' = 30 /\ x_p x' = 20 /\ cs * cs = 20 /\ Temperature 3 dflt [] (fun _ => 0) (IonisingRadiation Isothermal) x' = 1 /\
  ~ ideal_gas (mu_bar dflt) 1 1 (x_p x').
Proof.
  cbv zeta. unfold thermal, ideal_gas. cbv zeta. cbn [x_u x_p x_rho x_ionstate set_u set_p SoundSpeed bSoundSpeed Pressure SpecificInternalEnergy bSpecificInternalEnergy Temperature bTemperature egammam1 Z.eqb].
  unfold bgammam1. cbn [bgamma dflt gamma_eos temp0 mu_bar].
  rewrite (proj2 (rltb_true (1 / (5 / 3 - 1) / 1) 30)) by lra. split; [unfold real; cbn; repeat split; lra|]. split; [reflexivity|]. split; [lra|].
  rewrite sqrt_sqrt by lra. repeat split; lra.
Qed.

(** Concrete cases: isothermal gas with the default parameters; an adiabat. *)
Example C76_isothermal_gas : let '(x', cs) := thermal 3 dflt [] (fun _ => 0) (Plain Isothermal) (gas 2 7) in
  x_u x' = 3 / 2 /\ x_p x' = 2 /\ cs = 1 /\ Temperature 3 dflt [] (fun _ => 0) (Plain Isothermal) x' = 1.
Proof.
  cbv zeta. unfold thermal. cbv zeta. cbn [x_u x_p x_rho set_u set_p gas SoundSpeed bSoundSpeed Pressure bPressure SpecificInternalEnergy bSpecificInternalEnergy Temperature bTemperature].
  unfold bgammam1. cbn [bgamma dflt gamma_eos temp0 mu_bar]. repeat split; try lra.
  replace ((5 / 3 - 1) * (1 / (5 / 3 - 1) / 1)) with 1 by lra. apply sqrt_1.
Qed.
Example C76_adiabat : let x := gas 1 1 in forall s, 0 < s ->
  EntropicFunction dflt (Plain Adiabatic) (set_u (set_rho x s) (Rpower s (5 / 3 - 1))) = EntropicFunction dflt (Plain Adiabatic) x /\ Rpower 1 (5 / 3 - 1) = x_u x.
Proof.
  cbv zeta. intros s S. assert (O : forall y, Rpower 1 y = 1) by (intros y; unfold Rpower; rewrite ln_1, Rmult_0_r; apply exp_0).
  split; [|rewrite O; reflexivity]. cbn [EntropicFunction]. unfold bEntropicFunction, bgammam1. cbn [bgamma x_u x_rho set_u set_rho gas dflt gamma_eos].
  rewrite O, Rmult_assoc, <- Rpower_plus. replace (5 / 3 - 1 + (1 - 5 / 3)) with 0 by lra. rewrite Rpower_O by exact S. ring.
Qed.
Example C76_nearest_star : let x := gas 1 1 in let s k := match k with 0%nat => 3 | 1%nat => 4 | _ => 0 end in
  nearest 3 [(fun _ => 100); s] (x_r x) 5 /\ forall t, In t [(fun _ => 100); s] -> dot 3 (vsub (x_r x) t) (vsub (x_r x) t) <= 10 ^ 30.
Proof.
  cbv zeta. split; [split|].
  - eexists. split; [right; left; reflexivity|]. unfold norm, dot, vsub. cbn. match goal with |- _ = sqrt ?e => replace e with (5 * 5) by ring end. symmetry. apply sqrt_square. lra.
  - intros t [<-|[<-|[]]]; unfold norm; rewrite <- (sqrt_square 5) at 1 by lra; apply sqrt_le_1_alt; unfold dot, vsub; cbn; lra.
  - intros t [<-|[<-|[]]]; unfold dot, vsub; cbn; lra.
Qed.

Print Assumptions C76_energy.
Print Assumptions C76_polytrope.
Print Assumptions C76_temperature.
Print Assumptions C76_sound.
Print Assumptions C76_sound_adiabatic.
Print Assumptions C76_sound_low.
Print Assumptions C76_entropy.
Print Assumptions C76_face.
Print Assumptions C76_again.
Print Assumptions C76_barotropic.
Print Assumptions C76_locally.
Print Assumptions C76_disc.
Print Assumptions C76_ionised.
Print Assumptions C76_mixture.
Print Assumptions C76_select.
Print Assumptions C76_select_refuted.
Print Assumptions C76_polytrope_refuted.
Print Assumptions C76_temperature_refuted.
Print Assumptions C76_sound_refuted.
Print Assumptions C76_again_refuted.
Print Assumptions C76_mixture_refuted.
Print Assumptions C76_ionised_refuted.
