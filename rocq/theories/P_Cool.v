(** C78: equilibrium temperature, implicit cooling, the state it is computed for. *)
From Verif Require Import Prelude Vec M_Box L_Box M_Eos M_Radws S_Radws L_Radws L_Cool L_Cool2.
From Coq Require Import Reals Lra Lia Psatz List.
Import ListNotations.
Local Open Scope R_scope.

(** The opacities do not vary along the row. *)
Definition grey (t : table) (idens : nat) (k kp : R) : Prop := forall i, (i < ntemp t)%nat -> kappa_table t idens i = k /\ kappap_table t idens i = kp.

Section Equi.
Variables (t : table) (idens : nat) (rad k kp col2 Ta temp_min dudt Teq temp : R).
Hypothesis KA : grey t idens k kp.
Hypothesis RAD : 0 < rad.
Hypothesis K0 : 0 <= col2 * k.
Hypothesis KP : 0 < kp.
Hypothesis RT : rises (ntemp t) (eos_temp t).
(** Entry of the lowest temperature allowed. *)
Let im : nat := GetITemp t (log10 temp_min).
Hypothesis TMP : 0 <= temp.

Lemma loss_eq T : loss rad k kp col2 Ta T = cool rad k kp col2 * (T ^ 4 - Ta ^ 4).
Proof. unfold loss, cool, Rdiv. ring. Qed.
Lemma loss_lt a b : 0 <= a -> a < b -> loss rad k kp col2 Ta a < loss rad k kp col2 Ta b.
Proof.
  intros A B. rewrite !loss_eq. apply Rmult_lt_compat_l; [now apply cool_pos|]. pose proof (pow4_lt a b A B). lra.
Qed.
Lemma itemp_in x : (0 < ntemp t)%nat -> (0 <= Z.of_nat (GetITemp t x) < Z.of_nat (ntemp t))%Z.
Proof. intros N. pose proof (proj1 (closest_ok _ _ x N RT)). unfold GetITemp. lia. Qed.
Lemma neg_bal T : - ebalance rad 0 Ta T k kp col2 = loss rad k kp col2 Ta T.
Proof. unfold ebalance, loss. lra. Qed.

Section Root.
Hypothesis TP : 0 < Teq.
Hypothesis EQ : dudt = loss rad k kp col2 Ta Teq.
Let EQ' : dudt = cool rad k kp col2 * (Teq ^ 4 - Ta ^ 4).
Proof. rewrite EQ. apply loss_eq. Qed.

(** Gas that warms up to Teq: found to 1/1000, or the ambient temperature if what is found is below it. *)
Theorem C78_heating : (1 <= im)%nat -> (im + 1 < ntemp t)%nat -> temp < Teq -> tabT t (im - 1) < Teq <= tabT t (ntemp t - 1) ->
  exists N, forall fuel, (N <= fuel)%nat -> exists T r, EnergyFindEquiTemp t rad temp_min idens Ta col2 dudt fuel temp = Ok r /\
    Rabs (T - Teq) <= Teq / 1000 /\ (((Ta <= T \/ T = Teq) /\ r = T) \/ (T < Ta /\ r = Ta)).
Proof.
  intros I1 I2 W [R1 R2].
  destruct (search_up_ok t idens rad k kp col2 Ta KA RAD K0 KP RT dudt Teq TP EQ' (Z.of_nat im) ltac:(lia) R2 (ntemp t) (S (ntemp t)) (tabT t (im - 1)) (im + 1)
              ltac:(lia) ltac:(lia) ltac:(lia) (tabT_pos _ _) R1) as (b & h' & S1 & GB & HB).
  destruct (refine_enough t idens rad k kp col2 Ta KA RAD K0 KP dudt Teq TP EQ' (h' - 1) ltac:(lia) b GB) as [N HN].
  exists (N + S (ntemp t))%nat. intros fuel F. destruct (HN fuel ltac:(lia)) as (T & T1 & T2).
  assert (S2 : search_up t rad idens Ta col2 dudt fuel (Z.of_nat im)
            (mkbr (tabT t (im - 1)) k kp (ent rad k kp col2 Ta dudt (tabT t (im - 1))) (tabT t (im + 1)) k kp (ent rad k kp col2 Ta dudt (tabT t (im + 1)))) (Z.of_nat (im + 1)) = Ok (b, h')).
  { rewrite (search_up_fuel t rad idens Ta col2 dudt (S (ntemp t)) fuel); [exact S1|rewrite S1; discriminate|lia]. }
  exists T. unfold EnergyFindEquiTemp. rewrite (GetKappa_ok t idens k kp KA) by (apply itemp_in; lia). cbn [bind fst snd].
  fold im. rewrite (GetKappa_ok t idens k kp KA) by lia. cbn [bind fst snd]. rewrite neg_bal.
  rewrite (proj2 (rleb_false _ _)) by (rewrite EQ; apply loss_lt; assumption).
  rewrite !tab_temp_ok, !(GetKappa_ok t idens k kp KA) by lia. cbn [bind fst snd].
  replace (Z.to_nat (Z.of_nat im - 1)) with (im - 1)%nat by lia. replace (Z.to_nat (Z.of_nat im + 1)) with (im + 1)%nat by lia.
  replace (Z.of_nat im + 1)%Z with (Z.of_nat (im + 1)) by lia. unfold ent in S2. rewrite S2. cbn [bind fst snd].
  destruct T2 as [[T3 ->] | [T3 ->]]; eexists; split; [reflexivity| |reflexivity|]; auto.
Qed.
(** ... but off the end of the table if the equilibrium lies beyond it. *)
Theorem C78_heating_refuted : (1 <= im)%nat -> (im + 1 < ntemp t)%nat -> temp < Teq -> tabT t (ntemp t - 1) < Teq ->
  forall fuel, (ntemp t < fuel)%nat -> EnergyFindEquiTemp t rad temp_min idens Ta col2 dudt fuel temp = UB.
Proof.
  intros I1 I2 W TOP fuel F.
  pose proof (tabT_rises t RT (im - 1)%nat (ntemp t - 1)%nat ltac:(lia)) as R1.
  unfold EnergyFindEquiTemp. rewrite (GetKappa_ok t idens k kp KA) by (apply itemp_in; lia). cbn [bind fst snd].
  fold im. rewrite (GetKappa_ok t idens k kp KA) by lia. cbn [bind fst snd]. rewrite neg_bal.
  rewrite (proj2 (rleb_false _ _)) by (rewrite EQ; apply loss_lt; assumption).
  rewrite !tab_temp_ok, !(GetKappa_ok t idens k kp KA) by lia. cbn [bind fst snd].
  replace (Z.to_nat (Z.of_nat im - 1)) with (im - 1)%nat by lia. replace (Z.to_nat (Z.of_nat im + 1)) with (im + 1)%nat by lia.
  replace (Z.of_nat im + 1)%Z with (Z.of_nat (im + 1)) by lia.
  pose proof (search_up_off t idens rad k kp col2 Ta KA RAD K0 KP RT dudt Teq EQ' (Z.of_nat im) ltac:(lia) TOP (ntemp t) fuel (tabT t (im - 1)) (im + 1)
              ltac:(lia) ltac:(lia) ltac:(lia) (tabT_pos _ _) ltac:(lra)) as S2.
  unfold ent in S2. rewrite S2. reflexivity.
Qed.
(** Gas that cools down to Teq is treated well only if Teq is next to the lowest temperature. *)
Theorem C78_cooling : (1 <= im)%nat -> (im + 1 < ntemp t)%nat -> 0 <= temp_min -> Teq <= temp -> temp_min < Teq ->
  tabT t (im - 1) < Teq <= tabT t (im + 1) ->
  exists N, forall fuel, (N <= fuel)%nat -> exists T r, EnergyFindEquiTemp t rad temp_min idens Ta col2 dudt fuel temp = Ok r /\
    Rabs (T - Teq) <= Teq / 1000 /\ (((Ta <= T \/ T = Teq) /\ r = T) \/ (T < Ta /\ r = Ta)).
Proof.
  intros I1 I2 M0 W M [R1 R2].
  set (b := mkbr (tabT t (im - 1)) k kp (ebalance rad dudt Ta (tabT t (im - 1)) k kp col2) (tabT t (im + 1)) k kp (ebalance rad dudt Ta (tabT t (im + 1)) k kp col2)).
  assert (GB : good rad k kp col2 Ta dudt Teq b) by (constructor; cbn; auto using tabT_pos).
  destruct (refine_enough t idens rad k kp col2 Ta KA RAD K0 KP dudt Teq TP EQ' (Z.of_nat im - 1) ltac:(lia) b GB) as [N HN].
  exists (S N). intros fuel F. destruct (HN fuel ltac:(lia)) as (T & T1 & T2). exists T.
  unfold EnergyFindEquiTemp. rewrite (GetKappa_ok t idens k kp KA) by (apply itemp_in; lia). cbn [bind fst snd].
  fold im. rewrite (GetKappa_ok t idens k kp KA) by lia. cbn [bind fst snd]. rewrite !neg_bal.
  rewrite (proj2 (rleb_true _ (loss _ _ _ _ _ temp))).
  2:{ rewrite EQ. destruct W as [W | ->]; [left; apply loss_lt; lra|lra]. }
  rewrite (proj2 (rleb_false _ (loss _ _ _ _ _ temp_min))) by (rewrite EQ; apply loss_lt; assumption).
  rewrite !tab_temp_ok, !(GetKappa_ok t idens k kp KA) by lia. cbn [bind fst snd].
  replace (Z.to_nat (Z.of_nat im - 1)) with (im - 1)%nat by lia. replace (Z.to_nat (Z.of_nat im + 1)) with (im + 1)%nat by lia. fold b.
  destruct fuel as [|fuel]; [lia|].
  assert (SD : search_down t rad idens Ta col2 dudt (S fuel) (Z.of_nat im) b (Z.of_nat im - 1) = Ok (b, (Z.of_nat im - 1)%Z)).
  { cbn [search_down]. rewrite (proj2 (rltb_false _ _)); [reflexivity|]. unfold b. cbn [blo bhi].
    pose proof (bal_pos rad k kp col2 Ta RAD K0 KP dudt Teq EQ' (tabT t (im - 1)) ltac:(left; apply tabT_pos) R1).
    assert (ebalance rad dudt Ta (tabT t (im + 1)) k kp col2 <= 0).
    { destruct R2 as [L|L]; [left; apply (bal_neg rad k kp col2 Ta RAD K0 KP dudt Teq TP EQ'); exact L|].
      right. rewrite <- L. apply (bal_zero rad k kp col2 Ta KP dudt Teq EQ'). }
    nra. }
  rewrite SD. cbn [bind fst snd].
  destruct T2 as [[T3 ->] | [T3 ->]]; eexists; split; [reflexivity| |reflexivity|]; auto.
Qed.
(** Otherwise the search starts below the equilibrium, goes down and leaves the table. *)
Theorem C78_cooling_refuted : (im + 1 < ntemp t)%nat -> 0 <= temp_min -> Teq <= temp -> temp_min < Teq -> tabT t (im + 1) < Teq ->
  forall fuel, (im < fuel)%nat -> EnergyFindEquiTemp t rad temp_min idens Ta col2 dudt fuel temp = UB.
Proof.
  intros I2 M0 W M R1 fuel F. pose proof (tabT_rises t RT) as RTT.
  unfold EnergyFindEquiTemp. rewrite (GetKappa_ok t idens k kp KA) by (apply itemp_in; lia). cbn [bind fst snd].
  fold im. rewrite (GetKappa_ok t idens k kp KA) by lia. cbn [bind fst snd]. rewrite !neg_bal.
  rewrite (proj2 (rleb_true _ (loss _ _ _ _ _ temp))).
  2:{ rewrite EQ. destruct W as [W | ->]; [left; apply loss_lt; lra|lra]. }
  rewrite (proj2 (rleb_false _ (loss _ _ _ _ _ temp_min))) by (rewrite EQ; apply loss_lt; assumption).
  destruct (Nat.eq_dec im 0) as [Z0|NZ].
  - rewrite (tab_temp_bad t (Z.of_nat im - 1)) by lia. reflexivity.
  - rewrite !tab_temp_ok, !(GetKappa_ok t idens k kp KA) by lia. cbn [bind fst snd].
    replace (Z.to_nat (Z.of_nat im - 1)) with (im - 1)%nat by lia. replace (Z.to_nat (Z.of_nat im + 1)) with (im + 1)%nat by lia.
    replace (Z.of_nat im - 1)%Z with (Z.of_nat (im - 1)) by lia.
    pose proof (RTT (im - 1)%nat (im + 1)%nat ltac:(lia)).
    pose proof (search_down_off t idens rad k kp col2 Ta KA RAD K0 KP RT dudt Teq EQ' (Z.of_nat im) ltac:(lia) (im - 1) fuel (tabT t (im + 1))
                ltac:(lia) ltac:(lia) (tabT_pos _ _) R1 ltac:(lra)) as S2.
    unfold ent in S2. rewrite S2. reflexivity.
Qed.
End Root.
(** Gas that would cool below the lowest temperature is given that temperature. *)
Theorem C78_floor : (0 < ntemp t)%nat -> dudt <= loss rad k kp col2 Ta temp -> dudt <= loss rad k kp col2 Ta temp_min ->
  forall fuel, EnergyFindEquiTemp t rad temp_min idens Ta col2 dudt fuel temp = Ok temp_min.
Proof.
  intros N H1 H2 fuel. unfold EnergyFindEquiTemp. rewrite !(GetKappa_ok t idens k kp KA) by (apply itemp_in; lia). cbn [bind fst snd].
  rewrite !neg_bal. rewrite (proj2 (rleb_true _ _)) by exact H1. rewrite (proj2 (rleb_true _ _)) by exact H2. reflexivity.
Qed.
End Equi.

(** Whatever the row: the energy starts to relax at the rate of its heating and radiative loss. *)
Theorem C78_slope : forall t rad temp_min fuel rho temp Ta col2 u dudt ueq tau, (0 < ntemp t)%nat -> rises (ntemp t) (eos_temp t) ->
  EnergyFindEqui t rad temp_min fuel rho temp Ta col2 u dudt = Ok (ueq, tau) ->
  let i := GetIDens t (log10 rho) in let j := GetITemp t (log10 temp) in
  let rate := dudt - loss rad (kappa_table t i j) (kappap_table t i j) col2 Ta temp in
  (exists T e, EnergyFindEquiTemp t rad temp_min i Ta col2 dudt fuel temp = Ok T /\ temp_min <= T /\
     nearest (ntemp t) (eos_temp t) (log10 T) e /\ ueq = eos_energy t i e) /\
  (tau = 10 ^ 30 \/ (rate <> 0 -> ueq - u = tau * rate)).
Proof.
  intros t rad tm fuel rho temp Ta col2 u dudt ueq tau N RT H i j rate. unfold EnergyFindEqui in H. cbn zeta in H. fold i j in H.
  assert (IN : forall x, (0 <= Z.of_nat (GetITemp t x) < Z.of_nat (ntemp t))%Z).
  { intros x. pose proof (proj1 (closest_ok _ _ x N RT)). unfold GetITemp. lia. }
  assert (GK : forall x, GetKappa t i (Z.of_nat (GetITemp t x)) = Ok (kappa_table t i (GetITemp t x), kappap_table t i (GetITemp t x))).
  { intros x. unfold GetKappa. rewrite !idx_ok by apply IN. cbn [bind]. rewrite !Nat2Z.id. reflexivity. }
  unfold j in H. rewrite GK in H. cbn [bind fst snd] in H.
  destruct (EnergyFindEquiTemp t rad tm i Ta col2 dudt fuel temp) as [T| | |] eqn:ET; try discriminate. cbn [bind] in H.
  destruct (rltb T tm) eqn:L; [discriminate|]. apply rltb_false in L.
  rewrite GK in H. cbn [bind fst snd] in H. rewrite idx_ok in H by apply IN. cbn [bind] in H. rewrite Nat2Z.id in H.
  injection H as HU HT. split.
  - exists T, (GetITemp t (log10 T)). split; [reflexivity|]. split; [exact L|]. split; [apply closest_ok; assumption|]. now rewrite <- HU.
  - destruct (Req_EM_T _ _) as [_|_] in HT; [left; now rewrite <- HT|]. right. intros NZ. rewrite <- HT, HU.
    assert (RR : dudt + ebalance rad 0 Ta temp (kappa_table t i (GetITemp t (log10 temp))) (kappap_table t i (GetITemp t (log10 temp))) col2 = rate).
    { unfold rate, ebalance, loss, j. lra. }
    rewrite RR. field. exact NZ.
Qed.

(** A grey row at 1, 10, 100 and 1000 with the lowest temperature 10 and equilibrium at 500: gas at 5 is warmed, gas at 600 leaves the table. *)
Definition tab4 : table := mktab 1 4 (fun _ => 0) (fun i => INR i) (fun _ i => INR i + 1) (fun _ _ => 1) (fun _ _ => 1) (fun _ _ => 1) (fun _ _ => 2) (fun _ _ => 2).
Lemma INR_rises n : rises n (fun i => INR i).
Proof. intros i j H. apply lt_INR. lia. Qed.
Lemma Rpower_INR n : Rpower 10 (INR n) = 10 ^ n.
Proof. apply Rpower_pow. lra. Qed.
Lemma log10_10 n : log10 (10 ^ n) = INR n.
Proof.
  unfold log10. assert (0 < ln 10) by (rewrite <- ln_1; apply ln_increasing; lra).
  rewrite <- Rpower_pow by lra. unfold Rpower. rewrite ln_exp. field. lra.
Qed.
Lemma tab4_entry : GetITemp tab4 (log10 10) = 1%nat.
Proof.
  replace 10 with (10 ^ 1) at 1 by ring. rewrite log10_10. apply (closest_entry 4 (fun i => INR i) 1 (INR_rises 4)). lia.
Qed.
Example ex_C78_cooling : forall fuel, (1 < fuel)%nat ->
  EnergyFindEquiTemp tab4 (1 / 4) 10 0 0 0 (500 ^ 4) fuel 600 = UB.
Proof.
  intros fuel F. apply (C78_cooling_refuted tab4 0 (1 / 4) 1 1 0 0 10 (500 ^ 4) 500 600); rewrite ?tab4_entry; try lra; try (cbn; lia).
  - intros i H. split; reflexivity.
  - apply (INR_rises 4).
  - unfold loss. field.
  - unfold tabT. cbn [eos_temp tab4]. rewrite Rpower_INR. cbn [Nat.add pow]. lra.
Qed.
Example ex_C78_heating : exists N, forall fuel, (N <= fuel)%nat -> exists r,
  EnergyFindEquiTemp tab4 (1 / 4) 10 0 0 0 (500 ^ 4) fuel 5 = Ok r /\ Rabs (r - 500) <= 1 / 2.
Proof.
  destruct (C78_heating tab4 0 (1 / 4) 1 1 0 0 10 (500 ^ 4) 500 5) as [N HN]; rewrite ?tab4_entry; try lra; try (cbn; lia).
  - intros i H. split; reflexivity.
  - apply (INR_rises 4).
  - unfold loss. field.
  - unfold tabT. cbn [eos_temp tab4 ntemp Nat.sub]. rewrite !Rpower_INR. cbn [pow]. lra.
  - exists N. intros fuel F. destruct (HN fuel F) as (T & r & E & B & [[_ ->] | [L _]]).
    + exists T. split; [exact E|lra].
    + exfalso. pose proof (Rle_abs (- (T - 500))) as A. rewrite Rabs_Ropp in A. lra.
Qed.

(** ** Implicit update *)
Section Implicit.
Variables (t : table) (rad k kp col2 Ta g mu u dt rho temp : R).
Let idens : nat := GetIDens t rho.
Hypothesis KA : grey t idens k kp.
Hypothesis GM : forall i, (i < ntemp t)%nat -> eos_gamma t idens i = g /\ eos_mu t idens i = mu.
Hypothesis RAD : 0 < rad.
Hypothesis K0 : 0 <= col2 * k.
Hypothesis KP : 0 < kp.
Hypothesis RT : rises (ntemp t) (eos_temp t).
Hypothesis G1 : 1 < g.
Hypothesis MU : 0 < mu.
Hypothesis DT : 0 <= dt.
(** Energy of the gas at temperature T, and what is left of the energy equation if the loss is that at T. *)
Let energy (T : R) : R := T / (mu * (g - 1)).
Let residual (T : R) : R := energy T - u + loss rad k kp col2 Ta T * dt.
Let it : nat := GetITemp t (log10 temp).
Variable Ts : R.
Hypothesis TS : 0 < Ts.
Hypothesis ROOT : residual Ts = 0.
Let GE : forall T, G rad k kp col2 Ta g mu u 0 dt T = residual T.
Proof. intros T. unfold G, heat, residual, energy, ebalance, loss. lra. Qed.
Let ROOT' : G rad k kp col2 Ta g mu u 0 dt Ts = 0.
Proof. rewrite GE. exact ROOT. Qed.
Let HE : forall T, heat rad k kp col2 Ta 0 T = - loss rad k kp col2 Ta T.
Proof. intros T. unfold heat, ebalance, loss. lra. Qed.

Theorem C78_implicit : (it + 1 < ntemp t)%nat -> Ts <= tabT t (ntemp t - 1) -> (forall i, (i < ntemp t)%nat -> tabT t i <> Ts) ->
  exists N, forall fuel, (N <= fuel)%nat -> exists T h, ImplicitEnergyUpdate t rad fuel rho u temp Ta col2 0 dt = Ok h /\
    h = - loss rad k kp col2 Ta T /\
    ((T = temp /\ Rabs (h * dt) < tolerance * u) \/ Rabs (energy T - u - h * dt) <= tolerance * energy T \/ Rabs (T - Ts) <= tolerance * Ts).
Proof.
  intros I TOP NE.
  assert (NZ : (0 < ntemp t)%nat) by lia.
  assert (PRE : forall fuel, ImplicitEnergyUpdate t rad fuel rho u temp Ta col2 0 dt =
    if rltb (Rabs (- loss rad k kp col2 Ta temp * dt)) (tolerance * u) then Ok (- loss rad k kp col2 Ta temp)
    else let! b := if rltb (residual (tabT t it)) 0
                   then bracket_up t rad idens u Ta col2 0 dt fuel (Z.of_nat it) (E rad k kp col2 Ta g mu u 0 dt (tabT t it)) (E rad k kp col2 Ta g mu u 0 dt (tabT t (S it)))
                   else bracket_down t rad idens u Ta col2 0 dt fuel (Z.of_nat it) (E rad k kp col2 Ta g mu u 0 dt (tabT t it)) (E rad k kp col2 Ta g mu u 0 dt (tabT t (S it))) in
         let '(lo, hi) := b in
         if rltb 0 (e_b hi * e_b lo) then Raise
         else let! h := bisect rad u Ta col2 0 dt fuel lo hi (e_T lo) (e_b lo) (e_T hi) in Ok (h - 0)).
  { intros fuel. unfold ImplicitEnergyUpdate. cbn zeta. fold idens it.
    rewrite (GetKappa_ok t idens k kp KA) by lia. cbn [bind fst snd].
    replace (ebalance rad 0 Ta temp k kp col2) with (- loss rad k kp col2 Ta temp) by (unfold ebalance, loss; lra).
    destruct (rltb _ _); [reflexivity|].
    rewrite (end_at_ok t idens rad k kp col2 Ta KA g mu u 0 dt GM) by lia. cbn [bind].
    rewrite (end_at_ok t idens rad k kp col2 Ta KA g mu u 0 dt GM) by lia. cbn [bind].
    replace (Z.to_nat (Z.of_nat it + 1)) with (S it) by lia. rewrite Nat2Z.id. cbn [e_b E]. rewrite GE. reflexivity. }
  set (en' := E rad k kp col2 Ta g mu u 0 dt) in *.
  assert (BR : exists N0 a b, (forall fuel, (N0 <= fuel)%nat ->
     (if rltb (residual (tabT t it)) 0 then bracket_up t rad idens u Ta col2 0 dt fuel (Z.of_nat it) (en' (tabT t it)) (en' (tabT t (S it)))
      else bracket_down t rad idens u Ta col2 0 dt fuel (Z.of_nat it) (en' (tabT t it)) (en' (tabT t (S it)))) = Ok (en' a, en' b)) /\ 0 <= a < Ts /\ Ts <= b).
  { destruct (rltb (residual (tabT t it)) 0) eqn:SG.
    - apply rltb_true in SG.
      assert (L : tabT t it < Ts).
      { destruct (Rlt_or_le (tabT t it) Ts) as [X|[X|X]]; [exact X| |].
        - exfalso. pose proof (G_pos rad k kp col2 Ta RAD K0 KP g mu u 0 dt G1 MU DT Ts TS ROOT' _ X) as P. rewrite GE in P. lra.
        - exfalso. rewrite <- X, ROOT in SG. lra. }
      destruct (bracket_up_ok t idens rad k kp col2 Ta KA RAD K0 KP g mu u 0 dt GM G1 MU DT Ts TS ROOT' TOP (ntemp t) (S (ntemp t)) it
                  ltac:(lia) ltac:(lia) ltac:(lia) L) as (a & b & S1 & A & B).
      exists (S (ntemp t)), a, b. split; [|split; [lra|exact B]]. intros fuel F.
      rewrite (bracket_up_fuel t rad idens u Ta col2 0 dt (S (ntemp t)) fuel); [exact S1|unfold en'; rewrite S1; discriminate|lia].
    - apply rltb_false in SG.
      assert (L : Ts < tabT t it).
      { pose proof (NE it ltac:(lia)). destruct (Rlt_or_le (tabT t it) Ts) as [X|X]; [|lra]. exfalso.
        pose proof (G_neg rad k kp col2 Ta RAD K0 KP g mu u 0 dt G1 MU DT Ts ROOT' _ ltac:(left; apply tabT_pos) X) as P. rewrite GE in P. lra. }
      assert (L2 : Ts < tabT t (S it)) by (pose proof (tabT_rises t RT it (S it) ltac:(lia)); lra).
      destruct (bracket_down_ok t idens rad k kp col2 Ta KA RAD K0 KP g mu u 0 dt GM G1 MU DT Ts TS ROOT' NE it (S (S it)) (tabT t (S it))
                  ltac:(lia) ltac:(lia) L L2) as (a & b & S1 & A & B).
      exists (S (S it)), a, b. split; [|split; [lra|lra]]. intros fuel F.
      rewrite (bracket_down_fuel t rad idens u Ta col2 0 dt (S (S it)) fuel); [exact S1|unfold en'; rewrite S1; discriminate|lia]. }
  destruct BR as (N0 & a & b & BR & A & B).
  destruct (enough ((b - a) / 2) (tolerance * Ts / 2)) as [n W]; [pose proof tol_pos; nra|].
  exists (N0 + S n)%nat. intros fuel F. rewrite PRE.
  destruct (rltb (Rabs (- loss rad k kp col2 Ta temp * dt)) (tolerance * u)) eqn:EX.
  { apply rltb_true in EX. exists temp, (- loss rad k kp col2 Ta temp). auto. }
  rewrite BR by lia. cbn [bind]. cbn [e_b e_T E en'].
  assert (GA : G rad k kp col2 Ta g mu u 0 dt a < 0) by (apply (G_neg rad k kp col2 Ta RAD K0 KP g mu u 0 dt G1 MU DT Ts ROOT'); apply A).
  assert (GB : 0 <= G rad k kp col2 Ta g mu u 0 dt b).
  { destruct B as [X|X]; [left; apply (G_pos rad k kp col2 Ta RAD K0 KP g mu u 0 dt G1 MU DT Ts TS ROOT' _ X)|right; rewrite <- X; symmetry; exact ROOT']. }
  rewrite (proj2 (rltb_false _ _)) by nra.
  destruct (bisect_ok t idens rad k kp col2 Ta KA RAD K0 KP g mu u 0 dt GM G1 MU DT Ts TS ROOT' (en' a) (en' b) eq_refl eq_refl eq_refl eq_refl eq_refl eq_refl eq_refl eq_refl
              n fuel a b ltac:(lia) ltac:(lra) ltac:(lra) B W) as (T & BI & TP & AN).
  unfold en', E in BI |- *. cbn [e_b e_T] in BI |- *. rewrite BI. cbn [bind]. exists T, (heat rad k kp col2 Ta 0 T - 0). split; [reflexivity|].
  assert (HH : heat rad k kp col2 Ta 0 T - 0 = - loss rad k kp col2 Ta T) by (rewrite HE; lra). split; [exact HH|]. right.
  destruct AN as [AN|AN]; [left|right; exact AN]. rewrite HH. fold (energy T) in AN.
  replace (energy T - u - - loss rad k kp col2 Ta T * dt) with (residual T) by (unfold residual; lra). rewrite <- GE. exact AN.
Qed.
(** Gas at the last entry of the table, or gas that would warm beyond it, is looked up outside the table. *)
Theorem C78_top_refuted : tolerance * u <= Rabs (- loss rad k kp col2 Ta temp * dt) -> (0 < ntemp t)%nat ->
  (it + 1 = ntemp t)%nat \/ ((it + 1 < ntemp t)%nat /\ tabT t (ntemp t - 1) < Ts) ->
  forall fuel, (ntemp t < fuel)%nat -> ImplicitEnergyUpdate t rad fuel rho u temp Ta col2 0 dt = UB.
Proof.
  intros EX NZ CASE fuel F. unfold ImplicitEnergyUpdate. cbn zeta. fold idens it.
  rewrite (GetKappa_ok t idens k kp KA) by lia. cbn [bind fst snd].
  replace (ebalance rad 0 Ta temp k kp col2) with (- loss rad k kp col2 Ta temp) by (unfold ebalance, loss; lra).
  rewrite (proj2 (rltb_false _ _)) by exact EX.
  rewrite (end_at_ok t idens rad k kp col2 Ta KA g mu u 0 dt GM) by lia. cbn [bind].
  destruct CASE as [L|[L TOP]].
  - rewrite (end_at_bad t idens rad col2 Ta u 0 dt) by lia. reflexivity.
  - rewrite (end_at_ok t idens rad k kp col2 Ta KA g mu u 0 dt GM) by lia. cbn [bind].
    replace (Z.to_nat (Z.of_nat it + 1)) with (S it) by lia. rewrite Nat2Z.id. cbn [e_b E].
    assert (LT : tabT t it < Ts) by (pose proof (tabT_rises t RT it (ntemp t - 1)%nat ltac:(lia)); lra).
    rewrite (proj2 (rltb_true _ _)) by (apply (G_neg rad k kp col2 Ta RAD K0 KP g mu u 0 dt G1 MU DT Ts ROOT'); [left; apply tabT_pos|exact LT]).
    pose proof (bracket_up_off t idens rad k kp col2 Ta KA RAD K0 KP RT g mu u 0 dt GM G1 MU DT Ts ROOT' TOP (ntemp t) fuel it ltac:(lia) ltac:(lia) ltac:(lia)) as BU.
    unfold E in BU |- *. rewrite BU. reflexivity.
Qed.
(** If the equilibrium falls exactly on the entry of the gas, the search moves away from it, past the middle of the interval above. *)
Theorem C78_entry_refuted : tolerance * u <= Rabs (- loss rad k kp col2 Ta temp * dt) -> (it + 1 < ntemp t)%nat -> tabT t it = Ts ->
  forall fuel h, ImplicitEnergyUpdate t rad fuel rho u temp Ta col2 0 dt = Ok h ->
  exists T, h = - loss rad k kp col2 Ta T /\ 1 / 2 * (tabT t it + tabT t (it + 1)) <= T.
Proof.
  intros EX I Q fuel h. unfold ImplicitEnergyUpdate. cbn zeta. fold idens it.
  rewrite (GetKappa_ok t idens k kp KA) by lia. cbn [bind fst snd].
  replace (ebalance rad 0 Ta temp k kp col2) with (- loss rad k kp col2 Ta temp) by (unfold ebalance, loss; lra).
  rewrite (proj2 (rltb_false _ _)) by exact EX.
  rewrite (end_at_ok t idens rad k kp col2 Ta KA g mu u 0 dt GM) by lia. cbn [bind].
  rewrite (end_at_ok t idens rad k kp col2 Ta KA g mu u 0 dt GM) by lia. cbn [bind].
  replace (Z.to_nat (Z.of_nat it + 1)) with (it + 1)%nat by lia. rewrite Nat2Z.id. cbn [e_b E].
  rewrite Q, ROOT'. rewrite (proj2 (rltb_false 0 0)) by lra.
  destruct fuel as [|fuel]; [cbn [bracket_down bind]; discriminate|]. cbn [bracket_down e_b E]. rewrite ROOT'.
  rewrite Rmult_0_l, (proj2 (rltb_false 0 0)) by lra.
  cbn [bind e_b e_T E]. rewrite ROOT', Rmult_0_r, (proj2 (rltb_false 0 0)) by lra.
  destruct (bisect _ _ _ _ _ _ _ _ _ _ _ _) as [h1| | |] eqn:BI; cbn [bind]; try discriminate. intros [= <-].
  pose proof (tabT_rises t RT it (it + 1)%nat ltac:(lia)) as RI. rewrite Q in RI.
  apply (bisect_miss rad k kp col2 Ta RAD K0 KP g mu u 0 dt G1 MU DT Ts TS ROOT') in BI; try reflexivity; [|lra|exact RI|lra].
  destruct BI as (T & -> & L). exists T. rewrite HE. split; [lra|exact L].
Qed.
End Implicit.
(** Gas at 100 with energy 100 whose energy equation has the root 50. *)
Lemma tab4_dens x : GetIDens tab4 x = 0%nat.
Proof.
  assert (RD : rises 1 (fun _ => 0)) by (intros i j H; lia). pose proof (proj1 (closest_ok 1 (fun _ => 0) x ltac:(lia) RD)).
  unfold GetIDens. cbn [ndens eos_dens tab4]. lia.
Qed.
Example ex_C78_implicit : exists N, forall fuel, (N <= fuel)%nat -> exists T h, ImplicitEnergyUpdate tab4 (1 / 4) fuel 1 100 100 0 0 0 (/ 50 ^ 3) = Ok h /\ h = - T ^ 4 /\
  ((T = 100 /\ Rabs (h * / 50 ^ 3) < tolerance * 100) \/ Rabs (T - 100 - h * / 50 ^ 3) <= tolerance * T \/ Rabs (T - 50) <= tolerance * 50).
Proof.
  assert (IT : GetITemp tab4 (log10 100) = 2%nat).
  { replace 100 with (10 ^ 2) by ring. rewrite log10_10. apply (closest_entry 4 (fun i => INR i) 2 (INR_rises 4)). lia. }
  assert (TT : forall i, tabT tab4 i = 10 ^ i) by (intros i; unfold tabT; cbn [eos_temp tab4]; apply Rpower_INR).
  destruct (C78_implicit tab4 (1 / 4) 1 1 0 0 2 1 100 (/ 50 ^ 3) 1 100) with (Ts := 50) as [N HN]; rewrite ?IT, ?tab4_dens; try lra; try (cbn; lia).
  - intros i _. split; reflexivity.
  - intros i _. split; reflexivity.
  - apply (INR_rises 4).
  - unfold loss. field.
  - rewrite TT. cbn [ntemp tab4 Nat.sub pow]. lra.
  - intros i H. rewrite TT. destruct i as [|[|[|[|i]]]]; cbn [pow]; try lra. cbn [ntemp tab4] in H. lia.
  - exists N. intros fuel F. destruct (HN fuel F) as (T & h & E1 & E2 & E3). exists T, h. split; [exact E1|].
    split; [rewrite E2; unfold loss; field|]. replace (T / (1 * (2 - 1))) with T in E3 by field. exact E3.
Qed.

(** The ends of the interval are weighted the wrong way round.  A row at 1 and 10 with mean molecular weights 1 and 2: the loss returned
    is that at 31/4, where the weight is 7/4, but the energy there was taken with the weight 5/4. *)
Definition tabw : table := mktab 1 2 (fun _ => 0) (fun i => INR i) (fun _ i => INR i + 1) (fun _ i => INR i + 1) (fun _ _ => 1) (fun _ _ => 1) (fun _ _ => 2) (fun _ _ => 2).
Theorem C78_weights_refuted : exists u h, 0 < u /\ (forall fuel, (2 <= fuel)%nat -> ImplicitEnergyUpdate tabw (1 / 4) fuel 1 u 1 0 0 0 1 = Ok h) /\
  forall T, 0 <= T -> h = - loss (1 / 4) 1 1 0 0 T ->
    let mu := eos_mu tabw 0 0 + (T - tabT tabw 0) / (tabT tabw 1 - tabT tabw 0) * (eos_mu tabw 0 1 - eos_mu tabw 0 0) in
    T = 31 / 4 /\ mu = 7 / 4 /\ u + h * 1 = 7 / 5 * (T / (mu * (2 - 1))).
Proof.
  set (T0 := 31 / 4). set (u := T0 / (5 / 4) + T0 ^ 4).
  assert (TT : forall i, tabT tabw i = 10 ^ i) by (intros i; unfold tabT; cbn [eos_temp tabw]; apply Rpower_INR).
  assert (UP : 0 < u) by (unfold u, T0; lra).
  assert (LS : forall T, loss (1 / 4) 1 1 0 0 T = T ^ 4) by (intros T; unfold loss; field).
  assert (EB : forall T k kp, k = 1 -> kp = 1 -> ebalance (1 / 4) 0 0 T k kp 0 = - T ^ 4) by (intros T k kp -> ->; unfold ebalance; field).
  exists u, (- T0 ^ 4). split; [exact UP|]. split.
  - intros fuel F. destruct fuel as [|[|fuel]]; [lia|lia|].
    assert (ID : GetIDens tabw 1 = 0%nat).
    { assert (RD : rises 1 (fun _ => 0)) by (intros i j H; lia). pose proof (proj1 (closest_ok 1 (fun _ => 0) 1 ltac:(lia) RD)).
      unfold GetIDens. cbn [ndens eos_dens tabw]. lia. }
    assert (IT : GetITemp tabw (log10 1) = 0%nat).
    { replace 1 with (10 ^ 0) at 1 by ring. rewrite log10_10. apply (closest_entry 2 (fun i => INR i) 0 (INR_rises 2)). lia. }
    unfold ImplicitEnergyUpdate. cbn zeta. rewrite ID, IT.
    assert (GK : forall i, (0 <= i < 2)%Z -> GetKappa tabw 0 i = Ok (1, 1)) by (intros i I; unfold GetKappa; rewrite !idx_ok by exact I; reflexivity).
    assert (EA : forall i T mu, (0 <= i < 2)%Z -> 10 ^ Z.to_nat i = T -> INR (Z.to_nat i) + 1 = mu -> 0 < mu ->
      end_at tabw (1 / 4) 0 u 0 0 0 1 i = Ok (mken T 1 1 2 mu (T / mu - u + T ^ 4))).
    { intros i T mu I <- <- P. unfold end_at. rewrite tab_temp_ok, TT by exact I. cbn [bind]. rewrite !idx_ok by exact I. cbn [bind]. rewrite GK by exact I. cbn [bind fst snd].
      unfold ebal. rewrite EB by reflexivity. cbn [eos_gamma eos_mu tabw]. do 2 f_equal. field. lra. }
    rewrite GK by lia. cbn [bind fst snd]. rewrite EB by reflexivity.
    assert (TOL : tolerance <= / 10 ^ 5).
    { unfold tolerance. apply Rinv_le_contravar; [apply pow_lt; lra|]. apply Rle_pow; [lra|lia]. }
    rewrite (proj2 (rltb_false _ _)).
    2:{ replace (- 1 ^ 4 * 1) with (Ropp 1) by ring. rewrite Rabs_Ropp, Rabs_R1. assert (u <= 10 ^ 5) by (unfold u, T0; lra).
        assert (tolerance * u <= / 10 ^ 5 * 10 ^ 5) by (apply Rmult_le_compat; [left; apply tol_pos|lra|exact TOL|assumption]).
        rewrite Rinv_l in H0 by (apply pow_nonzero; lra). lra. }
    change (Z.of_nat 0) with 0%Z. rewrite (EA 0%Z 1 1) by (lia || lra || (change (Z.to_nat 0) with 0%nat; cbn [pow INR]; lra)). cbn [bind].
    rewrite (EA (0 + 1)%Z 10 2) by (lia || lra || (change (Z.to_nat (0 + 1)) with 1%nat; cbn [pow INR]; lra)). cbn [bind e_b].
    rewrite (proj2 (rltb_true _ 0)) by (unfold u, T0; lra).
    assert (NP : forall a b, a <= 0 -> 0 <= b -> a * b <= 0 /\ b * a <= 0) by (intros; split; nra).
    cbn [bracket_up e_b]. rewrite (proj2 (rltb_false 0 _)) by (refine (proj1 (NP _ _ _ _)); unfold u, T0; lra).
    cbn [bind e_b e_T]. rewrite (proj2 (rltb_false 0 _)) by (refine (proj2 (NP _ _ _ _)); unfold u, T0; lra).
    assert (M : 1 / 2 * (1 + 10) = 11 / 2) by lra.
    cbn [bisect e_T e_k e_kp e_g e_mu]. rewrite M. rewrite (EB (11 / 2)) by lra.
    replace (11 / 2 / (((10 - 11 / 2) / (10 - 1) * 2 + (1 - (10 - 11 / 2) / (10 - 1)) * 1) * ((10 - 11 / 2) / (10 - 1) * 2 + (1 - (10 - 11 / 2) / (10 - 1)) * 2 - 1)))
      with (11 / 3) by field.
    destruct (Req_EM_T _ 0) as [Z0|_]; [exfalso; unfold u, T0 in Z0; lra|].
    rewrite (proj2 (rltb_false _ 0)).
    2:{ replace (1 / 1 - u + 1 ^ 4) with (2 - u) by field. unfold u, T0. nra. }
    cbn iota beta.
    rewrite (proj2 (rltb_true _ (Rabs _))).
    2:{ rewrite Rabs_left by (unfold u, T0; lra). pose proof tol_1. unfold u, T0. lra. }
    rewrite (proj2 (rltb_true _ (10 - 11 / 2))) by (pose proof tol_1; lra). cbn [andb].
    replace (1 / 2 * (11 / 2 + 10)) with T0 by (unfold T0; lra). rewrite (EB T0) by lra.
    destruct (Req_EM_T _ 0) as [_|N0]; [cbn [bind]; f_equal; lra|]. exfalso. apply N0. unfold u, T0. field.
  - intros T TP H. cbn zeta. rewrite LS in H. rewrite !TT. cbn [eos_mu tabw INR].
    assert (T = T0).
    { destruct (Rtotal_order T T0) as [L|[L|L]]; [|exact L|].
      - pose proof (pow4_lt T T0 TP L). lra.
      - pose proof (pow4_lt T0 T ltac:(unfold T0; lra) L). lra. }
    subst T. split; [reflexivity|]. split; [unfold T0; cbn [pow]; field|]. unfold u, T0. field.
Qed.

(** ** The state for which cooling is computed *)
(** Internal energy of the conserved variables. *)
Definition q_int (ndim : nat) (q : qcons) : R := q_E q - dot ndim (q_p q) (q_p q) / (2 * q_m q).
Lemma fold_add (f : nat -> R) n : forall s E, fold_left (fun E k => E + f k) (seq s n) E = E + sumf n (fun k => f (s + k)%nat).
Proof.
  induction n as [|n IH]; intros s E0; cbn [seq fold_left]; [cbn [sumf]; lra|]. rewrite IH.
  assert (X : forall m g, sumf (S m) g = g 0%nat + sumf m (fun k => g (S k))).
  { induction m as [|m IM]; intros g; [cbn [sumf]; lra|]. change (sumf (S (S m)) g) with (sumf (S m) g + g (S m)). rewrite IM. cbn [sumf]. lra. }
  rewrite X. rewrite Nat.add_0_r. rewrite Rplus_assoc. do 2 f_equal. apply sumf_ext. intros k _. f_equal. lia.
Qed.
(** At the end of a step without fluxes the momentum changes by the mean of the two forces, and the internal energy by
    m dt^2 |a - a0|^2 / 8: not at all in a steady field. *)
Theorem C78_end : forall ndim q0 dq a0 a dt, (forall k, q_p dq k = 0) -> q_m dq = 0 -> q_E dq = 0 -> 0 < q_m q0 ->
  let q := predict_end ndim q0 dq a0 a dt in
  (forall k, q_p q k = q_p q0 k + q_m q0 * (1 / 2 * (a0 k + a k)) * dt) /\ q_m q = q_m q0 /\
  q_int ndim q = q_int ndim q0 + q_m q0 * dt ^ 2 / 8 * dot ndim (vsub a a0) (vsub a a0).
Proof.
  intros ndim q0 dq a0 a dt P M EN MP q.
  assert (PK : forall k, q_p q k = q_p q0 k + q_m q0 * (1 / 2 * (a0 k + a k)) * dt).
  { intros k. unfold q, predict_end. cbn [q_p]. rewrite P, M. ring. }
  assert (QM : q_m q = q_m q0) by (unfold q, predict_end; cbn [q_m]; rewrite M; ring).
  split; [exact PK|]. split; [exact QM|]. unfold q_int. rewrite QM.
  assert (QE : q_E q = q_E q0 + sumf ndim (fun k => 1 / 2 * dt * (a0 k * (q_p q0 k + 1 / 2 * q_m q0 * a0 k * dt) + a k * (q_p q0 k + 1 / 2 * q_m q0 * a k * dt)))).
  { unfold q, predict_end. cbn [q_E]. rewrite (fold_add (fun k => 1 / 2 * dt * _)). rewrite EN. cbn [Nat.add].
    rewrite Rplus_0_r. f_equal. apply sumf_ext. intros k _. rewrite P, M. ring. }
  rewrite QE. unfold dot. clearbody q.
  assert (S1 : sumf ndim (fun k => q_p q k * q_p q k) = sumf ndim (fun k => q_p q0 k * q_p q0 k) +
     2 * q_m q0 * (sumf ndim (fun k => 1 / 2 * dt * (a0 k * (q_p q0 k + 1 / 2 * q_m q0 * a0 k * dt) + a k * (q_p q0 k + 1 / 2 * q_m q0 * a k * dt))) -
     q_m q0 * dt ^ 2 / 8 * sumf ndim (fun k => vsub a a0 k * vsub a a0 k))).
  { clear QE. induction ndim as [|n IH]; cbn [sumf]; [ring|]. rewrite IH, PK. unfold vsub. field. }
  rewrite S1. field. lra.
Qed.
(** At the start of a step the acceleration is left out of the momentum: gas at rest that nothing acts on is given the momentum m dt in
    every direction, and its internal energy for the cooling is short of m dt^2 / 2 for each. *)
Theorem C78_start_refuted : forall ndim m e dt, 0 < m ->
  let z := fun _ : nat => 0 in let q0 := mkq z m e in let q := predict_start ndim q0 (mkq z 0 0) z z dt in
  (forall k, q_p q k = m * dt) /\ q_int ndim q = q_int ndim q0 - INR ndim * (m * dt ^ 2 / 2).
Proof.
  intros ndim m e dt M z q0 q.
  assert (PK : forall k, q_p q k = m * dt) by (intros k; unfold q, predict_start, q0, z; cbn [q_p q_m]; ring).
  split; [exact PK|]. unfold q_int.
  assert (QE : q_E q = e).
  { unfold q, predict_start. cbn [q_E]. rewrite (fold_add (fun k => 1 / 2 * dt * _)). cbn [q_E q_m q_p q0 z].
    rewrite (sumf_ext ndim _ (fun _ => 0)) by (intros k _; unfold z; ring). replace (sumf ndim (fun _ => 0)) with 0; [ring|].
    clear. induction ndim as [|n IH]; cbn [sumf]; [reflexivity|]. rewrite <- IH. ring. }
  assert (QM : q_m q = m) by (unfold q, predict_start, q0; cbn [q_m]; ring).
  rewrite QE, QM. cbn [q_E q_m q_p q0].
  assert (S1 : dot ndim (q_p q) (q_p q) = INR ndim * (m * dt) ^ 2).
  { unfold dot. clear QE QM. clearbody q. induction ndim as [|n IH]; [cbn [sumf]; change (INR 0) with 0; ring|]. cbn [sumf]. rewrite IH, PK, S_INR. ring. }
  assert (S0 : dot ndim z z = 0). { unfold dot, z. clear. induction ndim as [|n IH]; cbn [sumf]; [reflexivity|]. rewrite IH. ring. }
  rewrite S1, S0. field. lra.
Qed.
(** The loss over a step takes at most 19/20 of the energy and is unchanged if it takes less. *)
Theorem C78_clip : forall heating u dt, 0 < dt -> 0 <= u ->
  u / 20 <= u + clip heating u dt * dt /\ (u / 20 <= u + heating * dt -> clip heating u dt = heating).
Proof.
  intros h u dt D U. unfold clip.
  assert (X : - (95 / 100) * u / dt * dt = - (95 / 100) * u) by (field; lra).
  split.
  - pose proof (Rmax_r h (- (95 / 100) * u / dt)) as M. apply (Rmult_le_compat_r dt) in M; [|lra]. rewrite X in M. lra.
  - intros H. apply Rmax_left. apply (Rmult_le_reg_r dt); [exact D|]. rewrite X. lra.
Qed.
Print Assumptions C78_heating.
Print Assumptions C78_heating_refuted.
Print Assumptions C78_cooling.
Print Assumptions C78_cooling_refuted.
Print Assumptions C78_floor.
Print Assumptions C78_slope.
Print Assumptions C78_implicit.
Print Assumptions C78_top_refuted.
Print Assumptions C78_entry_refuted.
Print Assumptions C78_weights_refuted.
Print Assumptions C78_end.
Print Assumptions C78_start_refuted.
Print Assumptions C78_clip.
