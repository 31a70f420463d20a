(** Lemmas for the implicit update on a row of constant opacity, gamma and mean molecular weight. *)
From Verif Require Import Prelude Vec M_Box L_Box M_Eos M_Radws S_Radws L_Radws L_Cool.
From Coq Require Import Reals Lra Lia Psatz List.
Import ListNotations.
Local Open Scope R_scope.

Lemma tol_pos : 0 < tolerance.
Proof. apply Rinv_0_lt_compat, pow_lt. lra. Qed.
Lemma tol_1 : tolerance <= 1 / 2.
Proof.
  unfold tolerance. replace (1 / 2) with (/ 2) by lra. apply Rinv_le_contravar; [lra|]. replace 12%nat with (11 + 1)%nat by reflexivity.
  rewrite pow_add, pow_1. assert (1 <= 10 ^ 11) by (apply pow_R1_Rle; lra). lra.
Qed.

Section Implicit.
Variables (t : table) (idens : nat) (rad k kp col2 Ta : R).
Hypothesis KA : forall i, (i < ntemp t)%nat -> kappa_table t idens i = k /\ kappap_table t idens i = kp.
Hypothesis RAD : 0 < rad.
Hypothesis K0 : 0 <= col2 * k.
Hypothesis KP : 0 < kp.
Hypothesis RT : rises (ntemp t) (eos_temp t).
Variables (g mu u d dt : R).
Hypothesis GM : forall i, (i < ntemp t)%nat -> eos_gamma t idens i = g /\ eos_mu t idens i = mu.
Hypothesis G1 : 1 < g.
Hypothesis MU : 0 < mu.
Hypothesis DT : 0 <= dt.

(** Heating at the temperature [T] and the residual of the energy equation there. *)
Definition heat (T : R) : R := ebalance rad d Ta T k kp col2.
Definition G (T : R) : R := T / (mu * (g - 1)) - u - heat T * dt.
Lemma heat_eq T : heat T = d - cool rad k kp col2 * (T ^ 4 - Ta ^ 4).
Proof. apply ebalance_eq; assumption. Qed.
Lemma G_lt a b : 0 <= a -> a < b -> G a < G b.
Proof.
  intros A B. unfold G. rewrite !heat_eq. assert (M : 0 < / (mu * (g - 1))) by (apply Rinv_0_lt_compat, Rmult_lt_0_compat; lra).
  pose proof (pow4_lt a b A B) as P. pose proof (cool_pos rad k kp col2 RAD K0 KP) as C.
  assert (a / (mu * (g - 1)) < b / (mu * (g - 1))) by (apply Rmult_lt_compat_r; assumption).
  assert (0 <= cool rad k kp col2 * (b ^ 4 - a ^ 4) * dt) by (apply Rmult_le_pos; [apply Rmult_le_pos; lra|exact DT]). lra.
Qed.
Variable Ts : R.
Hypothesis TSP : 0 < Ts.
Hypothesis ROOT : G Ts = 0.
Lemma G_neg T : 0 <= T -> T < Ts -> G T < 0.
Proof. intros A B. rewrite <- ROOT. now apply G_lt. Qed.
Lemma G_pos T : Ts < T -> 0 < G T.
Proof. intros B. rewrite <- ROOT. apply G_lt; [lra|exact B]. Qed.

Definition E (T : R) : en := mken T k kp g mu (G T).
Lemma end_at_ok i : (0 <= i < Z.of_nat (ntemp t))%Z -> end_at t rad idens u Ta col2 d dt i = Ok (E (tabT t (Z.to_nat i))).
Proof.
  intros H. unfold end_at. rewrite tab_temp_ok by exact H. cbn [bind]. rewrite !idx_ok by exact H. cbn [bind].
  rewrite (GetKappa_ok t idens k kp KA) by exact H. cbn [bind fst snd].
  destruct (GM (Z.to_nat i)) as [-> ->]; [lia|]. reflexivity.
Qed.
Lemma end_at_bad i : (i < 0 \/ Z.of_nat (ntemp t) <= i)%Z -> end_at t rad idens u Ta col2 d dt i = UB.
Proof. intros H. unfold end_at. now rewrite tab_temp_bad. Qed.

Lemma bracket_up_ok : Ts <= tabT t (ntemp t - 1) ->
  forall n fuel (i : nat), (ntemp t - 2 - i <= n)%nat -> (n < fuel)%nat -> (S i < ntemp t)%nat -> tabT t i < Ts ->
  exists a b, bracket_up t rad idens u Ta col2 d dt fuel (Z.of_nat i) (E (tabT t i)) (E (tabT t (S i))) = Ok (E a, E b) /\ 0 < a < Ts /\ Ts <= b.
Proof.
  intros TOP. induction n as [|n IH]; intros fuel i D F I TI; (destruct fuel as [|fuel]; [lia|]); cbn [bracket_up e_b E];
    pose proof (G_neg _ ltac:(left; apply (tabT_pos t i)) TI) as GN.
  - assert (ntemp t - 1 = S i)%nat as Q by lia. rewrite Q in TOP.
    assert (0 <= G (tabT t (S i))) by (destruct TOP as [L|L]; [left; now apply G_pos|rewrite <- L, ROOT; lra]).
    rewrite (proj2 (rltb_false _ _)) by nra. eexists _, _. split; [reflexivity|]. pose proof (tabT_pos t i). lra.
  - destruct (rltb 0 (G (tabT t i) * G (tabT t (S i)))) eqn:SG.
    + apply rltb_true in SG. rewrite (proj2 (Z.ltb_ge _ _)) by lia.
      assert (TH : tabT t (S i) < Ts).
      { destruct (Rlt_or_le (tabT t (S i)) Ts) as [L|[L|L]]; [exact L| |].
        - exfalso. pose proof (G_pos _ L). nra.
        - exfalso. rewrite <- L, ROOT in SG. lra. }
      assert (HN : (S (S i) < ntemp t)%nat).
      { destruct (Nat.eq_dec (S i) (ntemp t - 1)) as [Q|]; [rewrite <- Q in TOP; lra|lia]. }
      rewrite end_at_ok by lia. cbn [bind]. replace (Z.to_nat (Z.of_nat i + 1 + 1)) with (S (S i)) by lia.
      replace (Z.of_nat i + 1)%Z with (Z.of_nat (S i)) by lia. apply IH; [lia|lia|lia|exact TH].
    + apply rltb_false in SG. eexists _, _. split; [reflexivity|]. pose proof (tabT_pos t i). split; [lra|].
      destruct (Rle_or_lt Ts (tabT t (S i))) as [L|L]; [exact L|]. exfalso.
      pose proof (G_neg _ ltac:(left; apply (tabT_pos t (S i))) L). nra.
Qed.
Lemma bracket_up_off : tabT t (ntemp t - 1) < Ts ->
  forall n fuel (i : nat), (ntemp t - 2 - i <= n)%nat -> (n < fuel)%nat -> (S i < ntemp t)%nat ->
  bracket_up t rad idens u Ta col2 d dt fuel (Z.of_nat i) (E (tabT t i)) (E (tabT t (S i))) = UB.
Proof.
  intros TOP. pose proof (tabT_rises t RT) as RTT.
  assert (ALL : forall h, (h < ntemp t)%nat -> G (tabT t h) < 0).
  { intros h H. apply G_neg; [left; apply tabT_pos|]. destruct (Nat.eq_dec h (ntemp t - 1)) as [->|NE]; [exact TOP|].
    pose proof (RTT h (ntemp t - 1)%nat ltac:(lia)). lra. }
  induction n as [|n IH]; intros fuel i D F I; (destruct fuel as [|fuel]; [lia|]); cbn [bracket_up e_b E];
    pose proof (ALL i ltac:(lia)); pose proof (ALL (S i) I); rewrite (proj2 (rltb_true _ _)) by nra; rewrite (proj2 (Z.ltb_ge _ _)) by lia.
  - rewrite end_at_bad by lia. reflexivity.
  - destruct (Nat.eq_dec (S i) (ntemp t - 1)) as [Q|Q]; [rewrite end_at_bad by lia; reflexivity|].
    rewrite end_at_ok by lia. cbn [bind]. replace (Z.to_nat (Z.of_nat i + 1 + 1)) with (S (S i)) by lia.
    replace (Z.of_nat i + 1)%Z with (Z.of_nat (S i)) by lia. apply IH; lia.
Qed.
Lemma bracket_down_ok : (forall i, (i < ntemp t)%nat -> tabT t i <> Ts) ->
  forall (i : nat) fuel h, (S i < fuel)%nat -> (i < ntemp t)%nat -> Ts < tabT t i -> Ts < h ->
  exists a b, bracket_down t rad idens u Ta col2 d dt fuel (Z.of_nat i) (E (tabT t i)) (E h) = Ok (E a, E b) /\ 0 <= a < Ts /\ Ts < b.
Proof.
  intros NE. induction i as [|i IH]; intros fuel h F I TI TH; (destruct fuel as [|fuel]; [lia|]); cbn [bracket_down e_b E];
    pose proof (G_pos _ TI) as GI; pose proof (G_pos _ TH) as GH; rewrite (proj2 (rltb_true _ _)) by (apply Rmult_lt_0_compat; assumption).
  - cbn [Z.of_nat Z.ltb Z.compare]. exists 0, (tabT t 0). split; [reflexivity|]. lra.
  - rewrite (proj2 (Z.ltb_lt _ _)) by lia. rewrite end_at_ok by lia. cbn [bind].
    replace (Z.to_nat (Z.of_nat (S i) - 1)) with i by lia. replace (Z.of_nat (S i) - 1)%Z with (Z.of_nat i) by lia.
    destruct (Rlt_or_le Ts (tabT t i)) as [L|L].
    + apply IH; [lia|lia|exact L|exact TI].
    + assert (L' : tabT t i < Ts) by (pose proof (NE i ltac:(lia)); lra).
      destruct fuel as [|fuel]; [lia|]. cbn [bracket_down e_b E]. pose proof (G_neg _ ltac:(left; apply (tabT_pos t i)) L').
      rewrite (proj2 (rltb_false _ _)) by nra. eexists _, _. split; [reflexivity|]. pose proof (tabT_pos t i). lra.
Qed.

(** The answer at the temperature [T]. *)
Definition answer (T : R) : Prop := Rabs (G T) <= tolerance * (T / (mu * (g - 1))) \/ Rabs (T - Ts) <= tolerance * Ts.
Lemma bisect_step lo hi TLow bLow THigh n : e_k lo = k -> e_k hi = k -> e_kp lo = kp -> e_kp hi = kp -> e_g lo = g -> e_g hi = g ->
  e_mu lo = mu -> e_mu hi = mu -> let Tc := 1 / 2 * (TLow + THigh) in
  bisect rad u Ta col2 d dt (S n) lo hi TLow bLow THigh =
    if Req_EM_T (G Tc) 0 then Ok (heat Tc)
    else let '(TLow', bLow', THigh') := if rltb (G Tc * bLow) 0 then (TLow, bLow, Tc) else (Tc, G Tc, THigh) in
      if (rltb (tolerance * (Tc / (mu * (g - 1)))) (Rabs (G Tc)) && rltb (tolerance * TLow') (THigh' - TLow'))%bool
      then bisect rad u Ta col2 d dt n lo hi TLow' bLow' THigh' else Ok (heat Tc).
Proof.
  intros E1 E2 E3 E4 E5 E6 E7 E8 Tc. cbn [bisect]. rewrite E1, E2, E3, E4, E5, E6, E7, E8. fold Tc.
  set (f := (e_T hi - Tc) / (e_T hi - e_T lo)).
  assert (MIX : forall a, f * a + (1 - f) * a = a) by (intros; ring). rewrite !MIX. reflexivity.
Qed.
Lemma bisect_ok lo hi : e_k lo = k -> e_k hi = k -> e_kp lo = kp -> e_kp hi = kp -> e_g lo = g -> e_g hi = g -> e_mu lo = mu -> e_mu hi = mu ->
  forall n fuel TLow THigh, (n < fuel)%nat -> 0 <= TLow -> TLow < Ts -> Ts <= THigh ->
  (THigh - TLow) / 2 <= 2 ^ n * (tolerance * Ts / 2) ->
  exists T, bisect rad u Ta col2 d dt fuel lo hi TLow (G TLow) THigh = Ok (heat T) /\ 0 < T /\ answer T.
Proof.
  intros E1 E2 E3 E4 E5 E6 E7 E8. pose proof tol_pos as TP. pose proof tol_1 as T1.
  induction n as [|n IH]; intros fuel TLow THigh F L0 L1 H1 W; (destruct fuel as [|fuel]; [lia|]); rewrite bisect_step by assumption; cbn zeta;
    set (Tc := 1 / 2 * (TLow + THigh)) in *; pose proof (G_neg TLow L0 L1) as GN; assert (TC0 : 0 < Tc) by (unfold Tc; lra).
  - exists Tc. assert (A : answer Tc /\ True).
    { split; [|exact I]. right. cbn [pow] in W. apply Rabs_le. unfold Tc. split; nra. }
    destruct A as [A _]. split; [|split; [exact TC0|exact A]].
    destruct (Req_EM_T (G Tc) 0) as [_|NE]; [reflexivity|].
    destruct (rltb (G Tc * G TLow) 0) eqn:SG; cbn iota beta.
    + destruct (rltb (tolerance * TLow) (Tc - TLow)) eqn:Q; [|now rewrite Bool.andb_false_r]. exfalso. apply rltb_true in Q.
      cbn [pow] in W. assert (Tc - TLow <= tolerance * Ts / 2) by (unfold Tc; lra).
      assert (Ts / 2 <= TLow). { assert (Tc >= Ts). { apply rltb_true in SG. destruct (Rlt_or_le Tc Ts) as [X|X]; [|lra]. exfalso. pose proof (G_neg Tc ltac:(lra) X). nra. } nra. }
      nra.
    + destruct (rltb (tolerance * Tc) (THigh - Tc)) eqn:Q; [|now rewrite Bool.andb_false_r]. exfalso. apply rltb_true in Q.
      cbn [pow] in W. assert (THigh - Tc <= tolerance * Ts / 2) by (unfold Tc; lra).
      assert (Ts / 2 <= Tc). { unfold Tc in *. nra. } nra.
  - destruct (Req_EM_T (G Tc) 0) as [GZ|NE].
    { exists Tc. split; [reflexivity|]. split; [exact TC0|]. left. rewrite GZ, Rabs_R0. apply Rmult_le_pos; [lra|].
      apply Rmult_le_pos; [lra|]. left. apply Rinv_0_lt_compat, Rmult_lt_0_compat; lra. }
    destruct (rltb (tolerance * (Tc / (mu * (g - 1)))) (Rabs (G Tc))) eqn:Q1.
    2:{ exists Tc. apply rltb_false in Q1. split; [|split; [exact TC0|left; exact Q1]].
        destruct (rltb (G Tc * G TLow) 0); reflexivity. }
    destruct (rltb (G Tc * G TLow) 0) eqn:SG; cbn iota beta; cbn [andb].
    + apply rltb_true in SG. assert (TCS : Ts <= Tc).
      { destruct (Rle_or_lt Ts Tc) as [X|X]; [exact X|]. exfalso. pose proof (G_neg Tc ltac:(lra) X). nra. }
      destruct (rltb (tolerance * TLow) (Tc - TLow)) eqn:Q2.
      * apply IH; [lia|exact L0|exact L1|exact TCS|]. unfold Tc. cbn [pow] in W. lra.
      * apply rltb_false in Q2. exists Tc. split; [reflexivity|]. split; [exact TC0|]. right. apply Rabs_le. nra.
    + apply rltb_false in SG. assert (TCS : Tc < Ts).
      { destruct (Rlt_or_le Tc Ts) as [X|[X|X]]; [exact X| |].
        - exfalso. pose proof (G_pos Tc X). nra.
        - exfalso. apply NE. rewrite <- X. exact ROOT. }
      destruct (rltb (tolerance * Tc) (THigh - Tc)) eqn:Q2.
      * apply IH; [lia|lra|exact TCS|exact H1|]. unfold Tc. cbn [pow] in W. lra.
      * apply rltb_false in Q2. exists Tc. split; [reflexivity|]. split; [exact TC0|]. right. apply Rabs_le. nra.
Qed.
(** Once the residual at the lower end is not negative, the lower end only rises. *)
Lemma bisect_miss lo hi : e_k lo = k -> e_k hi = k -> e_kp lo = kp -> e_kp hi = kp -> e_g lo = g -> e_g hi = g -> e_mu lo = mu -> e_mu hi = mu ->
  forall fuel TLow bLow THigh h, Ts <= TLow -> TLow < THigh -> 0 <= bLow ->
  bisect rad u Ta col2 d dt fuel lo hi TLow bLow THigh = Ok h -> exists T, h = heat T /\ 1 / 2 * (TLow + THigh) <= T.
Proof.
  intros E1 E2 E3 E4 E5 E6 E7 E8. induction fuel as [|fuel IH]; intros TLow bLow THigh h L LT B; [cbn [bisect]; discriminate|].
  rewrite bisect_step by assumption. cbn zeta. set (Tc := 1 / 2 * (TLow + THigh)).
  assert (GP : 0 < G Tc) by (apply G_pos; unfold Tc; lra).
  destruct (Req_EM_T (G Tc) 0) as [_|_]; [intros [= <-]; exists Tc; split; [reflexivity|lra]|].
  rewrite (proj2 (rltb_false _ _)) by (apply Rmult_le_pos; lra). cbn iota beta.
  destruct (_ && _)%bool; [|intros [= <-]; exists Tc; split; [reflexivity|lra]].
  intros H. destruct (IH Tc (G Tc) THigh h) as (T & A & C); [unfold Tc; lra|unfold Tc; lra|lra|exact H|].
  exists T. split; [exact A|]. unfold Tc in *. lra.
Qed.
End Implicit.
Lemma bracket_up_fuel t rad idens u Ta col2 d dt : forall f f' i lo hi, bracket_up t rad idens u Ta col2 d dt f i lo hi <> NoFuel -> (f <= f')%nat ->
  bracket_up t rad idens u Ta col2 d dt f' i lo hi = bracket_up t rad idens u Ta col2 d dt f i lo hi.
Proof.
  induction f as [|f IH]; intros f' i lo hi H L; [cbn in H; congruence|]. destruct f' as [|f']; [lia|]. cbn [bracket_up] in *.
  destruct (rltb 0 _); [|reflexivity]. destruct (_ <? _)%Z; [reflexivity|].
  destruct (end_at _ _ _ _ _ _ _ _ _) as [x| | |]; cbn [bind] in *; try reflexivity. apply IH; [exact H|lia].
Qed.
Lemma bracket_down_fuel t rad idens u Ta col2 d dt : forall f f' i lo hi, bracket_down t rad idens u Ta col2 d dt f i lo hi <> NoFuel -> (f <= f')%nat ->
  bracket_down t rad idens u Ta col2 d dt f' i lo hi = bracket_down t rad idens u Ta col2 d dt f i lo hi.
Proof.
  induction f as [|f IH]; intros f' i lo hi H L; [cbn in H; congruence|]. destruct f' as [|f']; [lia|]. cbn [bracket_down] in *.
  destruct (rltb 0 _); [|reflexivity]. destruct (_ <? _)%Z; [|reflexivity].
  destruct (end_at _ _ _ _ _ _ _ _ _) as [x| | |]; cbn [bind] in *; try reflexivity. apply IH; [exact H|lia].
Qed.
