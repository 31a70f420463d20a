(** Lemmas for the equilibrium temperature and the implicit update on a row of constant opacity. *)
From Verif Require Import Prelude Vec M_Box L_Box M_Eos M_Radws S_Radws L_Radws.
From Coq Require Import Reals Lra Lia Psatz List.
Import ListNotations.
Local Open Scope R_scope.

Lemma idx_ok n f i : (0 <= i < Z.of_nat n)%Z -> idx n f i = Ok (f (Z.to_nat i)).
Proof. intros H. unfold idx. rewrite (proj2 (Z.leb_le _ _)) by lia. rewrite (proj2 (Z.ltb_lt _ _)) by lia. reflexivity. Qed.
Lemma idx_bad n f i : (i < 0 \/ Z.of_nat n <= i)%Z -> idx n f i = UB.
Proof.
  intros H. unfold idx. destruct (Z.leb_spec 0 i); [|reflexivity]. destruct (Z.ltb_spec i (Z.of_nat n)); [lia|reflexivity].
Qed.
Lemma pow4_lt a b : 0 <= a -> a < b -> a ^ 4 < b ^ 4.
Proof.
  intros A B. assert (0 <= a ^ 2 < b ^ 2) by nra. replace (a ^ 4) with (a ^ 2 * a ^ 2) by ring. replace (b ^ 4) with (b ^ 2 * b ^ 2) by ring. nra.
Qed.
Lemma pow4_le a b : 0 <= a -> a <= b -> a ^ 4 <= b ^ 4.
Proof. intros A [B | ->]; [left; now apply pow4_lt|lra]. Qed.
(** Temperature of entry [i]. *)
Definition tabT (t : table) (i : nat) : R := Rpower 10 (eos_temp t i).
Lemma tabT_pos t i : 0 < tabT t i.
Proof. apply exp_pos. Qed.
Lemma tabT_rises t : rises (ntemp t) (eos_temp t) -> rises (ntemp t) (tabT t).
Proof. intros H i j L. apply Rpower_lt; [lra|]. now apply H. Qed.
Lemma tab_temp_ok t i : (0 <= i < Z.of_nat (ntemp t))%Z -> tab_temp t i = Ok (tabT t (Z.to_nat i)).
Proof. intros H. unfold tab_temp. rewrite idx_ok by exact H. reflexivity. Qed.
Lemma tab_temp_bad t i : (i < 0 \/ Z.of_nat (ntemp t) <= i)%Z -> tab_temp t i = UB.
Proof. intros H. unfold tab_temp. now rewrite idx_bad. Qed.

Section Grey.
Variables (t : table) (idens : nat) (rad k kp col2 Ta : R).
Hypothesis KA : forall i, (i < ntemp t)%nat -> kappa_table t idens i = k /\ kappap_table t idens i = kp.
Hypothesis RAD : 0 < rad.
Hypothesis K0 : 0 <= col2 * k.
Hypothesis KP : 0 < kp.
Hypothesis RT : rises (ntemp t) (eos_temp t).

Definition cool : R := 4 * rad / (col2 * k + 1 / kp).
Lemma cool_pos : 0 < cool.
Proof.
  unfold cool. assert (0 < 1 / kp) by (apply Rdiv_lt_0_compat; lra). apply Rdiv_lt_0_compat; lra.
Qed.
Lemma ebalance_eq d T : ebalance rad d Ta T k kp col2 = d - cool * (T ^ 4 - Ta ^ 4).
Proof. unfold ebalance, cool. assert (0 < 1 / kp) by (apply Rdiv_lt_0_compat; lra). unfold Rdiv. ring. Qed.
Lemma GetKappa_ok i : (0 <= i < Z.of_nat (ntemp t))%Z -> GetKappa t idens i = Ok (k, kp).
Proof.
  intros H. unfold GetKappa. rewrite !idx_ok by exact H. cbn [bind].
  destruct (KA (Z.to_nat i)) as [-> ->]; [lia|reflexivity].
Qed.

Section Equi.
Variables (dudt Teq : R).
Hypothesis TP : 0 < Teq.
Hypothesis EQ : dudt = cool * (Teq ^ 4 - Ta ^ 4).
Lemma bal_eq T : ebalance rad dudt Ta T k kp col2 = cool * (Teq ^ 4 - T ^ 4).
Proof. rewrite ebalance_eq, EQ. ring. Qed.
Lemma bal_pos T : 0 <= T -> T < Teq -> 0 < ebalance rad dudt Ta T k kp col2.
Proof. intros A B. rewrite bal_eq. apply Rmult_lt_0_compat; [apply cool_pos|]. pose proof (pow4_lt _ _ A B). lra. Qed.
Lemma bal_neg T : Teq < T -> ebalance rad dudt Ta T k kp col2 < 0.
Proof. intros B. rewrite bal_eq. pose proof cool_pos. pose proof (pow4_lt Teq T ltac:(lra) B). nra. Qed.
Lemma bal_zero : ebalance rad dudt Ta Teq k kp col2 = 0.
Proof. rewrite bal_eq. ring. Qed.

(** A bracket of the root on the grey row. *)
Record good (b : br) : Prop := mkgood {
  g_lo : 0 < Tlo b; g_root : Tlo b < Teq; g_hi : Teq <= Thi b;
  g_k : klo b = k /\ kplo b = kp /\ khi b = k /\ kphi b = kp;
  g_b : blo b = ebalance rad dudt Ta (Tlo b) k kp col2 }.

Lemma refine_ok (i : Z) (I : (0 <= i < Z.of_nat (ntemp t))%Z) : forall m n fuel b, (n < fuel)%nat -> good b -> 0 < m -> m <= Tlo b ->
  Thi b - Tlo b <= 2 ^ n * (m / 1000) ->
  exists T, Rabs (T - Teq) <= Teq / 1000 /\
    (((Ta <= T \/ T = Teq) /\ refine t rad idens Ta col2 dudt fuel b (1 / 2 * (Thi b + Tlo b)) k kp i = Ok T) \/
     (T < Ta /\ refine t rad idens Ta col2 dudt fuel b (1 / 2 * (Thi b + Tlo b)) k kp i = Ok Ta)).
Proof.
  intros m. induction n as [|n IH]; intros fuel b F [LO RO HI (K1 & K2 & K3 & K4) B] M ML W.
  - destruct fuel as [|fuel]; [lia|]. cbn [refine].
    assert (S0 : 0 < Thi b + Tlo b) by lra.
    assert (NT : rltb (1 / 1000) (Rabs (2 * (Thi b - Tlo b) / (Thi b + Tlo b))) = false).
    { apply rltb_false. rewrite Rabs_right.
      - apply (Rmult_le_reg_r (Thi b + Tlo b)); [exact S0|]. unfold Rdiv at 1. rewrite Rmult_assoc, Rinv_l by lra. cbn [pow] in W. lra.
      - apply Rle_ge, Rmult_le_pos; [lra|]. left. now apply Rinv_0_lt_compat. }
    rewrite NT. exists (1 / 2 * (Thi b + Tlo b)). split.
    { cbn [pow] in W. apply Rabs_le. lra. }
    destruct (Req_EM_T (Thi b - Tlo b) 0) as [E|_]; [lra|].
    destruct (rltb (1 / 2 * (Thi b + Tlo b)) Ta) eqn:E; [right|left; split; [left; apply rltb_false in E; exact E|reflexivity]]. apply rltb_true in E. auto.
  - destruct fuel as [|fuel]; [lia|]. cbn [refine].
    set (Tc := 1 / 2 * (Thi b + Tlo b)).
    assert (S0 : 0 < Thi b + Tlo b) by lra.
    destruct (Req_EM_T (Thi b - Tlo b) 0) as [E|_]; [lra|].
    destruct (rltb (1 / 1000) (Rabs (2 * (Thi b - Tlo b) / (Thi b + Tlo b)))) eqn:NT.
    + rewrite GetKappa_ok by exact I. cbn [bind fst snd].
      destruct (Req_EM_T (ebalance rad dudt Ta Tc k kp col2) 0) as [E|E].
      * exists Tc. assert (TE : Tc = Teq).
        { destruct (Rtotal_order Tc Teq) as [L|[L|L]]; [|exact L|].
          - pose proof (bal_pos Tc ltac:(unfold Tc; lra) L). lra.
          - pose proof (bal_neg Tc L). lra. }
        split; [rewrite TE|left; split; [right; exact TE|reflexivity]].
        replace (Teq - Teq) with 0 by lra. rewrite Rabs_R0. lra.
      * assert (BP : 0 < blo b) by (rewrite B; apply bal_pos; lra).
        set (bal := ebalance rad dudt Ta Tc k kp col2) in *.
        destruct (rltb (blo b * bal) 0) eqn:S.
        -- apply rltb_true in S.
           assert (TC : Teq <= Tc).
           { destruct (Rle_or_lt Teq Tc) as [H|H]; [exact H|]. exfalso. pose proof (bal_pos Tc ltac:(unfold Tc; lra) H) as H1. fold bal in H1. nra. }
           cbn [Tlo klo kplo blo Thi khi kphi bhi].
           replace ((k + k) / 2) with k by field. replace ((kp + kp) / 2) with kp by field.
           destruct (IH fuel (mkbr (Tlo b) k kp (blo b) Tc k kp bal)) as (T & T1 & T2); [lia| |exact M|exact ML| |].
           { constructor; cbn [Tlo klo kplo blo Thi khi kphi bhi]; auto. }
           { cbn [Tlo Thi]. unfold Tc. cbn [pow] in W. lra. }
           exists T. split; [exact T1|]. cbn [Tlo Thi] in T2. exact T2.
        -- apply rltb_false in S.
           assert (TC : Tc < Teq).
           { destruct (Rlt_or_le Tc Teq) as [H|[H|H]]; [exact H| |].
             - exfalso. pose proof (bal_neg Tc H) as H1. fold bal in H1. nra.
             - exfalso. apply E. unfold bal. rewrite <- H. apply bal_zero. }
           cbn [Tlo klo kplo blo Thi khi kphi bhi]. rewrite K3, K4.
           replace ((k + k) / 2) with k by field. replace ((kp + kp) / 2) with kp by field.
           destruct (IH fuel (mkbr Tc k kp bal (Thi b) k kp (bhi b))) as (T & T1 & T2); [lia| |exact M|cbn [Tlo]; unfold Tc; lra| |].
           { constructor; cbn [Tlo klo kplo blo Thi khi kphi bhi]; auto. unfold Tc; lra. }
           { cbn [Tlo Thi]. unfold Tc. cbn [pow] in W. lra. }
           exists T. split; [exact T1|]. cbn [Tlo Thi] in T2. exact T2.
    + apply rltb_false in NT. exists Tc. split.
      { rewrite Rabs_right in NT.
        2:{ apply Rle_ge, Rmult_le_pos; [lra|]. left. now apply Rinv_0_lt_compat. }
        assert (2 * (Thi b - Tlo b) <= 1 / 1000 * (Thi b + Tlo b)).
        { apply (Rmult_le_compat_r (Thi b + Tlo b)) in NT; [|lra]. unfold Rdiv at 1 in NT. rewrite Rmult_assoc, Rinv_l in NT by lra. lra. }
        apply Rabs_le. unfold Tc. lra. }
      destruct (rltb Tc Ta) eqn:E; [right|left; split; [left; apply rltb_false in E; exact E|reflexivity]]. apply rltb_true in E. auto.
Qed.
(** Enough steps for any bracket. *)
Lemma enough w m : 0 < m -> exists n, w <= 2 ^ n * m.
Proof.
  intros M. destruct (Pow_x_infinity 2 ltac:(rewrite Rabs_right; lra) (w / m)) as [n N].
  exists n. specialize (N n (le_n _)). rewrite Rabs_right in N by (apply Rle_ge, pow_le; lra).
  apply Rge_le in N. apply (Rmult_le_compat_r m) in N; [|lra]. unfold Rdiv in N. rewrite Rmult_assoc, Rinv_l, Rmult_1_r in N by lra. exact N.
Qed.
Lemma refine_enough (i : Z) (I : (0 <= i < Z.of_nat (ntemp t))%Z) b : good b -> exists N, forall fuel, (N <= fuel)%nat ->
  exists T, Rabs (T - Teq) <= Teq / 1000 /\
    (((Ta <= T \/ T = Teq) /\ refine t rad idens Ta col2 dudt fuel b (1 / 2 * (Tlo b + Thi b)) k kp i = Ok T) \/
     (T < Ta /\ refine t rad idens Ta col2 dudt fuel b (1 / 2 * (Tlo b + Thi b)) k kp i = Ok Ta)).
Proof.
  intros G. destruct (enough (Thi b - Tlo b) (Tlo b / 1000)) as [n N]; [pose proof (g_lo b G); lra|].
  exists (S n). intros fuel F. rewrite (Rplus_comm (Tlo b)).
  apply (refine_ok i I (Tlo b) n fuel b); [lia|exact G|apply G|lra|exact N].
Qed.

(** Upwards from entry [h - 1] the search stops at the first entry not below the root. *)
Definition ent (T : R) : R := ebalance rad dudt Ta T k kp col2.
Lemma search_up_ok itemp : (itemp <= Z.of_nat (ntemp t) - 2)%Z -> Teq <= tabT t (ntemp t - 1) ->
  forall n fuel Tl (h : nat), (ntemp t - 1 - h <= n)%nat -> (n < fuel)%nat -> (0 < h < ntemp t)%nat -> 0 < Tl -> Tl < Teq ->
  exists b h', search_up t rad idens Ta col2 dudt fuel itemp (mkbr Tl k kp (ent Tl) (tabT t h) k kp (ent (tabT t h))) (Z.of_nat h) = Ok (b, h') /\
    good b /\ (1 <= h' < Z.of_nat (ntemp t))%Z.
Proof.
  intros IT TOP. pose proof (tabT_rises t RT) as RTT. induction n as [|n IH]; intros fuel Tl h D F H TL TLE; (destruct fuel as [|fuel]; [lia|]); cbn [search_up blo bhi Tlo klo kplo Thi khi kphi];
    pose proof (bal_pos Tl ltac:(lra) TLE) as BL; fold (ent Tl) in BL.
  - assert (h = ntemp t - 1)%nat as -> by lia.
    assert (ent (tabT t (ntemp t - 1)) <= 0).
    { destruct TOP as [L|L]; [left; apply bal_neg; exact L|right; unfold ent; rewrite <- L; apply bal_zero]. }
    rewrite (proj2 (rltb_false _ _)) by nra. eexists _, _. split; [reflexivity|]. split; [|lia]. constructor; cbn; auto.
  - destruct (rltb 0 (ent Tl * ent (tabT t h))) eqn:SG.
    + apply rltb_true in SG. rewrite (proj2 (Z.ltb_ge _ _)) by lia.
      assert (TH : tabT t h < Teq).
      { destruct (Rlt_or_le (tabT t h) Teq) as [L|[L|L]]; [exact L| |].
        - exfalso. pose proof (bal_neg _ L) as B. fold (ent (tabT t h)) in B. nra.
        - exfalso. unfold ent at 2 in SG. rewrite <- L, bal_zero in SG. lra. }
      assert (HN : (h < ntemp t - 1)%nat).
      { destruct (Nat.eq_dec h (ntemp t - 1)) as [->|]; [lra|lia]. }
      rewrite tab_temp_ok, GetKappa_ok by lia. cbn [bind fst snd].
      replace (Z.to_nat (Z.of_nat h + 1)) with (S h) by lia. replace (Z.of_nat h + 1)%Z with (Z.of_nat (S h)) by lia.
      apply IH; [lia|lia|lia|apply tabT_pos|exact TH].
    + apply rltb_false in SG. eexists _, _. split; [reflexivity|]. split; [|lia]. constructor; cbn; auto.
      destruct (Rle_or_lt Teq (tabT t h)) as [L|L]; [exact L|]. exfalso.
      pose proof (bal_pos _ ltac:(left; apply tabT_pos) L) as B. fold (ent (tabT t h)) in B. nra.
Qed.
(** Above the table it runs off the end. *)
Lemma search_up_off itemp : (itemp <= Z.of_nat (ntemp t) - 2)%Z -> tabT t (ntemp t - 1) < Teq ->
  forall n fuel Tl (h : nat), (ntemp t - 1 - h <= n)%nat -> (n < fuel)%nat -> (0 < h < ntemp t)%nat -> 0 < Tl -> Tl < Teq ->
  search_up t rad idens Ta col2 dudt fuel itemp (mkbr Tl k kp (ent Tl) (tabT t h) k kp (ent (tabT t h))) (Z.of_nat h) = UB.
Proof.
  intros IT TOP. pose proof (tabT_rises t RT) as RTT.
  assert (ALL : forall h, (h < ntemp t)%nat -> tabT t h < Teq).
  { intros h H. destruct (Nat.eq_dec h (ntemp t - 1)) as [->|NE]; [exact TOP|]. pose proof (RTT h (ntemp t - 1)%nat ltac:(lia)). lra. }
  induction n as [|n IH]; intros fuel Tl h D F H TL TLE; (destruct fuel as [|fuel]; [lia|]); cbn [search_up blo bhi Tlo klo kplo Thi khi kphi];
    pose proof (bal_pos Tl ltac:(lra) TLE) as BL; fold (ent Tl) in BL;
    pose proof (bal_pos (tabT t h) ltac:(left; apply tabT_pos) (ALL h ltac:(lia))) as BH; fold (ent (tabT t h)) in BH;
    rewrite (proj2 (rltb_true _ _)) by (apply Rmult_lt_0_compat; assumption); rewrite (proj2 (Z.ltb_ge _ _)) by lia.
  - rewrite tab_temp_bad by lia. reflexivity.
  - destruct (Nat.eq_dec h (ntemp t - 1)) as [E|E].
    + rewrite tab_temp_bad by lia. reflexivity.
    + rewrite tab_temp_ok, GetKappa_ok by lia. cbn [bind fst snd].
      replace (Z.to_nat (Z.of_nat h + 1)) with (S h) by lia. replace (Z.of_nat h + 1)%Z with (Z.of_nat (S h)) by lia.
      apply IH; [lia|lia|lia|apply tabT_pos|apply ALL; lia].
Qed.
(** Downwards from an entry below the root it runs off the start. *)
Lemma search_down_off itemp : (1 <= itemp)%Z -> forall (l : nat) fuel Th, (l < fuel)%nat -> (l < ntemp t)%nat -> 0 < Th -> Th < Teq -> tabT t l < Teq ->
  search_down t rad idens Ta col2 dudt fuel itemp (mkbr (tabT t l) k kp (ent (tabT t l)) Th k kp (ent Th)) (Z.of_nat l) = UB.
Proof.
  intros IT. pose proof (tabT_rises t RT) as RTT.
  induction l as [|l IH]; intros fuel Th F L TH TE LE; (destruct fuel as [|fuel]; [lia|]); cbn [search_down blo bhi Tlo klo kplo Thi khi kphi];
    pose proof (bal_pos Th ltac:(lra) TE) as BH; fold (ent Th) in BH;
    pose proof (bal_pos _ ltac:(left; apply tabT_pos) LE) as BL; fold (ent (tabT t 0)) in BL; try fold (ent (tabT t (S l))) in BL;
    rewrite (proj2 (rltb_true _ _)) by (apply Rmult_lt_0_compat; assumption); rewrite (proj2 (Z.ltb_ge _ _)) by lia.
  - rewrite tab_temp_bad by lia. reflexivity.
  - rewrite tab_temp_ok, GetKappa_ok by lia. cbn [bind fst snd].
    replace (Z.of_nat (S l) - 1)%Z with (Z.of_nat l) by lia. rewrite Nat2Z.id.
    apply IH; [lia|lia|apply tabT_pos|exact LE|]. pose proof (RTT l (S l) ltac:(lia)). lra.
Qed.
End Equi.
End Grey.
Lemma search_up_fuel t rad idens Ta col2 dudt : forall f f' itemp b h, search_up t rad idens Ta col2 dudt f itemp b h <> NoFuel -> (f <= f')%nat ->
  search_up t rad idens Ta col2 dudt f' itemp b h = search_up t rad idens Ta col2 dudt f itemp b h.
Proof.
  induction f as [|f IH]; intros f' itemp b h H L; [cbn in H; congruence|]. destruct f' as [|f']; [lia|]. cbn [search_up] in *.
  destruct (rltb 0 _); [|reflexivity]. destruct (_ <? _)%Z; [reflexivity|].
  destruct (tab_temp t (h + 1)) as [T| | |]; cbn [bind] in *; try reflexivity. destruct (GetKappa t idens (h + 1)) as [kk| | |]; cbn [bind] in *; try reflexivity.
  apply IH; [exact H|lia].
Qed.
