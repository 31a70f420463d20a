(** Reversed steps; the steps of a run. *)
From Verif Require Import Prelude Vec M_Box M_Periodic L_Box L_Periodic M_Hermite S_Hermite L_Hermite L_Hermite3 L_Hermite4 L_Hermite5 L_Hermite6 L_Hermite7 L_Hermite9.
From Coq Require Import Reals FunctionalExtensionality.
Local Open Scope R_scope.

Section rev.
Variables (n : nat) (b : dombox) (soft : option skern) (c : scheme) (npec : nat) (mult : R) (N : nat).
Notation F S := (Forces n b soft c N (Zero N S)).
Notation adv s := (Advance c (m_n s + 1) N (m_t s + m_dt s) (m_S s)).
Notation pec1 s := (pec n b soft c (m_n s + 1) N (m_t s + m_dt s)).
Notation Main := (MainLoop n b soft c npec mult N).

(** *** Leapfrog *)
Lemma kdk_end : forall s i, c = LeapKDK -> started c N s -> (i < N)%nat ->
  let q := m_S (Main s) i in s_m q = s_m (m_S s i) /\ s_h q = s_h (m_S s i) /\ s_m q = s_m (adv s i) /\ s_h q = s_h (adv s i) /\ s_r q = s_r (adv s i) /\ s_a q = s_a (F (adv s) i).
Proof.
  intros s i Hc Hs Hi. cbv zeta. pose proof (main_star n b soft c npec mult N s i Hi) as (E1 & E2 & E3 & _ & E5 & _). cbv zeta in *.
  assert (HN : Npec c npec = 1%nat) by now rewrite Hc. rewrite HN in *.
  change (Nat.iter 1 (pec1 s) (adv s)) with (pec1 s (adv s)) in *.
  pose proof (adv_inflight c N s Hs) as I1.
  rewrite pec_star in * by (assumption || apply Hs).
  destruct (force_inflight n b soft c N s (adv s) I1 i Hi) as (M1 & M2 & _). cbv zeta in *.
  destruct (hist_trans _ _ _ (hist_zero N (adv s) i) (forces_hist n b soft c N (Zero N (adv s)) i Hi)) as (HK & _).
  destruct HK as (K1 & K2 & K3 & _). rewrite E1, E2, E3, E5. subst c.
  unfold correct_rv. cbn [set_rv s_r s_m s_h s_a]. now repeat split.
Qed.
Lemma kdk_settled : forall s, c = LeapKDK -> started c N s -> settled_a n b soft c N (Main s).
Proof.
  intros s Hc Hs S HA HE i k Hi. destruct (kdk_end s i Hc Hs Hi) as (_ & _ & _ & _ & _ & ->).
  apply acc_of_r; [|exact HA| |exact Hi].
  - intros j Hj. apply (adv_inflight c N s Hs j Hj).
  - intros j Hj. destruct (HE j Hj) as (-> & -> & ->). destruct (kdk_end s j Hc Hs Hj) as (_ & _ & -> & -> & -> & _). auto.
Qed.
Lemma setup_settled_a : forall t S, settled_a n b soft c N (Setup n b soft c mult N t S).
Proof.
  intros t S0 S HA HE i k Hi.
  set (I := upd N (fun _ p => init_star t p) S0).
  assert (X : forall j, (j < N)%nat -> s_m (m_S (Setup n b soft c mult N t S0) j) = s_m (I j) /\ s_h (m_S (Setup n b soft c mult N t S0) j) = s_h (I j) /\
     s_r (m_S (Setup n b soft c mult N t S0) j) = s_r (I j) /\ s_a (m_S (Setup n b soft c mult N t S0) j) = s_a (F I j)).
  { intros j Hj. unfold Setup. fold I. cbn [GlobalTimestep m_S]. unfold EndTimestep. rewrite !upd_in by assumption. cbn.
    assert (ZI : Zero N I = I) by apply zero_init.
    destruct (forces_hist n b soft c N I j Hj) as ((K1 & K2 & K3 & _) & _).
    rewrite ZI. destruct c; [now repeat split| | |]; 
      match goal with |- context[Startup n b N ?X] => destruct (startup_star n b N X j Hj) as (a2 & a3 & -> & _) end; cbn; now repeat split. }
  destruct (X i Hi) as (_ & _ & _ & ->). apply acc_of_r; [|exact HA| |exact Hi].
  - intros j Hj. unfold I. now rewrite upd_in.
  - intros j Hj. destruct (HE j Hj) as (-> & -> & ->). destruct (X j Hj) as (-> & -> & -> & _). auto.
Qed.
Lemma run_settled_a : forall t q S, c = LeapKDK -> settled_a n b soft c N (Run n b soft c npec mult N t q S).
Proof.
  intros t [|q] S Hc; [apply setup_settled_a|]. change (Run n b soft c npec mult N t (Datatypes.S q) S) with (Main (Run n b soft c npec mult N t q S)).
  apply kdk_settled; [assumption|]. apply run_started.
Qed.
Lemma kdk_reverse : forall mult' s t i k, c = LeapKDK -> started c N s -> settled_a n b soft c N s -> m_dt s <> 0 -> (i < N)%nat ->
  let q := m_S (MainLoop n b soft c npec mult' N (turned (m_S (Main s)) t (m_dt s))) i in
  s_r q k = s_r (m_S s i) k /\ s_v q k = - s_v (m_S s i) k.
Proof.
  intros mult' s t i k Hc Hs HA Hd Hi. cbv zeta. set (T := turned (m_S (Main s)) t (m_dt s)).
  assert (HT : started c N T) by apply turned_started.
  assert (HN : (1 <= Npec c npec)%nat) by (rewrite Hc; cbn; lia).
  assert (ER : forall i k, (i < N)%nat -> s_r (m_S (MainLoop n b soft c npec mult' N T) i) k = s_r (m_S s i) k).
  { intros i0 k0 H0. destruct (step_formula n b soft c npec mult N s i0 k0 Hs H0 Hd HN) as (E1 & E2).
    destruct (step_formula n b soft c npec mult' N T i0 k0 HT H0 Hd HN) as (E3 & _). rewrite E3.
    unfold T. rewrite Hc in *. cbn [step_r step_v turned m_S m_dt fresh s_r s_v s_a] in E1, E2 |- *. unfold vopp. rewrite E1, E2. ring. }
  split; [apply ER, Hi|].
  destruct (step_formula n b soft c npec mult N s i k Hs Hi Hd HN) as (_ & E2).
  destruct (step_formula n b soft c npec mult' N T i k HT Hi Hd HN) as (_ & E4). rewrite E4.
  assert (EA : s_a (m_S (MainLoop n b soft c npec mult' N T) i) k = s_a (m_S s i) k).
  { assert (KE : forall j, (j < N)%nat -> s_m (m_S (MainLoop n b soft c npec mult' N T) j) = s_m (m_S T j) /\ s_h (m_S (MainLoop n b soft c npec mult' N T) j) = s_h (m_S T j)).
    { clear - Hc HT. intros j Hj. pose proof (main_star n b soft c npec mult' N T j Hj) as (E1 & E2 & _). cbv zeta in *. rewrite E1, E2.
      pose proof (iter_inflight n b soft c N T (Npec c npec) _ (proj1 HT) (adv_inflight c N T HT)) as J. destruct (J j Hj) as (-> & -> & _). auto. }
    pose proof (main_star n b soft c npec mult' N T i Hi) as (_ & _ & _ & _ & E5 & _). cbv zeta in E5.
    assert (HN1 : Npec c npec = 1%nat) by now rewrite Hc. rewrite HN1 in E5.
    change (Nat.iter 1 (pec1 T) (adv T)) with (pec1 T (adv T)) in E5. pose proof (adv_inflight c N T HT) as I1.
    rewrite pec_star in E5 by (assumption || reflexivity).
    rewrite E5. rewrite Hc at 1. cbn [correct_rv set_rv s_a]. apply HA; [| |exact Hi].
    - intros j Hj. apply (I1 j Hj).
    - intros j Hj. destruct (I1 j Hj) as (-> & -> & _). split; [|split].
      + apply (kdk_end s j Hc Hs Hj).
      + apply (kdk_end s j Hc Hs Hj).
      + apply functional_extensionality. intros l. rewrite <- ER by exact Hj.
        pose proof (main_star n b soft c npec mult' N T j Hj) as (_ & _ & E3 & _). cbv zeta in E3. rewrite HN1 in E3.
        change (Nat.iter 1 (pec1 T) (adv T)) with (pec1 T (adv T)) in E3. rewrite E3, pec_star by (assumption || reflexivity).
        destruct (hist_trans _ _ _ (hist_zero N (adv T) j) (forces_hist n b soft c N (Zero N (adv T)) j Hj)) as ((_ & _ & K3 & _) & _).
        rewrite Hc at 2. cbn [correct_rv set_rv s_r]. now rewrite K3. }
  assert (TV : s_v (m_S T i) k = - s_v (m_S (Main s) i) k) by reflexivity.
  assert (TA : s_a (m_S T i) k = s_a (m_S (Main s) i) k) by reflexivity.
  assert (TD : m_dt T = m_dt s) by reflexivity. clearbody T.
  rewrite Hc in *. cbn [step_v] in *. rewrite EA, TV, TA, TD, E2. ring.
Qed.

(** *** Time-symmetric schemes *)
Definition settled (s : sim) : Prop := forall S, all_active N S ->
  (forall i, (i < N)%nat -> s_m (S i) = s_m (m_S s i) /\ s_h (S i) = s_h (m_S s i) /\ s_r (S i) = s_r (m_S s i) /\ s_v (S i) = s_v (m_S s i)) ->
  forall i k, (i < N)%nat -> s_a (F S i) k = s_a (m_S s i) k /\ s_adot (F S i) k = s_adot (m_S s i) k /\
    (c = Hermite6TS -> s_a2dot (F S i) k = s_a2dot (m_S s i) k).
(** Another evaluation and correction leaves positions and velocities as they are. *)
Definition converged (s : sim) (S : stars) : Prop := inflight c N s S /\
  forall i k, (i < N)%nat -> s_r (pec1 s S i) k = s_r (S i) k /\ s_v (pec1 s S i) k = s_v (S i) k.
(** Stars during the step of [turned], where the forward step began, with reversed velocities. *)
Definition back (s : sim) (T : sim) : stars := fun i => let p := m_S s i in let q := m_S T i in
  mkStar (s_m q) (s_h q) (s_r p) (vopp (s_v p)) (s_a p) (s_adot p) (s_a2dot p) (s_a3dot p) 0
    (s_r q) (s_v q) (s_a q) (s_adot q) (s_a2dot q) true true 0 1 (m_t T) (s_dt q) 0 (s_dtint q).
Lemma ts_reverse : forall s S t, c = Hermite4TS \/ c = Hermite6TS -> started c N s -> settled s -> converged s S ->
  let T := turned (pec1 s S) t (m_dt s) in converged T (back s T).
Proof.
  intros s S t Hc Hs HS (HI & HF). cbv zeta. set (T := turned (pec1 s S) t (m_dt s)).
  assert (IT : inflight c N T (back s T)).
  { intros i Hi. cbn. repeat split. }
  split; [exact IT|]. intros i k Hi. rewrite pec_star by (assumption || reflexivity).
  change (m_dt T) with (m_dt s). change (s_r (back s T i)) with (s_r (m_S s i)). change (s_v (back s T i) k) with (- s_v (m_S s i) k).
  pose proof (HF i k Hi) as (FR & FV). rewrite pec_star in FR, FV by (assumption || apply Hs).
  destruct (force_inflight n b soft c N s S HI i Hi) as (_ & _ & H1 & H2 & H3 & H4 & H5 & _). cbv zeta in *.
  destruct (force_inflight n b soft c N T (back s T) IT i Hi) as (_ & _ & G1 & G2 & G3 & G4 & G5 & _). cbv zeta in *.
  set (G := Forces n b soft c N (Zero N (back s T)) i) in *. set (Q := Forces n b soft c N (Zero N S) i) in *.
  assert (PS : pec1 s S i = correct_rv c (m_dt s) Q) by (apply pec_star; assumption || apply Hs).
  assert (TE : s_r (m_S T i) k = s_r (S i) k /\ s_v (m_S T i) k = - s_v (S i) k /\ s_a (m_S T i) k = s_a Q k /\ s_adot (m_S T i) k = - s_adot Q k /\
               (c = Hermite6TS -> s_a2dot (m_S T i) k = s_a2dot Q k)).
  { cbn [T turned m_S fresh s_r s_v s_a s_adot s_a2dot]. unfold vopp. rewrite PS. rewrite FR, FV.
    destruct c; cbn; repeat split; intros; try reflexivity; discriminate. }
  destruct TE as (T1 & T2 & T3 & T4 & T5).
  (* the stars of [back] with their velocities reversed again *)
  set (U := fun j => set_rv (back s T j) (s_r (m_S s j)) (s_v (m_S s j))).
  assert (MI : mirrored N (-1) U (back s T)).
  { intros j Hj. cbn. repeat split. intros l. unfold vopp. ring. }
  assert (AU : all_active N U) by (intros j Hj; reflexivity).
  assert (AB : all_active N (back s T)) by (intros j Hj; reflexivity).
  destruct (mirrored_forces n b soft c N (-1) U (back s T) ltac:(ring) MI AU AB i k Hi) as (X1 & X2 & X3). fold G in X1, X2, X3.
  destruct (HS U AU) with (i := i) (k := k) as (Y1 & Y2 & Y3); [|exact Hi|].
  { intros j Hj. cbn [U set_rv back T turned m_S fresh s_m s_h s_r s_v]. 
    pose proof (pec_inflight n b soft c N s S (proj1 Hs) HI j Hj) as (-> & -> & _). auto. }
  assert (Z2 : c = Hermite6TS -> s_a2dot G k = s_a2dot (m_S s i) k) by (intros Hc6; rewrite (X3 Hc6); auto).
  rewrite Y1 in X1. rewrite Y2 in X2.
  rewrite <- H1, <- H2 in *.
  clearbody G Q. destruct Hc as [Hc|Hc]; rewrite Hc in FR, FV |- *; cbn [correct_rv set_rv set_a23 s_r s_v s_a s_adot s_a2dot s_r0 s_v0 s_a0 s_adot0 s_a2dot0] in FR, FV |- *.
  - rewrite G1, G2, G3, G4, T1, T2, T3, T4, X1, X2. rewrite H3, H4 in *. split; [rewrite <- FR, <- FV|rewrite <- FV]; field.
  - rewrite G1, G2, G3, G4, (G5 Hc), T1, T2, T3, T4, (T5 Hc), X1, X2, (Z2 Hc). rewrite H3, H4, (H5 Hc) in *.
    split; [rewrite <- FR, <- FV|rewrite <- FV]; field.
Qed.
End rev.
