From Verif Require Import Prelude L_Prelude Vec M_Box L_Box M_Sink S_Stock L_Stock S_Sink L_Sink L_Sink2.
From Coq Require Import Reals Lra Permutation.
Local Open Scope R_scope.

(** ** Without smooth accretion *)
Definition mass_at (ps : list gas) (i : Z) : R := match aget ps i with Ok p => g_m p | _ => 0 end.
Section All.
Variables (ndim : nat) (w0 wpot : R -> R).
Variables (sfrac sdt alpha_ss mmean : R).

Lemma own_list_mem : forall s sk l ps, (forall i, In i l -> (0 <= i < zlen ps)%Z) -> NoDup l ->
  exists ps' o, own_list ndim s sk ps l = Ok (ps', o) /\
    (forall i p, aget ps i = Ok p -> exists lv, aget ps' i = Ok (set_levelneib lv p)) /\
    (forall i, In i (map fst o) <-> In i l /\ exists p, aget ps i = Ok p /\ g_dead p = false /\ g_sinkid p = s /\ inside ndim sk p = true).
Proof.
  intros s sk. induction l as [|i l IH]; intros ps Hi HN.
  - exists ps, []. split; [reflexivity|]. split.
    + intros i p H. exists (g_levelneib p). rewrite H. now destruct p.
    + intros i. cbn. tauto.
  - inversion HN as [|? ? Hni HN']; subst.
    destruct (aget_in ps i) as [p Hp]; [apply Hi; now left|]. assert (Bi : (0 <= i < zlen ps)%Z) by (apply Hi; now left).
    assert (SK : ~ (g_dead p = false /\ g_sinkid p = s /\ inside ndim sk p = true) ->
      exists ps' o, own_list ndim s sk ps l = Ok (ps', o) /\
      (forall i p, aget ps i = Ok p -> exists lv, aget ps' i = Ok (set_levelneib lv p)) /\
      (forall j, In j (map fst o) <-> In j (i :: l) /\ exists p, aget ps j = Ok p /\ g_dead p = false /\ g_sinkid p = s /\ inside ndim sk p = true)).
    { intros NO. destruct (IH ps) as (ps' & o & E & A & B); auto. { intros; apply Hi; now right. }
      exists ps', o. split; [exact E|]. split; [exact A|]. intros j. split.
      - intros X. apply B in X. destruct X. split; [now right|assumption].
      - intros [[<-|X] Y].
        + exfalso. destruct Y as (q & Q & Y). assert (q = p) by congruence. subst q. auto.
        + apply B. auto. }
    cbn [own_list]. rewrite Hp. cbn [bind]. destruct (g_dead p) eqn:D; [apply SK; intros (X & _); congruence|].
    destruct (Z.eqb_spec (g_sinkid p) s) as [S1|S1]; [|apply SK; intros (_ & X & _); congruence].
    cbn zeta. destruct (rltb _ _) eqn:RB.
    { apply SK. intros (_ & _ & X). unfold inside in X. apply rltb_true in RB. unfold rleb in X. destruct (Rle_dec _ _); [lra|discriminate]. }
    apply rltb_false in RB. clear SK.
    set (p1 := set_levelneib (Z.max (g_levelneib p) (s_level sk)) p).
    rewrite (aset_in ps i p1 Bi). cbn [bind]. set (ps1 := upd ps (Z.to_nat i) p1).
    assert (G : forall j q, aget ps j = Ok q -> exists lv, aget ps1 j = Ok (set_levelneib lv q)).
    { intros j q Hq. unfold ps1. destruct (Z.eq_dec j i) as [->|N].
      - rewrite aget_upd_eq by exact Bi. assert (q = p) by congruence. subst q. eexists. reflexivity.
      - rewrite aget_upd_ne by (try lia; congruence). exists (g_levelneib q). rewrite Hq. now destruct q. }
    destruct (IH ps1) as (ps' & o & E & A & B); auto.
    { intros j Hj. unfold ps1. rewrite zlen_upd. apply Hi. now right. }
    rewrite E. cbn [bind]. eexists _, _. split; [reflexivity|]. split.
    + intros j q Hq. destruct (G j q Hq) as (lv & Hl). destruct (A j _ Hl) as (lv' & Hl'). exists lv'. exact Hl'.
    + intros j. cbn [map fst In]. rewrite B. split.
      * intros [<-|[X (q & Q1 & Q2 & Q3 & Q4)]].
        -- split; [now left|]. exists p. repeat split; auto. unfold inside, rleb. destruct (Rle_dec _ _); [reflexivity|lra].
        -- split; [now right|]. unfold ps1 in Q1. assert (N : i <> j) by congruence. rewrite aget_upd_ne in Q1 by (try lia; auto). eauto.
      * intros [[<-|X] (q & Q1 & Q)]; [now left|]. right. split; [exact X|]. exists q. split; [|exact Q].
        unfold ps1. rewrite aget_upd_ne; [exact Q1|lia|congruence].
Qed.
Lemma enclosed_mass : forall sk ps ids e, (forall i, In i ids -> exists p, aget ps i = Ok p /\ g_dead p = false) ->
  exists e', enclosed ndim w0 wpot sk ps ids e = Ok e' /\ e_menc e' = e_menc e + lsum (mass_at ps) ids.
Proof.
  intros sk ps. induction ids as [|i ids IH]; intros e H; [exists e; cbn; split; [auto|lra]|].
  destruct (H i (or_introl eq_refl)) as (p & Ep & D). cbn [enclosed]. rewrite Ep. cbn [bind]. rewrite D.
  destruct (IH (esum1 ndim w0 wpot sk e p)) as (e' & E & M); [intros; apply H; now right|]. exists e'. split; [exact E|].
  rewrite M. cbn [esum1 e_menc lsum]. unfold mass_at at 2. rewrite Ep. lra.
Qed.
Lemma loop2_all : forall trot R0 V0 ids ps macc L, NoDup ids ->
  (forall i, In i ids -> exists p, aget ps i = Ok p /\ g_dead p = false /\ tiny <= g_m p) -> macc = lsum (mass_at ps) ids ->
  exists ps' L', loop2 ndim 0 sfrac sdt mmean trot R0 V0 ps ids macc L = Ok (ps', L') /\
    (forall i, In i ids -> exists p', aget ps' i = Ok p' /\ g_dead p' = true /\ g_m p' = 0) /\
    (forall i, ~ In i ids -> aget ps' i = aget ps i).
Proof.
  intros trot R0 V0. assert (T0 : 0 < tiny) by (unfold tiny; apply Rinv_0_lt_compat, pow_lt; lra).
  induction ids as [|i ids IH]; intros ps macc L HN H Hm.
  - exists ps, L. split; [reflexivity|]. split; [intros i []|auto].
  - inversion HN as [|? ? Hni HN']; subst. destruct (H i (or_introl eq_refl)) as (p & Ep & D & M).
    destruct (aget_Ok_inv _ _ _ Ep) as [B _]. cbn [loop2]. rewrite Ep. cbn [bind]. rewrite D. cbn zeta.
    unfold whole. cbn [Z.eqb orb]. rewrite (aset_in ps i _ B). cbn [bind].
    set (ps1 := upd ps (Z.to_nat i) (swallow p)).
    assert (G : forall j, j <> i -> aget ps1 j = aget ps j) by (intros; unfold ps1; apply aget_upd_ne; [lia|congruence]).
    assert (E1 : lsum (mass_at ps) (i :: ids) - g_m p = lsum (mass_at ps1) ids).
    { cbn [lsum]. unfold mass_at at 1. rewrite Ep. rewrite (lsum_ext (mass_at ps1) (mass_at ps)); [lra|].
      intros j Hj. unfold mass_at. rewrite G; [reflexivity|]. intros ->. contradiction. }
    rewrite E1. destruct (rltb (lsum (mass_at ps1) ids) tiny) eqn:RB.
    + apply rltb_true in RB. assert (ids = []).
      { destruct ids as [|j ids]; [reflexivity|exfalso]. cbn [lsum] in RB. destruct (H j (or_intror (or_introl eq_refl))) as (q & Eq & Dq & Mq).
        assert (N : j <> i) by (intros ->; apply Hni; now left).
        assert (0 <= lsum (mass_at ps1) ids).
        { apply lsum_nonneg. intros k Hk. unfold mass_at. rewrite G by (intros ->; apply Hni; now right).
          destruct (H k) as (x & Ex & _ & Mx); [now right; right|]. rewrite Ex. lra. }
        unfold mass_at in RB at 1. rewrite (G j N), Eq in RB. lra. }
      subst ids. eexists _, _. split; [reflexivity|]. split.
      * intros j [<-|[]]. exists (swallow p). split; [now apply aget_upd_eq|]. auto.
      * intros j Hj. apply G. intros ->. apply Hj. now left.
    + destruct (IH ps1 _ (add_angmom ndim (g_m p) (vsub (g_r p) R0) (vsub (g_v p) V0) L) HN' ltac:(intros j Hj; rewrite G by (intros ->; contradiction); apply H; now right) eq_refl)
        as (ps' & L' & E & X & Y).
      exists ps', L'. split; [exact E|]. split.
      * intros j [<-|Hj]; [|auto]. rewrite Y by exact Hni. exists (swallow p). split; [now apply aget_upd_eq|]. auto.
      * intros j Hj. rewrite Y by (intros X1; apply Hj; now right). apply G. intros ->. apply Hj. now left.
Qed.
Lemma swallows_all : forall nnow timestep s sk ps found, valid_ids ps found -> (forall p, In p ps -> 0 <= g_m p) ->
  (s_Ngas sk <> 0)%Z -> (s_nstep sk <> 0)%Z -> Z.rem nnow (s_nstep sk) = 0%Z ->
  (forall p, In p ps -> g_dead p = false -> tiny <= g_m p) ->
  exists ps' sk', accrete_sink ndim w0 wpot 0 sfrac sdt alpha_ss mmean nnow timestep s sk ps found = Ok (ps', sk') /\
    forall i p, In i found -> aget ps i = Ok p -> g_dead p = false -> g_sinkid p = s -> inside ndim sk p = true ->
      exists p', aget ps' i = Ok p' /\ g_dead p' = true /\ g_m p' = 0.
Proof.
  intros nnow timestep s sk ps found [HN Hi] Hp Hg Hst Hn Ht. unfold accrete_sink.
  destruct (Z.eqb_spec (s_Ngas sk) 0); [contradiction|]. destruct (Z.eqb_spec (s_nstep sk) 0); [contradiction|].
  rewrite Hn, Z.eqb_refl. cbn [negb].
  destruct (own_list_mem s sk found ps Hi HN) as (ps1 & o & E & G & Mem).
  destruct (own_list_ok ndim s sk found ps Hi HN) as (xs & ox & Ex & Z1 & N1 & _ & _ & P1). rewrite E in Ex. injection Ex as <- <-.
  rewrite E. cbn [bind]. set (ids := map fst (InsertionSortIds o)).
  assert (PI : Permutation ids (map fst o)) by (apply Permutation_map, isort_perm).
  assert (NI : NoDup ids) by (eapply Permutation_NoDup; [apply Permutation_sym, PI|exact N1]).
  assert (LV : forall i, In i ids -> exists p, aget ps1 i = Ok p /\ g_dead p = false /\ tiny <= g_m p).
  { intros i Hj. apply (Permutation_in _ PI), Mem in Hj as [_ (p & Ep & D & _)]. destruct (G i p Ep) as (lv & El). eexists. split; [exact El|].
    split; [exact D|]. cbn. apply Ht; auto. eapply in_aget; eauto. }
  destruct (enclosed_mass sk ps1 ids {| e_menc := 0; e_wnorm := 0; e_gpe := 0; e_rot := 0; e_tvisc := 1; e_trad := 0 |}) as (e & -> & Em).
  { intros i Hj. destruct (LV i Hj) as (p & ? & ? & _). eauto. }
  cbn [bind accreted Z.eqb].
  match goal with |- context [loop1 0 sfrac sdt mmean ?T ps1 ids ?M ?C] => destruct (loop1_takes 0 sfrac sdt mmean T ps1 ids M C) as (c & -> & _) end.
  { intros i Hj. destruct (LV i Hj) as (p & Ep & _). apply aget_Ok_inv in Ep as [Ep _]. exact Ep. }
  cbn [bind].
  match goal with |- context [loop2 ndim 0 sfrac sdt mmean ?T ?a ?b ps1 ids ?M ?d] =>
    destruct (loop2_all T a b ids ps1 M d NI LV) as (ps' & L & -> & X & Y) end.
  { rewrite Em. cbn. lra. }
  cbn [bind]. eexists _, _. split; [reflexivity|]. intros i p Hj Ep D S1 I1. apply X.
  apply (Permutation_in _ (Permutation_sym PI)), Mem. split; [exact Hj|]. exists p. auto.
Qed.
End All.

(** ** The thread buffers *)
Definition monotone (gather : Z -> Z -> option (list Z)) : Prop :=
  forall s N N' l, gather s N = Some l -> (N <= N')%Z -> gather s N' = Some l.
Lemma grow_spec : forall gather fuel N N' l, (0 < N)%Z -> grow fuel gather N = Ok (N', l) -> (N <= N')%Z /\ gather N' = Some l.
Proof.
  intros gather. induction fuel as [|f IH]; intros N N' l HN H; [discriminate|]. cbn in H. destruct (gather N) eqn:E.
  - injection H as <- <-. split; [lia|exact E].
  - apply IH in H; lia || (destruct H; split; [lia|assumption]).
Qed.
(** The buffers never shrink and every sink's list fits those of the thread that made it. *)
Lemma searches1_spec : forall fuel gather, monotone gather -> forall sched buf buf' f, (forall t, (0 < buf t)%Z) -> NoDup (map snd sched) ->
  searches1 fuel gather buf sched = Ok (buf', f) ->
  (forall t, (buf t <= buf' t)%Z) /\ forall t s, In (t, s) sched -> gather s (buf' t) = Some (f s).
Proof.
  intros fuel gather Mo. induction sched as [|[t s] r IH]; intros buf buf' f Hb HN H; cbn [searches1] in H.
  - injection H as <- <-. split; [lia|intros t s []].
  - destruct (grow fuel (gather s) (buf t)) as [[N l]| | |] eqn:E; try discriminate. cbn [bind] in H.
    apply grow_spec in E as [E1 E2]; [|apply Hb].
    destruct (searches1 fuel gather _ r) as [[b2 f2]| | |] eqn:E3; try discriminate. cbn [bind] in H. injection H as <- <-.
    cbn [map snd] in HN. inversion HN as [|? ? Hn HN']; subst.
    apply IH in E3 as [A B]; auto.
    + split.
      * intros t'. specialize (A t'). cbn beta in A. destruct (Z.eqb_spec t' t); [subst; lia|lia].
      * intros t' s' [[= <- <-]|Hin].
        -- rewrite Z.eqb_refl. apply (Mo s N); [exact E2|]. specialize (A t). cbn beta in A. now rewrite Z.eqb_refl in A.
        -- destruct (Z.eqb_spec s' s) as [->|]; [exfalso; apply Hn, in_map_iff; exists (t', s); auto|]. auto.
    + intros t'. pose proof (Hb t). specialize (Hb t'). destruct (t' =? t)%Z; lia.
Qed.
