From Verif Require Import Prelude L_Prelude Vec M_Box L_Box M_Sink M_SinkNew S_Stock L_Stock S_Sink L_Sink S_SinkNew.
From Coq Require Import Reals Lra Permutation.
Local Open Scope R_scope.

Section New.
Variables (ndim : nat) (mode : radius_mode) (rho_sink sink_radius kernrange invkernrange : R).
Variables (Nsinkfixed Nsinkmax Nstarmax : Z).
Notation elig := (eligible ndim rho_sink sink_radius).
Notation NS := (new_sinks ndim mode rho_sink sink_radius kernrange invkernrange Nsinkmax Nstarmax).
Notation nsink := (new_sink mode sink_radius kernrange invkernrange).

Lemma excludes_spec : forall p sk, excludes ndim sink_radius p sk = false <-> undisturbed ndim (sink_radius * g_h p) p sk.
Proof.
  intros p sk. unfold excludes, undisturbed. cbn zeta. unfold dist2, Rsqr.
  set (D := dot ndim (vsub (g_r p) (s_r sk)) (vsub (g_r p) (s_r sk))).
  set (dv := dot ndim (vsub (g_r p) (s_r sk)) (vsub (g_v p) (s_v sk))).
  set (da := dot ndim (vsub (g_r p) (s_r sk)) (vsub (g_a p) (s_a sk))).
  rewrite !Bool.orb_false_iff, Bool.andb_false_iff. unfold rltb. repeat destruct (Rlt_dec _ _); split; intros H; repeat split; try tauto; try lra; try (left; congruence) ; try (right; congruence); try discriminate;
  try (destruct H as (? & ? & ?); tauto || lra); try (destruct H as [[[]]]; discriminate).
Qed.
Lemma existsb_excludes : forall p sks, existsb (excludes ndim sink_radius p) sks = false <-> forall sk, In sk sks -> undisturbed ndim (sink_radius * g_h p) p sk.
Proof.
  intros p sks. split.
  - intros H sk Hi. apply excludes_spec. destruct (excludes ndim sink_radius p sk) eqn:E; [|reflexivity].
    assert (existsb (excludes ndim sink_radius p) sks = true) by (apply existsb_exists; eauto). congruence.
  - intros H. destruct (existsb _ _) eqn:E; [|reflexivity]. apply existsb_exists in E as (sk & Hi & E). apply H, excludes_spec in Hi. congruence.
Qed.
Lemma search_spec : forall n sks ps i b rm, 0 <= rm -> (forall p, In p ps -> (g_nstep p <> 0)%Z) ->
  exists b' rm', search ndim rho_sink sink_radius n sks ps i (b, rm) = Ok (b', rm') /\ rm <= rm' /\
    (forall q, In q ps -> elig n sks q -> g_rho q <= rm') /\
    (b' = b /\ rm' = rm \/ exists j p, nth_error ps j = Some p /\ b' = (i + Z.of_nat j)%Z /\ elig n sks p /\ g_rho p = rm').
Proof.
  intros n sks. induction ps as [|p ps IH]; intros i b rm Hrm Hst.
  - exists b, rm. cbn. split; [reflexivity|]. split; [lra|]. split; [intros q []|]. now left.
  - assert (SK : ~ (elig n sks p /\ rm < g_rho p) -> exists b' rm', search ndim rho_sink sink_radius n sks ps (i + 1) (b, rm) = Ok (b', rm') /\ rm <= rm' /\
      (forall q, In q (p :: ps) -> elig n sks q -> g_rho q <= rm') /\
      (b' = b /\ rm' = rm \/ exists j q, nth_error (p :: ps) j = Some q /\ b' = (i + Z.of_nat j)%Z /\ elig n sks q /\ g_rho q = rm')).
    { intros NO. destruct (IH (i + 1)%Z b rm Hrm) as (b' & rm' & E & L & A & B); [intros; apply Hst; now right|].
      exists b', rm'. split; [exact E|]. split; [exact L|]. split.
      - intros q [<-|Hq] Q; [|auto]. destruct (Rlt_dec rm (g_rho p)); [exfalso; auto|lra].
      - destruct B as [B|(j & q & B1 & B2 & B3)]; [now left|]. right. exists (S j), q. split; [exact B1|]. split; [lia|exact B3]. }
    cbn [search snd]. destruct (g_dead p) eqn:D; [apply SK; intros [(X & _) _]; congruence|].
    destruct (g_potmin p) eqn:PM; cbn [negb]; [|apply SK; intros [(_ & X & _) _]; congruence].
    destruct (rltb (g_rho p) rho_sink) eqn:R1.
    { apply rltb_true in R1. apply SK. intros [(_ & _ & X & _) _]. lra. }
    destruct (rltb (g_rho p) rm) eqn:R2; cbn [orb].
    { apply rltb_true in R2. apply SK. intros [_ X]. lra. }
    apply rltb_false in R1. apply rltb_false in R2.
    destruct (Z.eqb_spec (g_nstep p) 0) as [Z0|Z0]; [exfalso; apply (Hst p); [now left|exact Z0]|].
    destruct (Z.eqb_spec (Z.rem n (g_nstep p)) 0) as [RM|RM]; cbn [negb]; [|apply SK; intros [(_ & _ & _ & _ & X & _) _]; congruence].
    destruct (existsb (excludes ndim sink_radius p) sks) eqn:EX; cbn [negb andb].
    { apply SK. intros [(_ & _ & _ & _ & _ & X) _]. apply existsb_excludes in X. congruence. }
    destruct (rltb rm (g_rho p)) eqn:R3; [|apply rltb_false in R3; apply SK; intros [_ X]; lra].
    apply rltb_true in R3. clear SK.
    assert (EL : elig n sks p). { repeat split; auto; try lra. 1-3: apply (proj1 (existsb_excludes p sks) EX); assumption. }
    destruct (IH (i + 1)%Z i (g_rho p)) as (b' & rm' & E & L & A & B); [lra|intros; apply Hst; now right|].
    exists b', rm'. split; [exact E|]. split; [lra|]. split; [intros q [<-|Hq] Q; [lra|auto]|]. right.
    destruct B as [[-> ->]|(j & q & B1 & B2 & B3)].
    + exists 0%nat, p. cbn. repeat split; auto; try lia; apply EL; auto.
    + exists (S j), q. split; [exact B1|]. split; [lia|exact B3].
Qed.

Lemma F2_impl : forall {A B} (P Q : A -> B -> Prop), (forall a b, P a b -> Q a b) -> forall l m, Forall2 P l m -> Forall2 Q l m.
Proof. intros A B P Q H l m F. induction F; constructor; auto. Qed.
Lemma live_upd : forall ps i p, nth_error ps i = Some p -> g_dead p = false -> live (upd ps i (swallow p)) = (live ps - 1)%Z.
Proof.
  unfold live, zlen. induction ps as [|q ps IH]; intros [|i] p H D; try discriminate; cbn [nth_error] in H.
  - injection H as ->. cbn [upd filter g_dead swallow]. rewrite D. cbn [negb length]. lia.
  - specialize (IH i p H D). cbn [upd filter]. destruct (negb (g_dead q)); cbn [length]; lia.
Qed.
Lemma live_nonneg : forall ps, (0 <= live ps <= zlen ps)%Z.
Proof. intros ps. unfold live, zlen. split; [lia|]. induction ps as [|p ps IH]; [cbn; lia|]. cbn [filter]. destruct (negb _); cbn [length]; lia. Qed.

(** The history of one call: particles [ids] became the sinks [news]. *)
Definition history (n : Z) (ps ps' : list gas) (sks : list sink) (ids : list Z) (news : list sink) : Prop :=
  NoDup ids /\ (forall i, ~ In i ids -> aget ps' i = aget ps i) /\
  Forall2 (fun i sk => exists p p' mm, aget ps i = Ok p /\ aget ps' i = Ok p' /\ g_dead p = false /\ g_potmin p = true /\ rho_sink <= g_rho p /\
     Z.rem n (g_nstep p) = 0%Z /\ sk = nsink p mm /\ p' = swallow p) ids news.

Lemma new_sinks_spec : forall fuel n ps sks Nstar, (live ps < Z.of_nat fuel)%Z -> (forall p, In p ps -> (g_nstep p <> 0)%Z) ->
  (zlen sks <= Nsinkmax)%Z -> (Nstar <= Nstarmax)%Z ->
  (exists ps' news ids, NS fuel n ps sks Nstar = Ok (ps', sks ++ news, (Nstar + zlen news)%Z) /\ zlen ps' = zlen ps /\
     (zlen (sks ++ news) <= Nsinkmax)%Z /\ (Nstar + zlen news <= Nstarmax)%Z /\ history n ps ps' sks ids news /\
     (forall p, In p ps' -> ~ elig n (sks ++ news) p)) \/
  (NS fuel n ps sks Nstar = Raise /\ ((Nsinkmax - zlen sks < live ps)%Z \/ (Nstarmax - Nstar < live ps)%Z)).
Proof.
  induction fuel as [|f IH]; intros n ps sks Nstar HL Hst HS HN; [pose proof (live_nonneg ps); lia|].
  cbn [new_sinks]. destruct (search_spec n sks ps 0 (-1) 0 ltac:(lra) Hst) as (b & rm & E & L & A & B). rewrite E. cbn [bind].
  destruct B as [[-> ->]|(j & p & B1 & B2 & B3 & B4)].
  - cbn. left. exists ps, [], []. rewrite app_nil_r, Z.add_0_r. split; [reflexivity|]. split; [reflexivity|]. split; [exact HS|]. split; [exact HN|]. split.
    + split; [constructor|]. split; [auto|constructor].
    + intros p Hp El. pose proof (A p Hp El). destruct El as (_ & _ & _ & X & _). lra.
  - rewrite B2. cbn [Z.add]. destruct (Z.leb_spec 0 (Z.of_nat j)); [|lia].
    assert (Ep : aget ps (Z.of_nat j) = Ok p).
    { unfold aget. destruct (Z.ltb_spec (Z.of_nat j) 0); [lia|]. rewrite Nat2Z.id, B1. reflexivity. }
    destruct (aget_Ok_inv _ _ _ Ep) as [Bj _].
    pose proof (live_upd ps j p B1 (proj1 B3)) as LU.
    unfold create. pose proof (live_nonneg (upd ps j (swallow p))) as LN.
    destruct (Z.eqb_spec (zlen sks) Nsinkmax) as [M1|M1]; [right; cbn; split; [reflexivity|left; lia]|].
    destruct (Z.eqb_spec Nstar Nstarmax) as [M2|M2]; [right; cbn; split; [reflexivity|right; lia]|].
    cbn [orb]. rewrite Ep. cbn [bind]. rewrite aset_in by exact Bj. cbn [bind]. rewrite Nat2Z.id.
    set (ps1 := upd ps j (swallow p)) in *. set (sk := new_sink _ _ _ _ _ _).
    assert (SKE : exists mm, sk = nsink p mm) by (unfold sk; eauto). clearbody sk.
    assert (Z1 : zlen (sks ++ [sk]) = (zlen sks + 1)%Z) by (unfold zlen; rewrite app_length; cbn; lia).
    assert (G : forall i, i <> Z.of_nat j -> aget ps1 i = aget ps i).
    { intros i Hi. unfold ps1. destruct (Z.ltb_spec i 0) as [Ni|Ni].
      - unfold aget. destruct (Z.ltb_spec i 0); [reflexivity|lia].
      - rewrite <- (Nat2Z.id j). apply aget_upd_ne; [lia|congruence]. }
    assert (G0 : aget ps1 (Z.of_nat j) = Ok (swallow p)).
    { unfold ps1. rewrite <- (Nat2Z.id j) at 1. now apply aget_upd_eq. }
    assert (Hst1 : forall q, In q ps1 -> (g_nstep q <> 0)%Z).
    { intros q Hq. apply in_upd in Hq as [Hq| ->]; [auto|]. cbn. apply Hst. eapply nth_error_In; eauto. }
    destruct (IH n ps1 (sks ++ [sk]) (Nstar + 1)%Z) as [(ps' & news & ids & E1 & Zp & S1 & S2 & (ND & Fr & F2) & El)|[E1 RR]];
      [lia|exact Hst1|lia|lia| |].
    + left. exists ps', (sk :: news), (Z.of_nat j :: ids). rewrite <- app_assoc in *. cbn [app] in *.
      assert (ZC : zlen (sk :: news) = (zlen news + 1)%Z) by (unfold zlen; cbn [length]; lia). rewrite ZC.
      replace (Nstar + (zlen news + 1))%Z with (Nstar + 1 + zlen news)%Z by lia.
      assert (NI : ~ In (Z.of_nat j) ids).
      { intros Hin. revert Hin. clear - F2 G0. induction F2 as [|a c la lc H1 H2 IHF]; intros Hin; [destruct Hin|destruct Hin as [->|Hin]; [|auto]].
        destruct H1 as (q & _ & _ & Q1 & _ & Q2 & _). rewrite G0 in Q1. injection Q1 as <-. discriminate. }
      split; [exact E1|]. split; [rewrite Zp; unfold ps1; apply zlen_upd|]. split; [exact S1|]. split; [exact S2|]. split; [|exact El].
      split; [now constructor|]. split.
      * intros i Hi. rewrite Fr by (intros X; apply Hi; now right). apply G. intros ->. apply Hi. now left.
      * constructor.
        -- destruct B3 as (X1 & X2 & X3 & _ & X5 & _). destruct SKE as (mm & SKE). exists p, (swallow p), mm. repeat split; auto. rewrite Fr by exact NI. exact G0.
        -- revert F2. apply F2_impl. intros a c (q & q' & mm & Q1 & Q2). exists q, q', mm. split; [|exact Q2].
           rewrite <- G; [exact Q1|]. intros ->. rewrite G0 in Q1. injection Q1 as <-. destruct Q2 as (_ & Q2 & _). discriminate.
    + right. rewrite E1. split; [reflexivity|]. lia.
Qed.

Lemma new_sinks_inv : forall n (I : list gas -> list sink -> Prop),
  (forall ps sks j p mm, I ps sks -> nth_error ps j = Some p -> elig n sks p -> I (upd ps j (swallow p)) (sks ++ [nsink p mm])) ->
  forall fuel ps sks Nstar ps' sks' N', (forall p, In p ps -> (g_nstep p <> 0)%Z) -> I ps sks ->
  NS fuel n ps sks Nstar = Ok (ps', sks', N') -> I ps' sks'.
Proof.
  intros n I Step. induction fuel as [|f IH]; intros ps sks Nstar ps' sks' N' Hst H E; [discriminate|].
  cbn [new_sinks] in E. destruct (search_spec n sks ps 0 (-1) 0 ltac:(lra) Hst) as (b & rm & E0 & L & A & B). rewrite E0 in E. cbn [bind] in E.
  destruct B as [[-> ->]|(j & p & B1 & B2 & B3 & B4)].
  - cbn in E. injection E as <- <- <-. exact H.
  - rewrite B2 in E. cbn [Z.add] in E. destruct (Z.leb_spec 0 (Z.of_nat j)); [|lia].
    unfold create in E. destruct (_ || _)%bool; [discriminate|].
    assert (Ep : aget ps (Z.of_nat j) = Ok p).
    { unfold aget. destruct (Z.ltb_spec (Z.of_nat j) 0); [lia|]. rewrite Nat2Z.id, B1. reflexivity. }
    destruct (aget_Ok_inv _ _ _ Ep) as [Bj _]. rewrite Ep in E. cbn [bind] in E. rewrite aset_in in E by exact Bj. cbn [bind] in E.
    rewrite Nat2Z.id in E. eapply IH; [| |exact E].
    + intros q Hq. apply in_upd in Hq as [Hq| ->]; [auto|]. cbn. apply Hst. eapply nth_error_In; eauto.
    + now apply Step.
Qed.
Lemma new_sinks_conserve : forall n fuel ps sks Nstar ps' sks' N', (forall p, In p ps -> (g_nstep p <> 0)%Z) ->
  NS fuel n ps sks Nstar = Ok (ps', sks', N') ->
  total_mass ps' sks' = total_mass ps sks /\
  (forall k, total_momentum k ps' sks' = total_momentum k ps sks /\ total_moment k ps' sks' = total_moment k ps sks /\
             total_force k ps' sks' = total_force k ps sks) /\
  (forall k l c, total_angmom k l c ps' sks' = total_angmom k l c ps sks).
Proof.
  intros n fuel ps sks Nstar ps' sks' N' Hst E.
  refine (new_sinks_inv n (fun ps' sks' => total_mass ps' sks' = total_mass ps sks /\
    (forall k, total_momentum k ps' sks' = total_momentum k ps sks /\ total_moment k ps' sks' = total_moment k ps sks /\
               total_force k ps' sks' = total_force k ps sks) /\
    (forall k l c, total_angmom k l c ps' sks' = total_angmom k l c ps sks)) _ fuel ps sks Nstar ps' sks' N' Hst _ E).
  - clear. intros qs ss j p mm (A & B & C) Hj _.
    assert (U : forall f, lsum f (upd qs j (swallow p)) = lsum f qs - f p + f (swallow p)) by (intros; now apply lsum_upd).
    split; [|split].
    + rewrite <- A. unfold total_mass. rewrite U, lsum_app. cbn. lra.
    + intros k. destruct (B k) as (B1 & B2 & B3). rewrite <- B1, <- B2, <- B3. unfold total_momentum, total_moment, total_force.
      repeat split; rewrite U, lsum_app; cbn; lra.
    + intros k l c. rewrite <- C. unfold total_angmom. rewrite U, lsum_app. cbn. lra.
  - repeat split; reflexivity.
Qed.
(** Sinks from number [N0] on do not overlap any earlier one. *)
Definition all_apart (N0 : Z) (sks : list sink) : Prop :=
  forall i j a b, (0 <= i < j)%Z -> (N0 <= j)%Z -> aget sks i = Ok a -> aget sks j = Ok b -> apart ndim a b.
Lemma new_sinks_apart : forall n fuel ps sks Nstar ps' sks' N', (forall p, In p ps -> (g_nstep p <> 0)%Z) ->
  (forall s, In s sks -> 0 <= s_radius s) ->
  (forall p, In p ps -> 0 <= new_radius mode sink_radius kernrange p <= sink_radius * g_h p) ->
  NS fuel n ps sks Nstar = Ok (ps', sks', N') -> all_apart (zlen sks) sks'.
Proof.
  intros n fuel ps sks Nstar ps' sks' N' Hst Hs Hp E.
  refine (proj1 (new_sinks_inv n (fun ps' sks' => all_apart (zlen sks) sks' /\ (forall s, In s sks' -> 0 <= s_radius s) /\
    (forall p, In p ps' -> 0 <= new_radius mode sink_radius kernrange p <= sink_radius * g_h p)) _ fuel ps sks Nstar ps' sks' N' Hst _ E)).
  - clear E. intros qs ss j p mm (A & B & C) Hj El. pose proof (C p (nth_error_In _ _ Hj)) as Cp.
    split; [|split].
    + intros i l a b Hil Hl Ea Eb. destruct (aget_Ok_inv _ _ _ Eb) as [Bb Nb]. destruct (aget_Ok_inv _ _ _ Ea) as [Ba Na].
      unfold zlen in Bb. rewrite app_length in Bb. cbn in Bb.
      assert (Na' : nth_error ss (Z.to_nat i) = Some a) by (rewrite nth_error_app1 in Na by lia; exact Na).
      destruct (Z.eq_dec l (Z.of_nat (length ss))) as [->|Nl].
      * rewrite nth_error_app2, Nat2Z.id, Nat.sub_diag in Nb by lia. cbn in Nb. injection Nb as <-.
        unfold apart. cbn [s_radius s_r nsink].
        destruct El as (_ & _ & _ & _ & _ & X). destruct (X a (nth_error_In _ _ Na')) as (_ & _ & X1). 
        pose proof (B a (nth_error_In _ _ Na')) as Ba'. unfold dist2 in *.
        assert (SY : dot ndim (vsub (s_r a) (g_r p)) (vsub (s_r a) (g_r p)) = dot ndim (vsub (g_r p) (s_r a)) (vsub (g_r p) (s_r a))).
        { unfold dot, vsub. apply sumf_ext. intros. ring. }
        cbn [new_sink s_radius s_r]. rewrite SY. eapply Rle_trans; [|exact X1]. apply Rsqr_incr_1; lra.
      * apply (A i l); auto. { rewrite <- Ea. unfold aget. destruct (Z.ltb_spec i 0); [lia|]. now rewrite Na, Na'. }
        unfold aget. destruct (Z.ltb_spec l 0); [lia|]. rewrite nth_error_app1 in Nb by lia. now rewrite Nb.
    + intros s Hin. apply in_app_iff in Hin as [Hin|[<-|[]]]; [auto|]. cbn. lra.
    + intros q Hq. apply in_upd in Hq as [Hq| ->]; [auto|]. unfold new_radius in *. exact Cp.
  - split; [|split; assumption]. intros i j a b Hij Hj Ea Eb. apply aget_Ok_inv in Eb as [Eb _]. lia.
Qed.

Lemma mmax_sum : forall l1 l2 p r rad,
  mmax ndim r rad (l1 ++ swallow p :: l2) = lsum (fun q => if g_dead q then 0 else if rltb (dist2 ndim r (g_r q)) (rad * rad) then g_m q else 0) (l1 ++ l2).
Proof.
  intros l1 l2 p r rad.
  assert (A : forall l m, fold_left (fun m p => if g_dead p then m else
    let dr := vsub r (g_r p) in if rltb (dot ndim dr dr) (rad * rad) then m + g_m p else m) l m =
    m + lsum (fun q => if g_dead q then 0 else if rltb (dist2 ndim r (g_r q)) (rad * rad) then g_m q else 0) l).
  { induction l as [|q l IH]; intros m; cbn [fold_left lsum]; [lra|]. rewrite IH. unfold dist2. cbv zeta.
    destruct (g_dead q); [lra|]. destruct (rltb _ _); lra. }
  unfold mmax. rewrite fold_left_app. cbn [fold_left]. cbn [swallow g_dead]. rewrite !A, lsum_app. lra.
Qed.
Lemma first_densest_mmax : forall n f ps sks Nstar ps' sks' N', (forall p, In p ps -> (g_nstep p <> 0)%Z) ->
  NS (S f) n ps sks Nstar = Ok (ps', sks', N') ->
  sks' = sks \/ exists p mm rest l1 l2, ps = l1 ++ p :: l2 /\ elig n sks p /\ (forall q, In q ps -> elig n sks q -> g_rho q <= g_rho p) /\
    sks' = sks ++ nsink p mm :: rest /\
    mm = lsum (fun q => if g_dead q then 0 else
      if rltb (dist2 ndim (g_r p) (g_r q)) (new_radius mode sink_radius kernrange p * new_radius mode sink_radius kernrange p) then g_m q else 0) (l1 ++ l2).
Proof.
  intros n f ps sks Nstar ps' sks' N' Hst E.
  cbn [new_sinks] in E. destruct (search_spec n sks ps 0 (-1) 0 ltac:(lra) Hst) as (b & rm & E0 & L & A & B). rewrite E0 in E. cbn [bind] in E.
  destruct B as [[-> ->]|(j & p & B1 & B2 & B3 & B4)].
  - cbn in E. injection E as <- <- <-. now left.
  - rewrite B2 in E. cbn [Z.add] in E. destruct (Z.leb_spec 0 (Z.of_nat j)); [|lia].
    unfold create in E. destruct (_ || _)%bool; [discriminate|].
    assert (Ep : aget ps (Z.of_nat j) = Ok p).
    { unfold aget. destruct (Z.ltb_spec (Z.of_nat j) 0); [lia|]. rewrite Nat2Z.id, B1. reflexivity. }
    destruct (aget_Ok_inv _ _ _ Ep) as [Bj _]. rewrite Ep in E. cbn [bind] in E. rewrite aset_in in E by exact Bj. cbn [bind] in E.
    rewrite Nat2Z.id in E. right.
    match type of E with NS _ _ _ (sks ++ [new_sink _ _ _ _ _ ?mm]) _ = _ => set (M := mm) in E end.
    assert (exists rest, sks' = (sks ++ [nsink p M]) ++ rest) as (rest & ->).
    { refine (new_sinks_inv n (fun _ s => exists rest, s = (sks ++ [nsink p M]) ++ rest) _ _ _ _ _ _ _ _ _ _ E).
      - intros qs ss k q mm (rest & ->) _ _. eexists. rewrite <- app_assoc. reflexivity.
      - intros q Hq. apply in_upd in Hq as [Hq| ->]; [auto|]. cbn. apply Hst. eapply nth_error_In; eauto.
      - exists []. now rewrite app_nil_r. }
    destruct (nth_error_split _ _ B1) as (l1 & l2 & El & Ln).
    exists p, M, rest, l1, l2. split; [exact El|]. split; [exact B3|]. split; [intros q Hq Eq; rewrite B4; auto|].
    split; [rewrite <- app_assoc; reflexivity|]. unfold M. rewrite El at 1. rewrite <- Ln, upd_app_mid. apply mmax_sum.
Qed.
Lemma first_densest : forall n f ps sks Nstar ps' sks' N', (forall p, In p ps -> (g_nstep p <> 0)%Z) ->
  NS (S f) n ps sks Nstar = Ok (ps', sks', N') ->
  sks' = sks \/ exists p mm rest, In p ps /\ elig n sks p /\ (forall q, In q ps -> elig n sks q -> g_rho q <= g_rho p) /\
    sks' = sks ++ nsink p mm :: rest.
Proof.
  intros n f ps sks Nstar ps' sks' N' Hst E. apply first_densest_mmax in E as [E|(p & mm & rest & l1 & l2 & A1 & A2 & A3 & A4 & _)]; auto.
  right. exists p, mm, rest. split; [rewrite A1; apply in_elt|]. auto.
Qed.
End New.
