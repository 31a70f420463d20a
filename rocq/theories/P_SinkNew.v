(** C22, C48: creation of sinks. *)
From Verif Require Import Prelude L_Prelude Vec M_Box L_Box M_Sink M_SinkNew S_Stock S_Sink L_Sink S_SinkNew L_SinkNew.
From Coq Require Import Reals Lra.
Local Open Scope R_scope.

(** One call: either some particles, which were live local minima above the density
    threshold at the end of their step, have become sinks with their mass and motion and are dead, no
    other particle and no other sink has changed, the totals are the same, the arrays are
    large enough and no particle that could become a sink is left; or the call fails, and then
    there are more live particles than free places. *)
Theorem C22_creation_partial : forall ndim mode rho_sink sink_radius kernrange invkernrange Nsinkfixed Nsinkmax Nstarmax n ps sks Nstar,
  (forall p, In p ps -> (g_nstep p <> 0)%Z) -> (zlen sks <= Nsinkmax)%Z -> (Nstar <= Nstarmax)%Z ->
  (zlen sks < Nsinkfixed \/ Nsinkfixed = -1)%Z ->
  let r := SearchForNewSinkParticles ndim mode rho_sink sink_radius kernrange invkernrange Nsinkfixed Nsinkmax Nstarmax n ps sks Nstar in
  (exists ps' news ids, r = Ok (ps', sks ++ news, (Nstar + zlen news)%Z) /\ zlen ps' = zlen ps /\
     (zlen (sks ++ news) <= Nsinkmax)%Z /\ (Nstar + zlen news <= Nstarmax)%Z /\ NoDup ids /\ (forall i, ~ In i ids -> aget ps' i = aget ps i) /\
     Forall2 (fun i sk => exists p p', aget ps i = Ok p /\ aget ps' i = Ok p' /\ g_dead p = false /\ g_potmin p = true /\ rho_sink <= g_rho p /\
        Z.rem n (g_nstep p) = 0%Z /\ took_over p sk /\ gone p p') ids news /\
     total_mass ps' (sks ++ news) = total_mass ps sks /\
     (forall k, total_momentum k ps' (sks ++ news) = total_momentum k ps sks /\ total_moment k ps' (sks ++ news) = total_moment k ps sks /\
                total_force k ps' (sks ++ news) = total_force k ps sks) /\
     (forall k l c, total_angmom k l c ps' (sks ++ news) = total_angmom k l c ps sks) /\
     (forall p, In p ps' -> ~ eligible ndim rho_sink sink_radius n (sks ++ news) p)) \/
  (r = Raise /\ ((Nsinkmax - zlen sks < live ps)%Z \/ (Nstarmax - Nstar < live ps)%Z)).
Proof.
  intros ndim mode rho_sink sink_radius kernrange invkernrange Nsinkfixed Nsinkmax Nstarmax n ps sks Nstar Hst HS HN HF. cbv zeta.
  unfold SearchForNewSinkParticles. replace (_ && _)%bool with false by (destruct (Z.leb_spec Nsinkfixed (zlen sks)), (Z.eqb_spec Nsinkfixed (-1)); cbn; lia || reflexivity).
  destruct (new_sinks_spec ndim mode rho_sink sink_radius kernrange invkernrange Nsinkmax Nstarmax (S (length ps)) n ps sks Nstar)
    as [(ps' & news & ids & E & Z1 & S1 & S2 & (H1 & H2 & H3) & H4)|[E H]]; [|exact Hst|exact HS|exact HN| |].
  { pose proof (live_nonneg ps). unfold zlen in *. lia. }
  - left. exists ps', news, ids. destruct (new_sinks_conserve _ _ _ _ _ _ _ _ _ _ _ _ _ _ _ _ Hst E) as (T1 & T2 & T3).
    repeat (split; [assumption|]). split; [|auto].
    revert H3. apply F2_impl. intros i sk (p & p' & mm & A1 & A2 & A3 & A4 & A5 & A6 & -> & ->). exists p, (swallow p).
    repeat split; auto.
  - right. auto.
Qed.
Print Assumptions C22_creation_partial.

(** The densest candidate becomes the first new sink. *)
Theorem C22_densest : forall ndim mode rho_sink sink_radius kernrange invkernrange Nsinkmax Nstarmax n ps sks Nstar ps' sk rest N',
  (forall p, In p ps -> (g_nstep p <> 0)%Z) ->
  SearchForNewSinkParticles ndim mode rho_sink sink_radius kernrange invkernrange (-1) Nsinkmax Nstarmax n ps sks Nstar = Ok (ps', sks ++ sk :: rest, N') ->
  exists p, In p ps /\ eligible ndim rho_sink sink_radius n sks p /\ took_over p sk /\
    forall q, In q ps -> eligible ndim rho_sink sink_radius n sks q -> g_rho q <= g_rho p.
Proof.
  intros ndim mode rho_sink sink_radius kernrange invkernrange Nsinkmax Nstarmax n ps sks Nstar ps' sk rest N' Hst E.
  unfold SearchForNewSinkParticles in E. rewrite Bool.andb_false_r in E.
  apply first_densest in E as [E|(p & mm & rest' & A1 & A2 & A3 & A4)]; auto.
  - exfalso. apply (f_equal (@length sink)) in E. rewrite app_length in E. cbn in E. lia.
  - apply app_inv_head in A4. injection A4 as -> _. exists p. split; [exact A1|]. split; [exact A2|]. split; [|exact A3]. repeat split.
Qed.
Print Assumptions C22_densest.

(** The mass mmax recorded with the first new sink (the largest mass its surroundings can supply,
    used later to speed up accretion) is that of the live particles, other than its own, strictly
    inside its radius. *)
Theorem C22_mmax : forall ndim mode rho_sink sink_radius kernrange invkernrange Nsinkmax Nstarmax n ps sks Nstar ps' sk rest N',
  (forall p, In p ps -> (g_nstep p <> 0)%Z) ->
  SearchForNewSinkParticles ndim mode rho_sink sink_radius kernrange invkernrange (-1) Nsinkmax Nstarmax n ps sks Nstar = Ok (ps', sks ++ sk :: rest, N') ->
  exists p before after, ps = before ++ p :: after /\ took_over p sk /\
    s_mmax sk = lsum (fun q => if g_dead q then 0 else
      if rltb (dist2 ndim (s_r sk) (g_r q)) (s_radius sk * s_radius sk) then g_m q else 0) (before ++ after).
Proof.
  intros ndim mode rho_sink sink_radius kernrange invkernrange Nsinkmax Nstarmax n ps sks Nstar ps' sk rest N' Hst E.
  unfold SearchForNewSinkParticles in E. rewrite Bool.andb_false_r in E.
  apply first_densest_mmax in E as [E|(p & mm & rest' & l1 & l2 & A1 & A2 & A3 & A4 & A5)]; auto.
  - exfalso. apply (f_equal (@length sink)) in E. rewrite app_length in E. cbn in E. lia.
  - apply app_inv_head in A4. injection A4 as -> _. exists p, l1, l2. split; [exact A1|]. split; [repeat split|]. exact A5.
Qed.
Print Assumptions C22_mmax.

(** Nothing happens when the requested number of sinks exists. *)
Theorem C22_fixed_number : forall ndim mode rho_sink sink_radius kernrange invkernrange Nsinkfixed Nsinkmax Nstarmax n ps sks Nstar,
  (Nsinkfixed <> -1)%Z -> (Nsinkfixed <= zlen sks)%Z ->
  SearchForNewSinkParticles ndim mode rho_sink sink_radius kernrange invkernrange Nsinkfixed Nsinkmax Nstarmax n ps sks Nstar = Ok (ps, sks, Nstar).
Proof.
  intros ndim mode rho_sink sink_radius kernrange invkernrange Nsinkfixed Nsinkmax Nstarmax n ps sks Nstar H1 H2. unfold SearchForNewSinkParticles.
  destruct (Z.leb_spec Nsinkfixed (zlen sks)), (Z.eqb_spec Nsinkfixed (-1)); try lia. reflexivity.
Qed.
Print Assumptions C22_fixed_number.

(** ** Concrete cases *)
Definition ex_gas (x h : R) : gas :=
  {| g_m := 1; g_r := fun _ => x; g_v := fun _ => 0; g_a := fun _ => 0; g_u := 1; g_h := h; g_rho := 1; g_sound := 1; g_dt := 1;
     g_nstep := 1; g_level := 0; g_levelneib := 0; g_potmin := true; g_active := true; g_dead := false; g_sinkid := (-1) |}.
Definition ex_sink (x radius : R) : sink :=
  {| s_m := 1; s_r := fun _ => x; s_v := fun _ => 0; s_a := fun _ => 0; s_h := 1; s_invh := 1; s_nstep := 1; s_level := 0;
     s_radius := radius; s_angmom := fun _ => 0; s_Ngas := 0; s_mmax := 0; s_trot := 0; s_dmdt := 0; s_utot := 0 |}.
(** A particle at rest is undisturbed by a sink at rest whose radius plus the candidate's do not reach it. *)
Lemma ex_undisturbed : forall x h r sk, (forall k, s_v sk k = 0) -> (forall k, s_a sk k = 0) -> (r + s_radius sk) * (r + s_radius sk) <= (x - s_r sk 0%nat) * (x - s_r sk 0%nat) ->
  undisturbed 1 r (ex_gas x h) sk.
Proof.
  intros x h r sk Hv Ha H. unfold undisturbed, dist2, dot, vsub. cbn. rewrite Hv, Ha. unfold Rsqr. rewrite !Rplus_0_l. split; [|split].
  - intros [X _]. lra.
  - rewrite Rminus_0_r, Rmult_0_r. rewrite Ropp_0. unfold Rdiv. rewrite Rmult_0_l. lra.
  - exact H.
Qed.
Lemma ex_eligible : forall x h rs sks, (forall sk, In sk sks -> undisturbed 1 (rs * h) (ex_gas x h) sk) -> eligible 1 1 rs 0 sks (ex_gas x h).
Proof. intros x h rs sks H. unfold eligible. cbn [ex_gas g_dead g_potmin g_rho g_nstep g_h]. split; [reflexivity|]. split; [reflexivity|]. split; [lra|]. split; [lra|]. split; [reflexivity|exact H]. Qed.

(** Requested one sink, got two. *)
Theorem C22_requested_number_refuted : exists ps Nsinkfixed, (0 < Nsinkfixed)%Z /\ exists ps' sks' N',
  SearchForNewSinkParticles 1 Hmult 1 2 2 (1/2) Nsinkfixed 10 10 0 ps [] 0 = Ok (ps', sks', N') /\ (Nsinkfixed < zlen sks')%Z.
Proof.
  exists [ex_gas 0 1; ex_gas 10 1], 1%Z. split; [lia|].
  destruct (C22_creation_partial 1 Hmult 1 2 2 (1/2) 1 10 10 0 [ex_gas 0 1; ex_gas 10 1] [] 0) as [(ps' & news & ids & E & Z1 & _ & _ & ND & Fr & F2 & _ & _ & _ & NE)|[_ H]].
  - intros p [<-|[<-|[]]]; discriminate.
  - unfold zlen. cbn. lia.
  - lia.
  - left. unfold zlen. cbn. lia.
  - exists ps', news, (0 + zlen news)%Z. split; [exact E|]. cbn [app] in *.
    assert (G : forall i, ~ In i ids -> aget ps' i = aget [ex_gas 0 1; ex_gas 10 1] i) by exact Fr.
    assert (X : forall i p, aget [ex_gas 0 1; ex_gas 10 1] i = Ok p -> eligible 1 1 2 0 news p -> In i ids).
    { intros i p Hp El. destruct (in_dec Z.eq_dec i ids) as [Y|Y]; [exact Y|exfalso]. rewrite <- (G i Y) in Hp. apply (NE p); [eapply in_aget; eauto|exact El]. }
    destruct F2 as [|i sk ids news (p & p' & A1 & A2 & _ & _ & _ & _ & A3 & _) F2].
    { exfalso. apply (X 0%Z (ex_gas 0 1) eq_refl). apply ex_eligible. intros sk []. }
    destruct F2 as [|j sk2 ids news _ F2]; [|unfold zlen; cbn [length]; lia]. exfalso.
    (* only particle i became a sink: the other one is still a candidate *)
    destruct (C22_densest 1 Hmult 1 2 2 (1/2) 10 10 0 [ex_gas 0 1; ex_gas 10 1] [] 0 ps' sk [] (0 + zlen [sk])%Z) as (q & Q1 & Q2 & Q3 & _).
    { intros p0 [<-|[<-|[]]]; discriminate. }
    { exact E. }
    assert (RD : s_radius sk = 2).
    { destruct (first_densest 1 Hmult 1 2 2 (1/2) 10 10 0 2 [ex_gas 0 1; ex_gas 10 1] [] 0 ps' [sk] (0 + zlen [sk])%Z) as [K|(q' & mm & rest & K1 & _ & _ & K)].
      { intros p0 [<-|[<-|[]]]; discriminate. }
      { exact E. }
      { discriminate. }
      cbn in K. injection K as -> _. cbn. destruct K1 as [<-|[<-|[]]]; cbn; lra. }
    destruct Q3 as (_ & R1 & R2 & R3 & _).
    assert (B : i = 0%Z \/ i = 1%Z). { apply aget_Ok_inv in A1 as [A1 _]. unfold zlen in A1. cbn in A1. lia. }
    assert (P : p = q \/ True) by auto. destruct A3 as (_ & A3 & A4 & A5 & _).
    destruct B as [-> | ->]; cbn in A1; injection A1 as <-.
    + assert (Y : In 1%Z [0%Z]). { apply (X 1%Z (ex_gas 10 1) eq_refl), ex_eligible. intros s [<-|[]]. apply ex_undisturbed.
        - intros k. rewrite A4. reflexivity.
        - intros k. rewrite A5. reflexivity.
        - rewrite RD, A3. cbn. lra. }
      destruct Y as [Y|[]]. discriminate.
    + assert (Y : In 0%Z [1%Z]). { apply (X 0%Z (ex_gas 0 1) eq_refl), ex_eligible. intros s [<-|[]]. apply ex_undisturbed.
        - intros k. rewrite A4. reflexivity.
        - intros k. rewrite A5. reflexivity.
        - rewrite RD, A3. cbn. lra. }
      destruct Y as [Y|[]]. discriminate.
  - unfold live, zlen in H. cbn in H. lia.
Qed.
Print Assumptions C22_requested_number_refuted.

(** 1/h of the new star: right when the sink has the size of the particle's kernel. *)
Theorem C22_invh_partial : forall ndim mode rho_sink sink_radius kernrange invkernrange Nsinkmax Nstarmax n ps sks Nstar ps' news N',
  (forall p, In p ps -> (g_nstep p <> 0)%Z /\ g_h p <> 0) -> kernrange * invkernrange = 1 ->
  mode = Kernel \/ mode = Hmult /\ sink_radius = kernrange ->
  SearchForNewSinkParticles ndim mode rho_sink sink_radius kernrange invkernrange (-1) Nsinkmax Nstarmax n ps sks Nstar = Ok (ps', sks ++ news, N') ->
  forall sk, In sk news -> s_h sk * s_invh sk = 1.
Proof.
  intros ndim mode rho_sink sink_radius kernrange invkernrange Nsinkmax Nstarmax n ps sks Nstar ps' news N' Hst HK HM E sk Hin.
  unfold SearchForNewSinkParticles in E. rewrite Bool.andb_false_r in E.
  assert (I : (forall p, In p ps' -> g_h p <> 0) /\ exists l, sks ++ news = sks ++ l /\ forall sk, In sk l -> s_h sk * s_invh sk = 1).
  { refine (new_sinks_inv ndim mode rho_sink sink_radius kernrange invkernrange Nsinkmax Nstarmax n
      (fun qs ss => (forall p, In p qs -> g_h p <> 0) /\ exists l, ss = sks ++ l /\ forall sk, In sk l -> s_h sk * s_invh sk = 1) _ _ _ _ _ _ _ _ _ _ E).
    - intros qs ss j p mm (A & l & -> & B) Hj _. split.
      + intros q Hq. apply in_upd in Hq as [Hq| ->]; [auto|]. cbn. apply A. eapply nth_error_In; eauto.
      + exists (l ++ [new_sink mode sink_radius kernrange invkernrange p mm]). split; [now rewrite <- app_assoc|].
        intros s Hs. apply in_app_iff in Hs as [Hs|[<-|[]]]; [auto|]. cbn [new_sink s_h s_invh]. unfold new_radius.
        pose proof (A p ltac:(eapply nth_error_In; eauto)) as Hp.
        assert (X : match mode with Fixed => sink_radius | Hmult => sink_radius * g_h p | Kernel => kernrange * g_h p end = kernrange * g_h p).
        { destruct HM as [->|[-> ->]]; reflexivity. }
        rewrite X. transitivity ((kernrange * invkernrange) * (g_h p * / g_h p)); [field; auto|]. rewrite HK, Rinv_r by assumption. lra.
    - intros p Hp. apply Hst, Hp.
    - split; [intros p Hp; apply Hst, Hp|]. exists []. split; [now rewrite app_nil_r|intros s []]. }
  destruct I as (_ & l & El & Hl). apply app_inv_head in El. subst l. auto.
Qed.
Print Assumptions C22_invh_partial.

(** Wrong otherwise: one particle with h = 1 and sink radius 4 h. *)
Theorem C22_invh_refuted : exists ps ps' sk N', (forall p, In p ps -> 0 < g_h p) /\
  SearchForNewSinkParticles 1 Hmult 1 4 2 (1/2) (-1) 10 10 0 ps [] 0 = Ok (ps', [sk], N') /\ s_h sk * s_invh sk <> 1.
Proof.
  exists [ex_gas 0 1].
  destruct (C22_creation_partial 1 Hmult 1 4 2 (1/2) (-1) 10 10 0 [ex_gas 0 1] [] 0) as [(ps' & news & ids & E & Z1 & _ & _ & ND & Fr & F2 & _ & _ & _ & NE)|[_ H]].
  - intros p [<-|[]]; discriminate.
  - unfold zlen. cbn. lia.
  - lia.
  - now right.
  - cbn [app] in *.
    assert (B : forall i, In i ids -> i = 0%Z).
    { intros i Hi. clear - F2 Hi. induction F2 as [|a b la lb (p & p' & A & _) _ IH]; [destruct Hi|]. destruct Hi as [->|Hi]; [|auto].
      apply aget_Ok_inv in A as [A _]. unfold zlen in A. cbn in A. lia. }
    pose proof E as E0. unfold SearchForNewSinkParticles in E0. rewrite Bool.andb_false_r in E0.
    apply first_densest in E0 as [K|(q & mm & rest & K1 & _ & _ & K)]; [| |intros p [<-|[]]; discriminate].
    + exfalso. subst news. inversion F2; subst. apply (NE (ex_gas 0 1)).
      * eapply in_aget. rewrite (Fr 0%Z) by auto. reflexivity.
      * apply ex_eligible. intros sk [].
    + cbn [app] in K. destruct K1 as [<-|[]]. subst news. destruct rest as [|s2 rest].
      * exists ps', (new_sink Hmult 4 2 (1/2) (ex_gas 0 1) mm). eexists. split; [intros p [<-|[]]; cbn; lra|]. split; [exact E|].
        cbn. unfold new_radius. cbn. lra.
      * exfalso. inversion F2 as [|i1 ? l1 ? _ F3]; subst. inversion F3 as [|i2 ? l2 ? _ F4]; subst.
        rewrite (B i1) in ND by now left. rewrite (B i2) in ND by (right; now left). inversion ND as [|? ? N0 _]. apply N0. now left.
  - unfold live, zlen in H. cbn in H. lia.
Qed.
Print Assumptions C22_invh_refuted.

(** ** C48 *)
(** A new sink overlaps no other sink if radii are multiples of h (the default), or if the
    kernel is not larger than the exclusion radius. *)
Theorem C48_new_sinks_apart_partial : forall ndim mode rho_sink sink_radius kernrange invkernrange Nsinkfixed Nsinkmax Nstarmax n ps sks Nstar ps' sks' N',
  (forall p, In p ps -> (g_nstep p <> 0)%Z /\ 0 <= g_h p) -> (forall s, In s sks -> 0 <= s_radius s) -> 0 <= sink_radius ->
  mode = Hmult \/ mode = Kernel /\ 0 <= kernrange <= sink_radius ->
  SearchForNewSinkParticles ndim mode rho_sink sink_radius kernrange invkernrange Nsinkfixed Nsinkmax Nstarmax n ps sks Nstar = Ok (ps', sks', N') ->
  forall i j a b, (0 <= i < j)%Z -> (zlen sks <= j)%Z -> aget sks' i = Ok a -> aget sks' j = Ok b -> apart ndim a b.
Proof.
  intros ndim mode rho_sink sink_radius kernrange invkernrange Nsinkfixed Nsinkmax Nstarmax n ps sks Nstar ps' sks' N' Hp Hs Hr HM E.
  unfold SearchForNewSinkParticles in E. destruct (_ && _)%bool.
  - injection E as <- <- <-. intros i j a b Hij Hj Ea Eb. apply aget_Ok_inv in Eb as [Eb _]. lia.
  - eapply new_sinks_apart; [| | |exact E]; auto.
    + intros p Hi. apply Hp, Hi.
    + intros p Hi. destruct (Hp p Hi) as [_ H0]. unfold new_radius. destruct HM as [->|[-> HK]].
      * split; [apply Rmult_le_pos; assumption|lra].
      * split; [apply Rmult_le_pos; lra|]. apply Rmult_le_compat_r; lra.
Qed.
Print Assumptions C48_new_sinks_apart_partial.

(** One particle, one sink: the particle, if undisturbed, becomes a sink. *)
Lemma ex_becomes : forall mode rs kr ikr x h sk0, undisturbed 1 (rs * h) (ex_gas x h) sk0 ->
  exists ps' mm rest N', SearchForNewSinkParticles 1 mode 1 rs kr ikr (-1) 10 10 0 [ex_gas x h] [sk0] 1 = Ok (ps', sk0 :: new_sink mode rs kr ikr (ex_gas x h) mm :: rest, N').
Proof.
  intros mode rs kr ikr x h sk0 Hu.
  destruct (C22_creation_partial 1 mode 1 rs kr ikr (-1) 10 10 0 [ex_gas x h] [sk0] 1) as [(ps' & news & ids & E & Z1 & _ & _ & ND & Fr & F2 & _ & _ & _ & NE)|[_ H]].
  - intros p [<-|[]]; discriminate.
  - unfold zlen. cbn. lia.
  - lia.
  - now right.
  - cbn [app] in *. pose proof E as E0. unfold SearchForNewSinkParticles in E0. rewrite Bool.andb_false_r in E0.
    apply first_densest in E0 as [K|(q & mm & rest & K1 & _ & _ & K)]; [| |intros p [<-|[]]; discriminate].
    + exfalso. injection K as ->. inversion F2; subst. apply (NE (ex_gas x h)).
      * eapply in_aget. rewrite (Fr 0%Z) by auto. reflexivity.
      * apply ex_eligible. intros sk [<-|[]]. exact Hu.
    + destruct K1 as [<-|[]]. injection K as ->. exists ps', mm, rest. eexists. exact E.
  - unfold live, zlen in H. cbn in H. lia.
Qed.
(** Fixed radii: the test uses sink_radius * h, the sink gets radius sink_radius. *)
Theorem C48_fixed_radius_refuted : exists ps sks ps' sks' N' a b,
  (forall p, In p ps -> (g_nstep p <> 0)%Z /\ 0 <= g_h p) /\ (forall s, In s sks -> s_radius s = 1) /\
  SearchForNewSinkParticles 1 Fixed 1 1 2 (1/2) (-1) 10 10 0 ps sks 1 = Ok (ps', sks', N') /\
  aget sks' 0 = Ok a /\ aget sks' 1 = Ok b /\ s_radius b = 1 /\ ~ apart 1 a b.
Proof.
  exists [ex_gas (3/2) (1/10)], [ex_sink 0 1].
  destruct (ex_becomes Fixed 1 2 (1/2) (3/2) (1/10) (ex_sink 0 1)) as (ps' & mm & rest & N' & E).
  { apply ex_undisturbed; try reflexivity. cbn. lra. }
  eexists _, _, _, _, _. split; [intros p [<-|[]]; cbn; split; [discriminate|lra]|]. split; [intros s [<-|[]]; reflexivity|].
  split; [exact E|]. split; [reflexivity|]. split; [reflexivity|]. split; [reflexivity|].
  unfold apart, dist2, dot, vsub, Rsqr. cbn. lra.
Qed.
Print Assumptions C48_fixed_radius_refuted.
(** Kernel radii with a smaller exclusion radius. *)
Theorem C48_kernel_radius_refuted : exists ps sks ps' sks' N' a b,
  (forall p, In p ps -> (g_nstep p <> 0)%Z /\ 0 <= g_h p) /\ (forall s, In s sks -> s_radius s = 2) /\
  SearchForNewSinkParticles 1 Kernel 1 1 2 (1/2) (-1) 10 10 0 ps sks 1 = Ok (ps', sks', N') /\
  aget sks' 0 = Ok a /\ aget sks' 1 = Ok b /\ s_radius b = 2 /\ ~ apart 1 a b.
Proof.
  exists [ex_gas (7/2) 1], [ex_sink 0 2].
  destruct (ex_becomes Kernel 1 2 (1/2) (7/2) 1 (ex_sink 0 2)) as (ps' & mm & rest & N' & E).
  { apply ex_undisturbed; try reflexivity. cbn. lra. }
  eexists _, _, _, _, _. split; [intros p [<-|[]]; cbn; split; [discriminate|lra]|]. split; [intros s [<-|[]]; reflexivity|].
  split; [exact E|]. split; [reflexivity|]. split; [reflexivity|]. split; [cbn; unfold new_radius; cbn; lra|].
  unfold apart, dist2, dot, vsub, Rsqr. cbn. unfold new_radius. cbn. lra.
Qed.
Print Assumptions C48_kernel_radius_refuted.
(** A case of the theorem: sink at 0 of radius 2, particle at 10. *)
Example C48_example : exists ps' mm rest N',
  SearchForNewSinkParticles 1 Hmult 1 2 2 (1/2) (-1) 10 10 0 [ex_gas 10 1] [ex_sink 0 2] 1 = Ok (ps', ex_sink 0 2 :: new_sink Hmult 2 2 (1/2) (ex_gas 10 1) mm :: rest, N') /\
  apart 1 (ex_sink 0 2) (new_sink Hmult 2 2 (1/2) (ex_gas 10 1) mm).
Proof.
  destruct (ex_becomes Hmult 2 2 (1/2) 10 1 (ex_sink 0 2)) as (ps' & mm & rest & N' & E).
  { apply ex_undisturbed; try reflexivity. cbn. lra. }
  exists ps', mm, rest, N'. split; [exact E|].
  apply (C48_new_sinks_apart_partial 1 Hmult 1 2 2 (1/2) (-1) 10 10 0 [ex_gas 10 1] [ex_sink 0 2] 1 _ _ _ ltac:(intros p [<-|[]]; cbn; split; [discriminate|lra])
    ltac:(intros s [<-|[]]; cbn; lra) ltac:(lra) (or_introl eq_refl) E 0 1); try lia; reflexivity.
Qed.
