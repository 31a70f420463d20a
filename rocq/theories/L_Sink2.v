From Verif Require Import Prelude L_Prelude Vec M_Box L_Box M_Sink S_Stock L_Stock S_Sink L_Sink.
From Coq Require Import Reals Lra Permutation.
Local Open Scope Z_scope.

Lemma aget_ext : forall {A} (l m : list A), zlen l = zlen m -> (forall i, 0 <= i < zlen l -> aget l i = aget m i) -> l = m.
Proof.
  induction l as [|a l IH]; destruct m as [|b m]; intros H E; auto; try (unfold zlen in H; cbn in H; lia).
  f_equal.
  - specialize (E 0). unfold zlen in E. cbn [length] in E. cbn in E. assert (X : Ok a = Ok b) by (apply E; lia). now injection X.
  - apply IH; [unfold zlen in *; cbn in H; lia|]. intros i Hi. specialize (E (i + 1)).
    unfold zlen in *. cbn [length] in *. unfold aget in *. replace (i + 1 <? 0) with false in E by lia. replace (i <? 0) with false by lia.
    replace (Z.to_nat (i + 1)) with (S (Z.to_nat i)) in E by lia. cbn in E. apply E. lia.
Qed.

(** ** Assignment *)
Lemma claims_spec : forall ndim ps sk l, (forall i, In i l -> 0 <= i < zlen ps) ->
  exists cs, claims ndim ps sk l = Ok cs /\
    forall i, In i cs <-> In i l /\ exists p, aget ps i = Ok p /\ g_dead p = false /\ inside ndim sk p = true.
Proof.
  intros ndim ps sk. induction l as [|i l IH]; intros H.
  - exists []. split; [reflexivity|]. intros j. split; [easy|intros [[] _]].
  - destruct IH as (cs & E & C); [intros; apply H; now right|]. destruct (aget_in ps i) as [p Hp]; [apply H; now left|].
    unfold claims in *. cbn [fold_right]. rewrite Hp. cbn [bind]. rewrite E. cbn [bind].
    destruct (g_dead p) eqn:D; [|destruct (inside ndim sk p) eqn:I0].
    + exists cs. split; [reflexivity|]. intros j. rewrite C. split.
      * intros [A B]. split; [now right|exact B].
      * intros [[->|A] (q & Q1 & Q2 & Q3)]; [congruence|]. split; eauto.
    + exists (i :: cs). split; [reflexivity|]. intros j. cbn. rewrite C. split.
      * intros [<-|[A B]]; [split; [now left|eauto]|split; [now right|exact B]].
      * intros [[->|A] B]; [now left|right; auto].
    + exists cs. split; [reflexivity|]. intros j. rewrite C. split.
      * intros [A B]. split; [now right|exact B].
      * intros [[->|A] (q & Q1 & Q2 & Q3)]; [congruence|]. split; eauto.
Qed.
Lemma all_claims_spec : forall ndim ps found sks s0, (forall s, s0 <= s < s0 + zlen sks -> forall i, In i (found s) -> 0 <= i < zlen ps) ->
  exists cs, all_claims ndim ps s0 sks found = Ok cs /\
    forall i s, In (i, s) cs <-> exists sk p, aget sks (s - s0) = Ok sk /\ In i (found s) /\ aget ps i = Ok p /\ g_dead p = false /\ inside ndim sk p = true.
Proof.
  intros ndim ps found. induction sks as [|sk sks IH]; intros s0 H.
  - exists []. split; [reflexivity|]. intros i s. split; [easy|]. intros (sk & p & E & _). apply aget_Ok_inv in E as [E _]. unfold zlen in E; cbn in E; lia.
  - assert (ZC : zlen (sk :: sks) = 1 + zlen sks) by (unfold zlen; cbn [length]; lia). rewrite ZC in H.
    destruct (claims_spec ndim ps sk (found s0)) as (c & Ec & Hc); [apply H; unfold zlen; lia|].
    destruct (IH (s0 + 1)) as (cs & E & C); [intros s Hs; apply H; lia|].
    cbn [all_claims]. rewrite Ec. cbn [bind]. rewrite E. cbn [bind]. eexists. split; [reflexivity|].
    intros i s. rewrite in_app_iff, in_map_iff, C. split.
    + intros [(j & [= -> <-] & Hj)|(sk' & p & A1 & A2 & A3)].
      * apply Hc in Hj as [A (p & B1 & B2 & B3)]. exists sk, p. rewrite Z.sub_diag. repeat split; auto.
      * exists sk', p. split; [|repeat split; tauto]. apply aget_Ok_inv in A1 as [A1 A1'].
        apply aget_nth_error; [lia|]. replace (Z.to_nat (s - s0)) with (S (Z.to_nat (s - (s0 + 1)))) by lia. exact A1'.
    + intros (sk' & p & A1 & A2 & A3 & A4 & A5). destruct (Z.eq_dec s s0) as [->|Hne].
      * left. rewrite Z.sub_diag in A1. injection A1 as <-. exists i. split; [reflexivity|]. apply Hc. eauto.
      * right. exists sk', p. split; [|auto]. apply aget_Ok_inv in A1 as [A1 A1'].
        apply aget_nth_error; [lia|]. replace (Z.to_nat (s - s0)) with (S (Z.to_nat (s - (s0 + 1)))) in A1' by lia. exact A1'.
Qed.
Lemma run_claims_spec : forall cs ps, (forall i s, In (i, s) cs -> 0 <= i < zlen ps) ->
  exists ps', run_claims ps cs = Ok ps' /\ zlen ps' = zlen ps /\
    forall i p, aget ps i = Ok p -> exists t, aget ps' i = Ok (set_sinkid t p) /\
      (In (i, t) cs \/ t = g_sinkid p /\ forall s, ~ In (i, s) cs).
Proof.
  induction cs as [|[i s] cs IH]; intros ps H.
  - exists ps. split; [reflexivity|]. split; [reflexivity|]. intros j p Hp. exists (g_sinkid p). split; [rewrite Hp; now destruct p|]. right. auto.
  - destruct (aget_in ps i) as [p Hp]; [apply (H i s); now left|].
    assert (Hi : 0 <= i < zlen ps) by (apply (H i s); now left).
    cbn [run_claims claim1]. rewrite Hp. cbn [bind]. rewrite (aset_in ps i _ Hi). cbn [bind].
    set (ps1 := upd ps (Z.to_nat i) (set_sinkid s p)).
    destruct (IH ps1) as (ps' & E & Z1 & C). { intros j t Hj. unfold ps1. rewrite zlen_upd. apply (H j t). now right. }
    exists ps'. split; [exact E|]. split; [unfold ps1 in Z1; now rewrite zlen_upd in Z1|].
    intros j q Hq. destruct (Z.eq_dec j i) as [->|Hne].
    + assert (q = p) by congruence. subst q.
      destruct (C i (set_sinkid s p)) as (t & Et & Ht); [apply aget_upd_eq, Hi|]. exists t. split; [exact Et|].
      left. destruct Ht as [Ht|[Ht _]]; [now right|]. cbn in Ht. subst t. now left.
    + destruct (C j q) as (t & Et & Ht); [unfold ps1; rewrite aget_upd_ne; auto; lia|]. exists t. split; [exact Et|].
      destruct Ht as [Ht|[Ht N]]; [left; now right|]. right. split; [exact Ht|]. intros s' [[= -> ->]|K]; [now apply Hne|]. eapply N; eauto.
Qed.
Lemma aget_map : forall {A B} (f : A -> B) l i, aget (map f l) i = match aget l i with Ok x => Ok (f x) | UB => UB | Raise => Raise | NoFuel => NoFuel end.
Proof.
  intros. unfold aget. destruct (i <? 0); [reflexivity|]. rewrite nth_error_map. destruct (nth_error l (Z.to_nat i)); reflexivity.
Qed.
(** Whatever the order of the assignments. *)
Lemma assignment : forall ndim ps sks found, (forall s, 0 <= s < zlen sks -> forall i, In i (found s) -> 0 <= i < zlen ps) ->
  exists all, all_claims ndim (map (set_sinkid (-1)) ps) 0 sks found = Ok all /\
  forall cs, Permutation cs all -> exists ps', run_claims (map (set_sinkid (-1)) ps) cs = Ok ps' /\ zlen ps' = zlen ps /\
    forall i p, aget ps i = Ok p -> exists t, aget ps' i = Ok (set_sinkid t p) /\
      (t = -1 \/ exists sk, aget sks t = Ok sk /\ In i (found t) /\ g_dead p = false /\ inside ndim sk p = true) /\
      (forall s sk, aget sks s = Ok sk -> In i (found s) -> g_dead p = false -> inside ndim sk p = true -> t <> -1).
Proof.
  intros ndim ps sks found H.
  assert (ZM : zlen (map (set_sinkid (-1)) ps) = zlen ps) by (unfold zlen; now rewrite map_length).
  destruct (all_claims_spec ndim (map (set_sinkid (-1)) ps) found sks 0) as (all & E & C).
  { intros s Hs. rewrite ZM. apply H. lia. }
  exists all. split; [exact E|]. intros cs HP.
  assert (C' : forall i s, In (i, s) cs <-> exists sk p, aget sks s = Ok sk /\ In i (found s) /\ aget (map (set_sinkid (-1)) ps) i = Ok p /\ g_dead p = false /\ inside ndim sk p = true).
  { intros i s. specialize (C i s). rewrite Z.sub_0_r in C. rewrite <- C. split; apply Permutation_in; auto using Permutation_sym. }
  destruct (run_claims_spec cs (map (set_sinkid (-1)) ps)) as (ps' & R1 & R2 & R3).
  { intros i s Hs. apply C' in Hs as (sk & p & _ & _ & X & _). apply aget_Ok_inv in X as [X _]. exact X. }
  exists ps'. split; [exact R1|]. split; [congruence|]. intros i p Hp.
  assert (Hm : aget (map (set_sinkid (-1)) ps) i = Ok (set_sinkid (-1) p)) by (rewrite aget_map, Hp; reflexivity).
  destruct (R3 i _ Hm) as (t & Et & Ht). exists t. split; [exact Et|]. split.
  - destruct Ht as [Ht|[-> _]]; [|now left]. right. apply C' in Ht as (sk & q & A1 & A2 & A3 & A4 & A5).
    rewrite Hm in A3. injection A3 as <-. exists sk. repeat split; auto.
  - intros s sk A1 A2 A3 A4. assert (X : In (i, s) cs). { apply C'. exists sk, (set_sinkid (-1) p). repeat split; auto. }
    destruct Ht as [Ht|[_ N]]; [|exfalso; eapply N; eauto]. apply C' in Ht as (sk' & q & B1 & _). apply aget_Ok_inv in B1 as [B1 _]. lia.
Qed.

(** ** Sinks touch disjoint sets of particles *)
Definition agree (s : Z) (ps ps2 : list gas) : Prop := zlen ps = zlen ps2 /\
  forall i p p2, aget ps i = Ok p -> aget ps2 i = Ok p2 -> p = p2 \/ g_sinkid p <> s /\ g_sinkid p2 <> s.
Definition frame (s : Z) (ps ps' : list gas) : Prop := zlen ps' = zlen ps /\
  forall i p, aget ps i = Ok p -> exists p', aget ps' i = Ok p' /\ g_sinkid p' = g_sinkid p /\ (g_sinkid p <> s -> p' = p).
Definition mine (s : Z) (ps : list gas) (ids : list Z) : Prop :=
  forall i, In i ids -> exists p, aget ps i = Ok p /\ g_sinkid p = s.
Lemma frame_refl : forall s ps, frame s ps ps.
Proof. intros. split; auto. intros i p H. exists p. auto. Qed.
Lemma frame_trans : forall s a b c, frame s a b -> frame s b c -> frame s a c.
Proof.
  intros s a b c [Z1 F1] [Z2 F2]. split; [congruence|]. intros i p H. destruct (F1 i p H) as (q & Q1 & Q2 & Q3).
  destruct (F2 i q Q1) as (x & X1 & X2 & X3). exists x. repeat split; auto; [congruence|]. intros N. rewrite X3 by congruence. auto.
Qed.
Lemma upd_frame : forall s ps i p p', aget ps i = Ok p -> g_sinkid p = s -> g_sinkid p' = s -> frame s ps (upd ps (Z.to_nat i) p').
Proof.
  intros s ps i p p' H E E'. split; [apply zlen_upd|]. intros j q Hq. destruct (aget_Ok_inv _ _ _ H) as [B _].
  destruct (Z.eq_dec j i) as [->|N].
  - assert (q = p) by congruence. subst q. exists p'. rewrite aget_upd_eq by exact B. repeat split; congruence.
  - exists q. rewrite aget_upd_ne by (try lia; congruence). auto.
Qed.
Lemma upd_agree : forall s ps ps2 i p p', agree s ps ps2 -> aget ps i = Ok p -> aget ps2 i = Ok p ->
  agree s (upd ps (Z.to_nat i) p') (upd ps2 (Z.to_nat i) p').
Proof.
  intros s ps ps2 i p p' [Z1 A] H H2. destruct (aget_Ok_inv _ _ _ H) as [B _]. destruct (aget_Ok_inv _ _ _ H2) as [B2 _].
  split; [rewrite !zlen_upd; exact Z1|]. intros j a b. destruct (Z.eq_dec j i) as [->|N].
  - rewrite !aget_upd_eq by assumption. intros [= <-] [= <-]. now left.
  - rewrite !aget_upd_ne by (try lia; congruence). apply A.
Qed.
Lemma mine_agree : forall s ps ps2 ids, agree s ps ps2 -> mine s ps ids -> forall i, In i ids -> aget ps i = aget ps2 i.
Proof.
  intros s ps ps2 ids [Z1 A] M i Hi. destruct (M i Hi) as (p & Ep & Es). destruct (aget_Ok_inv _ _ _ Ep) as [B _].
  destruct (aget_in ps2 i) as [p2 E2]; [rewrite <- Z1; exact B|]. rewrite Ep, E2. destruct (A i p p2 Ep E2) as [->|[X _]]; congruence.
Qed.
Lemma mine_frame : forall s ps ps' ids, frame s ps ps' -> mine s ps ids -> mine s ps' ids.
Proof.
  intros s ps ps' ids [_ F] M i Hi. destruct (M i Hi) as (p & Ep & Es). destruct (F i p Ep) as (q & Q1 & Q2 & _). exists q. split; congruence.
Qed.

Section Frame.
Variables (ndim : nat) (w0 wpot : R -> R).
Variables (sm : Z) (sfrac sdt alpha_ss mmean : R).

Lemma own_list_rel : forall s sk l ps ps2, agree s ps ps2 -> (forall i, In i l -> 0 <= i < zlen ps) ->
  exists ps' ps2' o, own_list ndim s sk ps l = Ok (ps', o) /\ own_list ndim s sk ps2 l = Ok (ps2', o) /\
    agree s ps' ps2' /\ frame s ps ps' /\ frame s ps2 ps2' /\ mine s ps' (map fst o).
Proof.
  intros s sk. induction l as [|i l IH]; intros ps ps2 A H.
  - exists ps, ps2, []. repeat split; auto using frame_refl; try apply A; try (intros j q Hq; exists q; auto). intros i [].
  - destruct (aget_in ps i) as [p Ep]; [apply H; now left|].
    destruct (aget_in ps2 i) as [p2 Ep2]; [destruct A as [<- _]; apply H; now left|].
    assert (H' : forall j, In j l -> 0 <= j < zlen ps) by (intros; apply H; now right).
    cbn [own_list]. rewrite Ep, Ep2. cbn [bind]. destruct A as [Z1 A]. destruct (A i p p2 Ep Ep2) as [->|[N1 N2]].
    + destruct (g_dead p2); [apply IH; [split; auto|auto]|]. destruct (g_sinkid p2 =? s) eqn:S1; [|apply IH; [split; auto|auto]].
      cbn zeta. destruct (rltb _ _); [apply IH; [split; auto|auto]|]. apply Z.eqb_eq in S1.
      destruct (aget_Ok_inv _ _ _ Ep) as [B _]. destruct (aget_Ok_inv _ _ _ Ep2) as [B2 _].
      rewrite !aset_in by assumption. cbn [bind].
      set (p' := set_levelneib (Z.max (g_levelneib p2) (s_level sk)) p2).
      destruct (IH (upd ps (Z.to_nat i) p') (upd ps2 (Z.to_nat i) p')) as (ps' & ps2' & o & E1 & E2 & A' & F1 & F2 & M).
      { apply upd_agree with p2; auto. split; auto. }
      { intros j Hj. rewrite zlen_upd. auto. }
      rewrite E1, E2. cbn [bind]. eexists _, _, _. split; [reflexivity|]. split; [reflexivity|]. split; [exact A'|].
      split; [eapply frame_trans; [|exact F1]; apply upd_frame with p2; auto|].
      split; [eapply frame_trans; [|exact F2]; apply upd_frame with p2; auto|].
      intros j [<-|Hj]; [|auto]. cbn [fst]. destruct F1 as [_ F1]. destruct (F1 i p') as (q & Q1 & Q2 & _); [now apply aget_upd_eq|].
      exists q. split; [exact Q1|]. rewrite Q2. unfold p'. exact S1.
    + assert (K : forall (b : bool) p0, g_sinkid p0 <> s -> forall X Y : res (list gas * list (Z * R)),
         (if b then X else if g_sinkid p0 =? s then Y else X) = X).
      { intros b p0 N X Y. destruct b; [reflexivity|]. destruct (Z.eqb_spec (g_sinkid p0) s); [contradiction|reflexivity]. }
      cbn zeta. rewrite (K (g_dead p) p N1), (K (g_dead p2) p2 N2). apply IH; [split; auto|auto].
Qed.
Lemma enclosed_ext : forall sk ps ps2 ids e, (forall i, In i ids -> aget ps i = aget ps2 i) ->
  enclosed ndim w0 wpot sk ps ids e = enclosed ndim w0 wpot sk ps2 ids e.
Proof.
  intros sk ps ps2. induction ids as [|i ids IH]; intros e H; [reflexivity|]. cbn [enclosed]. rewrite <- (H i (or_introl eq_refl)).
  destruct (aget ps i); try reflexivity. cbn [bind]. destruct (g_dead a); apply IH; intros; apply H; now right.
Qed.
Lemma loop1_ext : forall trot ps ps2 ids macc c, (forall i, In i ids -> aget ps i = aget ps2 i) ->
  loop1 sm sfrac sdt mmean trot ps ids macc c = loop1 sm sfrac sdt mmean trot ps2 ids macc c.
Proof.
  intros trot ps ps2. induction ids as [|i ids IH]; intros macc c H; [reflexivity|]. cbn [loop1]. rewrite <- (H i (or_introl eq_refl)).
  destruct (aget ps i); try reflexivity. cbn [bind]. destruct (g_dead a); [apply IH; intros; apply H; now right|]. cbn zeta.
  destruct (rltb _ tiny); [reflexivity|]. apply IH. intros; apply H; now right.
Qed.
Lemma loop2_rel : forall s trot R0 V0 ids ps ps2 macc L, agree s ps ps2 -> mine s ps ids ->
  exists ps' ps2' L', loop2 ndim sm sfrac sdt mmean trot R0 V0 ps ids macc L = Ok (ps', L') /\
    loop2 ndim sm sfrac sdt mmean trot R0 V0 ps2 ids macc L = Ok (ps2', L') /\
    agree s ps' ps2' /\ frame s ps ps' /\ frame s ps2 ps2'.
Proof.
  intros s trot R0 V0. induction ids as [|i ids IH]; intros ps ps2 macc L A M.
  - exists ps, ps2, L. repeat split; auto using frame_refl; try apply A; intros j q Hq; exists q; auto.
  - destruct (M i (or_introl eq_refl)) as (p & Ep & Es). pose proof (mine_agree s ps ps2 (i :: ids) A M i (or_introl eq_refl)) as E2.
    rewrite Ep in E2. symmetry in E2. assert (M' : mine s ps ids) by (intros j Hj; apply M; now right).
    destruct (aget_Ok_inv _ _ _ Ep) as [B _]. destruct (aget_Ok_inv _ _ _ E2) as [B2 _].
    cbn [loop2]. rewrite Ep, E2. cbn [bind]. destruct (g_dead p); [apply IH; auto|]. cbn zeta.
    set (w := whole _ _ _ _ _ _ _). set (mt := if w then g_m p else Rmin (g_m p) macc). set (p' := if w then swallow p else drain mt p).
    rewrite !aset_in by assumption. cbn [bind].
    assert (S' : g_sinkid p' = s) by (unfold p'; destruct w; exact Es).
    pose proof (upd_agree s ps ps2 i p p' A Ep E2) as A'.
    pose proof (upd_frame s ps i p p' Ep Es S') as F1. pose proof (upd_frame s ps2 i p p' E2 Es S') as F2.
    destruct (rltb _ tiny).
    + eexists _, _, _. split; [reflexivity|]. split; [reflexivity|]. auto.
    + destruct (IH _ _ (macc - mt)%R (add_angmom ndim mt (vsub (g_r p) R0) (vsub (g_v p) V0) L) A' (mine_frame _ _ _ _ F1 M')) as (a & b & c & X1 & X2 & X3 & X4 & X5).
      exists a, b, c. repeat split; auto; try apply X3; try (eapply frame_trans; eauto).
Qed.
Lemma accrete_sink_rel : forall nnow timestep s sk found ps ps2, agree s ps ps2 -> valid_ids ps found ->
  (forall p, In p ps -> (0 <= g_m p)%R) -> s_nstep sk <> 0 ->
  exists ps' ps2' sk', accrete_sink ndim w0 wpot sm sfrac sdt alpha_ss mmean nnow timestep s sk ps found = Ok (ps', sk') /\
    accrete_sink ndim w0 wpot sm sfrac sdt alpha_ss mmean nnow timestep s sk ps2 found = Ok (ps2', sk') /\
    agree s ps' ps2' /\ frame s ps ps' /\ frame s ps2 ps2'.
Proof.
  intros nnow timestep s sk found ps ps2 A [HN Hi] Hp Hst. unfold accrete_sink.
  destruct (s_Ngas sk =? 0); [exists ps, ps2, sk; auto using frame_refl|].
  destruct (s_nstep sk =? 0) eqn:E0; [exfalso; lia|]. clear E0.
  destruct (negb _); [exists ps, ps2, sk; auto using frame_refl|].
  destruct (own_list_rel s sk found ps ps2 A Hi) as (ps1 & qs1 & o & E1 & E2 & A1 & F1 & F1' & M1). rewrite E1, E2. cbn [bind].
  destruct (own_list_ok ndim s sk found ps Hi HN) as (xs & ox & Ex & _ & _ & _ & _ & P1).
  rewrite E1 in Ex. injection Ex as <- <-.
  set (ids := map fst (InsertionSortIds o)).
  assert (MI : mine s ps1 ids).
  { intros i Hj. apply M1. eapply Permutation_in; [apply Permutation_map, isort_perm|exact Hj]. }
  pose proof (mine_agree s ps1 qs1 ids A1 MI) as EQ.
  rewrite <- (enclosed_ext sk ps1 qs1 ids _ EQ).
  destruct (enclosed_ok ndim w0 wpot sk ps1 ids {| e_menc := 0; e_wnorm := 0; e_gpe := 0; e_rot := 0; e_tvisc := 1; e_trad := 0 |})
    as (e & -> & He).
  { intros i Hj. destruct (MI i Hj) as (p & Ep & _). apply aget_Ok_inv in Ep as [Ep _]. exact Ep. }
  { intros p Hin. destruct (P1 p Hin) as (q & Hq & ->). auto. }
  { cbn. lra. }
  cbn [bind]. destruct (accreted sm alpha_ss timestep sk e) as [[macc trot] dmdt].
  rewrite <- (loop1_ext trot ps1 qs1 ids _ _ EQ).
  match goal with |- context [loop1 sm sfrac sdt mmean trot ps1 ids macc ?C] => destruct (loop1_takes sm sfrac sdt mmean trot ps1 ids macc C) as (c & -> & _) end.
  { intros i Hj. destruct (MI i Hj) as (p & Ep & _). apply aget_Ok_inv in Ep as [Ep _]. exact Ep. }
  cbn [bind].
  match goal with |- context [loop2 ndim sm sfrac sdt mmean trot ?a ?b ps1 ids macc ?d] =>
    destruct (loop2_rel s trot a b ids ps1 qs1 macc d A1 MI) as (ps' & qs' & L & -> & -> & A2 & F2 & F2') end.
  cbn [bind]. eexists _, _, _. split; [reflexivity|]. split; [reflexivity|]. split; [exact A2|]. split; eapply frame_trans; eauto.
Qed.

(** Two sinks in either order. *)
Lemma agree_of_frame : forall s t ps ps', s <> t -> frame t ps ps' -> agree s ps ps'.
Proof.
  intros s t ps ps' N [Z1 F]. split; [auto|]. intros i p p' Ep Ep'. destruct (F i p Ep) as (q & Q1 & Q2 & Q3).
  rewrite Ep' in Q1. injection Q1 as <-. destruct (Z.eq_dec (g_sinkid p) t) as [E|E]; [|left; symmetry; auto].
  right. split; congruence.
Qed.
Notation AA := (accrete_all ndim w0 wpot sm sfrac sdt alpha_ss mmean).
Definition ready (found : Z -> list Z) (order : list Z) (ps : list gas) (sks : list sink) : Prop :=
  masses_ok ps sks /\ (forall s, In s sks -> s_nstep s <> 0) /\ (forall s, In s order -> 0 <= s < zlen sks /\ valid_ids ps (found s)).
Lemma ready_step : forall nnow timestep found s order ps sks sk ps' sk', ready found (s :: order) ps sks -> aget sks s = Ok sk ->
  accrete_sink ndim w0 wpot sm sfrac sdt alpha_ss mmean nnow timestep s sk ps (found s) = Ok (ps', sk') ->
  ready found order ps' (upd sks (Z.to_nat s) sk') .
Proof.
  intros nnow timestep found s order ps sks sk ps' sk' ([Hp Hs] & Hst & Ho) Es E.
  destruct (Ho s (or_introl eq_refl)) as [Hb Hv]. assert (Isk : In sk sks) by (eapply in_aget; eauto).
  destruct (accrete_sink_conserves ndim w0 wpot sm sfrac sdt alpha_ss mmean nnow timestep s sk ps (found s) Hv Hp (Hs sk Isk) (Hst sk Isk))
    as (ps1 & sk1 & E1 & Z1 & N1 & P1 & Q1 & _). rewrite E in E1. injection E1 as <- <-.
  split; [split; [exact Q1|]|split].
  - intros x Hx. apply in_upd in Hx as [Hx| ->]; auto.
  - intros x Hx. apply in_upd in Hx as [Hx| ->]; auto. rewrite N1. auto.
  - intros s' Hs'. destruct (Ho s' (or_intror Hs')) as [B1 [B2 B3]]. rewrite zlen_upd. split; [exact B1|]. split; [exact B2|].
    intros i Hi. rewrite Z1. auto.
Qed.
Lemma upd_comm : forall {A} (l : list A) n m x y, n <> m -> upd (upd l n x) m y = upd (upd l m y) n x.
Proof. induction l as [|a l IH]; intros [|n] [|m] x y H; cbn; auto; [congruence|]. f_equal. apply IH. congruence. Qed.
Lemma accrete_swap : forall nnow timestep found s t order ps sks, s <> t -> ready found (s :: t :: order) ps sks ->
  AA nnow timestep found (s :: t :: order) ps sks = AA nnow timestep found (t :: s :: order) ps sks.
Proof.
  intros nnow timestep found s t order ps sks N Rd. pose proof Rd as ([Hp Hs] & Hst & Ho).
  destruct (Ho s (or_introl eq_refl)) as [Bs Vs]. destruct (Ho t (or_intror (or_introl eq_refl))) as [Bt Vt].
  destruct (aget_in sks s Bs) as [ss Es]. destruct (aget_in sks t Bt) as [st Et].
  assert (Is : In ss sks) by (eapply in_aget; eauto). assert (It : In st sks) by (eapply in_aget; eauto).
  assert (Refl : forall u xs, agree u xs xs). { intros u xs. split; auto. intros i a b Ea Eb. left. congruence. }
  (* first s from ps *)
  destruct (accrete_sink_rel nnow timestep s ss (found s) ps ps (Refl _ _) Vs Hp (Hst ss Is)) as (ps1 & x1 & ss1 & E1 & _ & _ & F1 & _).
  destruct (accrete_sink_rel nnow timestep t st (found t) ps ps (Refl _ _) Vt Hp (Hst st It)) as (pt1 & y1 & st1 & G1 & _ & _ & K1 & _).
  destruct (accrete_sink_rel nnow timestep t st (found t) ps ps1 (agree_of_frame t s ps ps1 (not_eq_sym N) F1) Vt Hp (Hst st It))
    as (a1 & ps2 & st2 & G1' & E2 & A2 & _ & F2). rewrite G1 in G1'. injection G1' as <- <-.
  destruct (accrete_sink_rel nnow timestep s ss (found s) ps pt1 (agree_of_frame s t ps pt1 N K1) Vs Hp (Hst ss Is))
    as (b1 & pt2 & ss2 & E1' & G2 & B2 & _ & K2). rewrite E1 in E1'. injection E1' as <- <-.
  cbn [accrete_all]. rewrite Es, Et. cbn [bind]. rewrite E1, G1. cbn [bind]. rewrite !aset_in by assumption. cbn [bind].
  rewrite !aget_upd_ne by (try lia; congruence). rewrite Es, Et. cbn [bind]. rewrite E2, G2. cbn [bind].
  rewrite !aset_in by (rewrite zlen_upd; assumption). cbn [bind].
  assert (X : ps2 = pt2).
  { destruct F1 as [Z1 F1], F2 as [Z2 F2], K1 as [Y1 K1], K2 as [Y2 K2]. apply aget_ext; [congruence|]. intros i Hi.
    destruct (aget_in ps i) as [p Ep]; [lia|].
    destruct (F1 i p Ep) as (p1 & P1 & P2 & P3). destruct (F2 i p1 P1) as (p2 & Q1 & Q2 & Q3).
    destruct (K1 i p Ep) as (t1 & T1 & T2 & T3). destruct (K2 i t1 T1) as (t2 & U1 & U2 & U3).
    rewrite Q1, U1. f_equal. destruct (Z.eq_dec (g_sinkid p) s) as [S1|S1].
    - rewrite Q3 by congruence. destruct B2 as [_ B2]. destruct (B2 i p1 t2 P1 U1) as [->|[W _]]; congruence.
    - destruct (Z.eq_dec (g_sinkid p) t) as [S2|S2].
      + rewrite U3 by congruence. destruct A2 as [_ A2]. destruct (A2 i t1 p2 T1 Q1) as [->|[W _]]; congruence.
      + rewrite Q3, U3, P3, T3 by congruence. reflexivity. }
  rewrite X. f_equal. apply upd_comm. lia.
Qed.
Lemma accrete_order : forall nnow timestep found o1 o2, Permutation o1 o2 -> forall ps sks, NoDup o1 -> ready found o1 ps sks ->
  AA nnow timestep found o1 ps sks = AA nnow timestep found o2 ps sks.
Proof.
  intros nnow timestep found o1 o2 P. induction P as [|s a b P IH|s t a|a b c P1 IH1 P2 IH2]; intros ps sks ND Rd.
  - reflexivity.
  - inversion ND; subst. cbn [accrete_all]. pose proof Rd as ([Hp Hs] & Hst & Ho). destruct (Ho s (or_introl eq_refl)) as [Bs Vs].
    destruct (aget_in sks s Bs) as [ss Es]. rewrite Es. cbn [bind].
    destruct (accrete_sink_conserves ndim w0 wpot sm sfrac sdt alpha_ss mmean nnow timestep s ss ps (found s) Vs Hp
      (Hs ss ltac:(eapply in_aget; eauto)) (Hst ss ltac:(eapply in_aget; eauto))) as (ps1 & sk1 & E1 & _).
    rewrite E1. cbn [bind]. rewrite aset_in by assumption. cbn [bind]. apply IH; auto. eapply ready_step; eauto.
  - inversion ND as [|? ? N1 N2]; subst. apply accrete_swap; auto. intros ->. apply N1. now left.
  - rewrite IH1 by assumption. apply IH2; [eapply Permutation_NoDup; eauto|].
    destruct Rd as (A & B & C). split; [exact A|]. split; [exact B|]. intros s Hs. apply C.
    eapply Permutation_in; [apply Permutation_sym; eauto|assumption].
Qed.
End Frame.
