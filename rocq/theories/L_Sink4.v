From Verif Require Import Prelude L_Prelude Vec M_Box L_Box M_Sink S_Stock L_Stock S_Sink L_Sink L_Sink2 L_Sink3.
From Coq Require Import Reals Lra Permutation.
Local Open Scope R_scope.

(** ** The whole routine *)
Lemma run_claims_lsum : forall (f : gas -> R), (forall s p, f (set_sinkid s p) = f p) -> forall cs ps ps', run_claims ps cs = Ok ps' -> lsum f ps' = lsum f ps.
Proof.
  intros f Hf. induction cs as [|[i s] cs IH]; intros ps ps' H; cbn in H; [now injection H as <-|].
  destruct (aget ps i) as [p| | |] eqn:E; cbn [bind] in H; try discriminate.
  destruct (aset ps i (set_sinkid s p)) as [ps1| | |] eqn:E1; cbn [bind] in H; try discriminate.
  rewrite (IH _ _ H). rewrite (lsum_aset f _ _ _ _ _ E E1), Hf. lra.
Qed.
Lemma map_lsum : forall (f : gas -> R), (forall s p, f (set_sinkid s p) = f p) -> forall t ps, lsum f (map (set_sinkid t) ps) = lsum f ps.
Proof. intros f Hf t. induction ps as [|p ps IH]; [reflexivity|]. cbn. rewrite Hf, IH. reflexivity. Qed.
Lemma Ngas_lsum : forall (f : sink -> R), (forall N s, f (set_Ngas N s) = f s) -> forall cs sks s, lsum f (set_all_Ngas cs s sks) = lsum f sks.
Proof. intros f Hf cs. induction sks as [|sk sks IH]; intros s; [reflexivity|]. cbn. rewrite Hf, IH. reflexivity. Qed.
Lemma Ngas_in : forall cs sks s sk, In sk (set_all_Ngas cs s sks) -> exists N sk0, In sk0 sks /\ sk = set_Ngas N sk0.
Proof. intros cs. induction sks as [|a sks IH]; intros s sk []; [subst; eexists _, a; split; [now left|reflexivity]|]. destruct (IH _ _ H) as (N & sk0 & X & ->). exists N, sk0. split; [now right|reflexivity]. Qed.
Lemma Ngas_zlen : forall cs sks s, zlen (set_all_Ngas cs s sks) = zlen sks.
Proof. intros cs. induction sks as [|a sks IH]; intros s; [reflexivity|]. specialize (IH (s + 1)%Z). unfold zlen in *. cbn [set_all_Ngas length]. lia. Qed.
Lemma Ngas_get : forall cs sks s t sk, aget sks t = Ok sk -> aget (set_all_Ngas cs s sks) t = Ok (set_Ngas (count_claims cs (s + t)) sk).
Proof.
  intros cs. induction sks as [|a sks IH]; intros s t sk H; apply aget_Ok_inv in H as [B H]; [destruct (Z.to_nat t); discriminate|].
  unfold aget. destruct (Z.ltb_spec t 0); [lia|]. cbn [set_all_Ngas]. destruct (Z.to_nat t) as [|k] eqn:Ek.
  - cbn in H |- *. injection H as ->. replace (s + t)%Z with s by lia. reflexivity.
  - cbn in H |- *. specialize (IH (s + 1)%Z (t - 1)%Z sk).
    assert (X : Z.to_nat (t - 1) = k) by lia. unfold aget in IH. rewrite X, H in IH. destruct (Z.ltb_spec (t - 1) 0); [lia|].
    specialize (IH eq_refl). destruct (nth_error (set_all_Ngas cs (s + 1) sks) k); [|discriminate]. injection IH as ->.
    replace (s + 1 + (t - 1))%Z with (s + t)%Z by lia. reflexivity.
Qed.
Lemma claims_in : forall ps ps' i p' cs, zlen ps' = zlen ps -> (forall i p, aget ps i = Ok p -> exists t, aget ps' i = Ok (set_sinkid t p) /\ (cs i p t : Prop)) ->
  aget ps' i = Ok p' -> exists p t, aget ps i = Ok p /\ p' = set_sinkid t p /\ cs i p t.
Proof.
  intros ps ps' i p' cs Z1 H E. destruct (aget_Ok_inv _ _ _ E) as [B _]. destruct (aget_in ps i) as [p Hp]; [lia|].
  destruct (H i p Hp) as (t & E' & C). rewrite E in E'. injection E' as ->. eauto.
Qed.

Lemma claims_masses : forall ps ps' sks cs, masses_ok ps sks -> zlen ps' = zlen ps ->
  (forall i p, aget ps i = Ok p -> exists t, aget ps' i = Ok (set_sinkid t p)) -> masses_ok ps' (set_all_Ngas cs 0 sks).
Proof.
  intros ps ps' sks cs [Hp Hs] Z1 H. split.
  - intros p' Hin. apply In_nth_error in Hin as (k & Hk).
    assert (Ek : aget ps' (Z.of_nat k) = Ok p'). { unfold aget. destruct (Z.ltb_spec (Z.of_nat k) 0); [lia|]. now rewrite Nat2Z.id, Hk. }
    destruct (claims_in ps ps' (Z.of_nat k) p' (fun _ _ _ => True) Z1) as (p & t & E & -> & _); [intros i p Hi; destruct (H i p Hi) as (t & ?); eauto|exact Ek|].
    cbn. apply Hp. eapply in_aget; eauto.
  - intros sk Hin. apply Ngas_in in Hin as (N & sk0 & Hin & ->). cbn. auto.
Qed.

Section Routine.
Variables (ndim : nat) (w0 wpot : R -> R) (sm : Z) (sfrac sdt alpha_ss mmean : R).
Notation RUN := (AccreteMassToSinks ndim w0 wpot sm sfrac sdt alpha_ss mmean).

Lemma routine_conserves : forall nnow timestep found1 found2 ps sks, masses_ok ps sks -> (forall s, In s sks -> (s_nstep s <> 0)%Z) ->
  (forall s, (0 <= s < zlen sks)%Z -> valid_ids ps (found1 s) /\ valid_ids ps (found2 s)) ->
  exists all, all_claims ndim (map (set_sinkid (-1)) ps) 0 sks found1 = Ok all /\
  forall cs order, Permutation cs all -> (forall s, In s order -> (0 <= s < zlen sks)%Z) ->
  exists ps' sks', RUN nnow timestep found2 cs order ps sks = Ok (ps', sks') /\
    zlen ps' = zlen ps /\ zlen sks' = zlen sks /\ masses_ok ps' sks' /\
    total_mass ps' sks' = total_mass ps sks /\
    (forall k, total_momentum k ps' sks' = total_momentum k ps sks /\ total_moment k ps' sks' = total_moment k ps sks /\
               total_force k ps' sks' = total_force k ps sks) /\
    total_heat ps' sks' = total_heat ps sks /\
    (forall k l c, plane ndim k l c -> total_angmom k l c ps' sks' = total_angmom k l c ps sks).
Proof.
  intros nnow timestep found1 found2 ps sks HM Hst Hf.
  destruct (assignment ndim ps sks found1) as (all & Ea & A). { intros s Hs i Hi. apply (proj1 (Hf s Hs)), Hi. }
  exists all. split; [exact Ea|]. intros cs order HP Ho. destruct (A cs HP) as (ps1 & E1 & Z1 & C1).
  unfold AccreteMassToSinks. rewrite E1. cbn [bind].
  assert (V : forall l, valid_ids ps l -> valid_ids ps1 l). { intros l [X Y]. split; [exact X|]. intros i Hi. rewrite Z1. auto. }
  destruct (accrete_all_conserves ndim w0 wpot sm sfrac sdt alpha_ss mmean nnow timestep found2 order ps1 (set_all_Ngas cs 0 sks))
    as (ps' & sks' & E & A1 & A2 & A3 & A4 & A5 & A6 & A7).
  { apply (claims_masses ps); auto. intros i p Hp. destruct (C1 i p Hp) as (t & ? & _). eauto. }
  { intros s Hs. apply Ngas_in in Hs as (N & s0 & Hs & ->). cbn. auto. }
  { intros s Hs. rewrite Ngas_zlen. split; [auto|]. apply V, Hf. auto. }
  exists ps', sks'. split; [exact E|].
  assert (TP : forall f, (forall s p, f (set_sinkid s p) = f p) -> lsum f ps1 = lsum f ps).
  { intros f Hq. rewrite (run_claims_lsum f Hq _ _ _ E1). now apply map_lsum. }
  assert (TS : forall f, (forall N s, f (set_Ngas N s) = f s) -> lsum f (set_all_Ngas cs 0 sks) = lsum f sks).
  { intros f Hq. now apply Ngas_lsum. }
  split; [congruence|]. split; [rewrite A2; apply Ngas_zlen|]. split; [exact A3|]. split; [|split; [|split]].
  - rewrite A4. unfold total_mass. rewrite TP, TS; reflexivity.
  - intros k. destruct (A5 k) as (B1 & B2 & B3). rewrite B1, B2, B3. unfold total_momentum, total_moment, total_force. repeat split; rewrite TP, TS; reflexivity.
  - rewrite A6. unfold total_heat. rewrite TP, TS; reflexivity.
  - intros k l c Hk. rewrite (A7 k l c Hk). unfold total_angmom. rewrite TP, TS; reflexivity.
Qed.

(** ** Schedules *)
Lemma routine_order : forall nnow timestep found1 found2 ps sks all cs o1 o2, masses_ok ps sks -> (forall s, In s sks -> (s_nstep s <> 0)%Z) ->
  (forall s, (0 <= s < zlen sks)%Z -> valid_ids ps (found1 s) /\ valid_ids ps (found2 s)) ->
  all_claims ndim (map (set_sinkid (-1)) ps) 0 sks found1 = Ok all -> Permutation cs all ->
  Permutation o1 o2 -> NoDup o1 -> (forall s, In s o1 -> (0 <= s < zlen sks)%Z) ->
  RUN nnow timestep found2 cs o1 ps sks = RUN nnow timestep found2 cs o2 ps sks.
Proof.
  intros nnow timestep found1 found2 ps sks all cs o1 o2 HM Hst Hf Ea HP Po ND Ho.
  destruct (assignment ndim ps sks found1) as (all' & Ea' & A). { intros s Hs i Hi. apply (proj1 (Hf s Hs)), Hi. }
  rewrite Ea in Ea'. injection Ea' as <-. destruct (A cs HP) as (ps1 & E1 & Z1 & C1).
  unfold AccreteMassToSinks. rewrite E1. cbn [bind]. apply accrete_order; auto.
  split; [|split].
  - apply (claims_masses ps); auto. intros i p Hp. destruct (C1 i p Hp) as (t & ? & _). eauto.
  - intros s Hs. apply Ngas_in in Hs as (N & s0 & Hs & ->). cbn. auto.
  - intros s Hs. rewrite Ngas_zlen. split; [auto|]. destruct (Hf s (Ho s Hs)) as [_ [X Y]]. split; [exact X|]. intros i Hi. rewrite Z1. auto.
Qed.
(** If no particle is inside two sinks that found it, the order of the assignments does not
    matter either. *)
Lemma routine_schedule : forall nnow timestep found1 found2 ps sks all cs1 cs2 o1 o2, masses_ok ps sks -> (forall s, In s sks -> (s_nstep s <> 0)%Z) ->
  (forall s, (0 <= s < zlen sks)%Z -> valid_ids ps (found1 s) /\ valid_ids ps (found2 s)) ->
  (forall i p s1 s2 k1 k2, aget ps i = Ok p -> aget sks s1 = Ok k1 -> aget sks s2 = Ok k2 -> In i (found1 s1) -> In i (found1 s2) ->
     inside ndim k1 p = true -> inside ndim k2 p = true -> s1 = s2) ->
  all_claims ndim (map (set_sinkid (-1)) ps) 0 sks found1 = Ok all -> Permutation cs1 all -> Permutation cs2 all ->
  Permutation o1 o2 -> NoDup o1 -> (forall s, In s o1 -> (0 <= s < zlen sks)%Z) ->
  RUN nnow timestep found2 cs1 o1 ps sks = RUN nnow timestep found2 cs2 o2 ps sks.
Proof.
  intros nnow timestep found1 found2 ps sks all cs1 cs2 o1 o2 HM Hst Hf HD Ea HP1 HP2 Po ND Ho.
  rewrite (routine_order nnow timestep found1 found2 ps sks all cs1 o1 o2) by assumption.
  destruct (assignment ndim ps sks found1) as (all' & Ea' & A). { intros s Hs i Hi. apply (proj1 (Hf s Hs)), Hi. }
  rewrite Ea in Ea'. injection Ea' as <-. destruct (A cs1 HP1) as (q1 & E1 & Z1 & C1). destruct (A cs2 HP2) as (q2 & E2 & Z2 & C2).
  unfold AccreteMassToSinks. rewrite E1, E2. cbn [bind].
  assert (q1 = q2).
  { apply aget_ext; [congruence|]. intros i Hi. destruct (aget_in ps i) as [p Hp]; [lia|].
    destruct (C1 i p Hp) as (t1 & F1 & G1 & N1). destruct (C2 i p Hp) as (t2 & F2 & G2 & N2). rewrite F1, F2. do 2 f_equal.
    destruct G1 as [->|(k1 & X1 & X2 & X3 & X4)].
    - destruct G2 as [->|(k2 & Y1 & Y2 & Y3 & Y4)]; [reflexivity|]. exfalso. eapply N1; eauto.
    - destruct G2 as [->|(k2 & Y1 & Y2 & Y3 & Y4)]; [exfalso; eapply N2; eauto|]. eapply HD; eauto. }
  subst q2. replace (set_all_Ngas cs1 0 sks) with (set_all_Ngas cs2 0 sks); [reflexivity|].
  assert (CC : forall s, count_claims cs2 s = count_claims cs1 s).
  { intros s. unfold count_claims, zlen. f_equal. apply Permutation_length.
    assert (PP : Permutation cs2 cs1) by (eapply Permutation_trans; [exact HP2|apply Permutation_sym, HP1]). clear - PP.
    induction PP; cbn; repeat destruct (_ =? _)%Z; auto using perm_swap. eapply Permutation_trans; eauto. }
  clear - CC. generalize 0%Z. induction sks as [|a sks IH]; intros z; [reflexivity|]. cbn. now rewrite CC, IH.
Qed.
End Routine.

(** ** Everything owned is swallowed *)
Section Swallow.
Variables (ndim : nat) (w0 wpot : R -> R) (sfrac sdt alpha_ss mmean : R).
Notation AA := (accrete_all ndim w0 wpot 0 sfrac sdt alpha_ss mmean).
Notation RUN := (AccreteMassToSinks ndim w0 wpot 0 sfrac sdt alpha_ss mmean).

Lemma accrete_all_frame : forall nnow timestep found order ps sks ps' sks', ready found order ps sks ->
  AA nnow timestep found order ps sks = Ok (ps', sks') -> forall i p, aget ps i = Ok p -> ~ In (g_sinkid p) order -> aget ps' i = Ok p.
Proof.
  intros nnow timestep found. induction order as [|s order IH]; intros ps sks ps' sks' Rd E i p Ep Np; cbn [accrete_all] in E.
  - now injection E as <- <-.
  - pose proof Rd as ([Hp Hs] & Hst & Ho). destruct (Ho s (or_introl eq_refl)) as [Bs Vs].
    destruct (aget_in sks s Bs) as [sk Es]. rewrite Es in E. cbn [bind] in E.
    destruct (accrete_sink ndim w0 wpot 0 sfrac sdt alpha_ss mmean nnow timestep s sk ps (found s)) as [[ps1 sk1]| | |] eqn:E1; try discriminate.
    cbn [bind] in E. rewrite aset_in in E by assumption. cbn [bind] in E.
    eapply IH; [eapply ready_step; eauto|exact E| |intros X; apply Np; now right].
    destruct (accrete_sink_rel ndim w0 wpot 0 sfrac sdt alpha_ss mmean nnow timestep s sk (found s) ps ps) as (qs & qs2 & qk & Q & _ & _ & Fr & _); auto.
    { split; [reflexivity|]. intros j a b Ha Hb. left. congruence. }
    { apply Hst. eapply in_aget; eauto. }
    rewrite E1 in Q. injection Q as <- <-. destruct Fr as [_ Fr]. destruct (Fr i p Ep) as (p' & X1 & X2 & X3).
    rewrite X1, X3; [reflexivity|]. intros Y. apply Np. now left.
Qed.
Lemma count_pos : forall cs i s, In (i, s) cs -> (count_claims cs s <> 0)%Z.
Proof.
  intros cs i s H. unfold count_claims. assert (X : In (i, s) (filter (fun c => (snd c =? s)%Z) cs)) by (apply filter_In; split; [exact H|apply Z.eqb_refl]).
  destruct (filter _ cs); [destruct X|]. unfold zlen. cbn [length]. lia.
Qed.
Lemma routine_swallows : forall nnow timestep found ps sks, masses_ok ps sks -> (forall s, In s sks -> (s_nstep s <> 0)%Z) ->
  (forall s, (0 <= s < zlen sks)%Z -> valid_ids ps (found s)) ->
  (forall p, In p ps -> g_dead p = false -> tiny <= g_m p) ->
  exists all, all_claims ndim (map (set_sinkid (-1)) ps) 0 sks found = Ok all /\
  forall cs order, Permutation cs all -> NoDup order -> (forall s, In s order <-> (0 <= s < zlen sks)%Z) ->
  exists ps' sks', RUN nnow timestep found cs order ps sks = Ok (ps', sks') /\
    forall i p s sk, aget ps i = Ok p -> aget sks s = Ok sk -> g_dead p = false -> In i (found s) -> inside ndim sk p = true ->
      (forall t sk, aget sks t = Ok sk -> In i (found t) -> inside ndim sk p = true -> Z.rem nnow (s_nstep sk) = 0%Z) ->
      exists p', aget ps' i = Ok p' /\ g_dead p' = true /\ g_m p' = 0.
Proof.
  intros nnow timestep found ps sks HM Hst Hf Ht.
  destruct (assignment ndim ps sks found) as (all & Ea & A). { intros s Hs i Hi. apply (Hf s Hs), Hi. }
  exists all. split; [exact Ea|]. intros cs order HP ND Ho.
  destruct (A cs HP) as (ps1 & E1 & Z1 & C1).
  set (sks1 := set_all_Ngas cs 0 sks).
  assert (Rd : forall o, (forall s, In s o -> In s order) -> ready found o ps1 sks1).
  { intros o Hoo. split; [|split].
    - apply (claims_masses ps); auto. intros i p Hp. destruct (C1 i p Hp) as (t & ? & _). eauto.
    - intros s Hs. apply Ngas_in in Hs as (N & s0 & Hs & ->). cbn. auto.
    - intros s Hs. unfold sks1. rewrite Ngas_zlen. apply Hoo, Ho in Hs. split; [exact Hs|]. destruct (Hf s Hs) as [X Y]. split; [exact X|]. intros i Hi. rewrite Z1. auto. }
  destruct (accrete_all_conserves ndim w0 wpot 0 sfrac sdt alpha_ss mmean nnow timestep found order ps1 sks1) as (ps' & sks' & E & _);
    [apply (Rd order); auto|apply (Rd order); auto|apply (Rd order); auto|].
  exists ps', sks'. unfold AccreteMassToSinks. rewrite E1. cbn [bind]. split; [exact E|].
  intros i p s0 sk0 Hp Hs0 D Hi0 I0 Hend.
  destruct (C1 i p Hp) as (t & F1 & G1 & N1). destruct G1 as [->|(sk & S1 & S2 & S3 & S4)]; [exfalso; eapply N1; eauto|].
  assert (Bt : (0 <= t < zlen sks)%Z) by (apply aget_Ok_inv in S1 as [S1 _]; exact S1).
  assert (It : In t order) by now apply Ho.
  apply in_split in It as (o1 & o2 & ->).
  assert (PM : Permutation (o1 ++ t :: o2) (t :: o1 ++ o2)) by (apply Permutation_sym, Permutation_middle).
  rewrite (accrete_order ndim w0 wpot 0 sfrac sdt alpha_ss mmean nnow timestep found _ _ PM ps1 sks1 ND ltac:(apply Rd; auto)) in E.
  assert (ND2 : NoDup (t :: o1 ++ o2)) by (eapply Permutation_NoDup; eauto). inversion ND2 as [|? ? Nt ND3]; subst.
  assert (Rd2 : ready found (t :: o1 ++ o2) ps1 sks1). { apply Rd. intros s Hs. eapply Permutation_in; [apply Permutation_sym; exact PM|exact Hs]. }
  cbn [accrete_all] in E.
  assert (Et : aget sks1 t = Ok (set_Ngas (count_claims cs t) sk)) by (unfold sks1; now apply (Ngas_get cs sks 0)).
  rewrite Et in E. cbn [bind] in E.
  destruct Rd2 as ([Hp1 Hs1] & Hst1 & Ho1). destruct (Ho1 t (or_introl eq_refl)) as [Bt1 Vt].
  assert (CL : In (i, t) cs).
  { destruct (run_claims_spec cs (map (set_sinkid (-1)) ps)) as (q & R1 & R2 & R3).
    { intros j s Hj. apply (Permutation_in _ HP) in Hj.
      destruct (all_claims_spec ndim (map (set_sinkid (-1)) ps) found sks 0) as (al & B1 & B2).
      { intros s' Hs' j' Hj'. unfold zlen. rewrite map_length. apply (Hf s' ltac:(lia)), Hj'. }
      rewrite Ea in B1. injection B1 as <-. apply B2 in Hj as (a & b & _ & _ & X & _). apply aget_Ok_inv in X as [X _]. exact X. }
    rewrite E1 in R1. injection R1 as <-. destruct (R3 i (set_sinkid (-1) p)) as (t' & X1 & X2); [rewrite aget_map, Hp; reflexivity|].
    rewrite F1 in X1. assert (t' = t) by (injection X1; auto). subst t'. destruct X2 as [X2|[X2 _]]; [exact X2|]. cbn in X2. lia. }
  destruct (swallows_all ndim w0 wpot sfrac sdt alpha_ss mmean nnow timestep t (set_Ngas (count_claims cs t) sk) ps1 (found t) Vt Hp1) as (ps2 & sk2 & E2 & SW).
  { cbn. eapply count_pos; eauto. }
  { cbn. apply Hst. eapply in_aget; eauto. }
  { cbn. eapply Hend; eauto. }
  { intros q Hq Dq. apply In_nth_error in Hq as (k & Hk).
    assert (Ek : aget ps1 (Z.of_nat k) = Ok q). { unfold aget. destruct (Z.ltb_spec (Z.of_nat k) 0); [lia|]. now rewrite Nat2Z.id, Hk. }
    destruct (claims_in ps ps1 (Z.of_nat k) q (fun _ _ _ => True) Z1) as (p0 & t0 & Q1 & -> & _); [intros j b Hj; destruct (C1 j b Hj) as (t0 & ? & _); eauto|exact Ek|].
    cbn in *. apply Ht; auto. eapply in_aget; eauto. }
  rewrite E2 in E. cbn [bind] in E. rewrite aset_in in E by exact Bt1. cbn [bind] in E.
  destruct (SW i (set_sinkid t p) S2 F1 D eq_refl S4) as (p' & P1 & P2 & P3).
  assert (ID : g_sinkid p' = t).
  { destruct (accrete_sink_rel ndim w0 wpot 0 sfrac sdt alpha_ss mmean nnow timestep t (set_Ngas (count_claims cs t) sk) (found t) ps1 ps1) as (qs & qs2 & qk & Q & _ & _ & Fr & _); auto.
    { split; [reflexivity|]. intros j a b Ha Hb. left. congruence. }
    { cbn. apply Hst. eapply in_aget; eauto. }
    rewrite E2 in Q. injection Q as <- <-. destruct Fr as [_ Fr]. destruct (Fr i _ F1) as (p'' & X1 & X2 & _). cbn in X2. congruence. }
  exists p'. split; [|auto]. eapply (accrete_all_frame nnow timestep found (o1 ++ o2)); [|exact E|exact P1|congruence].
  eapply ready_step; [| |exact E2]; [split; [split; eauto|split; eauto]|exact Et].
Qed.
End Swallow.
