(** C57: all processes know the same sinks after accretion. *)
From Verif Require Import Prelude L_Prelude Vec M_Box S_Box L_Box M_Balance S_Balance M_Sync S_Sync L_Sync2 M_Sink S_Sink L_Sink P_Sink.
From Coq Require Import Reals Lra Permutation Classical.
Local Open Scope Z_scope.

(** If every sink is found by exactly one process in its own domain, the update succeeds; that process keeps its copy and
    all others take over everything except the fields they do not share. *)
Theorem C57_update_partial : forall ndim junk doms sinks Ns, sinks <> [] -> zlen doms = zlen sinks -> (forall l, In l sinks -> length l = Ns) ->
  (forall l x, In l sinks -> In x l -> sized ndim x) ->
  (forall s, 0 <= s < Z.of_nat Ns -> exists r, claimed ndim doms sinks s r) ->
  (forall s r r', claimed ndim doms sinks s r -> claimed ndim doms sinks s r' -> r = r') ->
  exists out, UpdateSinksAfterAccretion ndim junk doms sinks = Ok out /\ zlen out = zlen sinks /\
  forall r l, aget sinks r = Ok l -> exists l', aget out r = Ok l' /\ zlen l' = zlen l /\
    forall s o x, aget l s = Ok x -> claimed ndim doms sinks s o ->
      (o = r -> aget l' s = Ok x) /\
      (o <> r -> forall lo y, aget sinks o = Ok lo -> aget lo s = Ok y -> aget l' s = Ok (adopt x y)).
Proof. intros ndim junk doms sinks Ns HN HD HL HS HC HU. exact (update_ok ndim junk doms sinks Ns HN HD HL HS HU HC). Qed.
Print Assumptions C57_update_partial.

(** If there is a sink that no process finds in its own domain, process 0 writes past the end of its buffer, for every
    number of processes and whatever the other sinks are. *)
Theorem C57_homeless_refuted : forall ndim junk doms sinks Ns s, sinks <> [] -> zlen doms = zlen sinks -> (forall l, In l sinks -> length l = Ns) ->
  (forall l x, In l sinks -> In x l -> sized ndim x) ->
  (forall s r r', claimed ndim doms sinks s r -> claimed ndim doms sinks s r' -> r = r') ->
  0 <= s < Z.of_nat Ns -> (forall r, ~ claimed ndim doms sinks s r) ->
  UpdateSinksAfterAccretion ndim junk doms sinks = UB.
Proof.
  intros ndim junk doms sinks Ns s HN HD HL HS HU Hs NC. apply (homeless ndim junk doms sinks Ns HN HD HL HS HU (Z.to_nat s)); [lia|]. intros r. rewrite Z2Nat.id by lia. apply NC.
Qed.
Print Assumptions C57_homeless_refuted.

(** The state when the routine is called: the domains do not overlap, every sink was inside one of them, and only the process
    of that domain, which swallowed particles for it, has moved its copy.  Then the update succeeds exactly if no owner's
    copy has left the domain. *)
Theorem C57_moved_partial : forall ndim junk doms sinks Ns (own : Z -> Z) (old : Z -> vec), sinks <> [] -> zlen doms = zlen sinks ->
  (forall l, In l sinks -> length l = Ns) -> (forall l x, In l sinks -> In x l -> sized ndim x) ->
  (forall r r' d d' p, aget doms r = Ok d -> aget doms r' = Ok d' -> S_Balance.inside ndim d p -> S_Balance.inside ndim d' p -> r = r') ->
  (forall s, 0 <= s < Z.of_nat Ns -> exists d, aget doms (own s) = Ok d /\ S_Balance.inside ndim d (old s)) ->
  (forall r l s x, aget sinks r = Ok l -> aget l s = Ok x -> r <> own s -> vec_of (st_r x) = old s) ->
  ((forall s, 0 <= s < Z.of_nat Ns -> claimed ndim doms sinks s (own s)) ->
   exists out, UpdateSinksAfterAccretion ndim junk doms sinks = Ok out /\ zlen out = zlen sinks /\
   forall r l s x, aget sinks r = Ok l -> aget l s = Ok x -> exists l', aget out r = Ok l' /\ zlen l' = zlen l /\
     (r = own s -> aget l' s = Ok x) /\
     (r <> own s -> forall lo y, aget sinks (own s) = Ok lo -> aget lo s = Ok y -> aget l' s = Ok (adopt x y))) /\
  (~ (forall s, 0 <= s < Z.of_nat Ns -> claimed ndim doms sinks s (own s)) ->
   UpdateSinksAfterAccretion ndim junk doms sinks = UB).
Proof.
  intros ndim junk doms sinks Ns own old HN HD HL HS DJ OW SM.
  assert (CO : forall s r, claimed ndim doms sinks s r -> 0 <= s < Z.of_nat Ns /\ r = own s).
  { intros s r (d & l & x & E1 & E2 & E3 & I). assert (RS : 0 <= s < Z.of_nat Ns).
    { destruct (aget_Ok_inv _ _ _ E3) as [R _]. unfold zlen in R. rewrite (HL l (L_Sink.in_aget _ _ _ E2)) in R. exact R. }
    split; [exact RS|]. destruct (Z.eq_dec r (own s)) as [->|N]; [reflexivity|]. destruct (OW s RS) as (d' & E4 & I'). rewrite (SM _ _ _ _ E2 E3 N) in I. exact (DJ _ _ _ _ _ E1 E4 I I'). }
  assert (HU : forall s r r', claimed ndim doms sinks s r -> claimed ndim doms sinks s r' -> r = r') by (intros s r r' A B; apply CO in A as [_ ->], B as [_ ->]; reflexivity).
  split.
  - intros HC. destruct (C57_update_partial ndim junk doms sinks Ns HN HD HL HS (fun s H => ex_intro _ _ (HC s H)) HU) as (out & E & L & F). exists out. split; [exact E|]. split; [exact L|].
    intros r l s x E1 E2. destruct (F r l E1) as (l' & E3 & L' & G). exists l'. split; [exact E3|]. split; [exact L'|].
    assert (RS : 0 <= s < Z.of_nat Ns). { destruct (aget_Ok_inv _ _ _ E2) as [R _]. unfold zlen in R. rewrite (HL l (L_Sink.in_aget _ _ _ E1)) in R. exact R. }
    destruct (G s (own s) x E2 (HC s RS)) as [G1 G2]. split; [intros ->; auto|]. intros N lo y. apply G2. auto.
  - intros NC. assert (X : exists s, 0 <= s < Z.of_nat Ns /\ ~ claimed ndim doms sinks s (own s)).
    { apply NNPP. intros N. apply NC. intros s Hs. apply NNPP. intros C. apply N. exists s. auto. }
    destruct X as (s & Hs & C). apply (C57_homeless_refuted ndim junk doms sinks Ns s HN HD HL HS HU Hs). intros r K. destruct (CO s r K) as [_ ->]. auto.
Qed.
Print Assumptions C57_moved_partial.

(** This happens in ordinary runs.  Two processes have the domains from 0 to 1 and from 1 to 2 and know one sink at 1,
    which belongs to the second.  It swallows a particle of its own mass at 0, as AccreteMassToSinks does; its new position
    is 1/2.  Now neither process finds its copy in its domain. *)
Definition ex_sk (x m : R) : sinkd := mksink 0 0 0 0 0 0 0 0 0 0 [0;0;0]%R [x] [0]%R [0]%R m [x] [0]%R [0]%R 1 [7]%R.
Definition ex_doms2 : list box := [mkbox (fun _ => 0%R) (fun _ => 1%R); mkbox (fun _ => 1%R) (fun _ => 2%R)].
Lemma ex_claimed : forall x0 m0 x1 m1 s r, claimed 1 ex_doms2 [[ex_sk x0 m0]; [ex_sk x1 m1]] s r <-> s = 0 /\ ((r = 0 /\ (0 <= x0 < 1)%R) \/ (r = 1 /\ (1 <= x1 < 2)%R)).
Proof.
  intros x0 m0 x1 m1 s r. split.
  - intros (d & l & x & E1 & E2 & E3 & I). pose proof (aget_Ok_inv _ _ _ E1) as [R _]. unfold zlen in R. cbn in R. assert (r = 0 \/ r = 1) as [->| ->] by lia.
    + injection E1 as <-. injection E2 as <-. pose proof (aget_Ok_inv _ _ _ E3) as [S _]. unfold zlen in S. cbn in S. assert (s = 0) as -> by lia. injection E3 as <-. specialize (I 0%nat ltac:(lia)). cbn in I. auto.
    + injection E1 as <-. injection E2 as <-. pose proof (aget_Ok_inv _ _ _ E3) as [S _]. unfold zlen in S. cbn in S. assert (s = 0) as -> by lia. injection E3 as <-. specialize (I 0%nat ltac:(lia)). cbn in I. auto.
  - intros [-> [[-> H]|[-> H]]].
    + exists (mkbox (fun _ => 0%R) (fun _ => 1%R)), [ex_sk x0 m0], (ex_sk x0 m0). repeat split; try reflexivity; assert (k = 0%nat) as -> by lia; cbn; lra.
    + exists (mkbox (fun _ => 1%R) (fun _ => 2%R)), [ex_sk x1 m1], (ex_sk x1 m1). repeat split; try reflexivity; assert (k = 0%nat) as -> by lia; cbn; lra.
Qed.
Lemma ex_hyp : forall x0 m0 x1 m1, [[ex_sk x0 m0]; [ex_sk x1 m1]] <> [] /\ zlen ex_doms2 = zlen [[ex_sk x0 m0]; [ex_sk x1 m1]] /\ (forall l, In l [[ex_sk x0 m0]; [ex_sk x1 m1]] -> length l = 1%nat) /\
  (forall l x, In l [[ex_sk x0 m0]; [ex_sk x1 m1]] -> In x l -> sized 1 x).
Proof.
  intros x0 m0 x1 m1. split; [discriminate|]. split; [reflexivity|]. split; [intros l [<-|[<-|[]]]; reflexivity|]. intros l x [<-|[<-|[]]] [<-|[]]; repeat split.
Qed.
Theorem C57_crossing_refuted : exists ps' sk',
  AccreteMassToSinks 1 (fun _ => 1%R) (fun _ => 1%R) 0 0 0 1 1 0 1 (fun _ => [0]) [(0, 0)] [0] [ex_g 1] [ex_s 1] = Ok (ps', [sk']) /\
  s_r (ex_s 1) 0%nat = 1%R /\ s_m (ex_s 1) = 1%R /\
  (forall r, claimed 1 ex_doms2 [[ex_sk 1 1]; [ex_sk 1 1]] 0 r <-> r = 1) /\
  forall junk, UpdateSinksAfterAccretion 1 junk ex_doms2 [[ex_sk 1 1]; [ex_sk (s_r sk' 0%nat) (s_m sk')]] = UB.
Proof.
  destruct C49_example as (ps' & sks' & E & (p' & Ep & _ & Mp) & MT).
  assert (M : masses_ok [ex_g 1] [ex_s 1]) by (split; intros x [<-|[]]; cbn; lra).
  assert (ST : forall s, In s [ex_s 1] -> s_nstep s <> 0) by (intros s [<-|[]]; discriminate).
  assert (V : forall s, 0 <= s < zlen [ex_s 1] -> valid_ids [ex_g 1] [0]).
  { intros s _. split; [repeat constructor; cbn; tauto|]. intros i [<-|[]]. unfold zlen. cbn. lia. }
  destruct (C20_accretion_conserves_partial 1 (fun _ => 1%R) (fun _ => 1%R) 0 0 0 1 1 0 1 (fun _ => [0]) (fun _ => [0]) [ex_g 1] [ex_s 1] M ST) as (al & B1 & B2); [intros s Hs; split; exact (V s Hs)|].
  assert (A : al = [(0, 0)]).
  { revert B1. cbn [map all_claims claims fold_right]. change (aget [set_sinkid (-1) (ex_g 1)] 0) with (Ok (set_sinkid (-1) (ex_g 1))). cbn [bind g_dead set_sinkid ex_g].
    rewrite (ex_inside0 1 (-1) 1) by lra. cbn. now intros [= <-]. }
  subst al. destruct (B2 [(0, 0)] [0] (Permutation_refl _)) as (q & r & C1 & L1 & L2 & _ & C2 & C3 & _).
  { intros s [<-|[]]. unfold zlen. cbn. lia. }
  rewrite E in C1. injection C1 as <- <-. destruct sks' as [|sk' [|]]; try (unfold zlen in L2; cbn in L2; lia). destruct ps' as [|p [|]]; try (unfold zlen in L1; cbn in L1; lia).
  injection Ep as ->. destruct (C3 0%nat) as (_ & C4 & _). unfold total_mass, total_moment in *. cbn in MT, C4. rewrite Mp in MT, C4.
  assert (SM : s_m sk' = 2%R) by lra. assert (SR : s_r sk' 0%nat = (1/2)%R) by (rewrite SM in C4; lra).
  exists [p'], sk'. split; [exact E|]. split; [reflexivity|]. split; [reflexivity|]. split.
  - intros r. rewrite ex_claimed. split; [intros [_ [[-> H]|[-> H]]]; [lra|reflexivity]|intros ->; split; [reflexivity|right; split; [reflexivity|lra]]].
  - intros junk. rewrite SR. destruct (ex_hyp 1 1 (1/2) (s_m sk')) as (H1 & H2 & H3 & H4). apply (C57_homeless_refuted 1 junk _ _ 1 0 H1 H2 H3 H4); [|lia|].
    + intros s r r' X Y. apply ex_claimed in X as [_ [[-> X]|[-> X]]]; apply ex_claimed in Y as [_ [[-> Y]|[-> Y]]]; reflexivity || lra.
    + intros r X. apply ex_claimed in X as [_ [[-> X]|[-> X]]]; lra.
Qed.
Print Assumptions C57_crossing_refuted.

(** A sink at 5/4 whose owner has a new mass: the other process takes it over. *)
Example C57_example : exists out l, UpdateSinksAfterAccretion 1 0 ex_doms2 [[ex_sk (5/4) 1]; [ex_sk (5/4) 2]] = Ok out /\ aget out 0 = Ok l /\ aget l 0 = Ok (ex_sk (5/4) 2).
Proof.
  destruct (ex_hyp (5/4) 1 (5/4) 2) as (H1 & H2 & H3 & H4).
  assert (CL : claimed 1 ex_doms2 [[ex_sk (5/4) 1]; [ex_sk (5/4) 2]] 0 1) by (apply ex_claimed; split; [reflexivity|]; right; split; [reflexivity|lra]).
  destruct (C57_update_partial 1 0 _ _ 1 H1 H2 H3 H4) as (out & E & _ & F).
  - intros s Hs. exists 1. assert (s = 0) as -> by lia. exact CL.
  - intros s r r' X Y. apply ex_claimed in X as [_ [[-> X]|[-> X]]]; apply ex_claimed in Y as [_ [[-> Y]|[-> Y]]]; reflexivity || lra.
  - destruct (F 0 _ eq_refl) as (l' & El & _ & G). exists out, l'. split; [exact E|]. split; [exact El|]. destruct (G 0 1 _ eq_refl CL) as [_ G2]. exact (G2 ltac:(lia) _ _ eq_refl eq_refl).
Qed.
