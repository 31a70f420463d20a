(** C20, C21, C49: accretion of gas by sinks. *)
From Verif Require Import Prelude L_Prelude Vec M_Box L_Box M_Sink S_Stock S_Sink L_Sink L_Sink2 L_Sink3 L_Sink4 L_Sink5 M_Stock M_GatherGhost L_GatherGhost.
From Coq Require Import Reals Lra Permutation.
Local Open Scope R_scope.

(** ** C20 *)
(** For every schedule: order [cs] of the assignments, order of the sinks, lists found.  The totals are over the whole array [ps]; with ghosts in it this is not all the gas, see C20_ghost_refuted below. *)
Theorem C20_accretion_conserves_partial : forall ndim w0 wpot sm sfrac sdt alpha_ss mmean nnow timestep found1 found2 ps sks,
  masses_ok ps sks -> (forall s, In s sks -> (s_nstep s <> 0)%Z) ->
  (forall s, (0 <= s < zlen sks)%Z -> valid_ids ps (found1 s) /\ valid_ids ps (found2 s)) ->
  exists all, all_claims ndim (map (set_sinkid (-1)) ps) 0 sks found1 = Ok all /\
  forall cs order, Permutation cs all -> (forall s, In s order -> (0 <= s < zlen sks)%Z) ->
  exists ps' sks', AccreteMassToSinks ndim w0 wpot sm sfrac sdt alpha_ss mmean nnow timestep found2 cs order ps sks = Ok (ps', sks') /\
    zlen ps' = zlen ps /\ zlen sks' = zlen sks /\ masses_ok ps' sks' /\
    total_mass ps' sks' = total_mass ps sks /\
    (forall k, total_momentum k ps' sks' = total_momentum k ps sks /\ total_moment k ps' sks' = total_moment k ps sks /\
               total_force k ps' sks' = total_force k ps sks) /\
    total_heat ps' sks' = total_heat ps sks /\
    (forall k l c, plane ndim k l c -> total_angmom k l c ps' sks' = total_angmom k l c ps sks).
Proof. exact routine_conserves. Qed.
Print Assumptions C20_accretion_conserves_partial.

(** ** C21 *)
Theorem C21_one_sink_each : forall ndim ps sks found, (forall s, (0 <= s < zlen sks)%Z -> forall i, In i (found s) -> (0 <= i < zlen ps)%Z) ->
  exists all, all_claims ndim (map (set_sinkid (-1)) ps) 0 sks found = Ok all /\
  forall cs, Permutation cs all -> exists ps', run_claims (map (set_sinkid (-1)) ps) cs = Ok ps' /\ zlen ps' = zlen ps /\
    forall i p, aget ps i = Ok p -> exists t, aget ps' i = Ok (set_sinkid t p) /\
      (t = (-1)%Z \/ exists sk, aget sks t = Ok sk /\ In i (found t) /\ g_dead p = false /\ inside ndim sk p = true) /\
      (forall s sk, aget sks s = Ok sk -> In i (found s) -> g_dead p = false -> inside ndim sk p = true -> t <> (-1)%Z).
Proof. exact assignment. Qed.
Print Assumptions C21_one_sink_each.
(** In the second loop a sink changes only the particles assigned to it. *)
Theorem C21_only_own_particles : forall ndim w0 wpot sm sfrac sdt alpha_ss mmean nnow timestep s sk found ps,
  valid_ids ps found -> (forall p, In p ps -> 0 <= g_m p) -> (s_nstep sk <> 0)%Z ->
  exists ps' sk', accrete_sink ndim w0 wpot sm sfrac sdt alpha_ss mmean nnow timestep s sk ps found = Ok (ps', sk') /\
    zlen ps' = zlen ps /\ forall i p, aget ps i = Ok p -> exists p', aget ps' i = Ok p' /\ g_sinkid p' = g_sinkid p /\ (g_sinkid p <> s -> p' = p).
Proof.
  intros ndim w0 wpot sm sfrac sdt alpha_ss mmean nnow timestep s sk found ps Hv Hp Hs.
  destruct (accrete_sink_rel ndim w0 wpot sm sfrac sdt alpha_ss mmean nnow timestep s sk found ps ps) as (ps' & _ & sk' & E & _ & _ & F & _); auto.
  - split; [reflexivity|]. intros i p p2 H1 H2. left. congruence.
  - exists ps', sk'. split; [exact E|exact F].
Qed.
Print Assumptions C21_only_own_particles.

(** ** C49 *)
(** The result is the same for every order in which the threads take the sinks, and, if no
    particle is inside two sinks, for every order of the assignments. *)
Theorem C49_schedule_independent_partial : forall ndim w0 wpot sm sfrac sdt alpha_ss mmean nnow timestep found1 found2 ps sks all cs1 cs2 o1 o2,
  masses_ok ps sks -> (forall s, In s sks -> (s_nstep s <> 0)%Z) ->
  (forall s, (0 <= s < zlen sks)%Z -> valid_ids ps (found1 s) /\ valid_ids ps (found2 s)) ->
  (forall i p s1 s2 k1 k2, aget ps i = Ok p -> aget sks s1 = Ok k1 -> aget sks s2 = Ok k2 -> In i (found1 s1) -> In i (found1 s2) ->
     inside ndim k1 p = true -> inside ndim k2 p = true -> s1 = s2) ->
  all_claims ndim (map (set_sinkid (-1)) ps) 0 sks found1 = Ok all -> Permutation cs1 all -> Permutation cs2 all ->
  Permutation o1 o2 -> NoDup o1 -> (forall s, In s o1 -> (0 <= s < zlen sks)%Z) ->
  AccreteMassToSinks ndim w0 wpot sm sfrac sdt alpha_ss mmean nnow timestep found2 cs1 o1 ps sks =
  AccreteMassToSinks ndim w0 wpot sm sfrac sdt alpha_ss mmean nnow timestep found2 cs2 o2 ps sks.
Proof. exact routine_schedule. Qed.
Print Assumptions C49_schedule_independent_partial.
(** Without smooth accretion, if both searches of a sink give the same list and no particle is
    lighter than [tiny], every particle found inside a sink is swallowed, provided all sinks it is in are
    at the end of their step. *)
Theorem C49_all_swallowed_partial : forall ndim w0 wpot sfrac sdt alpha_ss mmean nnow timestep found ps sks,
  masses_ok ps sks -> (forall s, In s sks -> (s_nstep s <> 0)%Z) ->
  (forall s, (0 <= s < zlen sks)%Z -> valid_ids ps (found s)) ->
  (forall p, In p ps -> g_dead p = false -> tiny <= g_m p) ->
  exists all, all_claims ndim (map (set_sinkid (-1)) ps) 0 sks found = Ok all /\
  forall cs order, Permutation cs all -> NoDup order -> (forall s, In s order <-> (0 <= s < zlen sks)%Z) ->
  exists ps' sks', AccreteMassToSinks ndim w0 wpot 0 sfrac sdt alpha_ss mmean nnow timestep found cs order ps sks = Ok (ps', sks') /\
    forall i p s sk, aget ps i = Ok p -> aget sks s = Ok sk -> g_dead p = false -> In i (found s) -> inside ndim sk p = true ->
      (forall t sk, aget sks t = Ok sk -> In i (found t) -> inside ndim sk p = true -> Z.rem nnow (s_nstep sk) = 0%Z) ->
      exists p', aget ps' i = Ok p' /\ g_dead p' = true /\ g_m p' = 0.
Proof. exact routine_swallows. Qed.
Print Assumptions C49_all_swallowed_partial.
(** The two searches give the same list if every sink is treated by the thread that searched it in the
    first loop (for example with one thread). *)
Theorem C49_same_thread_partial : forall fuel gather, monotone gather -> forall sched buf buf' f thread,
  (forall t, (0 < buf t)%Z) -> NoDup (map snd sched) -> searches1 fuel gather buf sched = Ok (buf', f) ->
  (forall t s, In (t, s) sched -> thread s = t) ->
  forall s, In s (map snd sched) -> search2 gather buf' thread s = f s.
Proof.
  intros fuel gather Mo sched buf buf' f thread Hb HN E Ht s Hs. apply in_map_iff in Hs as ([t s'] & <- & Hin). cbn [snd].
  destruct (searches1_spec fuel gather Mo sched buf buf' f Hb HN E) as [_ H]. unfold search2. rewrite (Ht t s' Hin), (H t s' Hin). reflexivity.
Qed.
Print Assumptions C49_same_thread_partial.
(** The tree search is such a search. *)
Theorem C49_tree_search_monotone : forall ndim pd s Ncell Nl sg Ncellg Nlg (pos : Z -> vec) (radius : Z -> R),
  monotone (fun k N => match GetGatherNeighbourList ndim pd s Ncell Nl sg Ncellg Nlg N (pos k) (radius k) with Ok r => r | _ => None end).
Proof.
  intros ndim pd s Ncell Nl sg Ncellg Nlg pos radius k N N' l H HN.
  destruct (GetGatherNeighbourList ndim pd s Ncell Nl sg Ncellg Nlg N (pos k) (radius k)) as [r| | |] eqn:E; try discriminate. subst r.
  now rewrite (search_larger _ _ _ _ _ _ _ _ _ _ _ _ _ HN E).
Qed.
Print Assumptions C49_tree_search_monotone.

(** ** Concrete cases *)
Definition ex_g (m : R) : gas :=
  {| g_m := m; g_r := fun _ => 0; g_v := fun _ => 1; g_a := fun _ => 0; g_u := 1; g_h := 1; g_rho := 1; g_sound := 1; g_dt := 1;
     g_nstep := 1; g_level := 0; g_levelneib := 0; g_potmin := false; g_active := true; g_dead := false; g_sinkid := 7 |}.
Definition ex_s (x : R) : sink :=
  {| s_m := 1; s_r := fun _ => x; s_v := fun _ => 0; s_a := fun _ => 0; s_h := 1; s_invh := 1; s_nstep := 1; s_level := 0;
     s_radius := 2; s_angmom := fun _ => 0; s_Ngas := 0; s_mmax := 0; s_trot := 0; s_dmdt := 0; s_utot := 0 |}.
Lemma ex_inside : forall m t N x, 0 <= x <= 1 -> inside 1 (set_Ngas N (ex_s x)) (set_sinkid t (ex_g m)) = true.
Proof. intros m t N x Hx. unfold inside, rleb, dot, vsub. cbn. destruct (Rle_dec _ _) as [|n]; [reflexivity|exfalso; apply n]. nra. Qed.
Lemma ex_inside0 : forall m t x, 0 <= x <= 1 -> inside 1 (ex_s x) (set_sinkid t (ex_g m)) = true.
Proof. intros m t x Hx. unfold inside, rleb, dot, vsub. cbn. destruct (Rle_dec _ _) as [|n]; [reflexivity|exfalso; apply n]. nra. Qed.

(** One sink, one particle: the hypotheses hold, and the particle is swallowed. *)
Example C49_example : exists ps' sks', AccreteMassToSinks 1 (fun _ => 1) (fun _ => 1) 0 0 0 1 1 0 1 (fun _ => [0%Z]) [(0%Z, 0%Z)] [0%Z] [ex_g 1] [ex_s 1] = Ok (ps', sks') /\
  (exists p', aget ps' 0 = Ok p' /\ g_dead p' = true /\ g_m p' = 0) /\ total_mass ps' sks' = 2.
Proof.
  assert (M : masses_ok [ex_g 1] [ex_s 1]) by (split; intros x [<-|[]]; cbn; lra).
  assert (V : forall s, (0 <= s < zlen [ex_s 1])%Z -> valid_ids [ex_g 1] [0%Z]).
  { intros s _. split; [repeat constructor; cbn; tauto|]. intros i [<-|[]]. unfold zlen. cbn. lia. }
  assert (T : forall p, In p [ex_g 1] -> g_dead p = false -> tiny <= g_m p).
  { intros p [<-|[]] _. cbn. unfold tiny. rewrite <- Rinv_1. apply Rinv_le_contravar; [lra|]. apply pow_R1_Rle. lra. }
  assert (ST : forall s, In s [ex_s 1] -> (s_nstep s <> 0)%Z) by (intros s [<-|[]]; discriminate).
  destruct (C49_all_swallowed_partial 1 (fun _ => 1) (fun _ => 1) 0 0 1 1 0 1 (fun _ => [0%Z]) [ex_g 1] [ex_s 1] M ST V T) as (all & E & H).
  cbn [map] in E. assert (A : all = [(0%Z, 0%Z)]).
  { revert E. cbn [all_claims claims fold_right]. change (aget [set_sinkid (-1) (ex_g 1)] 0) with (Ok (set_sinkid (-1) (ex_g 1))). cbn [bind g_dead set_sinkid ex_g].
    rewrite (ex_inside0 1 (-1) 1) by lra. cbn. now intros [= <-]. }
  subst all. destruct (H [(0%Z, 0%Z)] [0%Z] (Permutation_refl _)) as (ps' & sks' & E2 & SW).
  { repeat constructor; cbn; tauto. }
  { intros s. unfold zlen. cbn. lia. }
  exists ps', sks'. split; [exact E2|]. split.
  - apply (SW 0%Z (ex_g 1) 0%Z (ex_s 1) eq_refl eq_refl eq_refl (or_introl eq_refl)); [apply (ex_inside0 1 7 1); lra|].
    intros t sk Ht _ _. unfold aget in Ht. destruct (t <? 0)%Z; [discriminate|]. destruct (Z.to_nat t) as [|[|n]]; cbn in Ht; try discriminate. injection Ht as <-. reflexivity.
  - destruct (C20_accretion_conserves_partial 1 (fun _ => 1) (fun _ => 1) 0 0 0 1 1 0 1 (fun _ => [0%Z]) (fun _ => [0%Z]) [ex_g 1] [ex_s 1] M ST) as (al & B1 & B2).
    { intros s Hs. split; exact (V s Hs). }
    cbn [map] in B1. rewrite E in B1. injection B1 as <-. destruct (B2 [(0%Z, 0%Z)] [0%Z] (Permutation_refl _)) as (q & r & C1 & _ & _ & _ & C2 & _).
    { intros s [<-|[]]. unfold zlen. cbn. lia. }
    rewrite E2 in C1. injection C1 as <- <-. rewrite C2. unfold total_mass. cbn. lra.
Qed.

(** Particles lighter than [tiny] may be left over: two particles of half that mass in one
    sink, of which the second stays. *)
Theorem C49_light_particles_refuted : exists ps sks found cs order ps' sks' i p,
  masses_ok ps sks /\ all_claims 1 (map (set_sinkid (-1)) ps) 0 sks found = Ok cs /\ (forall s, In s order <-> (0 <= s < zlen sks)%Z) /\
  (forall p, In p ps -> 0 < g_m p) /\
  AccreteMassToSinks 1 (fun _ => 1) (fun _ => 1) 0 0 0 1 1 0 1 found cs order ps sks = Ok (ps', sks') /\
  In i (found 0%Z) /\ (forall sk, aget sks 0 = Ok sk -> aget ps i = Ok p /\ inside 1 sk p = true /\ Z.rem 0 (s_nstep sk) = 0%Z) /\
  exists p', aget ps' i = Ok p' /\ g_dead p' = false /\ g_m p' = g_m p.
Proof.
  assert (T0 : 0 < tiny) by (unfold tiny; apply Rinv_0_lt_compat, pow_lt; lra).
  set (g := ex_g (tiny / 2)). assert (G0 : 0 < g_m g < tiny) by (cbn; lra).
  exists [g; g], [ex_s 1], (fun _ => [0; 1]%Z), [(0, 0); (1, 0)]%Z, [0%Z].
  destruct (accrete_first 1 (fun _ => 1) (fun _ => 1) 0 0 1 1 0 1 0 (set_Ngas 2 (ex_s 1)) [set_sinkid 0 g; set_sinkid 0 g] 0 1 (set_sinkid 0 g) (set_sinkid 0 g))
    as (ps' & sk' & lv & E & Ej); try reflexivity; try discriminate; try (apply ex_inside; lra); try (apply G0).
  exists ps', [sk'], 1%Z, g. split; [|split; [|split; [|split; [|split; [|split; [|split]]]]]].
  - split; intros x Hx; [destruct Hx as [<-|[<-|[]]]; lra|]. destruct Hx as [<-|[]]. cbn. lra.
  - cbn [map all_claims claims fold_right]. 
    change (aget [set_sinkid (-1) g; set_sinkid (-1) g] 0) with (Ok (set_sinkid (-1) g)). change (aget [set_sinkid (-1) g; set_sinkid (-1) g] 1) with (Ok (set_sinkid (-1) g)).
    cbn [bind]. change (g_dead (set_sinkid (-1) g)) with false. cbn iota. unfold g. rewrite (ex_inside0 (tiny / 2) (-1) 1) by lra. reflexivity.
  - intros s. unfold zlen. cbn. lia.
  - intros p [<-|[<-|[]]]; apply G0.
  - unfold AccreteMassToSinks.
    change (run_claims (map (set_sinkid (-1)) [g; g]) [(0, 0); (1, 0)]%Z) with (Ok [set_sinkid 0 g; set_sinkid 0 g]). cbn [bind].
    change (set_all_Ngas [(0, 0); (1, 0)]%Z 0 [ex_s 1]) with [set_Ngas 2 (ex_s 1)]. cbn [accrete_all].
    change (aget [set_Ngas 2 (ex_s 1)] 0) with (Ok (set_Ngas 2 (ex_s 1))). cbn [bind]. rewrite E. reflexivity.
  - right. now left.
  - intros sk [= <-]. split; [reflexivity|]. split; [apply (ex_inside0 (tiny / 2) 7 1); lra|reflexivity].
  - exists (set_levelneib lv (set_sinkid 0 g)). split; [exact Ej|]. split; reflexivity.
Qed.
Print Assumptions C49_light_particles_refuted.

(** Overlapping sinks: which of them gets the particle depends on the schedule. *)
Theorem C49_overlap_refuted : exists ps sks found all cs order a1 b1 a2 b2 k1 k2,
  masses_ok ps sks /\ all_claims 1 (map (set_sinkid (-1)) ps) 0 sks found = Ok all /\ Permutation cs all /\
  AccreteMassToSinks 1 (fun _ => 1) (fun _ => 1) 0 0 0 1 1 0 1 found all order ps sks = Ok (a1, b1) /\
  AccreteMassToSinks 1 (fun _ => 1) (fun _ => 1) 0 0 0 1 1 0 1 found cs order ps sks = Ok (a2, b2) /\
  aget b1 0 = Ok k1 /\ aget b2 0 = Ok k2 /\ s_m k1 = 1 /\ s_m k2 = 2.
Proof.
  set (g := ex_g 1).
  exists [g], [ex_s 0; ex_s 1], (fun _ => [0%Z]), [(0, 0); (0, 1)]%Z, [(0, 1); (0, 0)]%Z, [0; 1]%Z.
  (* last writer 1 *)
  destruct (accrete_not_mine 1 (fun _ => 1) (fun _ => 1) 0 0 1 1 0 0 1 0 (set_Ngas 1 (ex_s 0)) [set_sinkid 1 g] 0 (set_sinkid 1 g)) as (k1 & E1 & M1); try reflexivity; try discriminate.
  destruct (accrete_one 1 (fun _ => 1) (fun _ => 1) 0 0 1 1 0 1 1 (set_Ngas 1 (ex_s 1)) [set_sinkid 1 g] 0 (set_sinkid 1 g)) as (p1 & j1 & F1 & N1);
    try reflexivity; try discriminate; try (apply ex_inside; lra).
  (* last writer 0 *)
  destruct (accrete_one 1 (fun _ => 1) (fun _ => 1) 0 0 1 1 0 1 0 (set_Ngas 1 (ex_s 0)) [set_sinkid 0 g] 0 (set_sinkid 0 g)) as (p2 & k2 & E2 & M2);
    try reflexivity; try discriminate; try (apply ex_inside; lra).
  assert (exists p3 j2, accrete_sink 1 (fun _ => 1) (fun _ => 1) 0 0 0 1 1 0 1 1 (set_Ngas 1 (ex_s 1)) p2 [0%Z] = Ok (p3, j2)) as (p3 & j2 & F2).
  { assert (V : valid_ids [set_sinkid 0 g] [0%Z]). { split; [repeat constructor; cbn; tauto|]. intros i [<-|[]]. unfold zlen. cbn. lia. }
    destruct (accrete_sink_conserves 1 (fun _ => 1) (fun _ => 1) 0 0 0 1 1 0 1 0 (set_Ngas 1 (ex_s 0)) [set_sinkid 0 g] [0%Z] V) as (a & b & X & Z1 & _ & _ & N2 & _);
      [intros p [<-|[]]; cbn; lra|cbn; lra|discriminate|]. rewrite E2 in X. injection X as <- <-.
    destruct (accrete_sink_conserves 1 (fun _ => 1) (fun _ => 1) 0 0 0 1 1 0 1 1 (set_Ngas 1 (ex_s 1)) p2 [0%Z]) as (a & b & X & _);
      [split; [repeat constructor; cbn; tauto|]; intros i [<-|[]]; rewrite Z1; unfold zlen; cbn; lia| | |discriminate|eauto].
    - intros p Hp. now apply N2.
    - cbn. lra. }
  exists p1, [k1; j1], p3, [k2; j2], k1, k2.
  split; [split; [intros x [<-|[]]; cbn; lra|intros x [<-|[<-|[]]]; cbn; lra]|]. split.
  { cbn [map all_claims claims fold_right]. change (aget [set_sinkid (-1) g] 0) with (Ok (set_sinkid (-1) g)). cbn [bind].
    change (g_dead (set_sinkid (-1) g)) with false. cbn iota. unfold g. rewrite (ex_inside0 1 (-1) 0), (ex_inside0 1 (-1) 1) by lra. reflexivity. }
  split; [apply perm_swap|]. split; [|split].
  - unfold AccreteMassToSinks. change (run_claims (map (set_sinkid (-1)) [g]) [(0, 0); (0, 1)]%Z) with (Ok [set_sinkid 1 g]). cbn [bind].
    change (set_all_Ngas [(0, 0); (0, 1)]%Z 0 [ex_s 0; ex_s 1]) with [set_Ngas 1 (ex_s 0); set_Ngas 1 (ex_s 1)]. cbn [accrete_all].
    change (aget [set_Ngas 1 (ex_s 0); set_Ngas 1 (ex_s 1)] 0) with (Ok (set_Ngas 1 (ex_s 0))). cbn [bind]. rewrite E1. cbn [bind].
    change (aset [set_Ngas 1 (ex_s 0); set_Ngas 1 (ex_s 1)] 0 k1) with (Ok [k1; set_Ngas 1 (ex_s 1)]). cbn [bind].
    change (aget [k1; set_Ngas 1 (ex_s 1)] 1) with (Ok (set_Ngas 1 (ex_s 1))). cbn [bind]. rewrite F1. reflexivity.
  - unfold AccreteMassToSinks. change (run_claims (map (set_sinkid (-1)) [g]) [(0, 1); (0, 0)]%Z) with (Ok [set_sinkid 0 g]). cbn [bind].
    change (set_all_Ngas [(0, 1); (0, 0)]%Z 0 [ex_s 0; ex_s 1]) with [set_Ngas 1 (ex_s 0); set_Ngas 1 (ex_s 1)]. cbn [accrete_all].
    change (aget [set_Ngas 1 (ex_s 0); set_Ngas 1 (ex_s 1)] 0) with (Ok (set_Ngas 1 (ex_s 0))). cbn [bind]. rewrite E2. cbn [bind].
    change (aset [set_Ngas 1 (ex_s 0); set_Ngas 1 (ex_s 1)] 0 k2) with (Ok [k2; set_Ngas 1 (ex_s 1)]). cbn [bind].
    change (aget [k2; set_Ngas 1 (ex_s 1)] 1) with (Ok (set_Ngas 1 (ex_s 1))). cbn [bind]. rewrite F2. reflexivity.
  - split; [reflexivity|]. split; [reflexivity|]. split; [rewrite M1; reflexivity|]. rewrite M2. cbn. lra.
Qed.
Print Assumptions C49_overlap_refuted.

(** 200 particles in one sink; thread 0 searches in the first loop and enlarges its buffers
    from 128 to 256 entries, thread 1 treats the sink in the second loop with 128 entries: nothing is
    accreted. *)
Theorem C49_buffer_refuted : exists ps sks gather buf found1 all ps' sks',
  masses_ok ps sks /\ monotone gather /\ (forall N, (256 <= N)%Z -> gather 0%Z N = Some (map Z.of_nat (seq 0 200))) /\
  searches1 10 gather (fun _ => 128%Z) [(0, 0)]%Z = Ok (buf, found1) /\ found1 0%Z = map Z.of_nat (seq 0 200) /\
  (forall i p sk, aget ps i = Ok p -> aget sks 0 = Ok sk -> In i (found1 0%Z) /\ inside 1 sk p = true /\ g_dead p = false /\ tiny <= g_m p) /\
  zlen ps = 200%Z /\
  all_claims 1 (map (set_sinkid (-1)) ps) 0 sks found1 = Ok all /\
  AccreteMassToSinks 1 (fun _ => 1) (fun _ => 1) 0 0 0 1 1 0 1 (search2 gather buf (fun _ => 1%Z)) all [0%Z] ps sks = Ok (ps', sks') /\
  forall i p', aget ps' i = Ok p' -> g_dead p' = false /\ g_m p' = 1.
Proof.
  set (L := map Z.of_nat (seq 0 200)).
  set (gather := fun (s N : Z) => if (zlen L <? N)%Z then Some L else None).
  set (ps := repeat (ex_g 1) 200).
  assert (ZL : zlen L = 200%Z) by reflexivity.
  assert (ZP : zlen ps = 200%Z) by reflexivity.
  assert (LI : forall i, In i L <-> (0 <= i < 200)%Z).
  { intros i. unfold L. rewrite in_map_iff. split.
    - intros (n & <- & Hn). apply in_seq in Hn. lia.
    - intros Hi. exists (Z.to_nat i). split; [lia|]. apply in_seq. lia. }
  assert (PI : forall i p, aget ps i = Ok p -> p = ex_g 1) by (intros i p Hp; apply in_aget in Hp; now apply repeat_spec in Hp).
  exists ps, [ex_s 1], gather. set (buf := fun t' => if (t' =? 0)%Z then 256%Z else 128%Z).
  exists buf, (fun s' => if (s' =? 0)%Z then L else []).
  destruct (assignment 1 ps [ex_s 1] (fun s' => if (s' =? 0)%Z then L else [])) as (all & Ea & A).
  { intros s Hs i Hi. destruct (s =? 0)%Z; [|destruct Hi]. apply LI in Hi. lia. }
  destruct (A all (Permutation_refl _)) as (ps1 & E1 & Z1 & C1).
  destruct (accrete_nothing 1 (fun _ => 1) (fun _ => 1) 0 0 1 1 0 0 1 0 (set_Ngas (count_claims all 0) (ex_s 1)) ps1) as (sk' & E2 & _); [discriminate|].
  exists all, ps1, [sk'].
  split. { split; [intros p Hp; apply repeat_spec in Hp; subst; cbn; lra|intros s [<-|[]]; cbn; lra]. }
  split. { intros s N N' l. unfold gather. rewrite ZL. destruct (Z.ltb_spec 200 N); [|discriminate]. intros [= <-] HN. destruct (Z.ltb_spec 200 N'); [reflexivity|lia]. }
  split. { intros N HN. unfold gather. rewrite ZL. destruct (Z.ltb_spec 200 N); [reflexivity|lia]. }
  split. { unfold searches1. cbn [grow]. unfold gather. rewrite ZL. reflexivity. }
  split; [reflexivity|]. split.
  { intros i p sk Hp [= <-]. split; [apply LI; apply aget_Ok_inv in Hp as [Hp _]; lia|]. rewrite (PI i p Hp).
    split; [apply (ex_inside0 1 7 1); lra|]. split; [reflexivity|]. cbn. unfold tiny. rewrite <- Rinv_1. apply Rinv_le_contravar; [lra|]. apply pow_R1_Rle. lra. }
  split; [exact ZP|]. split; [exact Ea|]. split.
  { unfold AccreteMassToSinks. rewrite E1. cbn [bind set_all_Ngas accrete_all].
    change (aget [set_Ngas (count_claims all 0) (ex_s 1)] 0) with (Ok (set_Ngas (count_claims all 0) (ex_s 1))). cbn [bind].
    change (search2 gather buf (fun _ => 1%Z) 0%Z) with (@nil Z). rewrite E2. reflexivity. }
  intros i p' Hp'. destruct (claims_in ps ps1 i p' (fun _ _ _ => True) Z1) as (p & t & Q1 & -> & _); [intros j b Hj; destruct (C1 j b Hj) as (t & ? & _); eauto|exact Hp'|].
  rewrite (PI i p Q1). split; reflexivity.
Qed.
Print Assumptions C49_buffer_refuted.

(** One particle inside two sinks: assigned to exactly one of them. *)
Example C21_example : exists all, all_claims 1 (map (set_sinkid (-1)) [ex_g 1]) 0 [ex_s 0; ex_s 1] (fun _ => [0%Z]) = Ok all /\
  run_claims (map (set_sinkid (-1)) [ex_g 1]) all = Ok [set_sinkid 1 (ex_g 1)] /\ length all = 2%nat.
Proof.
  exists [(0, 0); (0, 1)]%Z. split; [|split; reflexivity].
  cbn [map all_claims claims fold_right]. change (aget [set_sinkid (-1) (ex_g 1)] 0) with (Ok (set_sinkid (-1) (ex_g 1))). cbn [bind].
  change (g_dead (set_sinkid (-1) (ex_g 1))) with false. cbn iota. rewrite (ex_inside0 1 (-1) 0), (ex_inside0 1 (-1) 1) by lra. reflexivity.
Qed.

(** C20 is about all particles that can be swallowed, and these include copies beyond a periodic boundary, which the searches
    also find (HydroTree.cpp:463-466).  Swallowing a copy leaves the particle itself as it was: nothing in the routine goes
    from a copy to its original.  Here the box reaches from 1/2 to 21/2, the only particle is at 10, its copy at 0, the sink
    at 1; gas and sink gain the mass of the particle. *)
Definition ex_far : gas :=
  {| g_m := 1; g_r := fun _ => 10; g_v := fun _ => 1; g_a := fun _ => 0; g_u := 1; g_h := 1; g_rho := 1; g_sound := 1; g_dt := 1;
     g_nstep := 1; g_level := 0; g_levelneib := 0; g_potmin := false; g_active := true; g_dead := false; g_sinkid := 7 |}.
Theorem C20_ghost_refuted : exists ps' sks',
  AccreteMassToSinks 1 (fun _ => 1) (fun _ => 1) 0 0 0 1 1 0 1 (fun _ => [1%Z]) [(1%Z, 0%Z)] [0%Z] [ex_far; ex_g 1] [ex_s 1] = Ok (ps', sks') /\
  (forall k, g_r (ex_g 1) k = g_r ex_far k - 10) /\ g_m (ex_g 1) = g_m ex_far /\
  total_mass (firstn 1 ps') sks' = total_mass (firstn 1 [ex_far; ex_g 1]) [ex_s 1] + g_m ex_far.
Proof.
  set (ps := [ex_far; ex_g 1]). assert (M : masses_ok ps [ex_s 1]) by (split; [intros x [<-|[<-|[]]]|intros x [<-|[]]]; cbn; lra).
  assert (V : forall s, (0 <= s < zlen [ex_s 1])%Z -> valid_ids ps [1%Z]).
  { intros s _. split; [repeat constructor; cbn; tauto|]. intros i [<-|[]]. unfold zlen. cbn. lia. }
  assert (T : forall p, In p ps -> g_dead p = false -> tiny <= g_m p).
  { intros p [<-|[<-|[]]] _; cbn; unfold tiny; rewrite <- Rinv_1; (apply Rinv_le_contravar; [lra|]; apply pow_R1_Rle; lra). }
  assert (ST : forall s, In s [ex_s 1] -> (s_nstep s <> 0)%Z) by (intros s [<-|[]]; discriminate).
  destruct (C49_all_swallowed_partial 1 (fun _ => 1) (fun _ => 1) 0 0 1 1 0 1 (fun _ => [1%Z]) ps [ex_s 1] M ST V T) as (all & E & H).
  unfold ps in E. cbn [map] in E. assert (A : all = [(1%Z, 0%Z)]).
  { revert E. cbn [all_claims claims fold_right]. change (aget [set_sinkid (-1) ex_far; set_sinkid (-1) (ex_g 1)] 1) with (Ok (set_sinkid (-1) (ex_g 1))). cbn [bind g_dead set_sinkid ex_g].
    rewrite (ex_inside0 1 (-1) 1) by lra. cbn. now intros [= <-]. }
  subst all. destruct (H [(1%Z, 0%Z)] [0%Z] (Permutation_refl _)) as (ps' & sks' & E2 & SW).
  { repeat constructor; cbn; tauto. }
  { intros s. unfold zlen. cbn. lia. }
  destruct (C20_accretion_conserves_partial 1 (fun _ => 1) (fun _ => 1) 0 0 0 1 1 0 1 (fun _ => [1%Z]) (fun _ => [1%Z]) ps [ex_s 1] M ST) as (al & B1 & B2).
  { intros s Hs. split; exact (V s Hs). }
  unfold ps in B1. cbn [map] in B1. rewrite E in B1. injection B1 as <-. destruct (B2 [(1%Z, 0%Z)] [0%Z] (Permutation_refl _)) as (q & r & C1 & L1 & _ & _ & C2 & _).
  { intros s [<-|[]]. unfold zlen. cbn. lia. }
  rewrite E2 in C1. injection C1 as <- <-. exists ps', sks'. split; [exact E2|]. split; [intros k; cbn; lra|]. split; [reflexivity|].
  destruct (SW 1%Z (ex_g 1) 0%Z (ex_s 1) eq_refl eq_refl eq_refl (or_introl eq_refl)) as (p' & Ep & _ & Mp).
  { apply (ex_inside0 1 7 1). lra. }
  { intros t sk Ht _ _. unfold aget in Ht. destruct (t <? 0)%Z; [discriminate|]. destruct (Z.to_nat t) as [|[|n]]; cbn in Ht; try discriminate. injection Ht as <-. reflexivity. }
  destruct ps' as [|a [|b [|]]]; try (unfold zlen in L1; cbn in L1; lia). assert (b = p') as -> by (change (Ok b = Ok p') in Ep; congruence).
  unfold total_mass, ps in *. cbn in C2 |- *. rewrite Mp in C2. lra.
Qed.
Print Assumptions C20_ghost_refuted.
