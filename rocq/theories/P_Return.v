(** C58: ghosts of other processes' particles and the return of changes made to them. *)
From Verif Require Import Prelude L_Prelude Vec S_Tree L_Tree M_Sync M_Store M_Return S_Return L_Return L_Return2 L_Return3 L_Return4.
From Coq Require Import Reals Lra.
Local Open Scope Z_scope.

(** ** Ghosts are copies *)
(** After SearchGhostParticles the first entries of every process are as before; behind them are, in the order of the ranks,
    copies of the particles exported to it, not active, with the index they have on their own process. *)
Theorem C58_ghosts : forall N junk E procs old, 0 < N -> zlen procs = N -> square N E -> square N old -> exports_ok E procs ->
  (forall q p, aget procs q = Ok p -> 0 <= Nhydro (store_of p) /\ 0 <= nper p /\ Nhydro (store_of p) + nper p <= zlen (data (store_of p)) /\
     zlen (data (store_of p)) = Nhydromax (store_of p) /\ Nghost (store_of p) = nper p) ->
  exists out Nreceive, SearchGhostParticles N junk old E procs = Ok (out, Nreceive) /\ zlen out = N /\ square N Nreceive /\
  (forall q r l n, aget2 E q r = Ok l -> aget2 Nreceive r q = Ok n -> n = zlen l) /\
  forall r p, aget procs r = Ok p -> exists p', aget out r = Ok p' /\ Nhydro (store_of p') = Nhydro (store_of p) /\ nper p' = nper p /\
    Nghost (store_of p') = nper p + before E r (Z.to_nat N) /\ zlen (data (store_of p')) = Nhydromax (store_of p') /\
    Nhydro (store_of p') + Nghost (store_of p') <= Nhydromax (store_of p') /\
    (forall i, 0 <= i < Nhydro (store_of p) + nper p -> aget (data (store_of p')) i = aget (data (store_of p)) i) /\
    (forall q e i pq x, copy_of E procs r i q e -> aget procs q = Ok pq -> aget (data (store_of pq)) e = Ok x ->
       aget (data (store_of p')) i = Ok (unset_active (set_iorig e x))).
Proof.
  intros N junk E procs old HN HP SQ SO EX HD. destruct (search_ok N junk E procs HN HP SQ EX) with (old := old) as (out & A & B & C).
  - intros q p Hp. destruct (HD q p Hp) as (H1 & H2 & H3 & _). auto.
  - exact SO.
  - intros q p Hp. destruct (HD q p Hp) as (_ & _ & _ & H). exact H.
  - exists out, (NrecvOf N E). split; [exact A|]. split; [exact B|]. split; [|split; [|exact C]].
    + split; [unfold NrecvOf, mat, zlen; rewrite map_length; unfold zs; rewrite zseq_length; lia|]. intros x Hx. unfold NrecvOf, mat in Hx. apply in_map_iff in Hx as (y & <- & _). unfold zlen. rewrite map_length. unfold zs. rewrite zseq_length. lia.
    + intros q r l n Hl Hn. destruct (square_aget [] N E q r l SQ Hl) as (Hq & Hr & ->). unfold NrecvOf in Hn. rewrite aget_mat in Hn by assumption. congruence.
Qed.
Print Assumptions C58_ghosts.

(** CopyHydroDataToGhosts renews all these copies from the present state and changes nothing else. *)
Theorem C58_refresh : forall N (junk : part) E Nreceive procs received, 0 < N -> zlen procs = N -> square N E -> square N Nreceive -> exports_ok E procs ->
  (forall q r l n, aget2 E q r = Ok l -> aget2 Nreceive r q = Ok n -> n = zlen l) ->
  (forall q p, aget procs q = Ok p -> 0 <= Nhydro (store_of p) /\ 0 <= nper p /\ Nhydro (store_of p) + nper p + before E q (Z.to_nat N) <= zlen (data (store_of p))) ->
  (forall r, 0 <= r < N -> exists b, aget received r = Ok b /\ zlen b = before E r (Z.to_nat N)) ->
  exists out, CopyHydroDataToGhosts N E Nreceive received procs = Ok out /\ zlen out = N /\
  forall r p, aget procs r = Ok p -> exists p', aget out r = Ok p' /\ Nhydro (store_of p') = Nhydro (store_of p) /\ nper p' = nper p /\
    Nghost (store_of p') = Nghost (store_of p) /\ Nhydromax (store_of p') = Nhydromax (store_of p) /\ zlen (data (store_of p')) = zlen (data (store_of p)) /\
    (forall i, ~ (Nhydro (store_of p) + nper p <= i < Nhydro (store_of p) + nper p + before E r (Z.to_nat N)) -> aget (data (store_of p')) i = aget (data (store_of p)) i) /\
    (forall q e i pq x, copy_of E procs r i q e -> aget procs q = Ok pq -> aget (data (store_of pq)) e = Ok x ->
       aget (data (store_of p')) i = Ok (unset_active (set_iorig e x))).
Proof.
  intros N junk E Nreceive procs received HN HP SQ SR EX HR HD HB.
  assert (NE : Nreceive = NrecvOf N E).
  { rewrite (square_mat 0 N Nreceive SR). unfold NrecvOf, mat. apply map_ext_in. intros r Hr. apply map_ext_in. intros q Hq. unfold zs in Hr, Hq. rewrite zseq_in in Hr, Hq.
    apply (HR q r); apply square_get with (N := N); auto; lia. }
  rewrite NE. apply (copy_ok N junk E procs HN HP SQ EX); [|exact HB|].
  - intros q p Hp. destruct (HD q p Hp) as (H1 & H2 & H3). split; [exact H1|]. split; [exact H2|]. destruct (pr_inv N procs HP q p Hp) as [Hq _].
    rewrite (before_upto N E q SQ Hq N) in H3 by lia. pose proof (zlen_nonneg (upto (fun q' => ent [] E q' q) N)). lia.
  - intros q p Hp. now destruct (HD q p Hp) as (H1 & H2 & H3).
Qed.
Print Assumptions C58_refresh.

(** ** What comes back *)
(** The hypotheses say: the ghosts are those of an exchange with the lists [E], ghosts at the boundary of the box are copies of
    earlier particles, and the lists [ids] name ghosts of other processes. *)
Definition exchanged N E Nreceive ids procs : Prop :=
  0 < N /\ zlen procs = N /\ zlen ids = N /\ square N E /\ square N Nreceive /\ exports_ok E procs /\
  (forall q r l n, aget2 E q r = Ok l -> aget2 Nreceive r q = Ok n -> n = zlen l) /\
  (forall q p, aget procs q = Ok p -> 0 <= Nhydro (store_of p) /\ 0 <= nper p /\ Nhydro (store_of p) + nper p + before E q (Z.to_nat N) <= zlen (data (store_of p))) /\
  (forall q p j x, aget procs q = Ok p -> Nhydro (store_of p) <= j < Nhydro (store_of p) + nper p -> aget (data (store_of p)) j = Ok x -> 0 <= piorig x < j) /\
  (forall r i q e p x, copy_of E procs r i q e -> aget procs r = Ok p -> aget (data (store_of p)) i = Ok x -> piorig x = e) /\
  (forall r p l i, aget procs r = Ok p -> aget ids r = Ok l -> In i l ->
     Nhydro (store_of p) + nper p <= i < Nhydro (store_of p) + nper p + before E r (Z.to_nat N)).
(** An exchange of ghosts brings this about, for all lists of ghosts of other processes. *)
Theorem C58_established : forall N junk E procs old, 0 < N -> zlen procs = N -> square N E -> square N old -> exports_ok E procs ->
  (forall q p, aget procs q = Ok p -> 0 <= Nhydro (store_of p) /\ 0 <= nper p /\ Nhydro (store_of p) + nper p <= zlen (data (store_of p)) /\
     zlen (data (store_of p)) = Nhydromax (store_of p) /\ Nghost (store_of p) = nper p) ->
  (forall q p j x, aget procs q = Ok p -> Nhydro (store_of p) <= j < Nhydro (store_of p) + nper p -> aget (data (store_of p)) j = Ok x -> 0 <= piorig x < j) ->
  exists out Nreceive, SearchGhostParticles N junk old E procs = Ok (out, Nreceive) /\
  forall ids, zlen ids = N ->
    (forall r p l i, aget out r = Ok p -> aget ids r = Ok l -> In i l -> Nhydro (store_of p) + nper p <= i < Nhydro (store_of p) + Nghost (store_of p)) ->
    exchanged N E Nreceive ids out.
Proof.
  intros N junk E procs old HN HP SQ SO EX HD PG. destruct (C58_ghosts N junk E procs old HN HP SQ SO EX HD) as (out & Nr & ES & LO & SN & HR & HO). exists out, Nr. split; [exact ES|]. intros ids LI HI.
  assert (BK : forall r p', aget out r = Ok p' -> exists p, aget procs r = Ok p /\ Nhydro (store_of p') = Nhydro (store_of p) /\ nper p' = nper p /\ Nghost (store_of p') = nper p + before E r (Z.to_nat N) /\
     zlen (data (store_of p')) = Nhydromax (store_of p') /\ Nhydro (store_of p') + Nghost (store_of p') <= Nhydromax (store_of p') /\
     (forall i, 0 <= i < Nhydro (store_of p) + nper p -> aget (data (store_of p')) i = aget (data (store_of p)) i) /\
     (forall q e i pq x, copy_of E procs r i q e -> aget procs q = Ok pq -> aget (data (store_of pq)) e = Ok x -> aget (data (store_of p')) i = Ok (unset_active (set_iorig e x)))).
  { intros r p' Hp'. pose proof (aget_Ok_inv _ _ _ Hp') as [R _]. destruct (aget_in procs r) as (p & Hp); [lia|]. exists p. split; [exact Hp|]. destruct (HO r p Hp) as (p'' & E'' & H). rewrite Hp' in E''. injection E'' as <-. exact H. }
  unfold exchanged. repeat (split; [assumption|]). split; [|split; [exact HR|split; [|split; [|split]]]].
  - intros q r l p' i Hl Hp' Hi. destruct (BK q p' Hp') as (p & Hp & E1 & E2 & _). rewrite E1, E2. exact (EX q r l p i Hl Hp Hi).
  - intros q p' Hp'. destruct (BK q p' Hp') as (p & Hp & E1 & E2 & E3 & E4 & E5 & _). destruct (HD q p Hp) as (H1 & H2 & _). lia.
  - intros q p' j x Hp' Hj Hx. destruct (BK q p' Hp') as (p & Hp & E1 & E2 & E3 & E4 & E5 & E6 & _). rewrite E1, E2 in Hj. destruct (HD q p Hp) as (H1 & H2 & _). rewrite E6 in Hx by lia. exact (PG q p j x Hp Hj Hx).
  - intros r i q e p' x (p1 & l & t & C1 & C2 & C3 & C4) Hp' Hx. rewrite Hp' in C1. injection C1 as <-. destruct (BK r p' Hp') as (p & Hp & E1 & E2 & E3 & E4 & E5 & E6 & E7).
    assert (C : copy_of E procs r i q e) by (exists p, l, t; rewrite E1, E2 in C4; auto). destruct (square_aget [] N E q r l SQ C2) as (Hq & _ & _). destruct (aget_in procs q) as (pq & Hpq); [lia|].
    apply aget_Ok_inv in C3 as [_ C3]. apply nth_error_In in C3. pose proof (EX q r l pq e C2 Hpq C3) as B. destruct (HD q pq Hpq) as (_ & _ & H3 & _). destruct (aget_in (data (store_of pq)) e) as (y & Ey); [lia|].
    rewrite (E7 q e i pq y C Hpq Ey) in Hx. injection Hx as <-. reflexivity.
  - intros r p' l i Hp' Hl Hi. destruct (BK r p' Hp') as (p & Hp & E1 & E2 & E3 & _). pose proof (HI r p' l i Hp' Hl Hi). lia.
Qed.
Print Assumptions C58_established.

(** Every real particle gets exactly the changes of the listed ghosts that are copies of it, on whatever process; nothing else changes. *)
Theorem C58_return : forall k N (junk : part) E Nreceive ids procs, exchanged N E Nreceive ids procs ->
  exists out, DoUpdateMpiGhostParents k N Nreceive ids procs = Ok out /\ zlen out = N /\
  forall q p, aget procs q = Ok p -> exists p', aget out q = Ok p' /\ Nhydro (store_of p') = Nhydro (store_of p) /\ Nghost (store_of p') = Nghost (store_of p) /\
    Nhydromax (store_of p') = Nhydromax (store_of p) /\ nper p' = nper p /\ zlen (data (store_of p')) = zlen (data (store_of p)) /\
    (forall i, ~ (0 <= i < Nhydro (store_of p)) -> aget (data (store_of p')) i = aget (data (store_of p)) i) /\
    forall j x, 0 <= j < Nhydro (store_of p) -> aget (data (store_of p)) j = Ok x ->
    exists L vals, ((forall l, In l ids -> NoDup l) -> NoDup L) /\
      (forall r i, In (r, i) L <-> (exists l, aget ids r = Ok l /\ In i l) /\ comes_from E procs r i q j) /\
      Forall2 (fun ri v => exists p y, aget procs (fst ri) = Ok p /\ aget (data (store_of p)) (snd ri) = Ok y /\ v = make k y) L vals /\
      aget (data (store_of p')) j = Ok (fold_left (fun p d => update_received k d p) vals x).
Proof.
  intros k N junk E Nreceive ids procs (H1 & H2 & H3 & H4 & H5 & H6 & H7 & H8 & H9 & H10 & H11). exact (back_ok k N E Nreceive ids procs H1 H2 H3 H4 H5 H6 H7 H8 H9 H10 H11 junk).
Qed.
Print Assumptions C58_return.

(** Accretion: a real particle with one listed copy gets its mass and is dead exactly if nothing is left; for the meshless
    scheme the changes of conserved quantities are those of an accretion by its own process (MeshlessFV.h:112-118). *)
Definition lighter (x : part) (dm : R) (mfv : bool) : part :=
  mkpart (pm x - dm) (pdudt x) (pv x) (if mfv then pdQm x - dm else pdQm x) (fun k => if mfv then pdQv x k - dm * pv x k else pdQv x k)%R (pdead x) (pactive x) (piorig x) (prest x).
Theorem C58_accreted_partial : forall (mfv : bool) N (junk : part) E Nreceive ids procs, exchanged N E Nreceive ids procs -> (forall l, In l ids -> NoDup l) ->
  exists out, DoUpdateMpiGhostParents (if mfv then ReturnSinkMfv else ReturnSink) N Nreceive ids procs = Ok out /\
  forall q p j x, aget procs q = Ok p -> 0 <= j < Nhydro (store_of p) -> aget (data (store_of p)) j = Ok x ->
  exists p' x', aget out q = Ok p' /\ aget (data (store_of p')) j = Ok x' /\
    ((forall r i l, aget ids r = Ok l -> In i l -> ~ comes_from E procs r i q j) -> x' = x) /\
    (forall r i l pr y, aget ids r = Ok l -> In i l -> comes_from E procs r i q j -> aget procs r = Ok pr -> aget (data (store_of pr)) i = Ok y ->
       (forall r' i' l', aget ids r' = Ok l' -> In i' l' -> comes_from E procs r' i' q j -> r' = r /\ i' = i) ->
       pm x' = pm y /\ (pm y <> 0%R -> forall k, pdQv x' k = pdQv (lighter x (pm x - pm y) mfv) k /\ pdQm x' = pdQm (lighter x (pm x - pm y) mfv) /\ pdead x' = pdead x /\ pactive x' = pactive x) /\
       (pm y = 0%R -> pdead x' = true /\ pactive x' = false) /\ pdudt x' = pdudt x /\ piorig x' = piorig x /\ prest x' = prest x /\ pv x' = pv x).
Proof.
  intros mfv N junk E Nreceive ids procs EX ND. destruct (C58_return (if mfv then ReturnSinkMfv else ReturnSink) N junk E Nreceive ids procs EX) as (out & EO & _ & H). exists out. split; [exact EO|].
  intros q p j x Hp Hj Hx. destruct (H q p Hp) as (p' & Ep & _ & _ & _ & _ & _ & _ & G). destruct (G j x Hj Hx) as (L & vals & NL & IL & FL & EL). specialize (NL ND).
  eexists p', _. split; [exact Ep|]. split; [exact EL|]. split.
  - intros NO. destruct L as [|[r i] L]; [inversion FL; reflexivity|]. exfalso. destruct (proj1 (IL r i) (or_introl eq_refl)) as ((l & El & Hi) & C). exact (NO r i l El Hi C).
  - intros r i l pr y El Hi C Epr Ey UN. assert (IN : In (r, i) L) by (apply IL; split; [exists l; auto|exact C]).
    assert (L1 : L = [(r, i)]).
    { assert (AL : forall a, In a L -> a = (r, i)). { intros [r' i'] Ha. apply IL in Ha as ((l' & El' & Hi') & C'). destruct (UN r' i' l' El' Hi' C') as [-> ->]. reflexivity. }
      destruct L as [|a [|b L]]; [destruct IN|f_equal; apply AL; now left|]. exfalso. inversion NL as [|? ? NI _]. apply NI. rewrite (AL a), (AL b) by (cbn; auto). now left. }
    subst L. inversion FL as [|? v ? vs (pp & yy & E1 & E2 & ->) FL2]; subst. inversion FL2; subst. cbn [fst snd] in E1, E2. rewrite Epr in E1. injection E1 as <-. rewrite Ey in E2. injection E2 as <-.
    cbn [fold_left]. destruct mfv; cbn [update_received make r_val]; unfold dead_if_zero; cbn [pm]; destruct (Req_EM_T _ 0) as [Z|NZ]; cbn; repeat split; try reflexivity; try lra; try (intros; exfalso; lra); intros; repeat split; try reflexivity; try lra.
    all: exfalso; apply NZ; lra.
Qed.
Print Assumptions C58_accreted_partial.

(** Heating of gas by dust: the contributions of all copies are added, whatever their number. *)
Fixpoint rsum (l : list R) : R := match l with [] => 0%R | x :: t => (x + rsum t)%R end.
Theorem C58_heating : forall N (junk : part) E Nreceive ids procs, exchanged N E Nreceive ids procs -> (forall l, In l ids -> NoDup l) ->
  exists out, DoUpdateMpiGhostParents ReturnDust N Nreceive ids procs = Ok out /\
  forall q p j x, aget procs q = Ok p -> 0 <= j < Nhydro (store_of p) -> aget (data (store_of p)) j = Ok x ->
  exists p' x' L us, aget out q = Ok p' /\ aget (data (store_of p')) j = Ok x' /\ NoDup L /\
    (forall r i, In (r, i) L <-> (exists l, aget ids r = Ok l /\ In i l) /\ comes_from E procs r i q j) /\
    Forall2 (fun ri u => exists p y, aget procs (fst ri) = Ok p /\ aget (data (store_of p)) (snd ri) = Ok y /\ u = pdudt y) L us /\
    x' = mkpart (pm x) (pdudt x + rsum us) (pv x) (pdQm x) (pdQv x) (pdead x) (pactive x) (piorig x) (prest x).
Proof.
  intros N junk E Nreceive ids procs EX ND. destruct (C58_return ReturnDust N junk E Nreceive ids procs EX) as (out & EO & _ & H). exists out. split; [exact EO|].
  intros q p j x Hp Hj Hx. destruct (H q p Hp) as (p' & Ep & _ & _ & _ & _ & _ & _ & G). destruct (G j x Hj Hx) as (L & vals & NL & IL & FL & EL). specialize (NL ND).
  eexists p', _, L, (map r_val vals). split; [exact Ep|]. split; [exact EL|]. split; [exact NL|]. split; [exact IL|]. clear - FL. split.
  - induction FL as [|ri v L vals (pp & y & E1 & E2 & ->) FL IH]; [constructor|]. cbn [map]. constructor; [|exact IH]. exists pp, y. auto.
  - revert x. clear FL. induction vals as [|v vals IH]; intros x; cbn [fold_left map rsum].
    + destruct x. cbn. now rewrite Rplus_0_r.
    + rewrite IH. cbn. f_equal. lra.
Qed.
Print Assumptions C58_heating.

(** ** What goes wrong *)
Definition swallowed (p : part) : part := mkpart 0 (pdudt p) (pv p) (pdQm p) (pdQv p) true false (piorig p) (prest p).
Definition one (d : list part) (np : Z) : proc := mkproc (mkstore 1 np (zlen d) d) np.
(** Process 0 exports its only particle [a] to process 1, where it becomes ghost 1, the first behind the real particle [b].
    A sink on process 1 swallows it.  The list of Sinks.cpp:707 does not contain it, and process 0 keeps [a]. *)
Theorem C58_first_ghost_refuted : forall a b, exists out,
  SearchGhostParticles 2 a [[0; 0]; [0; 0]] [[[]; [0]]; [[]; []]] [one [a] 0; one [b] 0] = Ok ([one [a] 0; mkproc (mkstore 1 1 2 [b; unset_active (set_iorig 0 a)]) 0], [[0; 0]; [1; 0]]) /\
  comes_from [[[]; [0]]; [[]; []]] [one [a] 0; one [b] 0] 1 1 0 0 /\
  DoUpdateMpiGhostParents ReturnSink 2 [[0; 0]; [1; 0]] [[]; record_accreted 1 [1]] [one [a] 0; mkproc (mkstore 1 1 2 [b; swallowed (unset_active (set_iorig 0 a))]) 0] = Ok out /\
  exists p, aget out 0 = Ok p /\ aget (data (store_of p)) 0 = Ok a.
Proof.
  intros a b. eexists. split; [reflexivity|]. split.
  - exists 0, (one [a] 0). split; [|split; [reflexivity|constructor; cbn; lia]]. exists (one [b] 0), [0], 0. repeat split.
  - split; [reflexivity|]. eexists. split; reflexivity.
Qed.
Print Assumptions C58_first_ghost_refuted.
(** Process 1 has two ghosts of its own particle [b] beyond periodic boundaries and no ghosts of other processes; a sink there
    swallows the second.  It is in the list, taken for a ghost from process 0, and the particle [a] there is deleted. *)
Theorem C58_boundary_ghost_refuted : forall a b, exists out,
  DoUpdateMpiGhostParents ReturnSink 2 [[0; 0]; [0; 0]] [[]; record_accreted 1 [2]] [one [a] 0; one [b; set_iorig 0 b; swallowed (set_iorig 0 b)] 2] = Ok out /\
  (exists p x, aget out 0 = Ok p /\ aget (data (store_of p)) 0 = Ok x /\ pm x = 0%R /\ pdead x = true) /\
  (exists p, aget out 1 = Ok p /\ aget (data (store_of p)) 0 = Ok b).
Proof.
  intros a b. eexists. split; [lazy -[dead_if_zero IZR]; reflexivity|]. split.
  - eexists. eexists. split; [reflexivity|]. split; [reflexivity|]. unfold dead_if_zero. cbn [pm]. destruct (Req_EM_T 0 0) as [Z|NZ]; [split; reflexivity|now destruct NZ].
  - eexists. split; reflexivity.
Qed.
Print Assumptions C58_boundary_ghost_refuted.
(** Particle [a] of process 0 has ghosts on processes 1 and 2, and a sink on each takes part of it.  The particle is left with
    the mass that the last one left, not with what both left. *)
Definition E4 : list (list (list Z)) := [[[]; [0]; [0]; []]; [[]; []; []; []]; [[]; []; []; []]; [[]; []; []; []]].
Definition N4 : list (list Z) := [[0; 0; 0; 0]; [1; 0; 0; 0]; [1; 0; 0; 0]; [0; 0; 0; 0]].
Definition ex4 (a g1 g2 : part) : list proc := [one [a] 0; one [a; g1] 0; one [a; g2] 0; one [a] 0].
Theorem C58_two_sinks_refuted : forall a m1 m2, (0 < m1 < pm a)%R -> (0 < m2 < pm a)%R ->
  let g m := lighter (unset_active (set_iorig 0 a)) (pm a - m) false in
  exists out p x, DoUpdateMpiGhostParents ReturnSink 4 N4 [[]; [1]; [1]; []] (ex4 a (g m1) (g m2)) = Ok out /\
  comes_from E4 (ex4 a (g m1) (g m2)) 1 1 0 0 /\ comes_from E4 (ex4 a (g m1) (g m2)) 2 1 0 0 /\
  aget out 0 = Ok p /\ aget (data (store_of p)) 0 = Ok x /\ pm x = m2 /\ (pm x <> pm a - (pm a - m1) - (pm a - m2))%R.
Proof.
  intros a m1 m2 H1 H2 g. eexists. eexists. eexists. split; [lazy -[dead_if_zero pm g IZR]; reflexivity|]. split; [|split].
  - exists 0, (one [a] 0). split; [|split; [reflexivity|constructor; cbn; lia]]. exists (one [a; g m1] 0), [0], 0. repeat split.
  - exists 0, (one [a] 0). split; [|split; [reflexivity|constructor; cbn; lia]]. exists (one [a; g m2] 0), [0], 0. repeat split.
  - split; [reflexivity|]. split; [reflexivity|]. assert (PZ : forall p, pm (dead_if_zero p) = pm p) by (intros p; unfold dead_if_zero; destruct (Req_EM_T (pm p) 0); reflexivity).
    rewrite !PZ. cbn. split; lra.
Qed.
Print Assumptions C58_two_sinks_refuted.

(** The hypotheses of C58_return can be met: the exchange of C58_first_ghost_refuted, had the list been complete. *)
Example C58_example : forall a b, exchanged 2 [[[]; [0]]; [[]; []]] [[0; 0]; [1; 0]] [[]; [1]] [one [a] 0; mkproc (mkstore 1 1 2 [b; swallowed (unset_active (set_iorig 0 a))]) 0] /\
  exists out p x, DoUpdateMpiGhostParents ReturnSink 2 [[0; 0]; [1; 0]] [[]; [1]] [one [a] 0; mkproc (mkstore 1 1 2 [b; swallowed (unset_active (set_iorig 0 a))]) 0] = Ok out /\
    aget out 0 = Ok p /\ aget (data (store_of p)) 0 = Ok x /\ pm x = 0%R /\ pdead x = true.
Proof.
  intros a b. assert (I2 : forall i, 0 <= i < 2 -> i = 0 \/ i = 1) by (intros; lia).
  assert (G : forall {A} (x y z : A) i, aget [x; y] i = Ok z -> (i = 0 /\ z = x) \/ (i = 1 /\ z = y)).
  { intros A x y z i H. pose proof (aget_Ok_inv _ _ _ H) as [R _]. change (zlen [x; y]) with 2 in R. destruct (I2 i R) as [->| ->]; [left|right]; split; try reflexivity; [change (Ok x = Ok z) in H|change (Ok y = Ok z) in H]; congruence. }
  assert (GN : forall {A} (z : A) i, aget [] i = Ok z -> False) by (intros A z i H; pose proof (aget_Ok_inv _ _ _ H) as [R _]; unfold zlen in R; cbn in R; lia).
  assert (E2 : forall q r l, aget2 [[[]; [0]]; [[]; []]] q r = Ok l -> (q = 0 /\ r = 1 /\ l = [0]) \/ (l = [] /\ ~ (q = 0 /\ r = 1))).
  { intros q r l H. unfold aget2 in H. destruct (aget [[[]; [0]]; [[]; []]] q) as [e| | |] eqn:Q; try discriminate. cbn [bind] in H. apply G in Q as [[-> ->]|[-> ->]]; apply G in H as [[-> ->]|[-> ->]]; auto; right; (split; [reflexivity|lia]). }
  split.
  - unfold exchanged. split; [lia|]. split; [reflexivity|]. split; [reflexivity|].
    split; [split; [reflexivity|intros e [<-|[<-|[]]]; reflexivity]|]. split; [split; [reflexivity|intros e [<-|[<-|[]]]; reflexivity]|]. split; [|split; [|split; [|split; [|split]]]].
    + intros q r l p i H Hp Hi. apply E2 in H as [(-> & -> & ->)|(-> & _)]; [|destruct Hi]. destruct Hi as [<-|[]]. apply G in Hp as [[_ ->]|[X _]]; [cbn; lia|lia].
    + intros q r l n H Hn. unfold aget2 in Hn. destruct (aget [[0; 0]; [1; 0]] r) as [e| | |] eqn:Q; try discriminate. cbn [bind] in Hn. apply E2 in H as [(-> & -> & ->)|(-> & NQ)].
      * apply G in Q as [[X _]|[_ ->]]; [lia|]. apply G in Hn as [[_ ->]|[X _]]; [reflexivity|lia].
      * apply G in Q as [[-> ->]|[-> ->]]; apply G in Hn as [[-> ->]|[-> ->]]; try reflexivity. exfalso. apply NQ. auto.
    + intros q p Hp. apply G in Hp as [[-> ->]|[-> ->]]; (split; [|split]); vm_compute; discriminate.
    + intros q p j x Hp Hj Hx. apply G in Hp as [[-> ->]|[-> ->]]; cbn in Hj; lia.
    + intros r i q e p x (p' & l & t & C1 & C2 & C3 & C4) Hp Hx. apply E2 in C2 as [(-> & -> & ->)|(-> & _)]; [|now apply GN in C3].
      pose proof (aget_Ok_inv _ _ _ C3) as [R _]. change (zlen [0]) with 1 in R. assert (t = 0) as -> by lia. change (Ok 0 = Ok e) in C3. injection C3 as <-.
      apply G in C1 as [[X _]|[_ ->]]; [lia|]. apply G in Hp as [[X _]|[_ ->]]; [lia|]. change (i = 1) in C4. subst i. apply G in Hx as [[X _]|[_ ->]]; [lia|reflexivity].
    + intros r p l i Hp Hl Hi. apply G in Hl as [[-> ->]|[-> ->]]; [destruct Hi|]. destruct Hi as [<-|[]]. apply G in Hp as [[X _]|[_ ->]]; [lia|]. split; vm_compute; [discriminate|reflexivity].
  - eexists. eexists. eexists. split; [lazy -[dead_if_zero IZR]; reflexivity|]. split; [reflexivity|]. split; [reflexivity|]. unfold dead_if_zero. cbn [pm]. destruct (Req_EM_T 0 0) as [Z|NZ]; [split; reflexivity|now destruct NZ].
Qed.
