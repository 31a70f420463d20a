(** C14, C15: pairs once; neighbour lists. *)
From Verif Require Import Prelude Vec M_Box L_Box M_Util M_Periodic S_Periodic L_Periodic M_Neib S_Neib L_Neib L_Neib2.
From Coq Require Import Reals Lra NArith Permutation.
Local Open Scope R_scope.

(** * C14 *)
(** Of the two encounters of two different real particles exactly one is selected; a mirror
    image always is; a particle never meets itself. *)
Theorem C14_one_of_two : forall p q, n_mirror p = false -> n_mirror q = false -> n_iorig p <> n_iorig q ->
  xorb (first_appearance p q) (first_appearance q p) = true.
Proof. exact first_one. Qed.
Print Assumptions C14_one_of_two.
Theorem C14_mirror_always : forall p q, n_mirror q = true -> first_appearance p q = true.
Proof. exact first_mirror. Qed.
Print Assumptions C14_mirror_always.
(** A whole sweep over the active particles, in any order: a pair with an active member is
    computed once and by an active particle, a pair without is not computed.  The active
    particles contain, with each particle, all those on the same or a higher level, which the
    block timestep scheme guarantees. *)
Theorem C14_sweep : forall all sched, NoDup all -> NoDup sched -> (forall p, In p sched -> In p all) ->
  (forall p, In p all -> n_mirror p = false) ->
  (forall p q, In p all -> In q all -> n_iorig p = n_iorig q -> p = q) ->
  (forall p q, In p sched -> In q all -> (n_level p <= n_level q)%Z -> In q sched) ->
  NoDup (sweep sched all) /\
  forall p q, In p all -> In q all -> p <> q ->
   ((In p sched \/ In q sched) ->
     (In (p, q) (sweep sched all) /\ ~ In (q, p) (sweep sched all)) \/
     (In (q, p) (sweep sched all) /\ ~ In (p, q) (sweep sched all))) /\
   (~ In p sched -> ~ In q sched -> ~ In (p, q) (sweep sched all) /\ ~ In (q, p) (sweep sched all)) /\
   ~ In (p, p) (sweep sched all).
Proof. exact sweep_once. Qed.
Print Assumptions C14_sweep.

Definition exq (id lev : Z) (x : R) (ty : nat) : npart :=
  {| n_id := id; n_r := fun _ => x; n_h := 1; n_hr2 := 4; n_type := ty; n_dead := false; n_mirror := false; n_level := lev; n_iorig := id |}.
(** Three particles on levels 0, 1, 1; the last two active: three pairs, none twice. *)
Example C14_ex : map (fun x => (n_id (fst x), n_id (snd x))) (sweep [exq 2 1 0 0; exq 3 1 0 0] [exq 1 0 0 0; exq 2 1 0 0; exq 3 1 0 0])
  = [(2, 1); (2, 3); (3, 1)]%Z.
Proof. reflexivity. Qed.

(** * C15 *)
(** The candidate list of a cell.  [keep] is the gravity search.  The data array holds, in this
    order, the gravitating particles of the direct list, the images of the ghost candidates
    that are in range (or, with [keep], gravitate) and the plain candidates in range; neib_idx
    holds the particle each entry came from; the entries in range form neiblist and the others
    directlist.  The walks use the plain list only without [keep] (Tree.cpp:533) and the
    direct list only in domains without mirrors (Tree.cpp:636). *)
Theorem C15_EndSearch : forall ndim images gmask rc rmax hmax kernrange pd keep tdirect tper tplain,
  let near := in_range ndim rc rmax hmax kernrange in
  indices_ok pd tdirect -> indices_ok pd tper -> indices_ok pd tplain ->
  (keep = true -> tplain = []) ->
  (keep = true -> forall i q, In i tdirect -> nth_error pd (Z.to_nat i) = Some q -> n_dead q = false -> exists g, images q = [g] /\ n_type g = n_type q) ->
  exists s nper L1,
    let L0 := if keep then filter (fun x => gmask (n_type (snd x))) (copies images pd tdirect) else [] in
    let L2 := filter (fun x => near (snd x)) (copies (fun q => [q]) pd tplain) in
    EndSearch ndim images gmask rc rmax hmax kernrange pd keep tdirect tper tplain = Ok (s, nper) /\
    Permutation L1 (filter (fun x => near (snd x) || (keep && gmask (n_type (snd x)))) (copies images pd tper)) /\
    s_data s = map snd (L0 ++ L1 ++ L2) /\ s_idx s = map fst (L0 ++ L1 ++ L2) /\
    s_neib s = places near (zlen L0) (map snd (L1 ++ L2)) /\
    s_direct s = places (fun _ => true) 0 L0 ++ places (fun q => negb (near q)) (zlen L0) (map snd (L1 ++ L2)) /\
    nper = zlen (places near (zlen L0) (map snd L1)).
Proof. exact EndSearch_spec. Qed.
Print Assumptions C15_EndSearch.
(** Each entry is in exactly one of the two lists. *)
Theorem C15_EndSearch_partition : forall n images gm rc rmax hmax kr pd keep td tp tn,
  indices_ok pd td -> indices_ok pd tp -> indices_ok pd tn -> (keep = true -> tn = []) ->
  (keep = true -> forall i q, In i td -> nth_error pd (Z.to_nat i) = Some q -> n_dead q = false -> exists g, images q = [g] /\ n_type g = n_type q) ->
  exists s nper, EndSearch n images gm rc rmax hmax kr pd keep td tp tn = Ok (s, nper) /\
    NoDup (s_neib s) /\ (forall i, In i (s_neib s) -> (0 <= i < zlen (s_data s))%Z) /\
    NoDup (s_neib s ++ s_direct s) /\ (forall i, (0 <= i < zlen (s_data s))%Z <-> In i (s_neib s ++ s_direct s)) /\
    (zlen (s_idx s) = zlen (s_neib s) + zlen (s_direct s))%Z /\ zlen (s_idx s) = zlen (s_data s).
Proof. exact EndSearch_wf. Qed.
Print Assumptions C15_EndSearch_partition.
(** Nothing that interacts with a particle of the cell is out of range. *)
Theorem C15_in_range_complete : forall ndim rc rmax hmax kernrange p q, 0 <= kernrange -> 0 <= n_h p <= hmax -> 0 <= n_h q -> 0 <= rmax ->
  n_hr2 p = (kernrange * n_h p) ^ 2 -> n_hr2 q = (kernrange * n_h q) ^ 2 ->
  norm ndim (vsub (n_r p) rc) <= rmax -> within ndim p q -> in_range ndim rc rmax hmax kernrange q = true.
Proof. exact in_range_complete. Qed.
Print Assumptions C15_in_range_complete.

(** The lists of one particle [p]: every candidate selected is in exactly the list its distance
    and type call for; periodic candidates of an interacting type are moved to their image
    nearest to [p] first; nothing else changes. *)
Theorem C15_Trim : forall n lo hi bl br' f hm gm once keep s nper ncd p,
  (n <= 3)%nat -> (forall k, (k < n)%nat -> lo k < hi k) -> mk_finder n (mkbox lo hi bl br') = Ok f ->
  NoDup (s_neib s) -> (forall i, In i (s_neib s) -> (0 <= i < zlen (s_data s))%Z) -> 
  exists t extra, TrimNeighbourLists n f hm gm once keep s nper ncd p = Ok t /\
    t_direct t = firstn (Z.to_nat ncd) (s_direct s) ++ extra /\
    NoDup (t_culled t ++ t_smooth t ++ extra) /\
    (forall i, In i (t_culled t ++ t_smooth t ++ extra) -> In i (s_neib s)) /\
    (once = false -> keep = true ->
       (zlen (t_culled t) + zlen (t_smooth t) + zlen extra + t_non t = zlen (s_neib s))%Z) /\
    (forall i, ~ In i (s_neib s) -> (0 <= i)%Z -> aget (t_data t) i = aget (s_data s) i) /\
    (forall j i q, nth_error (s_neib s) j = Some i -> aget (s_data s) i = Ok q ->
       exists q', aget (t_data t) i = Ok q' /\
        (wanted once p q = false -> q' = q /\ ~ In i (t_culled t ++ t_smooth t ++ extra)) /\
        (wanted once p q = true ->
          ((Z.of_nat j < nper)%Z -> hm (n_type q) = true -> moved_near n (mkbox lo hi bl br') p q q') /\
          ((nper <= Z.of_nat j)%Z \/ hm (n_type q) = false -> q' = q) /\
          (In i (t_culled t) <-> hm (n_type q) = true /\ within n p q') /\
          (In i (t_smooth t) <-> keep = true /\ hm (n_type q) = false /\ gm (n_type q) = true /\ within n p q') /\
          (In i extra <-> keep = true /\ gm (n_type q) = true /\ ~ within n p q'))).
Proof. exact Trim_spec. Qed.
Print Assumptions C15_Trim.
(** The count asserted by GetParticleNeibGravity holds. *)
Theorem C15_gravity_count : forall n lo hi bl br' f hm gm s nper p,
  (n <= 3)%nat -> (forall k, (k < n)%nat -> lo k < hi k) -> mk_finder n (mkbox lo hi bl br') = Ok f ->
  NoDup (s_neib s) -> (forall i, In i (s_neib s) -> (0 <= i < zlen (s_data s))%Z) ->
  (zlen (s_idx s) = zlen (s_neib s) + zlen (s_direct s))%Z ->
  exists t, GetParticleNeibGravity n f hm gm s nper (zlen (s_direct s)) p = Ok t.
Proof. exact GravityLists_ok. Qed.
Print Assumptions C15_gravity_count.

(** Line 463 tests the type of neibdata[Nneib], one past the end, instead of the candidate's:
    EndSearchGravity after AddNeib of a particle out of range reads out of bounds.  No walk in
    the code combines the two. *)
Theorem C15_gravity_plain_refuted : exists pd,
  EndSearch 1 (fun q => [q]) (fun _ => true) (fun _ => 0) 1 1 2 pd true [] [] [0%Z] = UB.
Proof.
  exists [exq 1 0 10 0]. apply (EndSearch_oob 1 (fun q => [q]) (fun _ => true) (fun _ => 0) 1 1 2 _ 0 (exq 1 0 10 0)); try reflexivity.
  unfold in_range. apply orb_false_iff. cbn. unfold dot, vsub. cbn. split; apply rltb_false; lra.
Qed.
Print Assumptions C15_gravity_plain_refuted.

(** A cell at 0 with one close and one distant candidate. *)
Example C15_ex : exists s, EndSearch 1 (fun q => [q]) (fun _ => true) (fun _ => 0) 1 1 2 [exq 1 0 10 0; exq 2 0 2 0] false [] [0; 1]%Z [] = Ok (s, 1%Z)
  /\ map n_id (s_data s) = [2]%Z /\ s_neib s = [0]%Z /\ s_idx s = [1]%Z.
Proof.
  assert (N1 : in_range 1 (fun _ => 0) 1 1 2 (exq 1 0 10 0) = false).
  { unfold in_range. apply orb_false_iff. cbn. unfold dot, vsub. cbn. split; apply rltb_false; lra. }
  assert (N2 : in_range 1 (fun _ => 0) 1 1 2 (exq 2 0 2 0) = true).
  { unfold in_range. apply orb_true_iff. left. cbn. unfold dot, vsub. cbn. apply rltb_true; lra. }
  eexists. split.
  - unfold EndSearch. cbn -[in_range exq]. change (n_dead (exq 1 0 10 0)) with false. cbn -[in_range exq]. rewrite N1.
    cbn -[in_range exq]. change (n_dead (exq 2 0 2 0)) with false. cbn -[in_range exq]. change (Pos.to_nat 1) with 1%nat. cbn -[in_range exq]. change (n_dead (exq 2 0 2 0)) with false. cbn -[in_range exq]. rewrite N2. cbn -[in_range exq]. reflexivity.
  - repeat split.
Qed.
