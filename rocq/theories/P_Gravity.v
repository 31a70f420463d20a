(** C06, C42: gravity walks. *)
From Verif Require Import Prelude Vec S_Tree M_KDTree L_KDStruct M_Stock S_Stock S_Search M_Box L_Box M_Gather L_Gather L_Star L_ExTree L_Opening.
From Coq Require Import Reals Lra Permutation.
Local Open Scope Z_scope.

(** Whatever the overlap test [near] and the opening criterion [opn] answer, the lists of
    neighbours, direct-sum particles and accepted cells contain every particle of the tree
    exactly once; accepted cells are those that were neither near nor to be opened. *)
Theorem C06_once : forall ndim kr th2 quad pd Nl s Ncell t ps,
  stocked ndim kr th2 quad pd Nl s Ncell t ps -> (0 <= kr)%R ->
  (forall p x, In p ps -> aget pd p = Ok x -> (0 <= p_h x)%R) ->
  forall near opn, (forall c, 0 <= c < Ncell -> exists b o, near c = Ok b /\ opn c = Ok o) ->
  exists neib direct gcells pss,
    grav_lists s Ncell near opn = Ok (neib, direct, gcells) /\
    Permutation ps (neib ++ direct ++ concat pss) /\
    Forall2 (cell_ok ndim kr th2 quad pd s) gcells pss /\
    Forall (fun c => near c = Ok false /\ opn c = Ok false) gcells.
Proof. exact grav_lists_once. Qed.
Print Assumptions C06_once.

(** Hence total mass and mass-weighted position are those of all particles. *)
Theorem C06_mass : forall ndim kr th2 quad pd Nl s Ncell t ps,
  stocked ndim kr th2 quad pd Nl s Ncell t ps -> (0 <= kr)%R ->
  (forall p x, In p ps -> aget pd p = Ok x -> (0 <= p_h x)%R) ->
  forall near opn neib direct gcells,
  (forall c, 0 <= c < Ncell -> exists b o, near c = Ok b /\ opn c = Ok o) ->
  grav_lists s Ncell near opn = Ok (neib, direct, gcells) ->
  let part f i := match aget pd i with Ok p => f p | _ => 0%R end in
  let cell F c := match aget (ts_g s) c with Ok g => F g | _ => 0%R end in
  (lsum (part gmass) neib + lsum (part gmass) direct + lsum (cell gm) gcells = lsum (part gmass) ps)%R /\
  forall k, (lsum (part (fun p => gmass p * p_r p k)) neib + lsum (part (fun p => gmass p * p_r p k)) direct +
             lsum (cell (fun g => gm g * gr g k)) gcells = lsum (part (fun p => gmass p * p_r p k)) ps)%R.
Proof. exact grav_lists_mass. Qed.
Print Assumptions C06_mass.

(** In a domain without periodic boundaries the neighbour list holds every particle in SPH
    range of a particle of the cell. *)
Theorem C06_near_complete : forall ndim kr th2 quad pd Nl s Ncell t ps,
  stocked ndim kr th2 quad pd Nl s Ncell t ps -> (0 <= kr)%R ->
  (forall p x, In p ps -> aget pd p = Ok x -> (0 <= p_h x)%R) ->
  forall g0 opn, (0 <= grmax g0)%R -> (0 <= ghmax g0)%R ->
  (forall c, 0 <= c < Ncell -> exists o, opn c = Ok o) ->
  forall neib direct gcells,
    grav_lists s Ncell (grav_near ndim kr (ts_g s) (fun d => d) g0) opn = Ok (neib, direct, gcells) ->
    forall i p x hx, In i ps -> aget pd i = Ok p -> cell_member ndim kr g0 x hx ->
      (norm ndim (vsub (p_r p) x) <= kr * Rmax hx (p_h p))%R -> In i neib.
Proof. exact grav_lists_near. Qed.
Print Assumptions C06_near_complete.

(** The geometric opening criterion: all particles of an accepted cell lie within
    sqrt(thetamaxsqd) times the distance between the cell centres of the centre of the
    cell, and their smoothing lengths are smaller than that too; [wrap] is the nearest-image map. *)
Theorem C06_opening : forall ndim kr th2 quad pd Nl s Ncell t ps,
  stocked ndim kr th2 quad pd Nl s Ncell t ps -> (0 <= kr)%R -> (0 < th2)%R ->
  (forall p x, In p ps -> aget pd p = Ok x -> (0 <= p_h x)%R) ->
  forall near wrap g0 neib direct gcells,
  (forall c, (0 <= c < Ncell)%Z -> exists b, near c = Ok b) ->
  grav_lists s Ncell near (grav_opn ndim (ts_g s) wrap g0) = Ok (neib, direct, gcells) ->
  exists pss, Permutation ps (neib ++ direct ++ concat pss) /\
    Forall2 (fun c qs => exists g, aget (ts_g s) c = Ok g /\
      forall i p, In i qs -> aget pd i = Ok p ->
        let dr := wrap (vsub (grcell g) (grcell g0)) in
        (norm ndim (vsub (p_r p) (grcell g)) ^ 2 <= th2 * dot ndim dr dr)%R /\
        (0 <= p_h p -> p_h p ^ 2 <= th2 * dot ndim dr dr)%R) gcells pss.
Proof. exact grav_opening. Qed.
Print Assumptions C06_opening.

(** A cell with particles is accepted exactly when its half diagonal and its largest
    smoothing length are small enough (for stars with strict inequality). *)
Theorem C06_opening_exact : forall ndim kr th2 quad pd Nl s Ncell t ps,
  stocked ndim kr th2 quad pd Nl s Ncell t ps -> (0 <= kr)%R -> (0 < th2)%R ->
  (forall p x, In p ps -> aget pd p = Ok x -> (0 <= p_h x)%R) ->
  forall c, (0 <= c < Ncell)%Z -> exists qs g, cell_ok ndim kr th2 quad pd s c qs /\ aget (ts_g s) c = Ok g /\
    (qs <> [] ->
     (forall wrap g0, let dr := wrap (vsub (grcell g) (grcell g0)) in exists b, grav_opn ndim (ts_g s) wrap g0 c = Ok b /\
        (b = false <-> (grmax g ^ 2 <= th2 * dot ndim dr dr /\ ghmax g ^ 2 <= th2 * dot ndim dr dr)%R)) /\
     (forall rs, let dr := vsub (grcell g) rs in exists b, star_far ndim (ts_g s) rs c = Ok b /\
        (b = true <-> (grmax g ^ 2 < th2 * dot ndim dr dr /\ ghmax g ^ 2 < th2 * dot ndim dr dr)%R))).
Proof. exact opening_exact. Qed.
Print Assumptions C06_opening_exact.

(** C42.  The walk of a star with its three buffers: never out of range, and when it
    returns 1 every particle of the tree is counted exactly once, accepted cells pass the
    opening criterion and all particles in kernel range are neighbours. *)
Theorem C42_star_lists : forall ndim kr th2 quad pd Nl s Ncell t ps rs h Nneibmax Ndirectmax Ngravcellmax,
  stocked ndim kr th2 quad pd Nl s Ncell t ps -> (0 <= kr)%R -> (0 <= h)%R ->
  (forall p x, In p ps -> aget pd p = Ok x -> (0 <= p_h x)%R) ->
  (forall p x, In p ps -> aget pd p = Ok x -> p_dead x = false) ->
  0 <= Nneibmax -> 0 <= Ndirectmax <= Nneibmax -> 0 <= Ngravcellmax ->
  exists r, star_lists pd s Ncell Nl Nneibmax Ndirectmax Ngravcellmax (star_near ndim kr (ts_g s) rs h) (star_far ndim (ts_g s) rs) = Ok r /\
    match r with
    | Some (neib, direct, gcells) =>
        zlen neib <= Nneibmax /\ zlen direct <= Ndirectmax /\ zlen gcells <= Ngravcellmax /\
        (exists pss, Permutation ps (neib ++ direct ++ concat pss) /\
          Forall2 (cell_ok ndim kr th2 quad pd s) gcells pss) /\
        (forall c, In c gcells -> exists g, aget (ts_g s) c = Ok g /\
            (gcdistsqd g < dot ndim (vsub (grcell g) rs) (vsub (grcell g) rs))%R) /\
        (forall i p, In i ps -> aget pd i = Ok p ->
            (norm ndim (vsub (p_r p) rs) < 1/2 * (kr * h) + 1/2 * (kr * p_h p))%R -> In i neib)
    | None => True
    end.
Proof. exact star_lists_code. Qed.
Print Assumptions C42_star_lists.

(** The caller's retry loop need not end: in every stocked tree whose leaves all have room
    for one more particle, a star in range of all cells makes every try return -1, however
    large the cell buffer becomes. *)
Theorem C42_star_retry_never_ends : forall ndim kr th2 quad pd Nl s Ncell t ps,
  stocked ndim kr th2 quad pd Nl s Ncell t ps -> (0 <= kr)%R ->
  (forall p x, In p ps -> aget pd p = Ok x -> (0 <= p_h x)%R) ->
  (forall p x, In p ps -> aget pd p = Ok x -> p_dead x = false) ->
  forall near far, (forall c, 0 <= c < Ncell -> near c = Ok true) ->
  (forall c k, 0 <= c < Ncell -> aget (cells (ts_k s)) c = Ok k -> copen k = -1 -> cN k < Nl) ->
  forall n Ngravcellmax, star_retry n pd s Ncell Nl (zlen ps) Ngravcellmax near far = NoFuel.
Proof. exact star_retry_never_ends. Qed.
Print Assumptions C42_star_retry_never_ends.

(** But when only the buffer for cells was too small, the loop ends with the right lists. *)
Theorem C42_star_retry_ends : forall ndim kr th2 quad pd Nl s Ncell t ps,
  stocked ndim kr th2 quad pd Nl s Ncell t ps -> (0 <= kr)%R ->
  (forall p x, In p ps -> aget pd p = Ok x -> (0 <= p_h x)%R) ->
  (forall p x, In p ps -> aget pd p = Ok x -> p_dead x = false) ->
  forall near far, (forall c, 0 <= c < Ncell -> exists b o, near c = Ok b /\ far c = Ok o) ->
  forall Ntot Ngravcellmax N0 r, 0 <= Ntot -> 0 < Ngravcellmax ->
  star_lists pd s Ncell Nl Ntot Ntot N0 near far = Ok (Some r) ->
  exists n, star_retry n pd s Ncell Nl Ntot Ngravcellmax near far = Ok r.
Proof. exact star_retry_ends. Qed.
Print Assumptions C42_star_retry_ends.

(** A tree that the code builds, for which this happens: four particles, at most three per
    leaf, and a star at the origin with smoothing length 4. *)
Theorem C42_star_retry_refuted : exists g2c s2,
  BuildTree [[0;1;2;3]] [false;false;false;false] 3 4 0 4 [0] [3] ex_s0 [0;0] = Ok (ex_s1, g2c) /\
  StockTree 2 1 2 1 true (ex_pd false) 1 0 (mkts ex_s1 ex_gs) = Ok s2 /\
  forall n Ngravcellmax,
    star_retry n (ex_pd false) s2 3 3 4 Ngravcellmax
      (star_near 1 2 (ts_g s2) (fun _ => 0%R) 4) (star_far 1 (ts_g s2) (fun _ => 0%R)) = NoFuel.
Proof. exact star_retry_refuted. Qed.
Print Assumptions C42_star_retry_refuted.

(** The four-particle tree meets the hypotheses: when nothing is near and nothing opened,
    the root alone represents all mass; when only the root is opened, its two children do. *)
Example C06_example : exists s, stocked 1 2 1 true (ex_pd false) 2 s 3 (ptree 1 0) [0;1;2;3] /\
  exists neib direct gcells, grav_lists s 3 (fun _ => Ok false) (fun c => Ok (c =? 0)) = Ok (neib, direct, gcells) /\
  let part f i := match aget (ex_pd false) i with Ok p => f p | _ => 0%R end in
  let cell F c := match aget (ts_g s) c with Ok g => F g | _ => 0%R end in
  (lsum (part gmass) neib + lsum (part gmass) direct + lsum (cell gm) gcells = 4)%R.
Proof.
  destruct ex_stocked as (s & _ & S). exists s. split; [exact S|].
  assert (D : forall c, 0 <= c < 3 -> exists b o, (fun _ : Z => Ok false) c = Ok b /\ (fun c => Ok (c =? 0)) c = Ok o) by (intros; eauto).
  assert (Hh : forall p x, In p [0;1;2;3] -> aget (ex_pd false) p = Ok x -> (0 <= p_h x)%R) by (intros; eapply ex_h; eauto).
  destruct (C06_once _ _ _ _ _ _ _ _ _ _ S ltac:(lra) Hh _ _ D) as (n & d & g & pss & E & _).
  exists n, d, g. split; [exact E|].
  assert (M := C06_mass _ _ _ _ _ _ _ _ _ _ S ltac:(lra) Hh _ _ _ _ _ D E). cbv zeta in M |- *. destruct M as [M _]. rewrite M.
  unfold lsum. cbn [map fold_right].
  change (aget (ex_pd false) 0) with (Ok (ex_part 0 false)). change (aget (ex_pd false) 1) with (Ok (ex_part 1 false)).
  change (aget (ex_pd false) 2) with (Ok (ex_part 2 false)). change (aget (ex_pd false) 3) with (Ok (ex_part 3 false)).
  unfold gmass. cbn. lra.
Qed.

(** Here a star far from everything: one accepted cell. *)
Example C42_example : exists s, stocked 1 2 1 true (ex_pd false) 2 s 3 (ptree 1 0) [0;1;2;3] /\
  star_lists (ex_pd false) s 3 2 4 4 5 (fun _ => Ok false) (fun _ => Ok true) = Ok (Some ([], [], [0])) /\
  exists n, star_retry n (ex_pd false) s 3 2 4 1 (fun _ => Ok false) (fun _ => Ok true) = Ok ([], [], [0]).
Proof.
  destruct ex_stocked as (s & _ & S). exists s. split; [exact S|].
  assert (Hh : forall p x, In p [0;1;2;3] -> aget (ex_pd false) p = Ok x -> (0 <= p_h x)%R) by (intros; eapply ex_h; eauto).
  assert (E : star_lists (ex_pd false) s 3 2 4 4 5 (fun _ => Ok false) (fun _ => Ok true) = Ok (Some ([], [], [0]))).
  { assert (LK := st_links _ _ _ _ _ _ _ _ _ _ S). change (ptree 1 0) with (RNode 0 [RNode 1 []; RNode 2 []]) in LK.
    destruct LK as ((nx & LN & SE) & LO & _). unfold cell_field in LN, LO.
    assert (C := L_Search.ctree_root _ _ _ _ (st_desc _ _ _ _ _ _ _ _ _ _ S)). rewrite (st_root _ _ _ _ _ _ _ _ _ _ S) in C.
    destruct C as (k & g & xs & A & B & _). rewrite A in LN, LO. cbn [bind] in LN, LO. injection LN as LN. injection LO as LO.
    unfold star_lists. change (Z.to_nat 3) with 3%nat. cbn [M_Walk.walk]. change (0 <? 3) with true. cbv iota.
    unfold M_Search.star_visit at 1. cbn [bind view_of M_Search.vopen M_Search.vN M_Search.vnext].
    unfold kget. rewrite A. cbn [bind]. rewrite B, LO. cbn. rewrite LN. unfold same_exit in SE. destruct (Z.ltb_spec nx 3); [exfalso; lia|reflexivity]. }
  split; [exact E|]. eapply C42_star_retry_ends; eauto; try lia; try lra.
  intros; eapply ex_live; eauto.
Qed.
