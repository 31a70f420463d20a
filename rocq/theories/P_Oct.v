(** C07: the oct-tree. *)
From Verif Require Import Prelude L_Prelude Vec S_Tree L_Tree L_KDTop M_Oct S_Oct L_Oct L_Oct3 L_Oct4 L_Oct5 L_Oct7 L_Oct8.
From Coq Require Import Reals Permutation Lra.
Local Open Scope Z_scope.

(** Dividing a cell whose linked list is [q] when the eight cells from [base] on are unused.  The
    lists of the eight children are a partition of [q] that keeps its order; each particle that was
    inside the box of the cell is inside the box of its child, and the boxes of the children are
    parts of the box of the cell; the children are linked one after the other and then to the
    successor of the cell.  Nothing else changes. *)
Theorem C07_divide : forall ndim ps sz lv base c cell q cells inext, (1 <= ndim <= 3)%nat ->
  aget cells c = Ok cell -> c < base -> base + 8 <= zlen cells ->
  (forall k, 0 <= k < 8 -> exists old, aget cells (base + k) = Ok old /\ o_N old = 0 /\ o_ifirst old = -1 /\ o_ilast old = -1 /\ o_copen old = -1) ->
  NoDup q -> (forall p, In p q -> 0 <= p < zlen ps /\ 0 <= p < zlen inext) -> chain inext (o_ifirst cell) (o_ilast cell) q ->
  exists cells' inext' (part : Z -> list Z), divide ndim ps sz lv base c cells inext = Ok (cells', inext') /\
    Permutation (concat (map part (zseq 0 8))) q /\ (forall k, subseq (part k) q) /\
    (forall k, 0 <= k < 8 -> exists ch, aget cells' (base + k) = Ok ch /\ chain inext' (o_ifirst ch) (o_ilast ch) (part k) /\ o_N ch = zlen (part k) /\
       o_level ch = lv /\ o_copen ch = -1 /\ o_cnext ch = (if k =? 7 then o_cnext cell else base + k + 1) /\
       (inside ndim (o_rc cell) (o_min cell) (o_max cell) -> forall r, inside ndim r (o_min ch) (o_max ch) -> inside ndim r (o_min cell) (o_max cell)) /\
       (forall p y, In p (part k) -> aget ps p = Ok y -> inside ndim (op_r y) (o_min cell) (o_max cell) -> inside ndim (op_r y) (o_min ch) (o_max ch))) /\
    (exists cell', aget cells' c = Ok cell' /\ o_copen cell' = base /\ o_cnext cell' = o_cnext cell /\ o_N cell' = o_N cell /\
       o_min cell' = o_min cell /\ o_max cell' = o_max cell /\ o_level cell' = o_level cell) /\
    (forall d, d <> c -> ~ (base <= d < base + 8) -> aget cells' d = aget cells d) /\
    (forall p, ~ In p q -> aget inext' p = aget inext p).
Proof.
  intros ndim ps sz lv base c cell q cells inext Hn Ec Lt B Pr ND OK Ch.
  destruct (divide_ok ndim ps sz lv base c cell q cells inext) as (cs & nx & E & D1 & D2 & D3 & D4 & D5 & D6); auto.
  exists cs, nx, (fun k => kids_of ndim ps (o_rc cell) k q). split; [exact E|]. split.
  { apply (partition_perm (kid_of ndim ps (o_rc cell))); [apply zseq_nodup|]. intros p Hp. apply zseq_in. pose proof (kid_range ndim ps (o_rc cell) p). lia. }
  split; [intros k; apply subseq_filter|]. split; [|split; [|split; [exact D5|exact D6]]].
  - intros k Hk. destruct (D4 k Hk) as (old & ch & Eo & Ech & Cch & Nch & G & Oc). exists ch. split; [exact Ech|]. split; [exact Cch|]. split; [exact Nch|].
    assert (G1 : o_level ch = lv) by exact (f_equal (fun g => snd (fst g)) G).
    assert (G2 : o_cnext ch = (if k =? 7 then o_cnext cell else base + k + 1)) by exact (f_equal (fun g => snd (fst (fst g))) G).
    assert (G3 : o_min ch = o_min (new_child ndim sz lv cell k old)) by exact (f_equal (fun g => snd (fst (snd g))) G).
    assert (G4 : o_max ch = o_max (new_child ndim sz lv cell k old)) by exact (f_equal (fun g => snd (snd g)) G).
    split; [exact G1|]. split; [exact Oc|]. split; [exact G2|]. rewrite G3, G4. split.
    + intros Hc r Hr d Hd. specialize (Hc d Hd). specialize (Hr d Hd). cbn [new_child o_min o_max] in Hr. rewrite (proj2 (Nat.ltb_lt d ndim) Hd) in Hr.
      destruct (low k d); lra.
    + intros p y Hp Ey Hi. apply kids_in in Hp as [_ Hk']. rewrite <- Hk'. apply (child_inside ndim ps [] 0 0 Hn ltac:(intros ? [])); auto.
  - exists (set_copen base cell). repeat split; auto.
Qed.
Print Assumptions C07_divide.

(** The result of BuildTree: either the memory of the tree is overrun, or the result is a
    tree in which every inner cell has eight children, whose links, levels and tables of levels are
    right; before dead particles are taken out the leaves hold each particle exactly once, in the
    order of the particle numbers, at most Nleafmax per leaf, each inside the boxes of all of its
    cells if it was inside the box of the root cell; afterwards the lists of the leaves are the live
    particles, and every cell has the number and the tight bounding box of its live particles.  The
    memory is not overrun if all particles lie in the cube of the root cell, of any Nleafmax+1
    particles two are further apart than a cell of level 39, and there are cells enough.  Partial: the
    property asks for an error in the remaining cases, see the next theorems. *)
Theorem C07_build_partial : forall ndim ps Nleafmax ifirst Npart Npartmax t c0, (1 <= ndim <= 3)%nat -> args ps Nleafmax ifirst Npart Npartmax -> used ndim t ->
  let q0 := zseq ifirst (Z.to_nat Npart) in
  aget (o_cells (AllocateTreeMemory Npartmax 0 t)) 0 = Ok c0 ->
  (exists tg t' T qs, grow_tree ndim ps Nleafmax ifirst Npart Npartmax t = Ok tg /\ BuildTree ndim ps Nleafmax ifirst Npart Npartmax t = Ok t' /\
     oct_shape tg T /\ oct_shape t' T /\ Permutation qs q0 /\
     ctree (holds ndim ps (forall p y, In p q0 -> aget ps p = Ok y -> inside ndim (op_r y) (o_min c0) (o_max c0)) tg) (leaf_list Nleafmax q0 tg) T qs /\
     ctree (stocked ndim ps t') (live_list Nleafmax ps q0 t') T (filter (alive ps) qs)) \/
  (BuildTree ndim ps Nleafmax ifirst Npart Npartmax t = UB /\
   ~ ((forall p y, In p q0 -> aget ps p = Ok y -> near ndim (op_r y) (root_centre c0) (root_size ndim c0)) /\
      spread ndim ps Nleafmax q0 (root_size ndim c0 / 2 ^ 38) /\
      1 + 8 * (1 + 38 * (Npart / (Nleafmax + 1))) <= zlen (o_cells (AllocateTreeMemory Npartmax 0 t)))).
Proof.
  intros ndim ps Nl ifirst Np Nm t c0 Hn A U q0 E0.
  assert (Ec : c0_of (AllocateTreeMemory Nm 0 t) = c0) by (unfold c0_of; now rewrite E0).
  destruct (build_ok ndim ps Nl ifirst Np Nm t Hn A (used_alloc _ _ Hn U)) as [(tg & t' & T & qs & X1 & X2 & X3 & X4 & _ & _ & _ & X5 & X6 & X7)|[X1 X2]].
  - left. exists tg, t', T, qs. rewrite Ec in X6. repeat (split; [assumption|]). assumption.
  - right. rewrite Ec in X2. split; assumption.
Qed.
Print Assumptions C07_build_partial.

(** The error message for too many levels is never reached. *)
Theorem C07_no_error : forall ndim ps Nleafmax ifirst Npart Npartmax t, (1 <= ndim <= 3)%nat -> args ps Nleafmax ifirst Npart Npartmax -> used ndim t ->
  BuildTree ndim ps Nleafmax ifirst Npart Npartmax t <> Raise.
Proof.
  intros ndim ps Nl ifirst Np Nm t Hn A U.
  destruct (build_ok ndim ps Nl ifirst Np Nm t Hn A (used_alloc _ _ Hn U)) as [(tg & t' & T & qs & X1 & X2 & _)|[X1 _]]; congruence.
Qed.
Print Assumptions C07_no_error.

(** A new tree (the first build of a run): the root box is that of an unused cell, +-9.9e20, so that
    any set of more than Nleafmax particles with coordinates between 0 and 1.8e9 is not separated by
    the forty levels and the arrays of levels are overrun. *)
Theorem C07_first_build : forall ndim ps Nleafmax ifirst Npart Npartmax,
  (1 <= ndim <= 3)%nat -> args ps Nleafmax ifirst Npart Npartmax -> Nleafmax < Npart ->
  (forall p y d, ifirst <= p < ifirst + Npart -> aget ps p = Ok y -> (d < ndim)%nat -> (0 < op_r y d <= big_number / 2 ^ 39)%R) ->
  BuildTree ndim ps Nleafmax ifirst Npart Npartmax new_octree = UB.
Proof. intros ndim ps Nl ifirst Np Nm Hn (A1 & A2 & A3 & A4 & A5) L H. apply first_build; auto; lia. Qed.
Print Assumptions C07_first_build.

(** A new tree for at most two particles has at most eight cells; nine are written. *)
Theorem C07_two_particles : forall ndim ps Nleafmax ifirst Npart Npartmax,
  (1 <= ndim <= 3)%nat -> args ps Nleafmax ifirst Npart Npartmax -> Npartmax <= 2 ->
  BuildTree ndim ps Nleafmax ifirst Npart Npartmax new_octree = UB.
Proof. intros ndim ps Nl ifirst Np Nm Hn (A1 & A2 & A3 & A4 & A5) L. apply small_build; auto; lia. Qed.
Print Assumptions C07_two_particles.

(** Ten particles at 1, 2, .., 10 with eight per leaf: BuildTree overruns its arrays. *)
Definition ten : list opart := map (fun i => {| op_r := fun _ => IZR i; op_dead := false |}) (zseq 1 10).
Theorem C07_depth_error_refuted : exists ndim ps Nleafmax ifirst Npart Npartmax, (1 <= ndim <= 3)%nat /\ args ps Nleafmax ifirst Npart Npartmax /\
  BuildTree ndim ps Nleafmax ifirst Npart Npartmax new_octree = UB.
Proof.
  exists 3%nat, ten, 8, 0, 10, 100. split; [lia|]. split; [unfold args, ten, zlen; rewrite map_length; cbn; lia|].
  apply C07_first_build; [lia|unfold args, ten, zlen; rewrite map_length; cbn; lia|lia|].
  intros p y d Hp Ey _. assert (B : (10 <= big_number / 2 ^ 39)%R) by (unfold big_number; lra).
  unfold ten in Ey. destruct (aget_Ok_inv _ _ _ Ey) as [_ X]. apply nth_error_In in X. apply in_map_iff in X as (i & <- & Hi). apply zseq_in in Hi.
  cbn [op_r]. split; [apply IZR_lt; lia|]. eapply Rle_trans; [apply IZR_le; instantiate (1 := 10); lia|exact B].
Qed.
Print Assumptions C07_depth_error_refuted.

Lemma subseq_full : forall l m, subseq l m -> (length m <= length l)%nat -> l = m.
Proof.
  assert (L : forall l m, subseq l m -> (length l <= length m)%nat) by (induction 1; cbn [length]; lia).
  induction 1 as [|a l m S IH|a l m S IH]; cbn [length]; intros B; [reflexivity| |].
  - apply L in S. lia.
  - f_equal. apply IH. lia.
Qed.
(** Two particles on both sides of the origin, one per leaf: the build succeeds. *)
Definition pair : list opart := [{| op_r := fun _ => (- (big_number / 2))%R; op_dead := false |}; {| op_r := fun _ => (big_number / 2)%R; op_dead := true |}].
Example C07_pair : exists t' T qs, BuildTree 2 pair 1 0 2 79 new_octree = Ok t' /\ oct_shape t' T /\ Permutation qs [0; 1] /\
  ctree (stocked 2 pair t') (live_list 1 pair [0; 1] t') T [0].
Proof.
  pose proof big_pos as BP.
  assert (E0 : aget (o_cells (AllocateTreeMemory 79 0 new_octree)) 0 = Ok fresh_cell) by reflexivity.
  destruct (C07_build_partial 2 pair 1 0 2 79 new_octree fresh_cell) as [(tg & t' & T & qs & _ & X2 & _ & X4 & X5 & _ & X7)|[_ X]]; auto.
  - unfold args, pair, zlen. cbn [length]. lia.
  - constructor.
  - exists t', T, qs. change (zseq 0 (Z.to_nat 2)) with [0; 1] in *. split; [exact X2|]. split; [exact X4|]. split; [exact X5|].
    replace (filter (alive pair) qs) with [0] in X7; [exact X7|].
    assert (L : forall m, Permutation m [0; 1] -> m = [0; 1] \/ m = [1; 0]).
    { intros m Pm. apply Permutation_sym, Permutation_length_2_inv in Pm. exact Pm. }
    destruct (L qs X5) as [-> | ->]; reflexivity.
  - exfalso. apply X. change (zseq 0 (Z.to_nat 2)) with [0; 1]. split; [|split].
    + intros p y Hp Ey d Hd. rewrite root_size_fresh by lia. unfold root_centre. cbn [fresh_cell o_min o_max].
      destruct Hp as [<-|[<-|[]]]; injection Ey as <-; cbn [op_r]; unfold Rabs; destruct (Rcase_abs _); lra.
    + intros q Sq Hq. exists 0, 1, {| op_r := fun _ => (- (big_number / 2))%R; op_dead := false |}, {| op_r := fun _ => (big_number / 2)%R; op_dead := true |}, 0%nat.
      assert (q = [0; 1]).
      { apply subseq_full; [exact Sq|]. unfold zlen in *. cbn [length]. lia. }
      subst q. split; [now left|]. split; [right; now left|]. split; [reflexivity|]. split; [reflexivity|]. split; [lia|]. cbn [op_r].
      rewrite root_size_fresh by lia. replace (- (big_number / 2) - big_number / 2)%R with (- big_number)%R by lra. rewrite Rabs_Ropp, Rabs_right by lra.
      apply Rmult_lt_reg_r with (2 ^ 38)%R; [apply pow_lt; lra|]. unfold Rdiv. rewrite Rmult_assoc, Rinv_l by (apply pow_nonzero; lra). nra.
    + vm_compute. discriminate.
Qed.

(** The hypotheses of [C07_divide] hold in the first step of that build. *)
Example C07_divide_ex : exists cells inext cell,
  let new := reset_cell 9 fresh_cell in
  cells = cell :: repeat new 8 /\ inext = [1; -1] /\ cell = root_cell 2 0 1 new /\
  aget cells 0 = Ok cell /\ 1 + 8 <= zlen cells /\
  (forall k, 0 <= k < 8 -> exists old, aget cells (1 + k) = Ok old /\ o_N old = 0 /\ o_ifirst old = -1 /\ o_ilast old = -1 /\ o_copen old = -1) /\
  chain inext (o_ifirst cell) (o_ilast cell) [0; 1].
Proof.
  eexists _, _, _. cbn zeta. split; [reflexivity|]. split; [reflexivity|]. split; [reflexivity|]. split; [reflexivity|]. split; [vm_compute; discriminate|]. split.
  - intros k Hk. assert (K : k = 0 \/ k = 1 \/ k = 2 \/ k = 3 \/ k = 4 \/ k = 5 \/ k = 6 \/ k = 7) by lia.
    repeat destruct K as [->|K]; try subst k; eexists; repeat split.
  - cbn. repeat split.
Qed.
