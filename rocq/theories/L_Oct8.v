(** The first build of an oct-tree when all particles lie close to the origin in the first orthant:
    the box of the root cell is that of a new cell, and forty levels do not suffice. *)
From Verif Require Import Prelude L_Prelude Vec M_Box S_Tree L_Tree L_KDTop M_Oct S_Oct L_Oct L_Oct3 L_Oct4 L_Oct5 L_Oct6 L_Oct7.
From Coq Require Import Reals Permutation Lra.
Local Open Scope Z_scope.

Lemma big_pos : (0 < big_number)%R.
Proof. unfold big_number. apply Rmult_lt_0_compat; [lra|apply pow_lt; lra]. Qed.

Section Stuck.
Variables (ndim : nat) (ps : list opart) (Nleafmax : Z) (q0 : list Z).
Hypothesis Hndim : (1 <= ndim <= 3)%nat.
Hypothesis Hnd : NoDup q0.
Hypothesis Hmany : Nleafmax < zlen q0.
Hypothesis Hleaf : 0 <= Nleafmax.
Hypothesis Hclose : forall p y d, In p q0 -> aget ps p = Ok y -> (d < ndim)%nat -> (0 < op_r y d <= half big_number 39)%R.

Definition cen (lv : Z) : R := if lv =? 0 then 0%R else half big_number lv.
Definition kid (lv : Z) : Z := if lv =? 0 then 2 ^ Z.of_nat ndim - 1 else 0.

Record J (t : octree) (c lv : Z) : Prop := {
  j_lt : o_ltot t = lv;
  j_f : zlen (o_first t) = 40;
  j_l : zlen (o_last t) = 40;
  j_last : aget (o_last t) lv = Ok (o_Ncell t - 1);
  j_c : 0 <= c < o_Ncell t;
  j_room : o_Ncell t <= zlen (o_cells t);
  j_lv : 0 <= lv <= 39;
  j_ok : forall p, In p q0 -> okp ps (o_inext t) p;
  j_cell : exists x, aget (o_cells t) c = Ok x /\ chain (o_inext t) (o_ifirst x) (o_ilast x) q0 /\ (forall d, (d < ndim)%nat -> o_rc x d = cen lv);
  j_new : forall d, o_Ncell t <= d < zlen (o_cells t) -> exists x, aget (o_cells t) d = Ok x /\ pristine x }.

Lemma half_mono : forall a b, 0 <= a <= b -> (half big_number b <= half big_number a)%R.
Proof.
  clear. intros a b H. unfold half. apply Rmult_le_compat_l; [left; apply big_pos|].
  replace (Z.to_nat b) with (Z.to_nat a + (Z.to_nat b - Z.to_nat a))%nat by lia. rewrite pow_add.
  rewrite <- (Rmult_1_r ((1/2) ^ Z.to_nat a)) at 2. apply Rmult_le_compat_l; [left; apply pow_lt; lra|].
  pose proof (pow_incr (1/2) 1 (Z.to_nat b - Z.to_nat a)) as X. rewrite pow1 in X. apply X. lra.
Qed.

Lemma all_kid : forall lv x p, 0 <= lv <= 39 -> (forall d, (d < ndim)%nat -> o_rc x d = cen lv) -> In p q0 -> 0 <= p < zlen ps ->
  kid_of ndim ps (o_rc x) p = kid lv.
Proof.
  intros lv x p B E Hp Bp. unfold kid_of, kid. destruct (aget_in ps p Bp) as [y Ey]. rewrite Ey.
  assert (C : forall d, (d < ndim)%nat -> rltb (o_rc x d) (op_r y d) = (lv =? 0)).
  { intros d Hd. rewrite E by easy. destruct (Hclose p y d Hp Ey Hd) as [H1 H2]. unfold rltb, cen. destruct (lv =? 0) eqn:El.
    - now destruct (Rlt_dec _ _).
    - pose proof (half_mono lv 39 B). destruct (Rlt_dec _ _); [lra|reflexivity]. }
  unfold child_of. clear - C Hndim.
  destruct ndim as [|[|[|[|n]]]] eqn:En; try lia; cbn [Nat.ltb Nat.leb Nat.eqb]; rewrite !C by lia; destruct (lv =? 0); reflexivity.
Qed.

Lemma filter_all : forall (f : Z -> bool) l, (forall p, In p l -> f p = true) -> filter f l = l.
Proof. clear. induction l; intros H; [reflexivity|]. cbn [filter]. rewrite H by now left. f_equal. apply IHl. intros; apply H; now right. Qed.
Lemma filter_none : forall (f : Z -> bool) l, (forall p, In p l -> f p = false) -> filter f l = [].
Proof. clear. induction l; intros H; [reflexivity|]. cbn [filter]. rewrite H by now left. apply IHl. intros; apply H; now right. Qed.

Lemma kid_8 : forall lv, 0 <= kid lv < 8.
Proof. intros. unfold kid. destruct (lv =? 0); [|lia]. destruct ndim as [|[|[|[|n]]]]; cbn; lia. Qed.

Lemma filter_one : forall (f : Z -> bool) k n a, a <= k < a + Z.of_nat n -> (forall j, a <= j < a + Z.of_nat n -> f j = (j =? k)) -> filter f (zseq a n) = [k].
Proof.
  clear. intros f k n. induction n; intros a B H; [lia|]. cbn [zseq filter]. rewrite H by lia. destruct (Z.eqb_spec a k) as [->|Ne].
  - f_equal. apply filter_none. intros p Hp. apply zseq_in in Hp. rewrite H by lia. lia.
  - apply IHn; [lia|]. intros j Hj. apply H. lia.
Qed.

Lemma stuck : forall fuel t c lv Npartmax, J t c lv -> Z.of_nat fuel > 40 - lv -> 1 <= Npartmax ->
  levels ndim ps Nleafmax fuel Npartmax (half big_number lv) [c] t = UB.
Proof.
  induction fuel; intros t c lv Np HJ F NP.
  { destruct HJ. lia. }
  destruct HJ as [Jlt Jf Jl Jlast Jc Jroom Jlv Jok (x & Ex & Ch & Rc) Jnew]. cbn [levels divide_all].
  destruct (Z_le_dec (o_Ncell t + 8) (zlen (o_cells t))) as [Le|Gt].
  2:{ unfold divide. rewrite Ex. cbn [bind]. rewrite make_children_ub; [reflexivity|lia|]. change (Z.of_nat (Z.to_nat Noctchild)) with 8. lia. }
  assert (Hhalf : (half big_number lv * (1/2))%R = half big_number (lv + 1)).
  { unfold half. replace (Z.to_nat (lv + 1)) with (S (Z.to_nat lv)) by lia. cbn [pow]. ring. }
  rewrite Hhalf.
  destruct (divide_ok ndim ps (half big_number (lv + 1)) (o_ltot t + 1) (o_Ncell t) c x q0 (o_cells t) (o_inext t)) as (cs & nx & E & DV); auto; try lia.
  { intros k Hk. destruct (Jnew (o_Ncell t + k)) as (o & Eo & Po); [lia|]. eauto. }
  rewrite E. cbn [bind]. destruct DV as (D1 & D2 & D3 & D4 & D5 & D6).
  replace (o_ltot t + 1 - 1) with lv by lia. rewrite Jlast. cbn [bind]. replace (o_Ncell t - 1 + 1) with (o_Ncell t) by lia.
  destruct (Z.eq_dec lv 39) as [->|Ne].
  { rewrite aset_out by lia. reflexivity. }
  destruct (aset_spec (o_first t) (o_ltot t + 1) (o_Ncell t)) as (f1 & E3 & Z3 & G3 & O3); [lia|]. rewrite E3. cbn [bind].
  change (Noctchild * zlen [c]) with 8.
  destruct (aset_spec (o_last t) (o_ltot t + 1) (o_Ncell t + 8 - 1)) as (l1 & E4 & Z4 & G4 & O4); [lia|]. rewrite E4. cbn [bind].
  replace (Z.to_nat (o_Ncell t + 8 - 1 - o_Ncell t + 1)) with 8%nat by lia.
  assert (KA : forall k, 0 <= k < 8 -> kids_of ndim ps (o_rc x) k q0 = if k =? kid lv then q0 else []).
  { intros k Hk. unfold kids_of, is_kid. destruct (Z.eqb_spec k (kid lv)) as [->|N].
    - apply filter_all. intros p Hp. rewrite (all_kid lv) by (auto; now apply Jok). apply Z.eqb_refl.
    - apply filter_none. intros p Hp. rewrite (all_kid lv) by (auto; now apply Jok). lia. }
  pose proof (kid_8 lv) as K8.
  assert (FB : filter (big Nleafmax cs) (zseq (o_Ncell t) 8) = [o_Ncell t + kid lv]).
  { apply filter_one; [lia|]. intros j Hj. destruct (D4 (j - o_Ncell t)) as (old & ch & _ & Ech & _ & Nch & _ & _); [lia|].
    replace (o_Ncell t + (j - o_Ncell t)) with j in Ech by lia. unfold big. rewrite Ech, Nch, KA by lia.
    destruct (Z.eqb_spec (j - o_Ncell t) (kid lv)) as [Q|Q]; [|change (zlen []) with 0]; lia. }
  rewrite (unfinished_ok ndim ps Nleafmax [] 0 0 0%R True True Hndim ltac:(intros ? [])); [|lia|lia|rewrite FB; unfold zlen; cbn [length]; lia]. rewrite FB. cbn [bind].
  unfold lmax. replace (40 <=? o_ltot t + 1) with false by lia.
  apply IHfuel; [|lia|lia]. constructor; cbn [o_cells o_inext o_first o_last o_Ncell o_ltot]; try lia.
  - rewrite <- Jlt. exact G4.
  - intros p Hp. destruct (Jok p Hp). split; lia.
  - destruct (D4 (kid lv) K8) as (old & ch & _ & Ech & Cch & _ & Gch & _). exists ch. split; [exact Ech|]. rewrite KA, Z.eqb_refl in Cch by lia. split; [exact Cch|].
    intros d Hd. assert (Er : o_rc ch = o_rc (new_child ndim (half big_number (lv + 1)) (o_ltot t + 1) x (kid lv) old)) by exact (f_equal (fun g => fst (fst (snd g))) Gch).
    rewrite Er. cbn [new_child o_rc]. rewrite (proj2 (Nat.ltb_lt d ndim) Hd), Rc by easy.
    assert (Lw : low (kid lv) d = negb (lv =? 0)).
    { unfold kid. destruct (lv =? 0); [|destruct d as [|[|d]]; reflexivity].
      destruct ndim as [|[|[|[|n]]]]; try lia; destruct d as [|[|[|d]]]; try lia; reflexivity. }
    rewrite Lw. unfold cen. replace (lv + 1 =? 0) with false by lia. destruct (lv =? 0) eqn:E0; cbn [negb].
    + lra.
    + rewrite <- Hhalf. lra.
  - intros d Hd. destruct (Jnew d) as (o & Eo & Po); [lia|]. exists o. rewrite D5 by lia. auto.
Qed.
End Stuck.

Lemma root_size_fresh : forall n, (1 <= n)%nat -> root_size n fresh_cell = big_number.
Proof.
  pose proof big_pos. induction n; intros B; [lia|]. cbn [root_size]. unfold root_centre at 1. cbn [o_max o_min fresh_cell].
  destruct n.
  - cbn [root_size]. rewrite Rmax_right; lra.
  - rewrite IHn by lia. rewrite Rmax_left; lra.
Qed.

Lemma first_build : forall ndim ps Nleafmax ifirst Npart Npartmax,
  (1 <= ndim <= 3)%nat -> 0 <= Nleafmax < Npart -> 0 <= ifirst -> ifirst + Npart <= Npartmax -> ifirst + Npart <= zlen ps ->
  (forall p y d, ifirst <= p < ifirst + Npart -> aget ps p = Ok y -> (d < ndim)%nat -> (0 < op_r y d <= big_number / 2 ^ 39)%R) ->
  BuildTree ndim ps Nleafmax ifirst Npart Npartmax new_octree = UB.
Proof.
  intros ndim ps Nl ifirst Np Nm Hn Hl Hf Hm Hp Hc. unfold BuildTree, grow_tree.
  assert (AO : alloc_ok new_octree) by (split; cbn; [lia|now left]).
  destruct (alloc_spec Nm new_octree) as (A1 & A2 & A3 & A4 & A5); [lia|exact AO|].
  set (ta := AllocateTreeMemory Nm 0 new_octree) in *.
  assert (FR : forall d, 0 <= d < zlen (o_cells ta) -> aget (o_cells ta) d = Ok fresh_cell).
  { intros d Hd. destruct (aget_in _ _ Hd) as [x Ex]. rewrite Ex. f_equal.
    assert (In x (o_cells ta)) by (destruct (aget_Ok_inv _ _ _ Ex) as [_ X]; eapply nth_error_In; exact X).
    unfold ta, AllocateTreeMemory in H. cbn in H. now apply repeat_spec in H. }
  destruct (link_all_ok (Z.to_nat Np) ifirst (o_inext ta)) as (nx & E1 & Z1 & L1 & _); [lia|lia|]. rewrite E1. cbn [bind].
  rewrite (aget_map _ _ _ _ _ _ (FR 0 ltac:(lia))). cbn [bind].
  set (cs := map (reset_cell (o_Ncellmax ta)) (o_cells ta)).
  assert (Zcs : zlen cs = zlen (o_cells ta)) by apply zlen_map.
  set (r0 := reset_cell (o_Ncellmax ta) fresh_cell).
  destruct (aset_spec cs 0 (root_cell Np ifirst (ifirst + Np - 1) r0)) as (cells & E2 & Z2 & G2 & O2); [lia|].
  rewrite E2. cbn [bind]. replace (Nm =? 0) with false by lia.
  destruct (aset_spec (o_first ta) 0 0) as (f1 & E3 & Z3 & G3 & O3); [lia|]. rewrite E3. cbn [bind].
  destruct (aset_spec (o_last ta) 0 0) as (l1 & E4 & Z4 & G4 & O4); [lia|]. rewrite E4. cbn [bind].
  assert (Er : root_size ndim r0 = half big_number 0).
  { rewrite (root_size_ext ndim r0 fresh_cell) by reflexivity. rewrite root_size_fresh by lia. unfold half. cbn [Z.to_nat pow]. ring. }
  rewrite Er. remember (S (Z.to_nat lmax)) as fuel eqn:Ef.
  set (t0 := {| o_cells := cells; o_inext := nx; o_first := f1; o_last := l1; o_Ncell := 1; o_ltot := 0; o_Ntotmax := o_Ntotmax ta |}).
  assert (Hq : forall p, In p (zseq ifirst (Z.to_nat Np)) <-> ifirst <= p < ifirst + Np) by (intros; rewrite zseq_in; lia).
  assert (X : levels ndim ps Nl fuel Nm (half big_number 0) [0] t0 = UB).
  { apply stuck with (q0 := zseq ifirst (Z.to_nat Np)); auto; try lia.
    - apply zseq_nodup.
    - rewrite zlen_zseq. lia.
    - intros p y d Ip Ey Hd. apply Hq in Ip. destruct (Hc p y d Ip Ey Hd). split; [lra|]. unfold half.
      replace ((1/2) ^ Z.to_nat 39)%R with (/ 2 ^ 39)%R; [lra|]. change (Z.to_nat 39) with 39%nat. replace (1/2)%R with (/2)%R by lra. rewrite pow_inv. reflexivity.
    - constructor; cbn [t0 o_cells o_inext o_first o_last o_Ncell o_ltot]; try lia; auto.
      + intros p Ip. apply Hq in Ip. split; lia.
      + eexists. split; [exact G2|]. cbn [root_cell o_ifirst o_ilast o_rc]. split.
        * replace (ifirst + Np - 1) with (ifirst + Z.of_nat (Z.to_nat Np) - 1) by lia. apply chain_zseq; [lia|exact L1].
        * intros d Hd. unfold root_centre, cen. cbn [r0 reset_cell o_min o_max fresh_cell Z.eqb]. lra.
      + intros d Hd. exists r0. rewrite O2 by lia. split; [|repeat split]. apply aget_map. apply FR. lia.
    - rewrite Ef. unfold lmax. lia. }
  rewrite X. reflexivity.
Qed.

(** With at most two particles there are at most eight cells, but the root cell is divided into eight. *)
Lemma small_build : forall ndim ps Nleafmax ifirst Npart Npartmax,
  (1 <= ndim <= 3)%nat -> 0 < Npart -> 0 <= ifirst -> ifirst + Npart <= Npartmax -> Npartmax <= 2 ->
  BuildTree ndim ps Nleafmax ifirst Npart Npartmax new_octree = UB.
Proof.
  intros ndim ps Nl ifirst Np Nm Hn Hl Hf Hm H2. unfold BuildTree, grow_tree.
  assert (AO : alloc_ok new_octree) by (split; cbn; [lia|now left]).
  destruct (alloc_spec Nm new_octree) as (A1 & A2 & A3 & A4 & A5); [lia|exact AO|].
  set (ta := AllocateTreeMemory Nm 0 new_octree) in *.
  assert (ZC : zlen (o_cells ta) = 4 * Nm).
  { unfold ta, AllocateTreeMemory. cbn [o_Ncellmax new_octree o_cells zlen length Z.of_nat Z.eqb orb o_Ntotmax o_Ncellmax]. rewrite zlen_repeat by lia. unfold o_Ncellmax. cbn [new_octree o_cells zlen length]. lia. }
  destruct (link_all_ok (Z.to_nat Np) ifirst (o_inext ta)) as (nx & E1 & Z1 & L1 & _); [lia|lia|]. rewrite E1. cbn [bind].
  set (cs := map (reset_cell (o_Ncellmax ta)) (o_cells ta)).
  assert (Zcs : zlen cs = zlen (o_cells ta)) by apply zlen_map.
  destruct (aget_in cs 0) as [r0 Er0]; [lia|]. rewrite Er0. cbn [bind].
  destruct (aset_spec cs 0 (root_cell Np ifirst (ifirst + Np - 1) r0)) as (cells & E2 & Z2 & G2 & O2); [lia|].
  rewrite E2. cbn [bind]. replace (Nm =? 0) with false by lia.
  destruct (aset_spec (o_first ta) 0 0) as (f1 & E3 & Z3 & G3 & O3); [lia|]. rewrite E3. cbn [bind].
  destruct (aset_spec (o_last ta) 0 0) as (l1 & E4 & Z4 & G4 & O4); [lia|]. rewrite E4. cbn [bind].
  cbn [levels divide_all o_cells o_inext o_Ncell]. unfold divide. rewrite G2. cbn [bind]. rewrite make_children_ub; [reflexivity|lia|].
  change (Z.of_nat (Z.to_nat Noctchild)) with 8. lia.
Qed.

(** ** All builds of a tree *)
Section Builds.
Variables (ndim : nat) (ps : list opart) (Nleafmax ifirst Npart Npartmax : Z) (t : octree).
Hypothesis Hndim : (1 <= ndim <= 3)%nat.
Hypothesis Hargs : args ps Nleafmax ifirst Npart Npartmax.
Hypothesis Halloc : alloc_ok t.
Let q0 := zseq ifirst (Z.to_nat Npart).
Let ta := AllocateTreeMemory Npartmax 0 t.
Let c0 := c0_of ta.

Lemma build_ok :
  (exists tg t' T qs, grow_tree ndim ps Nleafmax ifirst Npart Npartmax t = Ok tg /\ BuildTree ndim ps Nleafmax ifirst Npart Npartmax t = Ok t' /\
     oct_shape tg T /\ oct_shape t' T /\ alloc_ok t' /\ o_Ncell t' = o_Ncell tg /\ zlen (o_cells t') = zlen (o_cells ta) /\ Permutation qs q0 /\
     ctree (holds ndim ps (forall p y, In p q0 -> aget ps p = Ok y -> inside ndim (op_r y) (o_min c0) (o_max c0)) tg) (leaf_list Nleafmax q0 tg) T qs /\
     ctree (stocked ndim ps t') (live_list Nleafmax ps q0 t') T (filter (alive ps) qs)) \/
  (BuildTree ndim ps Nleafmax ifirst Npart Npartmax t = UB /\
   ~ ((forall p y, In p q0 -> aget ps p = Ok y -> near ndim (op_r y) (root_centre c0) (root_size ndim c0)) /\
      spread ndim ps Nleafmax q0 (root_size ndim c0 / 2 ^ 38) /\ 1 + 8 * (1 + 38 * (Npart / (Nleafmax + 1))) <= zlen (o_cells ta))).
Proof.
  destruct Hargs as (A1 & A2 & A3 & A4 & A5).
  destruct (alloc_spec Npartmax t) as (B1 & B2 & B3 & B4 & B5); [lia|exact Halloc|].
  destruct (grow_ok ndim ps Nleafmax ifirst Npart Npartmax t Hndim A1 A2 A3 A4 A5 Halloc) as [(tg & T & l & Eg & LI & EN)|[Eg NE]].
  - left.
    destruct (stock_final ndim ps Nleafmax q0 (o_Ntotmax ta) (zlen (o_cells ta)) (root_size ndim c0) (root_holds ndim ps ifirst Npart Npartmax t)
      (cube_holds ndim ps ifirst Npart Npartmax t) (zseq_nodup _ _)) with (t := tg) (T := T) (lv' := l)
      as (t' & E2 & Sh & Sh' & Nc & Zc & (F1 & F2 & F3 & F4) & qs & Pq & Cg & Cs); [|exact LI|].
    + intros p Hp. unfold q0 in Hp. apply zseq_in in Hp. fold ta in B4. clear - Hp B4 A2 A3 A4 A5. lia.
    + exists tg, t', T, qs. split; [exact Eg|]. split; [unfold BuildTree; rewrite Eg; exact E2|]. split; [exact Sh|]. split; [exact Sh'|].
      split.
      { split; [rewrite F3, EN; clear - A2 A3 A4 B4; lia|]. right. rewrite F1, F2, F3, F4. split; [apply LI|]. split; [apply LI|].
        rewrite EN. apply (i_ni _ _ _ _ _ _ _ _ _ _ _ _ _ _ _ _ (l_inv _ _ _ _ _ _ _ _ _ _ _ _ _ LI)). }
      split; [exact Nc|]. split; [rewrite Zc; apply (i_len _ _ _ _ _ _ _ _ _ _ _ _ _ _ _ _ (l_inv _ _ _ _ _ _ _ _ _ _ _ _ _ LI))|].
      split; [exact Pq|]. split; [exact Cg|exact Cs].
  - right. split; [unfold BuildTree; rewrite Eg; reflexivity|]. intros (C1 & C2 & C3). apply NE. split; [exact C1|]. split.
    + intros q Sq Hq. destruct (C2 q Sq Hq) as (p & p' & y & y' & d & X1 & X2 & X3 & X4 & X5 & X6). exists p, p', y, y', d.
      repeat split; auto. eapply Rle_lt_trans; [|exact X6]. unfold half. change (Z.to_nat 39) with 39%nat. change (c0_of (AllocateTreeMemory Npartmax 0 t)) with c0.
      right. replace (1/2)%R with (/2)%R by lra. rewrite pow_inv. cbn [pow]. field.
    + unfold Mbig. replace (zlen (zseq ifirst (Z.to_nat Npart))) with Npart by (rewrite zlen_zseq; lia). exact C3.
Qed.
End Builds.

Lemma used_alloc : forall ndim t, (1 <= ndim <= 3)%nat -> used ndim t -> alloc_ok t.
Proof.
  intros ndim t Hn U. induction U as [|ps Nl ifirst Np Nm t t' U IH A E].
  - split; cbn; [lia|now left].
  - destruct (build_ok ndim ps Nl ifirst Np Nm t Hn A IH) as [(tg & t2 & T & qs & _ & E2 & _ & _ & AO & _)|[E2 _]]; rewrite E in E2; [|discriminate].
    injection E2 as <-. exact AO.
Qed.
