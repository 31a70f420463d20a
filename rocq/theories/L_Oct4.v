(** The loop over the levels of the oct-tree. *)
From Verif Require Import Prelude L_Prelude Vec M_Box S_Tree L_Tree L_Search L_KDBuild L_KDDivide L_KDTop L_StockTree M_Oct S_Oct L_Oct L_Oct2 L_Oct3.
From Coq Require Import Reals Permutation Lra.
Local Open Scope Z_scope.

Lemma aget_out : forall (A : Type) (l : list A) i, zlen l <= i -> aget l i = UB.
Proof.
  intros A l i H. unfold aget. destruct (i <? 0); [reflexivity|].
  destruct (nth_error l (Z.to_nat i)) eqn:E; [|reflexivity].
  assert (nth_error l (Z.to_nat i) <> None) by congruence. apply nth_error_Some in H0. unfold zlen in H. lia.
Qed.
Lemma aset_out : forall (A : Type) (l : list A) i x, zlen l <= i -> aset l i x = UB.
Proof. intros A l i x H. unfold aset, zlen in *. destruct (Z.leb_spec (Z.of_nat (length l)) i); [|lia]. now rewrite orb_true_r. Qed.

Lemma make_children_ub : forall ndim n k base sz lv cell cells, 0 <= base + k <= zlen cells -> zlen cells < base + k + Z.of_nat n ->
  make_children ndim n k base sz lv cell cells = UB.
Proof.
  intros ndim. induction n; intros k base sz lv cell cells B Z; [lia|]. cbn [make_children].
  destruct (Z.eq_dec (base + k) (zlen cells)) as [E|Ne].
  - rewrite aget_out by lia. reflexivity.
  - destruct (aget_in cells (base + k)) as [old Eo]; [lia|]. rewrite Eo. cbn [bind].
    destruct (aset_spec cells (base + k) (new_child ndim sz lv cell k old)) as (c1 & E1 & Z1 & G1 & O1); [lia|].
    rewrite E1. cbn [bind]. apply IHn; lia.
Qed.

(** Cells with many particles are few. *)
Section Count.
Variables (P L : Z -> list Z -> Prop) (bad : Z -> bool) (M : Z).
Hypothesis HM : forall c q, L c q -> bad c = true -> M <= zlen q.
Lemma ctree_count :
  (forall t q, ctree P L t q -> M * zlen (filter bad (leaves t)) <= zlen q) /\
  (forall ks qss, ctrees P L ks qss -> M * zlen (filter bad (flat_map leaves ks)) <= zlen (concat qss)).
Proof.
  apply ctree_mutind.
  - intros c q _ HL. cbn [leaves filter]. destruct (bad c) eqn:E; [specialize (HM c q HL E); unfold zlen in *; cbn [length]; lia|].
    unfold zlen; cbn [length]; lia.
  - intros c ks qss Hne _ IH _. rewrite leaves_node by easy. exact IH.
  - unfold zlen; cbn; lia.
  - intros k ks q qss _ IH1 _ IH2. cbn [flat_map concat]. rewrite filter_app. unfold zlen in *. rewrite !app_length. nia.
Qed.
End Count.

Lemma nodup_app_intro : forall (A : Type) (l m : list A), NoDup l -> NoDup m -> (forall x, In x l -> In x m -> False) -> NoDup (l ++ m).
Proof.
  induction 1; intros Nm D; [exact Nm|]. cbn [app]. constructor.
  - rewrite in_app_iff. intros [X|X]; [contradiction|]. apply (D x); auto. now left.
  - apply IHNoDup; auto. intros y Y1 Y2. apply (D y); auto. now right.
Qed.
Lemma leaves_nodup : forall t, NoDup (preorder t) -> NoDup (leaves t).
Proof.
  induction t as [d l IH] using rtree_ind2. intros N. destruct l as [|k l]; [repeat constructor; easy|].
  rewrite leaves_node by easy. assert (N2 : NoDup (flat_map preorder (k :: l))) by (now inversion N). clear N.
  set (l' := k :: l) in *. clearbody l'. revert N2. induction IH as [|a m Ha Hm IHm]; intros N2; [constructor|]. cbn [flat_map] in *.
  apply nodup_app_inv in N2 as (N3 & N4 & N5).
  apply nodup_app_intro; [now apply Ha|now apply IHm|]. intros x X Y. apply (N5 x); [now apply leaves_preorder|].
  apply in_flat_map in Y as (z & Z1 & Z2). apply in_flat_map. exists z. split; [easy|now apply leaves_preorder].
Qed.

Section Levels.
Variables (ndim : nat) (ps : list opart) (Nleafmax : Z) (q0 : list Z) (ni Nmax : Z) (s0 : R) (in_root in_cube : Prop).
Hypothesis Hndim : (1 <= ndim <= 3)%nat.
Hypothesis Hnd0 : NoDup q0.
Hypothesis Hq0 : forall p, In p q0 -> 0 <= p < zlen ps /\ 0 <= p < ni.
Let INV := Inv ndim ps Nleafmax q0 ni Nmax s0 in_root in_cube.
Let HALF := half s0.

Lemma inv_cell : forall cells inext T pend lv nc0 nc d, INV cells inext T pend lv nc0 nc -> 0 <= d < Nmax -> exists x, aget cells d = Ok x.
Proof. intros * I H. apply aget_in. rewrite (i_len _ _ _ _ _ _ _ _ _ _ _ _ _ _ _ _ I). lia. Qed.

Lemma inv_divide_all : forall l cells inext T lv nc0 nc, INV cells inext T l lv nc0 nc ->
  (exists cells' inext' T', divide_all ndim ps (HALF (lv + 1)) (lv + 1) nc l cells inext = Ok (cells', inext') /\
     INV cells' inext' T' [] lv nc0 (nc + 8 * zlen l) /\
     (forall d x, 0 <= d < nc -> aget cells d = Ok x -> exists x', aget cells' d = Ok x' /\ o_level x' = o_level x /\ o_N x' = o_N x)) \/
  (divide_all ndim ps (HALF (lv + 1)) (lv + 1) nc l cells inext = UB /\ Nmax < nc + 8 * zlen l).
Proof.
  induction l as [|c l IH]; intros cells inext T lv nc0 nc I.
  - left. exists cells, inext, T. cbn [divide_all]. split; [reflexivity|]. change (zlen (@nil Z)) with 0. replace (nc + 8 * 0) with nc by lia.
    split; [exact I|]. eauto.
  - assert (Zl : zlen (c :: l) = zlen l + 1) by (unfold zlen; cbn [length]; lia). rewrite Zl.
    assert (Pl : 0 <= zlen l) by (unfold zlen; lia).
    cbn [divide_all]. destruct (Z_le_dec (nc + 8) Nmax) as [Le|Gt].
    + destruct (inv_divide _ _ _ _ _ _ _ _ _ Hndim Hnd0 Hq0 cells inext T c l lv nc0 nc I Le) as (c1 & n1 & E1 & I1 & K1).
      unfold HALF. rewrite E1. cbn [bind]. change Noctchild with 8.
      destruct (IH _ _ _ _ _ _ I1) as [(c2 & n2 & T2 & E2 & I2 & K2)|[E2 G2]].
      * left. exists c2, n2, T2. split; [exact E2|]. split.
        -- replace (nc + 8 * (zlen l + 1)) with (nc + 8 + 8 * zlen l) by lia. exact I2.
        -- intros d x Hd Ex. destruct (K1 d x Hd Ex) as (x1 & Ex1 & L1 & N1).
           destruct (K2 d x1) as (x2 & Ex2 & L2 & N2); [lia|exact Ex1|]. exists x2. split; [exact Ex2|]. split; congruence.
      * right. split; [exact E2|lia].
    + right. split; [|lia]. unfold divide. destruct (i_pend _ _ _ _ _ _ _ _ _ _ _ _ _ _ _ _ I c (or_introl eq_refl)) as (A & B & x & Ex & _).
      destruct (i_nc _ _ _ _ _ _ _ _ _ _ _ _ _ _ _ _ I) as [Hn Hm]. pose proof (i_len _ _ _ _ _ _ _ _ _ _ _ _ _ _ _ _ I) as HL.
      rewrite Ex. cbn [bind]. rewrite make_children_ub; [reflexivity|lia|]. change (Z.of_nat (Z.to_nat Noctchild)) with 8. lia.
Qed.

Definition big (cells : list ocell) (c : Z) : bool := match aget cells c with Ok x => Nleafmax <? o_N x | _ => false end.
Lemma unfinished_ok : forall n c room cells, 0 <= c -> c + Z.of_nat n <= zlen cells -> zlen (filter (big cells) (zseq c n)) <= room ->
  unfinished Nleafmax n c room cells = Ok (filter (big cells) (zseq c n)).
Proof.
  induction n; intros c room cells B Z R; [reflexivity|]. cbn [unfinished zseq filter] in *.
  destruct (aget_in cells c) as [x Ex]; [lia|]. unfold big at 1 in R. unfold big at 1. rewrite Ex in *. cbn [bind].
  destruct (Nleafmax <? o_N x).
  - unfold zlen in R. cbn [length] in R. replace (room =? 0) with false by lia.
    rewrite (IHn (c + 1) (room - 1)); [reflexivity|lia|lia|]. unfold zlen. lia.
  - apply IHn; lia || exact R.
Qed.

Definition levs (t : octree) (lv : Z) : Prop :=
  forall l, 0 <= l <= lv -> exists a b, aget (o_first t) l = Ok a /\ aget (o_last t) l = Ok b /\ 0 <= a <= b + 1 /\ b < o_Ncell t /\
    (forall d x, 0 <= d < o_Ncell t -> aget (o_cells t) d = Ok x -> (a <= d <= b <-> o_level x = l)).

Record LInv (t : octree) (T : rtree) (l : list Z) (lv : Z) : Prop := {
  l_inv : INV (o_cells t) (o_inext t) T l lv (o_Ncell t) (o_Ncell t);
  l_ltot : o_ltot t = lv;
  l_f : zlen (o_first t) = 40;
  l_l : zlen (o_last t) = 40;
  l_levs : levs t lv;
  l_top : aget (o_last t) lv = Ok (o_Ncell t - 1);
  l_lv : 0 <= lv <= 39;
  l_max : forall d x, 0 <= d < o_Ncell t -> aget (o_cells t) d = Ok x -> 0 <= o_level x <= lv }.

(** At most Nleafmax particles are close together: of more of them two are further apart, in some
    direction, than a cell of level 39. *)
Definition apart : Prop := forall q, subseq q q0 -> Nleafmax < zlen q ->
  exists p p' y y' d, In p q /\ In p' q /\ aget ps p = Ok y /\ aget ps p' = Ok y' /\ (d < ndim)%nat /\
    (2 * HALF 39 < Rabs (op_r y d - op_r y' d))%R.
Definition Mbig : Z := zlen q0 / (Nleafmax + 1).
Definition enough : Prop := in_cube /\ apart /\ 1 + 8 * (1 + 38 * Mbig) <= Nmax.

Hypothesis Hleaf : 1 <= Nleafmax.

Lemma few_big : forall cells inext T lv nc0 nc, INV cells inext T [] lv nc0 nc ->
  zlen (filter (big cells) (zseq nc0 (Z.to_nat (nc - nc0)))) <= Mbig.
Proof.
  intros cells inext T lv nc0 nc I. destruct I as [Hlen Hni Hnc Hpre Hlk Hbr Hroot (qs & CT & PQ) Hfr Hpn Hpd Hnw Hdp].
  assert (NDpre : NoDup (preorder T)).
  { eapply Permutation_NoDup; [symmetry; exact Hpre|]. apply zseq_nodup. }
  assert (X := proj1 (ctree_count (Pc ndim ps s0 in_root in_cube cells) (Lc Nleafmax q0 cells inext [] nc0) (big cells) (Nleafmax + 1)
     (fun c q (H : Lc Nleafmax q0 cells inext [] nc0 c q) (B : big cells c = true) =>
        ltac:(destruct H as (x & Ex & _ & _ & N & _); unfold big in B; rewrite Ex in B; lia))) T qs CT).
  assert (E : zlen qs = zlen q0) by (unfold zlen; now rewrite (Permutation_length PQ)).
  assert (Y : zlen (filter (big cells) (zseq nc0 (Z.to_nat (nc - nc0)))) <= zlen (filter (big cells) (leaves T))).
  { unfold zlen. apply inj_le. apply NoDup_incl_length; [apply NoDup_filter, zseq_nodup|].
    intros d Hd. apply filter_In in Hd as [Hd Bd]. apply filter_In. split; [|exact Bd]. apply zseq_in in Hd. apply Hnw. lia. }
  unfold Mbig. rewrite <- E. apply Z.div_le_lower_bound; [lia|]. nia.
Qed.

Lemma pend_one : forall t T c l lv, LInv t T (c :: l) lv -> in_cube -> apart -> lv = 39 -> (exists x, aget (o_cells t) c = Ok x /\ Nleafmax < o_N x) -> False.
Proof.
  intros t T c l lv LI IC AP -> (x & Ex & Nx). destruct LI as [I _ _ _ _ _ _ _].
  destruct I as [Hlen Hni Hnc Hpre Hlk Hbr Hroot (qs & CT & PQ) Hfr Hpn Hpd Hnw Hdp].
  destruct (Hpd c (or_introl eq_refl)) as (Lf & _ & x' & Ex' & Lx). assert (x' = x) by congruence. subst x'.
  destruct (proj1 (ctree_leaf_of _ _) T qs CT c Lf) as (q & (x1 & E1 & Ch & Sb & Nq & _) & (x2 & E2 & _ & _ & Cu) & Iq).
  assert (x1 = x) by congruence. assert (x2 = x) by congruence. subst x1 x2.
  destruct (AP q Sb) as (p & p' & y & y' & d & Hp & Hp' & Ey & Ey' & Hd & Far); [lia|].
  pose proof (Cu IC p y Hp Ey d Hd) as A. pose proof (Cu IC p' y' Hp' Ey' d Hd) as B. rewrite Lx in A, B. fold HALF in A, B.
  assert (Rabs (op_r y d - op_r y' d) <= Rabs (op_r y d - o_rc x d) + Rabs (op_r y' d - o_rc x d))%R.
  { replace (op_r y d - op_r y' d)%R with ((op_r y d - o_rc x d) + - (op_r y' d - o_rc x d))%R by ring.
    eapply Rle_trans; [apply Rabs_triang|]. rewrite Rabs_Ropp. lra. }
  lra.
Qed.

Lemma levels_ok : forall fuel t T l lv Npartmax, LInv t T l lv -> Z.of_nat fuel > 40 - lv -> zlen q0 <= Npartmax ->
  o_Ncell t <= 1 + (if lv =? 0 then 0 else 8 * (1 + (lv - 1) * Mbig)) ->
  l <> [] -> (if lv =? 0 then zlen l = 1 else zlen l <= Mbig /\ forall c, In c l -> exists x, aget (o_cells t) c = Ok x /\ Nleafmax < o_N x) ->
  (exists t' T' lv', levels ndim ps Nleafmax fuel Npartmax (HALF lv) l t = Ok t' /\ LInv t' T' [] lv' /\ o_Ntotmax t' = o_Ntotmax t) \/
  (levels ndim ps Nleafmax fuel Npartmax (HALF lv) l t = UB /\ ~ enough).
Proof.
  induction fuel; intros t T l lv Npartmax LI F NP NC NE PB.
  { destruct LI. lia. }
  cbn [levels].
  assert (Hlv := l_lv _ _ _ _ LI).
  assert (EH : (HALF lv * (1 / 2))%R = HALF (lv + 1)).
  { unfold HALF. rewrite (half_S s0 lv) by lia. field. }
  rewrite EH. rewrite (l_ltot _ _ _ _ LI).
  assert (PM : 0 <= Mbig) by (unfold Mbig; apply Z.div_pos; [unfold zlen; lia|lia]).
  assert (ZL : 0 < zlen l) by (destruct l; [easy|unfold zlen; cbn [length]; lia]).
  destruct (inv_divide_all l _ _ _ _ _ _ (l_inv _ _ _ _ LI)) as [(c1 & n1 & T1 & E1 & I1 & K1)|[E1 G1]].
  2: { right. rewrite E1. cbn [bind]. split; [reflexivity|]. intros (IC & AP & EN).
       destruct (Z.eqb_spec lv 0) as [->|N0]; [lia|]. destruct PB as [PB PB2].
       destruct (Z.eq_dec lv 39) as [->|N39].
       - destruct l as [|c l]; [easy|]. eapply (pend_one t T c l 39); eauto. apply PB2. now left.
       - nia. }
  rewrite E1. cbn [bind].
  set (nc := o_Ncell t) in *.
  destruct (aget_in (o_last t) lv) as [x0 Ex0]; [rewrite (l_l _ _ _ _ LI); lia|].
  replace (lv + 1 - 1) with lv by lia. rewrite (l_top _ _ _ _ LI). cbn [bind]. clear x0 Ex0. fold nc.
  replace (nc - 1 + 1) with nc by lia.
  destruct (Z.eq_dec lv 39) as [->|N39].
  { right. rewrite aset_out by (rewrite (l_f _ _ _ _ LI); lia). cbn [bind]. split; [reflexivity|]. intros (IC & AP & EN).
    cbn [Z.eqb] in PB. destruct PB as [PB PB2]. destruct l as [|c l]; [easy|]. eapply (pend_one t T c l 39); eauto. apply PB2. now left. }
  destruct (aset_spec (o_first t) (lv + 1) nc) as (fst' & Ef & Zf & Gf & Of); [rewrite (l_f _ _ _ _ LI); lia|].
  rewrite Ef. cbn [bind]. change Noctchild with 8.
  destruct (aset_spec (o_last t) (lv + 1) (nc + 8 * zlen l - 1)) as (lst' & El & Zl & Gl & Ol); [rewrite (l_l _ _ _ _ LI); lia|].
  rewrite El. cbn [bind].
  set (nc1 := nc + 8 * zlen l) in *.
  replace (nc1 - 1 - nc + 1) with (nc1 - nc) by lia.
  pose proof (few_big _ _ _ _ _ _ I1) as FB.
  destruct (i_nc _ _ _ _ _ _ _ _ _ _ _ _ _ _ _ _ I1) as [Hn1 Hn2]. pose proof (i_len _ _ _ _ _ _ _ _ _ _ _ _ _ _ _ _ I1) as HL1.
  assert (MQ : Mbig <= zlen q0).
  { unfold Mbig. apply Z.div_le_upper_bound; [lia|]. assert (0 <= zlen q0) by (unfold zlen; lia). nia. }
  rewrite (unfinished_ok (Z.to_nat (nc1 - nc)) nc Npartmax c1) by lia. cbn [bind].
  set (l1 := filter (big c1) (zseq nc (Z.to_nat (nc1 - nc)))) in *.
  set (t1 := {| o_cells := c1; o_inext := n1; o_first := fst'; o_last := lst'; o_Ncell := nc1; o_ltot := lv + 1; o_Ntotmax := o_Ntotmax t |}).
  assert (Hl1 : forall d, In d l1 <-> nc <= d < nc1 /\ big c1 d = true).
  { intros d. unfold l1. rewrite filter_In, zseq_in. clear - Hn1. split; intros [A B]; (split; [lia|exact B]). }
  assert (LI1 : LInv t1 T1 l1 (lv + 1)).
  { destruct I1 as [Hlen Hni Hnc Hpre Hlk Hbr Hroot (qs & CT & PQ) Hfr Hpn Hpd Hnw Hdp].
    assert (IN : INV c1 n1 T1 l1 (lv + 1) nc1 nc1).
    { constructor; auto; try lia.
      - exists qs. split; [|exact PQ]. refine (proj1 (ctree_impl _ _ _ _ (fun c q H => H) _) T1 qs CT).
        intros c q (x & Ex & Ch & Sb & Nq & [H|[[]|H]]); exists x; (split; [exact Ex|]; split; [exact Ch|]; split; [exact Sb|]; split; [exact Nq|]).
        + now left.
        + destruct (Z_le_dec (zlen q) Nleafmax) as [|Gt]; [now left|right].
          destruct (Z_lt_dec c nc1) as [Lt|Ge]; [left|right; lia]. apply Hl1. split; [lia|]. unfold big. rewrite Ex. lia.
      - unfold l1. apply NoDup_filter, zseq_nodup.
      - intros d Hd. apply Hl1 in Hd as [Hd _]. destruct (Hnw d Hd) as (A & B). split; [exact A|]. split; [lia|exact B]. }
    constructor; auto.
    - exact (eq_trans Zf (l_f _ _ _ _ LI)).
    - exact (eq_trans Zl (l_l _ _ _ _ LI)).
    - intros k Hk. cbn [o_first o_last o_Ncell o_cells t1]. destruct (Z.eq_dec k (lv + 1)) as [->|Nk].
      + exists nc, (nc1 - 1). split; [exact Gf|]. split; [exact Gl|]. split; [lia|]. split; [lia|].
        intros d x Hd Ex. split.
        * intros Hd2. destruct (Hnw d) as (_ & x' & Ex' & Lx); [lia|]. congruence.
        * intros Lx. destruct (Z_lt_dec d nc) as [Lt|]; [exfalso|lia].
          destruct (inv_cell _ _ _ _ _ _ _ d (l_inv _ _ _ _ LI)) as (xo & Exo); [lia|].
          destruct (K1 d xo) as (x' & Ex' & Lx' & _); [lia|exact Exo|].
          assert (x' = x) by congruence. subst x'.
          assert (HD := l_max _ _ _ _ LI d xo ltac:(fold nc; lia) Exo). lia.
      + destruct (l_levs _ _ _ _ LI k) as (a & b & Ea & Eb & A1 & B1 & AB); [lia|]. fold nc in B1, AB.
        exists a, b. rewrite Of, Ol by lia. split; [exact Ea|]. split; [exact Eb|]. split; [lia|]. split; [lia|].
        intros d x Hd Ex. destruct (Z_lt_dec d nc) as [Lt|Ge].
        * destruct (inv_cell _ _ _ _ _ _ _ d (l_inv _ _ _ _ LI)) as (xo & Exo); [lia|].
          destruct (K1 d xo) as (x' & Ex' & Lx' & _); [lia|exact Exo|].
          assert (x' = x) by congruence. subst x'. rewrite Lx'. apply AB; [lia|exact Exo].
        * destruct (Hnw d) as (_ & x' & Ex' & Lx); [lia|]. assert (x' = x) by congruence. subst x'. lia.
    - lia.
    - cbn [o_Ncell o_cells t1]. intros d x Hd Ex. destruct (Z_lt_dec d nc) as [Lt|Ge].
      + destruct (inv_cell _ _ _ _ _ _ _ d (l_inv _ _ _ _ LI)) as (xo & Exo); [lia|].
        destruct (K1 d xo) as (x' & Ex' & Lx' & _); [lia|exact Exo|].
        assert (x' = x) by congruence. subst x'. assert (HD := l_max _ _ _ _ LI d xo ltac:(fold nc; lia) Exo). lia.
      + destruct (Hnw d) as (_ & x' & Ex' & Lx); [lia|]. assert (x' = x) by congruence. subst x'. lia. }
  change lmax with 40. replace (40 <=? lv + 1) with false by lia.
  destruct l1 as [|c' l1'] eqn:El1.
  - left. exists t1, T1, (lv + 1). split; [reflexivity|]. split; [exact LI1|reflexivity].
  - rewrite <- El1 in *.
    destruct (IHfuel t1 T1 l1 (lv + 1) Npartmax LI1) as [(t' & T' & lv' & E' & LI' & NT)|[E' NEN]].
    + lia.
    + exact NP.
    + cbn [o_Ncell t1]. replace (lv + 1 =? 0) with false by lia. destruct (Z.eqb_spec lv 0) as [->|N0].
      * unfold nc1. lia.
      * destruct PB as [PB _]. unfold nc1. nia.
    + rewrite El1. discriminate.
    + replace (lv + 1 =? 0) with false by lia. split; [exact FB|]. intros c Hc. apply Hl1 in Hc as [_ Hc].
      unfold big in Hc. cbn [o_cells t1]. destruct (aget c1 c) as [x| | |]; try discriminate. exists x. split; [reflexivity|lia].
    + left. exists t', T', lv'. split; [exact E'|]. split; [exact LI'|exact NT].
    + right. split; [exact E'|exact NEN].
Qed.
End Levels.
