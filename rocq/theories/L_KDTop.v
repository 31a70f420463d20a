From Verif Require Import Prelude L_Prelude S_Tree S_KD L_Tree M_Walk M_KDTree L_KDStruct L_QuickSelect L_KDBuild L_KDDivide.
From Coq Require Import Permutation.
Local Open Scope Z_scope.

Lemma pow2_ge : forall n, Z.of_nat n < 2 ^ Z.of_nat n.
Proof.
  induction n; [reflexivity|]. rewrite Nat2Z.inj_succ, Z.pow_succ_r by lia. lia.
Qed.

Lemma tree_levels_total : forall Nl n m, 1 <= Nl -> n <= Z.of_nat m ->
  exists r, tree_levels (S m) Nl n 0 = Ok r /\ 0 <= r /\
    n <= Nl * 2 ^ r /\ (r = 0 \/ Nl * 2 ^ (r - 1) < n).
Proof.
  intros. apply tree_levels_spec; try lia.
  pose proof (pow2_ge m). simpl (0 + Z.of_nat m). nia.
Qed.

Lemma ComputeTreeSize_spec : forall Nl Nmax N, 1 <= Nl -> 0 <= N <= Nmax ->
  exists lmax ltot, ComputeTreeSize (S (Z.to_nat (Z.max Nmax N))) Nl Nmax N =
      Ok (lmax, 2 ^ lmax, 2 * 2 ^ lmax - 1, ltot, 2 ^ ltot, 2 * 2 ^ ltot - 1) /\
    0 <= ltot <= lmax /\
    N <= Nl * 2 ^ ltot /\ (ltot = 0 \/ Nl * 2 ^ (ltot - 1) < N) /\
    Nmax <= Nl * 2 ^ lmax /\ (lmax = 0 \/ Nl * 2 ^ (lmax - 1) < Nmax).
Proof.
  intros Nl Nmax N HN HM. set (m := Z.to_nat (Z.max Nmax N)).
  destruct (tree_levels_total Nl Nmax m) as (lmax & A1 & A2 & A3 & A4); try lia.
  destruct (tree_levels_total Nl N m) as (ltot & B1 & B2 & B3 & B4); try lia.
  exists lmax, ltot. unfold ComputeTreeSize. rewrite A1. cbn [bind]. rewrite B1. cbn [bind].
  split; [reflexivity|]. repeat split; auto; try lia.
  destruct (Z_le_gt_dec ltot lmax); [easy|].
  destruct B4 as [->|B4]; [lia|].
  assert (2 ^ lmax <= 2 ^ (ltot - 1)) by (apply Z.pow_le_mono_r; lia). nia.
Qed.

Lemma init_ids_spec : forall n l i, 0 <= i -> i + Z.of_nat n <= zlen l ->
  exists l', init_ids l i n = Ok l' /\ zlen l' = zlen l /\
    (forall j, i <= j < i + Z.of_nat n -> aget l' j = Ok j) /\
    (forall j, ~ (i <= j < i + Z.of_nat n) -> aget l' j = aget l j).
Proof.
  induction n; intros l i Hi Hl.
  - exists l. cbn. repeat split; auto. intros; lia.
  - cbn [init_ids]. destruct (aset_spec l i i) as (l1 & A1 & A2 & A3 & A4); [lia|].
    rewrite A1. cbn [bind]. destruct (IHn l1 (i + 1)) as (l2 & B1 & B2 & B3 & B4); try lia.
    exists l2. split; [easy|]. split; [lia|]. split.
    + intros j Hj. destruct (Z.eq_dec j i) as [->|]; [rewrite B4 by lia; exact A3|apply B3; lia].
    + intros j Hj. rewrite B4, A4 by lia. reflexivity.
Qed.
Lemma init_next_spec : forall n l i, 0 <= i -> i + Z.of_nat n <= zlen l ->
  exists l', init_next l i n = Ok l' /\ zlen l' = zlen l.
Proof.
  induction n; intros l i Hi Hl.
  - exists l. auto.
  - cbn [init_next]. destruct (aset_spec l i (i + 1)) as (l1 & A1 & A2 & A3 & A4); [lia|].
    rewrite A1. cbn [bind]. destruct (IHn l1 (i + 1)) as (l2 & B1 & B2); try lia.
    exists l2. split; [easy|]. lia.
Qed.

Lemma zseq_nodup : forall n a, NoDup (zseq a n).
Proof.
  induction n; intros; simpl; constructor; auto. rewrite zseq_in. lia.
Qed.
Lemma zseq_aget : forall n a i, 0 <= i < Z.of_nat n -> aget (zseq a n) i = Ok (a + i).
Proof.
  induction n; intros a i Hi; [lia|].
  destruct (Z.eq_dec i 0) as [->|].
  - cbn. f_equal. lia.
  - unfold aget. destruct (Z.ltb_spec i 0); [lia|].
    replace (Z.to_nat i) with (S (Z.to_nat (i - 1))) by lia. cbn [zseq nth_error].
    specialize (IHn (a + 1) (i - 1) ltac:(lia)). unfold aget in IHn.
    destruct (Z.ltb_spec (i - 1) 0); [lia|]. rewrite IHn. f_equal. lia.
Qed.

(** Statement of C04 for the whole construction. *)
Theorem BuildTree_full : forall pos dead Nl Nmax first N bmin bmax s g2c,
  1 <= Nl -> 0 < N -> 0 <= first -> first + N <= Nmax ->
  zlen (ids s) = Nmax -> zlen (inext s) = Nmax ->
  (forall lmax gmax Ncellmax l g n,
     ComputeTreeSize (S (Z.to_nat (Z.max Nmax N))) Nl Nmax N = Ok (lmax, gmax, Ncellmax, l, g, n) ->
     Ncellmax <= zlen (cells s) /\ zlen g2c = gmax) ->
  0 < zlen pos -> zlen bmin = zlen pos -> zlen bmax = zlen pos ->
  (forall p, first <= p < first + N ->
     aget dead p = Ok false /\ forall key, In key pos -> exists v, aget key p = Ok v) ->
  exists s' g2c' Ncell t ps,
    (exists d nx lm gm nm g, ComputeTreeSize (S (Z.to_nat (Z.max Nmax N))) Nl Nmax N = Ok (lm, gm, nm, Z.of_nat d, g, Ncell) /\
      t = ptree d 0 /\ kstruct (cells s') (Z.of_nat d) d 0 nx /\ Ncell = 2 * p2 d - 1 /\ Ncell <= nx /\ nx = nm) /\
    zlen (cells s') = zlen (cells s) /\
    zlen (inext s') = zlen (inext s) /\
    BuildTree pos dead Nl Nmax first N bmin bmax s g2c = Ok (s', g2c') /\
    preorder t = zseq 0 (Z.to_nat Ncell) /\ Ncell <= zlen (cells s') /\
    (exists d, perfect d t) /\
    linked Ncell (co_of (cells s')) (cn_of (cells s')) t Ncell /\
    Permutation ps (zseq first (Z.to_nat N)) /\
    kdcell (info_of (cells s')) (inext s') pos Nl t ps /\
    (forall i, 0 <= i -> ~ (first <= i < first + N) -> aget (inext s') i = aget (inext s) i).
Proof.
  intros pos dead Nl Nmax first N bmin bmax s g2c HNl HN Hf HfN Hids Hnext Hsz Hpos Hbm HbM Hgood.
  destruct (ComputeTreeSize_spec Nl Nmax N) as (lmax & ltot & E & R1 & R2 & R3 & R4 & R5); try lia.
  destruct (Hsz _ _ _ _ _ _ E) as [Hc Hg]. unfold BuildTree. rewrite E. cbn [bind].
  assert (Hd : exists d, ltot = Z.of_nat d) by (exists (Z.to_nat ltot); lia). destruct Hd as [d ->].
  assert (Hp2 : 2 ^ Z.of_nat d = p2 d) by reflexivity.
  assert (Hmono : 2 ^ Z.of_nat d <= 2 ^ lmax) by (apply Z.pow_le_mono_r; lia).
  rewrite Hp2 in *. pose proof (p2_pos d) as PP.
  destruct (CreateTreeStructure_kstruct d (Z.of_nat d) (2 ^ lmax) (2 * p2 d - 1) (cells s) g2c)
    as (cs & h & C1 & C2 & C3 & C4 & C5); auto; try lia.
  rewrite C1. cbn [bind].
  destruct (Z.ltb_spec 0 N); [|lia].
  destruct (init_ids_spec (Z.to_nat N) (ids s) first) as (ids' & I1 & I2 & I3 & I4); try lia.
  rewrite I1. cbn [bind].
  destruct (init_next_spec (Z.to_nat (N - 1)) (inext s) first) as (nx & J1 & J2); try lia.
  assert (J3 : forall i, 0 <= i -> ~ (first <= i < first + (N - 1)) -> aget nx i = aget (inext s) i).
  { clear - J1 Hf HfN Hnext HN. intros i Hi Hni.
    assert (G : forall n l a l', 0 <= a -> a + Z.of_nat n <= zlen l -> init_next l a n = Ok l' ->
        ~ (a <= i < a + Z.of_nat n) -> aget l' i = aget l i).
    { induction n; intros l a l' Ha Hl E Hr; cbn [init_next] in E; [congruence|].
      destruct (aset_spec l a (a + 1)) as (l1 & A1 & A2 & A3 & A4); [lia|].
      rewrite A1 in E. cbn [bind] in E.
      transitivity (aget l1 i); [apply (IHn l1 (a + 1)); auto; lia|]. apply A4. lia. }
    apply (G (Z.to_nat (N - 1)) (inext s) first); auto; lia. }
  rewrite J1. cbn [bind].
  destruct (aset_spec nx (first + N - 1) (-1)) as (nx' & K1 & K2 & K3 & K4); [lia|].
  rewrite K1. cbn [bind].
  assert (Hk0 : exists k0, aget cs 0 = Ok k0 /\ kstruct cs (Z.of_nat d) d 0 (cnext k0)).
  { destruct d; [destruct C4 as (k0 & A & B & C & D)|pose proof C4 as C4'; destruct C4 as ((k0 & A & B & C & E1 & F & D) & _)];
      exists k0; (split; [exact A|]).
    - exists k0. auto.
    - rewrite D. exact C4'. }
  destruct Hk0 as (k0 & Hk0 & HKs).
  set (Ncmax := 2 * 2 ^ lmax - 1) in *.
  set (upd0 := fun k => set_bb bmin bmax (set_cnext Ncmax (set_range first (first + N - 1) (set_N N k)))).
  destruct (cmod_spec cs 0 upd0 k0 Hk0) as (cs0 & L1 & L2 & L3 & L4).
  rewrite L1. cbn [bind].
  assert (HK0 : kstruct cs0 (Z.of_nat d) d 0 Ncmax).
  { destruct d.
    - destruct C4 as (kk & A & B & C & D). rewrite Hk0 in A. inversion A; subst kk.
      eexists. split; [exact L3|]. cbn. auto.
    - destruct C4 as ((kk & A & B & C & F1 & F2 & D) & M1 & M2). rewrite Hk0 in A. inversion A; subst kk.
      cbn [kstruct]. pose proof (p2_S d). pose proof (p2_pos d). split; [|split].
      + eexists. split; [exact L3|]. cbn. repeat split; auto.
      + apply kstruct_ext with (cs := cs); [|exact M1]. unfold in_tree. intros; apply L4; lia.
      + apply kstruct_ext with (cs := cs); [|exact M2]. unfold in_tree. intros; apply L4; lia. }
  assert (Hsl : slice ids' first N = zseq first (Z.to_nat N)).
  { apply aget_ext.
    - rewrite slice_zlen by lia. unfold zlen. rewrite zseq_length. lia.
    - rewrite slice_zlen by lia. intros i Hi. rewrite slice_aget, zseq_aget by lia. apply I3. lia. }
  destruct (divide_spec pos dead (Z.of_nat d) Nl Hpos d 0 Ncmax first N (mkst ids' nx' cs0)
             (S (Z.to_nat (Z.of_nat d))) (upd0 k0))
    as (s' & D1 & D2 & D3 & D4 & D5 & D6 & D7 & D8 & D9 & D10); cbn [ids inext cells]; auto; try lia.
  { intros d' ->. destruct R3 as [R3|R3]; [lia|].
    replace (Z.of_nat (S d') - 1) with (Z.of_nat d') in R3 by lia.
    change (2 ^ Z.of_nat d') with (p2 d') in R3. pose proof (p2_pos d'). nia. }
  { rewrite Hsl. rewrite Forall_forall. intros p Hp. apply zseq_in in Hp.
    destruct (Hgood p) as [G1 G2]; [lia|]. split; [lia|]. auto. }
  { rewrite Hsl. apply zseq_nodup. }
  rewrite D1. cbn [bind]. cbn [ids inext cells] in *.
  exists s', h, (2 * p2 d - 1), (ptree d 0), (slice (ids s') first N).
  split; [exists d, Ncmax; do 4 eexists; split; [reflexivity|]; repeat split; [exact D9|unfold Ncmax; lia]|]. split; [congruence|]. split; [congruence|].
  split; [reflexivity|]. split.
  { rewrite ptree_preorder. f_equal. pose proof (tsize_p2 d). lia. }
  split; [lia|]. split; [exists d; apply ptree_perfect|].
  split.
  { apply kstruct_linked with (ltot := Z.of_nat d) (nx := Ncmax); auto.
    - right. unfold Ncmax. lia.
    - left. lia. }
  split.
  { rewrite <- Hsl. apply Permutation_sym. exact D5. }
  split; [exact D10|].
  intros i Hi Hni. rewrite D7.
  - rewrite K4 by lia. apply J3; lia.
  - rewrite Hsl. rewrite zseq_in. lia.
Qed.

Theorem BuildTree_correct : forall pos dead Nl Nmax first N bmin bmax s g2c,
  1 <= Nl -> 0 < N -> 0 <= first -> first + N <= Nmax ->
  zlen (ids s) = Nmax -> zlen (inext s) = Nmax ->
  (forall lmax gmax Ncellmax l g n,
     ComputeTreeSize (S (Z.to_nat (Z.max Nmax N))) Nl Nmax N = Ok (lmax, gmax, Ncellmax, l, g, n) ->
     Ncellmax <= zlen (cells s) /\ zlen g2c = gmax) ->
  0 < zlen pos -> zlen bmin = zlen pos -> zlen bmax = zlen pos ->
  (forall p, first <= p < first + N ->
     aget dead p = Ok false /\ forall key, In key pos -> exists v, aget key p = Ok v) ->
  exists s' g2c' Ncell t ps,
    BuildTree pos dead Nl Nmax first N bmin bmax s g2c = Ok (s', g2c') /\
    preorder t = zseq 0 (Z.to_nat Ncell) /\ Ncell <= zlen (cells s') /\
    (exists d, perfect d t) /\
    linked Ncell (co_of (cells s')) (cn_of (cells s')) t Ncell /\
    Permutation ps (zseq first (Z.to_nat N)) /\
    kdcell (info_of (cells s')) (inext s') pos Nl t ps /\
    (forall i, 0 <= i -> ~ (first <= i < first + N) -> aget (inext s') i = aget (inext s) i).
Proof.
  intros pos dead Nl Nmax first N bmin bmax s g2c; intros.
  destruct (BuildTree_full pos dead Nl Nmax first N bmin bmax s g2c) as (s' & h & Nc & t & ps & _ & _ & _ & X); auto.
  exists s', h, Nc, t, ps. exact X.
Qed.

(** Walking a structure built by CreateTreeStructure. *)
Lemma CreateTreeStructure_tree : forall d ltot gmax Ncell cs g2c,
  ltot = Z.of_nat d -> Ncell = 2 * 2 ^ ltot - 1 ->
  Ncell <= zlen cs -> 2 ^ ltot <= gmax -> zlen g2c = gmax ->
  exists cs' g2c' t,
    CreateTreeStructure ltot gmax Ncell cs g2c = Ok (cs', g2c') /\
    perfect d t /\ root t = 0 /\ preorder t = zseq 0 (Z.to_nat Ncell) /\
    linked Ncell (co_of cs') (cn_of cs') t Ncell /\
    (forall c l, depth_of t c l -> exists k, aget cs' c = Ok k /\ level k = Some l) /\
    (forall c l r, child_of t c l r -> exists k, aget cs' c = Ok k /\ c1 k = l /\ c2 k = r) /\
    Z.of_nat (length (leaves t)) = 2 ^ ltot /\
    (forall j c, aget (leaves t) j = Ok c ->
        aget g2c' j = Ok c /\ exists k, aget cs' c = Ok k /\ c2g k = j).
Proof.
  intros d ltot gmax Ncell cs g2c -> -> Hc Hg Hz.
  change (2 ^ Z.of_nat d) with (p2 d) in *.
  destruct (CreateTreeStructure_kstruct d (Z.of_nat d) gmax (2 * p2 d - 1) cs g2c)
    as (cs' & h & C1 & C2 & C3 & C4 & C5); auto.
  exists cs', h, (ptree d 0). split; [exact C1|]. split; [apply ptree_perfect|].
  split; [apply ptree_root|]. split.
  { rewrite ptree_preorder. f_equal. pose proof (tsize_p2 d). lia. }
  split.
  { apply kstruct_linked with (ltot := Z.of_nat d) (nx := 2 * p2 d - 1); auto; left; lia. }
  split.
  { intros c l D. destruct (kstruct_depth _ _ _ _ _ _ _ C4 D) as (k & A & B). exists k. split; [exact A|]. rewrite B. f_equal. lia. }
  split.
  { intros c l r D. exact (kstruct_child _ _ _ _ _ _ _ _ C4 D). }
  split; [apply leaves_length|].
  intros j c A. destruct (leaves_ok_nth _ _ _ _ _ _ _ C5 A) as (B & k & C & D). split; [exact B|]. exists k; auto.
Qed.
