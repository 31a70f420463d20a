(** C08: pruned trees. *)
From Verif Require Import Prelude L_Prelude S_Tree L_Tree M_Walk Vec M_Box S_Box L_Box M_Util M_Periodic S_Periodic L_Periodic M_Prune S_Prune L_Prune L_Prune2 L_Prune3 L_Prune4.
From Verif Require Import M_KDTree S_KD L_KDTop L_KDStruct L_KDBuild.
From Coq Require Import Permutation.
Local Open Scope Z_scope.

(** The cells opened by the walk, as a property of the full tree. *)
Definition opened ndim simbox kernrange macfactor localNode lmin lmax hmn hmx (celldata : list pcell) (c : Z) : bool :=
  match aget celldata c with Ok k => opens ndim simbox kernrange macfactor localNode lmin lmax hmn hmx k | _ => false end.

(** Any tree, any acceptance decisions, any buffer: either the pruned tree fits and is made, correctly
    linked, or it does not fit and -1 is returned.  There is no other outcome: no access outside an
    array and no "Problem with pruned tree cell pointers". *)
Theorem C08_pruned : forall ndim simbox kernrange macfactor localNode lmin lmax hmn hmx celldata Ncell Ncellmax t next,
  root t = 0 -> NoDup (preorder t) -> (forall c, In c (preorder t) -> 0 <= c < Ncell) ->
  linked Ncell (S_Prune.co_of celldata) (S_Prune.cn_of celldata) t next -> Ncell <= next -> Ncell <= Ncellmax -> Ncell <= zlen celldata ->
  (forall c k, In c (preorder t) -> aget celldata c = Ok k -> Ncell <= k_cnext k -> k_cnext k = Ncell \/ k_cnext k = Ncellmax) ->
  forall pruned Nprunedcellmax, 0 <= Nprunedcellmax <= zlen pruned ->
  let p := prune (opened ndim simbox kernrange macfactor localNode lmin lmax hmn hmx celldata) t in
  let r := CreatePrunedTreeForMpiNode ndim simbox kernrange macfactor localNode lmin lmax hmn hmx celldata Ncell Ncellmax Nprunedcellmax pruned in
  (zlen (preorder p) <= Nprunedcellmax ->
     exists cells lf ll n, r = Ok (cells, lf, ll, n) /\ pruned_copy celldata p cells lf ll n /\ zlen cells = zlen pruned) /\
  (Nprunedcellmax < zlen (preorder p) -> exists cells lf ll, r = Ok (cells, lf, ll, -1)).
Proof. intros. eapply create_prunes; eauto. Qed.
Print Assumptions C08_pruned.

(** The loop of BuildPrunedTree that doubles the array always ends, with an array less than twice as
    large as needed unless the first guess was enough. *)
Theorem C08_retry : forall ndim simbox kernrange macfactor localNode lmin lmax hmn hmx celldata Ncell Ncellmax t next,
  root t = 0 -> NoDup (preorder t) -> (forall c, In c (preorder t) -> 0 <= c < Ncell) ->
  linked Ncell (S_Prune.co_of celldata) (S_Prune.cn_of celldata) t next -> Ncell <= next -> Ncell <= Ncellmax -> Ncell <= zlen celldata ->
  (forall c k, In c (preorder t) -> aget celldata c = Ok k -> Ncell <= k_cnext k -> k_cnext k = Ncell \/ k_cnext k = Ncellmax) ->
  forall alloc m0, (forall m, m <= zlen (alloc m)) -> 0 < m0 ->
  exists fuel, forall f', (fuel <= f')%nat ->
  exists m cells lf ll n,
    prune_retry ndim simbox kernrange macfactor localNode lmin lmax hmn hmx f' alloc celldata Ncell Ncellmax m0 = Ok (cells, lf, ll, n) /\
    pruned_copy celldata (prune (opened ndim simbox kernrange macfactor localNode lmin lmax hmn hmx celldata) t) cells lf ll n /\
    n <= m /\ (m = m0 \/ m < 2 * n) /\ zlen cells = zlen (alloc m).
Proof. intros. eapply retry_prunes; eauto. Qed.
Print Assumptions C08_retry.

(** The leaves of the pruned tree partition the particles of the full tree: listing the particles of
    the leaves one after the other gives exactly the particles of the root. *)
Theorem C08_partition : forall celldata p cells lf ll n (op : Z -> bool) t (content : Z -> list Z),
  pruned_copy celldata p cells lf ll n -> p = prune op t -> contents content t ->
  flat_map content ll = content (root t) /\
  flat_map (fun i => content (nth (Z.to_nat i) (preorder p) 0)) lf = content (root t).
Proof.
  intros celldata p cells lf ll n op t content (_ & (t' & T1 & _ & _ & T4) & E & _) -> C. split.
  - rewrite E. now apply contents_leaves.
  - rewrite <- (contents_leaves op content t C). rewrite T4, <- (fm_map (fun i => nth (Z.to_nat i) (preorder (prune op t)) 0) content), <- relabel_leaves, T1. reflexivity.
Qed.
Print Assumptions C08_partition.

(** Which cells are opened: never a leaf, never at the maximum level, never at the minimum level of the
    local node; always below the minimum level otherwise; and a cell that is neither excluded nor forced is
    left closed only if no smoothing sphere of its particles, in any periodic image, reaches the box of
    the other node (which contains the smoothing spheres of that node's particles), no image of its
    particles lies in that box, and (unless it is empty) every point of the box is far enough for its
    multipole. *)
Theorem C08_opening : forall ndim lo hi bl br hmn hmx kernrange macfactor localNode lmin lmax k,
  (forall j, (j < ndim)%nat -> (lo j < hi j)%R) -> (forall j, (j < ndim)%nat -> (hmn j <= hmx j)%R) ->
  (0 <= kernrange)%R -> (0 <= k_rmax k)%R -> (0 <= k_hmax k)%R ->
  (forall j, (j < ndim)%nat -> bl j = periodicB -> br j = periodicB -> (Rabs (k_r k j - (hmn j + hmx j) / 2) <= 3/2 * (hi j - lo j))%R) ->
  let b := mkbox lo hi bl br in
  let o := opens ndim b kernrange macfactor localNode lmin lmax hmn hmx k in
  (o = true -> k_copen k <> -1 /\ k_level k <> lmax /\ ~ (localNode = true /\ k_level k = lmin)) /\
  (k_copen k <> -1 -> k_level k <> lmax -> k_level k < lmin -> o = true) /\
  (o = false -> k_copen k <> -1 -> k_level k <> lmax -> ~ (localNode = true /\ k_level k = lmin) ->
     lmin <= k_level k /\
     (forall r h, (norm ndim (vsub r (k_r k)) <= k_rmax k)%R -> (h <= k_hmax k)%R ->
        forall r' x, image_of ndim b r r' -> in_box ndim hmn hmx x -> (kernrange * h < norm ndim (vsub r' x))%R /\ ~ in_box ndim hmn hmx r') /\
     (0 < k_N k -> forall c' x, image_of ndim b (k_r k) c' -> in_box ndim hmn hmx x ->
        (k_cdistsqd k < dot ndim (vsub c' x) (vsub c' x))%R /\ (k_mac k * macfactor < dot ndim (vsub c' x) (vsub c' x))%R)).
Proof.
  intros ndim lo hi bl br hmn hmx kernrange macfactor localNode lmin lmax k Hd Hn Hk Hr Hh Hp b o. split; [|split].
  - unfold o, opens. destruct (localNode && (k_level k =? lmin))%bool eqn:E1; [discriminate|].
    destruct (Z.eqb_spec (k_level k) lmax); [discriminate|]. destruct (Z.eqb_spec (k_copen k) (-1)); [discriminate|]. intros _.
    split; [easy|]. split; [easy|]. intros [A B]. rewrite A, B, Z.eqb_refl in E1. discriminate.
  - intros A B C. unfold o, opens. destruct (Z.eqb_spec (k_level k) lmin); [lia|]. rewrite Bool.andb_false_r.
    destruct (Z.eqb_spec (k_level k) lmax); [easy|]. destruct (Z.eqb_spec (k_copen k) (-1)); [easy|]. destruct (Z.ltb_spec (k_level k) lmin); [reflexivity|lia].
  - intros A B C D. destruct (closed_far ndim lo hi bl br Hd hmn hmx Hn kernrange macfactor localNode lmin lmax k A D C B) as [L N].
    split; [exact L|]. apply far_cell; auto. intros j Hj [P1 P2]. specialize (Hp j Hj P1 P2). unfold rnode. cbn [dhalf mkbox].
    replace (k_r k j - 1 / 2 * (hmn j + hmx j))%R with (k_r k j - (hmn j + hmx j) / 2)%R by lra. lra.
Qed.
Print Assumptions C08_opening.

(** Pruning the tree made by KDTree::BuildTree: the hypotheses of [C08_pruned] hold, and the size
    2^(pruning_level_max+1)-1 assumed on both sides of the exchange is always enough. *)
Theorem C51_kdtree : forall ndim simbox kernrange macfactor localNode lmin lmax hmn hmx
    pos dead Nl Nmax first N bmin bmax s g2c celldata,
  1 <= Nl -> 0 < N -> 0 <= first -> first + N <= Nmax ->
  zlen (ids s) = Nmax -> zlen (inext s) = Nmax ->
  (forall lmax gmax Ncellmax l g n,
     ComputeTreeSize (S (Z.to_nat (Z.max Nmax N))) Nl Nmax N = Ok (lmax, gmax, Ncellmax, l, g, n) ->
     Ncellmax <= zlen (cells s) /\ zlen g2c = gmax) ->
  0 < zlen pos -> zlen bmin = zlen pos -> zlen bmax = zlen pos ->
  (forall p, first <= p < first + N ->
     aget dead p = Ok false /\ forall key, In key pos -> exists v, aget key p = Ok v) ->
  0 <= lmax ->
  exists s' g2c' Ncell Ncellmax t,
    BuildTree pos dead Nl Nmax first N bmin bmax s g2c = Ok (s', g2c') /\
    ((* the cells after the other fields have been filled in *)
     zlen celldata = zlen (cells s') ->
     (forall c k, aget (cells s') c = Ok k -> exists q, aget celldata c = Ok q /\ k_copen q = copen k /\ k_cnext q = cnext k /\
        (forall l, level k = Some l -> k_level q = l)) ->
     forall pruned, kd_GetMaxCellNumber lmax <= zlen pruned ->
     exists pcells lf ll n,
       CreatePrunedTreeForMpiNode ndim simbox kernrange macfactor localNode lmin lmax hmn hmx celldata Ncell Ncellmax
         (kd_GetMaxCellNumber lmax) pruned = Ok (pcells, lf, ll, n) /\
       pruned_copy celldata (prune (opened ndim simbox kernrange macfactor localNode lmin lmax hmn hmx celldata) t) pcells lf ll n /\
       n <= kd_GetMaxCellNumber lmax).
Proof.
  intros ndim simbox kernrange macfactor localNode lmin lmax hmn hmx pos dead Nl Nmax first N bmin bmax s g2c celldata H1 H2 H3 H4 H5 H6 H7 H8 H9 H10 H11 Hl.
  destruct (BuildTree_full pos dead Nl Nmax first N bmin bmax s g2c H1 H2 H3 H4 H5 H6 H7 H8 H9 H10 H11)
    as (s' & g' & Nc & t & ps & (d & nx & lm & gm & nm & g & CT & -> & KS & EN & Hnx & ->) & LZ & _ & BT & Pre & Hz & _ & Li & _ & _ & _).
  exists s', g', Nc, nm, (ptree d 0). split; [exact BT|]. intros Zc Hq pruned Hpr.
  assert (Bc : forall c, In c (preorder (ptree d 0)) -> 0 <= c < Nc) by (intros c Hc; rewrite Pre in Hc; apply zseq_in in Hc; lia).
  assert (Inv : forall c q, 0 <= c < zlen celldata -> aget celldata c = Ok q -> exists k, aget (cells s') c = Ok k /\ k_copen q = copen k /\ k_cnext q = cnext k /\ (forall l, level k = Some l -> k_level q = l)).
  { intros c q Hc Eq. destruct (aget_in (cells s') c) as [k Ek]; [lia|]. destruct (Hq c k Ek) as (q' & E' & A). rewrite Eq in E'. injection E' as <-. eauto. }
  assert (Zn : Nc <= zlen celldata) by lia.
  assert (Li' : linked Nc (S_Prune.co_of celldata) (S_Prune.cn_of celldata) (ptree d 0) Nc).
  { revert Li. apply linked_ext. intros c Hc. specialize (Bc c Hc). unfold S_Prune.co_of, S_Prune.cn_of, co_of, cn_of.
    destruct (aget_in (cells s') c) as [k Ek]; [lia|]. destruct (Hq c k Ek) as (q & Eq & A & B & _). rewrite Ek, Eq. cbn. now rewrite A, B. }
  assert (CN : forall d c nx, kstruct (cells s') (Z.of_nat d) d c nx \/ True -> forall L x k, kstruct (cells s') L d c nx -> In x (preorder (ptree d c)) -> aget (cells s') x = Ok k ->
     cnext k = nx \/ cnext k <= c + (2 * p2 d - 1)).
  { clear. induction d as [|d IH]; intros c nx _ L x k K Hx Ek.
    - cbn in Hx. destruct Hx as [<-|[]]. destruct K as (k' & A & _ & _ & B). rewrite Ek in A. injection A as <-. now left.
    - cbn [ptree preorder flat_map] in Hx. destruct K as ((k' & A & _ & _ & _ & _ & B) & K1 & K2). pose proof (p2_S d). pose proof (p2_pos d).
      destruct Hx as [<-|Hx]; [rewrite Ek in A; injection A as <-; now left|]. rewrite app_nil_r in Hx. right. apply in_app_iff in Hx as [Hx|Hx].
      + destruct (IH _ _ (or_intror I) _ _ _ K1 Hx Ek); lia.
      + destruct (IH _ _ (or_intror I) _ _ _ K2 Hx Ek); lia. }
  assert (Rt : root (ptree d 0) = 0) by apply ptree_root.
  assert (ND : NoDup (preorder (ptree d 0))) by (rewrite Pre; apply zseq_nodup).
  assert (EX : forall c k, In c (preorder (ptree d 0)) -> aget celldata c = Ok k -> Nc <= k_cnext k -> k_cnext k = Nc \/ k_cnext k = nm).
  { intros c q Hc Eq Hge. specialize (Bc c Hc). destruct (Inv c q ltac:(lia) Eq) as (k & Ek & _ & B & _). rewrite B in *.
    destruct (CN d 0 nm (or_intror I) _ c k KS Hc Ek); lia. }
  assert (G0 : 0 <= kd_GetMaxCellNumber lmax). { unfold kd_GetMaxCellNumber. pose proof (Z.pow_pos_nonneg 2 (lmax + 1)). lia. }
  destruct (C08_pruned ndim simbox kernrange macfactor localNode lmin lmax hmn hmx celldata Nc nm (ptree d 0) Nc Rt ND Bc Li' ltac:(lia) Hnx Zn EX pruned (kd_GetMaxCellNumber lmax) ltac:(lia)) as [A _].
  assert (SZ : zlen (preorder (prune (opened ndim simbox kernrange macfactor localNode lmin lmax hmn hmx celldata) (ptree d 0))) <= kd_GetMaxCellNumber lmax).
  { unfold kd_GetMaxCellNumber. replace (lmax + 1) with (lmax - 0 + 1) by lia.
    apply (prune_size _ (fun c => match aget celldata c with Ok k => k_level k | _ => 0 end) lmax (ptree d 0) d 0 (ptree_perfect d 0)); [|intros c Ec|lia].
    - intros c l D. destruct (kstruct_depth _ _ _ _ _ _ _ KS D) as (k & Ek & Ev). destruct (Hq c k Ek) as (q & Eq & _ & _ & Lv). rewrite Eq. rewrite (Lv _ Ev). lia.
    - unfold opened. destruct (aget celldata c) as [k| | |]; try reflexivity. unfold opens. rewrite Ec, Z.eqb_refl. cbn. now destruct (_ && _)%bool. }
  destruct (A SZ) as (pc & lf & ll & n & E & PC & _). exists pc, lf, ll, n. split; [exact E|]. split; [exact PC|]. assert (n = _) as -> by apply PC. exact SZ.
Qed.
Print Assumptions C51_kdtree.

(** UpdateLeafCells, called when the full tree has been re-stocked (its cells now [celldata']): every leaf of the
    pruned tree gets the new data of the cell it stands for; all links and all inner cells stay. *)
Lemma update_leafs : forall local (orig : Z -> Z) lf cells, NoDup lf ->
  (forall i, In i lf -> (exists k, aget cells i = Ok k) /\ (exists q, aget local (orig i) = Ok q)) ->
  exists cells', UpdateLeafCells lf (map orig lf) local cells = Ok cells' /\ zlen cells' = zlen cells /\
    (forall i, ~ In i lf -> aget cells' i = aget cells i) /\
    (forall i k q, In i lf -> aget cells i = Ok k -> aget local (orig i) = Ok q -> exists k', aget cells' i = Ok k' /\ same_data q k' /\ k_copen k' = k_copen k /\ k_cnext k' = k_cnext k).
Proof.
  intros local orig. induction lf as [|a lf IH]; intros cells ND H.
  - exists cells. cbn. repeat split; auto. intros i k q [].
  - inversion ND as [|? ? N1 N2]; subst. destruct (H a (or_introl eq_refl)) as ((k & Ek) & (q & Eq)). cbn [UpdateLeafCells map]. rewrite Ek. cbn [bind]. rewrite Eq. cbn [bind].
    destruct (aget_Ok_inv _ _ _ Ek) as [Ba _]. rewrite aset_in by exact Ba. cbn [bind].
    set (k1 := M_Prune.set_cnext (k_cnext k) (set_copen (k_copen k) q)).
    assert (G : forall i, i <> a -> aget (upd cells (Z.to_nat a) k1) i = aget cells i) by (intros i Hi; apply aget_upd_ne; lia).
    destruct (IH (upd cells (Z.to_nat a) k1) N2) as (cells' & E & L & F & U).
    { intros i Hi. rewrite G by (intros ->; contradiction). apply H. now right. }
    exists cells'. split; [exact E|]. split; [rewrite L; apply zlen_upd|]. split.
    + intros i Hi. rewrite F by (intros K; apply Hi; now right). apply G. intros ->. apply Hi. now left.
    + intros i k' q' [<-|Hi] Ek' Eq'.
      * exists k1. rewrite F by exact N1. rewrite aget_upd_eq by lia. rewrite Ek in Ek'. injection Ek' as <-. rewrite Eq in Eq'. injection Eq' as <-.
        split; [reflexivity|]. unfold k1. repeat split.
      * apply (U i k' q' Hi); auto. rewrite G by (intros ->; contradiction). exact Ek'.
Qed.
Lemma leaves_incl : forall t x, In x (leaves t) -> In x (preorder t).
Proof.
  induction t as [c ks IH] using rtree_ind2. destruct ks as [|k ks]; [auto|]. rewrite leaves_node by discriminate. intros x Hx. right.
  apply in_flat_map in Hx as (y & H1 & H2). apply in_flat_map. exists y. split; [exact H1|]. rewrite Forall_forall in IH. now apply IH.
Qed.
Lemma leaves_nodup : forall t, NoDup (preorder t) -> NoDup (leaves t).
Proof.
  induction t as [c ks IH] using rtree_ind2. destruct ks as [|k ks]; [auto|]. rewrite leaves_node by discriminate. cbn [preorder]. intros H. inversion H; subst.
  rewrite Forall_forall in IH. apply nodup_fm with (f := preorder); auto. intros; now apply leaves_incl.
Qed.
Theorem C08_update : forall celldata p cells lf ll n celldata',
  pruned_copy celldata p cells lf ll n -> zlen celldata' = zlen celldata ->
  exists cells', UpdateLeafCells lf ll celldata' cells = Ok cells' /\ zlen cells' = zlen cells /\
    (forall i, ~ In i lf -> aget cells' i = aget cells i) /\
    (forall i, In i lf -> exists k k' q, aget cells i = Ok k /\ aget cells' i = Ok k' /\ aget celldata' (nth (Z.to_nat i) (preorder p) 0) = Ok q /\
       same_data q k' /\ k_copen k' = k_copen k /\ k_cnext k' = k_cnext k).
Proof.
  intros celldata p cells lf ll n celldata' (En & (t' & T1 & T2 & _ & T4) & E & D) Z.
  set (orig := fun i => nth (Z.to_nat i) (preorder p) 0) in *.
  assert (EL : ll = map orig lf) by (rewrite E, <- T1, relabel_leaves, T4; reflexivity).
  assert (LB : forall i, In i lf -> 0 <= i < n). { intros i Hi. rewrite T4 in Hi. apply leaves_incl in Hi. rewrite T2 in Hi. apply zseq_in in Hi. assert (0 <= n) by (rewrite En; unfold zlen; lia). lia. }
  assert (NL : NoDup lf) by (rewrite T4; apply leaves_nodup; rewrite T2; apply zseq_nodup).
  assert (EQ : forall i, In i lf -> (exists k, aget cells i = Ok k) /\ (exists q, aget celldata' (orig i) = Ok q)).
  { intros i Hi. destruct (D i (LB i Hi)) as (k & k' & A & B & _). split; [eauto|]. apply aget_in. rewrite Z. now apply aget_Ok_inv in A. }
  rewrite EL. destruct (update_leafs celldata' orig lf cells NL EQ) as (cells' & U1 & U2 & U3 & U4). exists cells'. split; [exact U1|]. split; [exact U2|]. split; [exact U3|].
  intros i Hi. destruct (EQ i Hi) as ((k & Ek) & (q & Eq)). destruct (U4 i k q Hi Ek Eq) as (k' & A & B & C1 & C2). exists k, k', q. auto 10.
Qed.
Print Assumptions C08_update.

(** The guess 2^(ndim*level) made for the oct-tree is too small: a root with eight children needs nine
    cells at level 1, but the receiving side has posted a receive for eight. *)
Definition oc (copen cnext level : Z) : pcell := mkpcell copen cnext level 1 (fun _ => 0%R) 0 0 0 0 0.
Definition oct9 : list pcell := oc 1 9 0 :: map (fun i => oc (-1) (i + 1) 1) (zseq 1 8).
Definition oct9_tree : rtree := RNode 0 (map (fun i => RNode i []) (zseq 1 8)).
Theorem C51_oct_refuted : exists celldata Ncell Ncellmax t lmin lmax,
  (root t = 0 /\ NoDup (preorder t) /\ (forall c, In c (preorder t) -> 0 <= c < Ncell) /\
   linked Ncell (S_Prune.co_of celldata) (S_Prune.cn_of celldata) t Ncell /\ Ncell = Ncellmax /\ Ncell = zlen celldata) /\
  forall simbox kernrange hmn hmx alloc, (forall m, m <= zlen (alloc m)) ->
  exists f cells lf ll n,
    prune_retry 3 simbox kernrange 0 false lmin lmax hmn hmx f alloc celldata Ncell Ncellmax (Z.max 1 (oct_GetMaxCellNumber 3 lmax)) = Ok (cells, lf, ll, n) /\
    oct_GetMaxCellNumber 3 lmax < n.
Proof.
  exists oct9, 9, 9, oct9_tree, 1, 1.
  assert (HY : root oct9_tree = 0 /\ NoDup (preorder oct9_tree) /\ (forall c, In c (preorder oct9_tree) -> 0 <= c < 9) /\
   linked 9 (S_Prune.co_of oct9) (S_Prune.cn_of oct9) oct9_tree 9 /\ 9 = 9 /\ 9 = zlen oct9).
  { split; [reflexivity|]. split; [apply (zseq_nodup 9 0)|]. split.
    - intros c Hc. apply (zseq_in 9 0) in Hc. lia.
    - split; [|split; reflexivity]. cbn. repeat split; eexists; (split; [reflexivity|]); left; reflexivity. }
  split; [exact HY|]. destruct HY as (R & ND & B & L & _ & _). intros simbox kernrange hmn hmx alloc Ha.
  assert (HX : forall c k, In c (preorder oct9_tree) -> aget oct9 c = Ok k -> 9 <= k_cnext k -> k_cnext k = 9 \/ k_cnext k = 9).
  { intros c k Hc Ek Hge. left. apply (zseq_in 9 0) in Hc. apply aget_Ok_inv in Ek as [_ Ek]. apply nth_error_In in Ek. cbn in Ek. repeat destruct Ek as [<-|Ek]; cbn in *; try lia. }
  destruct (C08_retry 3 simbox kernrange 0 false 1 1 hmn hmx oct9 9 9 oct9_tree 9 R ND B L ltac:(lia) ltac:(lia) ltac:(cbn; lia) HX alloc (Z.max 1 (oct_GetMaxCellNumber 3 1)) Ha ltac:(lia)) as (f & Hf).
  destruct (Hf f (le_n f)) as (m & cells & lf & ll & n & E & PC & _). exists f, cells, lf, ll, n. split; [exact E|].
  destruct PC as (-> & _). cbn. reflexivity.
Qed.
Print Assumptions C51_oct_refuted.

(** A concrete case: seven cells in one dimension, minimum level 1, maximum level 2, for a node with box
    [10,11].  The left half (cells 1, 2, 3) is far away and is kept as one cell; the right half (4, 5, 6)
    is opened. *)
Definition ec (copen cnext level : Z) (x : R) : pcell := mkpcell copen cnext level 2 (fun _ => x) 1 1 1 0 0.
Definition ex_cells : list pcell := [ec 1 7 0 5; ec 2 4 1 0; ec (-1) 3 2 (-1); ec (-1) 4 2 1; ec 5 7 1 9; ec (-1) 6 2 8; ec (-1) 7 2 (19/2)].
Definition ex_box : dombox := mkbox (fun _ => (-20)%R) (fun _ => 20%R) (fun _ => openB) (fun _ => openB).
Lemma ex_near : forall k, node_distsqd 1 ex_box (fun _ => 10%R) (fun _ => 11%R) k = (to_edge (k_r k 0%nat - 21/2) (1/2) ^ 2)%R.
Proof.
  intros k. unfold node_distsqd, dot, sumf. pose proof (npv_dr 1 ex_box (vsub (k_r k) (rnode (fun _ => 10%R) (fun _ => 11%R))) (fun _ => 0%R) 0) as N.
  destruct (NearestPeriodicVector _ _ _ _) as [dr cr]. cbn [fst] in N. cbn [Nat.ltb Nat.leb] in N. unfold near1, perb in N. cbn in N.
  replace (rsize (fun _ => 10%R) (fun _ => 11%R) 0%nat) with (1/2)%R by (unfold rsize, rnode; lra).
  assert (E : dr 0%nat = (k_r k 0%nat - 21/2)%R). { rewrite N. unfold vsub, rnode. lra. }
  rewrite E. ring.
Qed.
Example C08_example : exists cells,
  CreatePrunedTreeForMpiNode 1 ex_box 2 0 false 1 2 (fun _ => 10%R) (fun _ => 11%R) ex_cells 7 7 5 (repeat (ec 0 0 0 0) 5) = Ok (cells, [1; 3; 4], [1; 5; 6], 5) /\
  map k_copen cells = [1; -1; 3; -1; -1] /\ map k_cnext cells = [5; 2; 5; 4; 5] /\ map k_r cells = map k_r [ec 1 7 0 5; ec 2 4 1 0; ec 5 7 1 9; ec (-1) 6 2 8; ec (-1) 7 2 (19/2)].
Proof.
  assert (F1 : near_node 1 ex_box 2 0 (fun _ => 10%R) (fun _ => 11%R) (ec 2 4 1 0) = false).
  { unfold near_node. rewrite ex_near. cbn [ec k_r k_rmax k_hmax k_cdistsqd k_mac k_N]. unfold to_edge, rltb, rleb.
    destruct (Rlt_dec (1/2) (0 - 21/2)); [exfalso; lra|]. destruct (Rlt_dec (0 - 21/2) (- (1/2))); [|exfalso; lra].
    destruct (Rle_dec ((0 - 21 / 2 + 1 / 2) ^ 2) ((1 + 2 * 1) ^ 2)); [exfalso; lra|].
    destruct (Rlt_dec 1 ((0 - 21 / 2 + 1 / 2) ^ 2)); [|exfalso; lra]. destruct (Rlt_dec (0 * 0) ((0 - 21 / 2 + 1 / 2) ^ 2)); [|exfalso; lra]. reflexivity. }
  assert (F2 : near_node 1 ex_box 2 0 (fun _ => 10%R) (fun _ => 11%R) (ec 5 7 1 9) = true).
  { unfold near_node. rewrite ex_near. cbn [ec k_r k_rmax k_hmax k_cdistsqd k_mac k_N]. unfold to_edge, rltb, rleb.
    destruct (Rlt_dec (1/2) (9 - 21/2)); [exfalso; lra|]. destruct (Rlt_dec (9 - 21/2) (- (1/2))); [|exfalso; lra].
    destruct (Rle_dec ((9 - 21 / 2 + 1 / 2) ^ 2) ((1 + 2 * 1) ^ 2)); [|exfalso; lra]. reflexivity. }
  eexists. split.
  - cbv [ec] in F1, F2. unfold CreatePrunedTreeForMpiNode. change (Z.to_nat 7) with 7%nat.
    do 2 (cbv -[near_node IZR Rdiv ex_box]; rewrite ?F1, ?F2). cbv -[near_node IZR Rdiv ex_box]. reflexivity.
  - repeat split.
Qed.
