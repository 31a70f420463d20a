From Verif Require Import Prelude L_Prelude S_Tree M_Walk L_Tree M_KDTree.
Local Open Scope Z_scope.

Definition p2 (d : nat) : Z := 2 ^ Z.of_nat d.
Lemma p2_0 : p2 0 = 1. Proof. reflexivity. Qed.
Lemma p2_S : forall d, p2 (S d) = 2 * p2 d.
Proof. intros. unfold p2. rewrite Nat2Z.inj_succ, Z.pow_succ_r by lia. reflexivity. Qed.
Lemma p2_pos : forall d, 0 < p2 d.
Proof. intros. unfold p2. apply Z.pow_pos_nonneg; lia. Qed.

Fixpoint tsize (d : nat) : nat := match d with O => 1 | S d' => S (tsize d' + tsize d') end.
Lemma tsize_p2 : forall d, Z.of_nat (tsize d) = 2 * p2 d - 1.
Proof.
  induction d; [reflexivity|]. cbn [tsize]. rewrite p2_S. lia.
Qed.
Global Opaque p2.

(** The perfect tree with preorder numbering starting at [c]. *)
Fixpoint ptree (d : nat) (c : Z) : rtree :=
  match d with
  | O => RNode c []
  | S d' => RNode c [ptree d' (c + 1); ptree d' (c + p2 (S d'))]
  end.
Lemma ptree_root : forall d c, root (ptree d c) = c. Proof. destruct d; reflexivity. Qed.
Lemma ptree_preorder : forall d c, preorder (ptree d c) = zseq c (tsize d).
Proof.
  induction d; intros; [reflexivity|].
  cbn [ptree preorder flat_map tsize zseq]. rewrite !IHd, app_nil_r, zseq_app. do 2 f_equal. f_equal.
  rewrite tsize_p2, p2_S. lia.
Qed.
Lemma ptree_perfect : forall d c, perfect d (ptree d c).
Proof. induction d; intros; simpl; auto. Qed.

(** Explicit description of the link fields after CreateTreeStructure. *)
Fixpoint kstruct (cs : list kcell) (ltot : Z) (d : nat) (c nx : Z) : Prop :=
  match d with
  | O => exists k, aget cs c = Ok k /\ level k = Some ltot /\ copen k = -1 /\ cnext k = nx
  | S d' =>
      (exists k, aget cs c = Ok k /\ level k = Some (ltot - Z.of_nat d) /\ copen k = c + 1 /\
         c1 k = c + 1 /\ c2 k = c + p2 d /\ cnext k = nx) /\
      kstruct cs ltot d' (c + 1) (c + p2 d) /\ kstruct cs ltot d' (c + p2 d) (c + (2 * p2 d - 1))
  end.

Definition in_tree (d : nat) (c i : Z) := c <= i < c + (2 * p2 d - 1).

Lemma kstruct_ext : forall cs cs' ltot d c nx,
  (forall i, in_tree d c i -> aget cs' i = aget cs i) ->
  kstruct cs ltot d c nx -> kstruct cs' ltot d c nx.
Proof.
  unfold in_tree. induction d; intros c nx E.
  - simpl. rewrite p2_0 in E. intros (k & ? & ?). exists k. rewrite E by lia. auto.
  - cbn [kstruct]. pose proof (p2_pos d). pose proof (p2_S d).
    intros ((k & A & B) & C & D). repeat split.
    + exists k. rewrite E by lia. auto.
    + apply IHd; [|easy]. intros; apply E; lia.
    + apply IHd; [|easy]. intros; apply E; lia.
Qed.

(** Leaf numbering: the [j]-th leaf in depth-first order. *)
Fixpoint leaves_ok (cs : list kcell) (g2c : list Z) (d : nat) (c g : Z) : Prop :=
  match d with
  | O => aget g2c g = Ok c /\ exists k, aget cs c = Ok k /\ c2g k = g
  | S d' => leaves_ok cs g2c d' (c + 1) g /\ leaves_ok cs g2c d' (c + p2 d) (g + p2 d')
  end.
Lemma leaves_ok_ext : forall cs cs' h h' d c g,
  (forall i, in_tree d c i -> aget cs' i = aget cs i) ->
  (forall i, g <= i < g + p2 d -> aget h' i = aget h i) ->
  leaves_ok cs h d c g -> leaves_ok cs' h' d c g.
Proof.
  unfold in_tree. induction d; intros c g E F.
  - simpl. rewrite p2_0 in *. rewrite E, F by lia. auto.
  - cbn [leaves_ok]. pose proof (p2_pos d). pose proof (p2_S d). intros [A B]. split.
    + apply IHd; [| |easy]; intros; [apply E|apply F]; lia.
    + apply IHd; [| |easy]; intros; [apply E|apply F]; lia.
Qed.

Lemma cmod_spec : forall cs i f k, aget cs i = Ok k ->
  exists cs', cmod cs i f = Ok cs' /\ zlen cs' = zlen cs /\ aget cs' i = Ok (f k) /\
              (forall j, j <> i -> aget cs' j = aget cs j).
Proof.
  intros. unfold cmod. rewrite H. simpl. apply aset_spec. now apply aget_Ok_inv in H.
Qed.

Lemma cts_loop_app : forall ltot gmax n m c s,
  cts_loop ltot gmax c (n + m) s =
  let! s' := cts_loop ltot gmax c n s in cts_loop ltot gmax (c + Z.of_nat n) m s'.
Proof.
  induction n; intros.
  - simpl. replace (c + 0) with c by lia. reflexivity.
  - cbn [plus cts_loop]. destruct (cts_step ltot gmax c s); simpl; auto.
    rewrite IHn. destruct (cts_loop ltot gmax (c + 1) n a); simpl; auto. f_equal. lia.
Qed.

Lemma cts_subtree : forall ltot gmax d c cs g2c g k,
  0 <= c -> c + (2 * p2 d - 1) <= zlen cs -> 0 <= g -> g + p2 d <= gmax -> zlen g2c = gmax ->
  aget cs c = Ok k -> level k = Some (ltot - Z.of_nat d) ->
  0 <= ltot - Z.of_nat d <= c ->
  (forall i k, in_tree d c i -> aget cs i = Ok k -> copen k = -1) ->
  exists cs' g2c',
    cts_loop ltot gmax c (tsize d) (cs, g2c, g) = Ok (cs', g2c', g + p2 d) /\
    zlen cs' = zlen cs /\ zlen g2c' = zlen g2c /\
    (forall i, ~ in_tree d c i -> aget cs' i = aget cs i) /\
    (forall i, ~ (g <= i < g + p2 d) -> aget g2c' i = aget g2c i) /\
    kstruct cs' ltot d c (c + (2 * p2 d - 1)) /\ leaves_ok cs' g2c' d c g.
Proof.
  intros ltot gmax. induction d; intros c cs g2c g k Hc Hcs Hg Hgm Hg2c Hk Hl Hlc Hop.
  - rewrite p2_0 in *. cbn [tsize cts_loop]. unfold cts_step. rewrite Hk. cbn [bind].
    unfold get_level. rewrite Hl. cbn [bind].
    replace (ltot - Z.of_nat 0 =? ltot) with true by lia.
    destruct (cmod_spec cs c (set_links g (copen k) (c + 1) (c1 k) (c2 k)) k Hk)
      as (cs' & E1 & E2 & E3 & E4).
    rewrite E1. cbn [bind].
    replace (g <? gmax) with true by lia. cbn [negb].
    destruct (aset_spec g2c g c) as (h & F1 & F2 & F3 & F4); [lia|].
    rewrite F1. cbn [bind].
    replace (ltot - Z.of_nat 0 <=? c) with true by lia. cbn [negb bind].
    exists cs', h. split; [reflexivity|]. repeat split; auto; unfold in_tree; rewrite ?p2_0.
    + intros; apply E4; lia.
    + intros; apply F4; lia.
    + simpl. eexists; split; [exact E3|]. simpl. repeat split; auto.
      * rewrite Hl. f_equal. lia.
      * apply (Hop c); auto. unfold in_tree. rewrite p2_0. lia.
    + eexists; split; [exact E3|]. reflexivity.
  - pose proof (p2_S d) as PS. pose proof (p2_pos d) as PP.
    cbn [tsize]. change (S (tsize d + tsize d)) with (1 + (tsize d + tsize d))%nat.
    rewrite cts_loop_app. cbn [cts_loop]. unfold cts_step at 1. rewrite Hk. cbn [bind].
    unfold get_level. rewrite Hl. cbn [bind].
    replace (ltot - Z.of_nat (S d) =? ltot) with false by lia.
    destruct (aget_in cs (c + 1)) as [k1 Hk1]; [lia|].
    destruct (cmod_spec cs (c + 1) (set_level (ltot - Z.of_nat (S d) + 1)) k1 Hk1)
      as (csa & A1 & A2 & A3 & A4).
    rewrite A1. cbn [bind].
    assert (E2L : c2L ltot (ltot - Z.of_nat (S d)) = Ok (p2 (S d))).
    { unfold c2L. replace ((0 <=? ltot - Z.of_nat (S d)) && (ltot - Z.of_nat (S d) <? ltot))%bool with true by lia.
      do 2 f_equal. replace (ltot - (ltot - Z.of_nat (S d))) with (Z.of_nat (S d)) by lia. reflexivity. }
    unfold cNL. rewrite E2L. cbn [bind].
    assert (Hka : aget csa c = Ok k) by (rewrite A4 by lia; exact Hk).
    destruct (cmod_spec csa c (set_links (c2g k) (c + 1) (c + (2 * p2 (S d) - 1)) (c + 1) (c + p2 (S d))) k Hka)
      as (csb & B1 & B2 & B3 & B4).
    rewrite B1. cbn [bind].
    destruct (aget_in csb (c + p2 (S d))) as [k2 Hk2]; [lia|].
    destruct (cmod_spec csb (c + p2 (S d)) (set_level (ltot - Z.of_nat (S d) + 1)) k2 Hk2)
      as (csc & C1 & C2 & C3 & C4).
    rewrite C1. cbn [bind].
    replace (ltot - Z.of_nat (S d) <=? c) with true by lia. cbn [negb bind].
    rewrite cts_loop_app.
    assert (Hop1 : forall i k, in_tree (S d) c i -> i <> c -> aget csc i = Ok k -> copen k = -1).
    { unfold in_tree. intros i kk I Hne G.
      destruct (Z.eq_dec i (c + p2 (S d))) as [->|].
      - rewrite C3 in G. inversion G; subst. simpl. rewrite B4, A4 in Hk2 by lia.
        apply (Hop _ _ I Hk2).
      - rewrite C4, B4 in G by lia. destruct (Z.eq_dec i (c + 1)) as [->|].
        + rewrite A3 in G. inversion G; subst. simpl. apply (Hop _ _ I Hk1).
        + rewrite A4 in G by lia. apply (Hop _ _ I G). }
    destruct (IHd (c + 1) csc g2c g (set_level (ltot - Z.of_nat (S d) + 1) k1))
      as (cs1 & h1 & D1 & D2 & D3 & D4 & D5 & D6 & D7); try lia.
    { rewrite C4, B4 by lia. exact A3. }
    { simpl. f_equal. lia. }
    { unfold in_tree in *. intros i kk I G. apply (Hop1 i kk); auto; lia. }
    change (c + Z.of_nat 1) with (c + 1). rewrite D1. cbn [bind]. rewrite tsize_p2.
    replace (c + 1 + (2 * p2 d - 1)) with (c + p2 (S d)) by lia.
    assert (I2 : forall i, in_tree d (c + p2 (S d)) i -> ~ in_tree d (c + 1) i)
      by (unfold in_tree; intros; lia).
    assert (Hk2' : aget cs1 (c + p2 (S d)) = Ok (set_level (ltot - Z.of_nat (S d) + 1) k2)).
    { rewrite D4; [exact C3|]. unfold in_tree. lia. }
    destruct (IHd (c + p2 (S d)) cs1 h1 (g + p2 d) (set_level (ltot - Z.of_nat (S d) + 1) k2))
      as (cs2 & h2 & G1 & G2 & G3 & G4 & G5 & G6 & G7); try lia; auto.
    { simpl. f_equal. lia. }
    { intros i kk I G. rewrite D4 in G by auto.
      apply (Hop1 i kk); auto; unfold in_tree in *; lia. }
    exists cs2, h2. rewrite G1. unfold in_tree in *.
    split; [do 2 f_equal; lia|]. split; [lia|]. split; [lia|].
    split.
    { intros i I. rewrite G4, D4, C4, B4, A4 by lia. reflexivity. }
    split.
    { intros i I. rewrite G5, D5 by lia. reflexivity. }
    assert (Ec : aget cs2 c = Ok (set_links (c2g k) (c + 1) (c + (2 * p2 (S d) - 1)) (c + 1) (c + p2 (S d)) k)).
    { rewrite G4, D4, C4 by lia. exact B3. }
    split.
    + cbn [kstruct]. split; [|split].
      * eexists; split; [exact Ec|]. simpl. repeat split; auto; lia.
      * replace (c + p2 (S d)) with (c + 1 + (2 * p2 d - 1)) at 1 by lia.
        apply kstruct_ext with (cs := cs1); [|exact D6]. unfold in_tree. intros; apply G4; lia.
      * replace (c + (2 * p2 (S d) - 1)) with (c + p2 (S d) + (2 * p2 d - 1)) by lia. exact G6.
    + cbn [leaves_ok]. split; [|exact G7].
      apply leaves_ok_ext with (cs := cs1) (h := h1); [| |exact D7].
      * unfold in_tree; intros; apply G4; lia.
      * intros; apply G5; lia.
Qed.

Lemma reset_cells_spec : forall n cs c, 0 <= c -> c + Z.of_nat n <= zlen cs ->
  exists cs', reset_cells cs c n = Ok cs' /\ zlen cs' = zlen cs /\
    (forall i k, c <= i < c + Z.of_nat n -> aget cs' i = Ok k ->
        copen k = -1 /\ ifirst k = -1 /\ ilast k = -1 /\ cN k = 0) /\
    (forall i, ~ (c <= i < c + Z.of_nat n) -> aget cs' i = aget cs i).
Proof.
  induction n; intros.
  - exists cs. simpl. repeat split; auto; lia.
  - cbn [reset_cells]. destruct (aget_in cs c) as [k Hk]; [lia|].
    destruct (cmod_spec cs c reset_cell k Hk) as (cs1 & A1 & A2 & A3 & A4).
    rewrite A1. cbn [bind].
    destruct (IHn cs1 (c + 1)) as (cs2 & B1 & B2 & B3 & B4); try lia.
    exists cs2. split; [easy|]. split; [lia|]. split.
    + intros i kk I G. destruct (Z.eq_dec i c) as [->|].
      * rewrite B4, A3 in G by lia. inversion G; subst; simpl; auto.
      * apply (B3 i); auto; lia.
    + intros i I. rewrite B4, A4 by lia. reflexivity.
Qed.

Theorem CreateTreeStructure_kstruct : forall d ltot gmax Ncell cs g2c,
  ltot = Z.of_nat d -> Ncell = 2 * p2 d - 1 ->
  Ncell <= zlen cs -> p2 d <= gmax -> zlen g2c = gmax ->
  exists cs' g2c',
    CreateTreeStructure ltot gmax Ncell cs g2c = Ok (cs', g2c') /\
    zlen cs' = zlen cs /\ zlen g2c' = gmax /\
    kstruct cs' ltot d 0 Ncell /\ leaves_ok cs' g2c' d 0 0.
Proof.
  intros d ltot gmax Ncell cs g2c -> -> Hcs Hg Hg2.
  pose proof (p2_pos d) as PP. unfold CreateTreeStructure.
  rewrite <- (tsize_p2 d), Nat2Z.id.
  destruct (reset_cells_spec (tsize d) cs 0) as (cs1 & A1 & A2 & A3 & A4); [lia|rewrite tsize_p2; lia|].
  rewrite A1. cbn [bind].
  destruct (aget_in cs1 0) as [k Hk]; [lia|].
  destruct (cmod_spec cs1 0 (set_level 0) k Hk) as (cs2 & B1 & B2 & B3 & B4).
  rewrite B1. cbn [bind].
  assert (Lz : zlen (map (fun _ : Z => 0) g2c) = gmax) by (unfold zlen in *; rewrite map_length; exact Hg2).
  destruct (cts_subtree (Z.of_nat d) gmax d 0 cs2 (map (fun _ => 0) g2c) 0 (set_level 0 k))
    as (cs3 & h & C1 & C2 & C3 & C4 & C5 & C6 & C7); try lia; auto.
  { simpl. f_equal. lia. }
  { unfold in_tree. intros i kk I G. destruct (Z.eq_dec i 0) as [->|].
    - rewrite B3 in G. inversion G; subst. simpl. apply (A3 0 k); auto. rewrite tsize_p2; lia.
    - rewrite B4 in G by lia. apply (A3 i kk); auto. rewrite tsize_p2; lia. }
  exists cs3, h. rewrite C1. cbn [bind]. split; [reflexivity|]. repeat split; auto; try lia.
  rewrite tsize_p2. exact C6.
Qed.

(** From the explicit description to the specification vocabulary. *)
Definition co_of (cs : list kcell) (c : Z) : res Z := let! k := aget cs c in Ok (copen k).
Definition cn_of (cs : list kcell) (c : Z) : res Z := let! k := aget cs c in Ok (cnext k).

Lemma same_exit_sym : forall N x y, same_exit N x y -> same_exit N y x.
Proof. unfold same_exit; intros; lia. Qed.
Lemma same_exit_trans : forall N x y z, same_exit N x y -> same_exit N y z -> same_exit N x z.
Proof. unfold same_exit; intros; lia. Qed.

Lemma kstruct_linked : forall Nc cs ltot d c nx next,
  kstruct cs ltot d c nx -> same_exit Nc nx next -> same_exit Nc (c + (2 * p2 d - 1)) next ->
  linked Nc (co_of cs) (cn_of cs) (ptree d c) next.
Proof.
  intros Nc cs ltot. induction d; intros c nx next H E1 E2.
  - destruct H as (k & A & B & C & D). cbn [ptree]. rewrite linked_unfold.
    unfold co_of, cn_of. rewrite A. simpl. rewrite C. split; [|auto]. exists nx. rewrite D. auto.
  - destruct H as ((k & A & B & C & C1 & C2 & D) & K1 & K2).
    cbn [ptree]. rewrite linked_unfold. cbn [linked_list]. rewrite !ptree_root.
    unfold co_of at 1, cn_of at 1. rewrite A. cbn [bind].
    pose proof (p2_S d). repeat split.
    + exists nx. rewrite D. auto.
    + congruence.
    + apply IHd with (nx := c + p2 (S d)); auto; left; lia.
    + apply IHd with (nx := c + (2 * p2 (S d) - 1)); auto.
      replace (c + p2 (S d) + (2 * p2 d - 1)) with (c + (2 * p2 (S d) - 1)) by lia. exact E2.
Qed.

Lemma kstruct_depth : forall cs ltot d c nx x l,
  kstruct cs ltot d c nx -> depth_of (ptree d c) x l ->
  exists k, aget cs x = Ok k /\ level k = Some (ltot - Z.of_nat d + l).
Proof.
  intros cs ltot. induction d; intros c nx x l H D; cbn [ptree] in D.
  - inversion D; subst; [|easy]. destruct H as (k & A & B & _). exists k. split; auto. rewrite B. f_equal. lia.
  - destruct H as ((k & A & B & _) & K1 & K2). inversion D; subst.
    + exists k. split; auto. rewrite B. f_equal. lia.
    + match goal with HI : In _ _, HD : depth_of _ _ _ |- _ =>
        destruct HI as [<-|[<-|[]]]; [destruct (IHd _ _ _ _ K1 HD) as (k' & A' & B')
                                     |destruct (IHd _ _ _ _ K2 HD) as (k' & A' & B')] end;
      exists k'; (split; [easy|]); rewrite B'; f_equal; lia.
Qed.

(** The two child pointers of the inner cells. *)
Inductive child_of : rtree -> Z -> Z -> Z -> Prop :=
| child_here : forall c a b, child_of (RNode c [a; b]) c (root a) (root b)
| child_in : forall c ks k x l r, In k ks -> child_of k x l r -> child_of (RNode c ks) x l r.

Lemma kstruct_child : forall cs ltot d c nx x l r,
  kstruct cs ltot d c nx -> child_of (ptree d c) x l r ->
  exists k, aget cs x = Ok k /\ c1 k = l /\ c2 k = r.
Proof.
  intros cs ltot. induction d; intros c nx x l r H D; cbn [ptree] in D.
  - inversion D; subst; easy.
  - destruct H as ((k & A & B & C & C1 & C2 & _) & K1 & K2). inversion D; subst.
    + exists k. rewrite !ptree_root. auto.
    + match goal with HI : In _ _, HD : child_of _ _ _ _ |- _ =>
        destruct HI as [<-|[<-|[]]]; eauto end.
Qed.

Lemma leaves_length : forall d c, Z.of_nat (length (leaves (ptree d c))) = p2 d.
Proof.
  induction d; intros; [reflexivity|].
  cbn [ptree leaves flat_map]. rewrite app_nil_r, app_length, Nat2Z.inj_add, !IHd, p2_S. lia.
Qed.

Lemma leaves_ok_nth : forall cs h d c g j x,
  leaves_ok cs h d c g -> aget (leaves (ptree d c)) j = Ok x ->
  aget h (g + j) = Ok x /\ exists k, aget cs x = Ok k /\ c2g k = g + j.
Proof.
  intros cs h. induction d; intros c g j x H A.
  - destruct (aget_Ok_inv _ _ _ A) as [I E]. unfold zlen in I. simpl in I.
    assert (j = 0) by lia. subst. simpl in E. inversion E; subst.
    destruct H as (B & k & C & D). replace (g + 0) with g by lia. split; [easy|]. exists k; auto.
  - destruct H as [H1 H2]. cbn [ptree leaves flat_map] in A. rewrite app_nil_r in A.
    destruct (aget_Ok_inv _ _ _ A) as [I E]. unfold zlen in I.
    rewrite app_length, Nat2Z.inj_add, !leaves_length in I.
    pose proof (leaves_length d (c + 1)) as L1.
    destruct (Z_lt_le_dec j (p2 d)) as [Lt|Ge].
    + rewrite nth_error_app1 in E by lia. apply (IHd _ _ _ _ H1). apply aget_nth_error; [lia|exact E].
    + rewrite nth_error_app2 in E by lia.
      destruct (IHd (c + p2 (S d)) (g + p2 d) (j - p2 d) x H2) as (B & k & C & D).
      { apply aget_nth_error; [lia|]. replace (Z.to_nat (j - p2 d)) with (Z.to_nat j - length (leaves (ptree d (c + 1))))%nat by lia. exact E. }
      replace (g + p2 d + (j - p2 d)) with (g + j) in * by lia. split; [easy|]. exists k; auto.
Qed.

(** ComputeTreeSize. *)
Lemma tree_levels_spec : forall Nleafmax n fuel l,
  1 <= Nleafmax -> 0 <= l -> n <= Nleafmax * 2 ^ (l + Z.of_nat fuel) ->
  (l = 0 \/ Nleafmax * 2 ^ (l - 1) < n) ->
  exists r, tree_levels (S fuel) Nleafmax n l = Ok r /\ l <= r /\
    n <= Nleafmax * 2 ^ r /\ (r = 0 \/ Nleafmax * 2 ^ (r - 1) < n).
Proof.
  intros Nl n. induction fuel; intros l H1 H2 H3 H4.
  - simpl. replace (l + Z.of_nat 0) with l in H3 by lia.
    destruct (Z.ltb_spec (Nl * 2 ^ l) n); [lia|]. exists l. repeat split; auto; lia.
  - cbn [tree_levels]. destruct (Z.ltb_spec (Nl * 2 ^ l) n).
    + destruct (IHfuel (l + 1)) as (r & A & B & C & D); auto; try lia.
      * replace (l + 1 + Z.of_nat fuel) with (l + Z.of_nat (S fuel)) by lia. exact H3.
      * right. replace (l + 1 - 1) with l by lia. exact H.
      * exists r. repeat split; auto; lia.
    + exists l. repeat split; auto; lia.
Qed.
