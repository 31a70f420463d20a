(** StockTree of the oct-tree: the whole tree. *)
From Verif Require Import Prelude L_Prelude Vec M_Box S_Tree L_Tree L_Search L_KDBuild L_KDDivide L_KDTop L_StockTree M_Oct S_Oct L_Oct L_Oct2 L_Oct3 L_Oct4 L_Oct5 L_Oct6.
From Coq Require Import Reals Permutation Lra.
Local Open Scope Z_scope.

Lemma roots_nodup : forall ks, NoDup (flat_map preorder ks) -> NoDup (map root ks).
Proof.
  induction ks as [|k l IH]; intros N2; [constructor|]. cbn [flat_map map] in *. apply nodup_app_inv in N2 as (N3 & N4 & N5). constructor; [|now apply IH].
  intros X. apply in_map_iff in X as (k' & E & Hk'). apply (N5 (root k)); [destruct k; now left|]. apply in_flat_map. exists k'. split; [exact Hk'|]. rewrite <- E. destruct k'; now left.
Qed.

Section Stock.
Variables (ndim : nat) (ps : list opart) (cells0 : list ocell) (inext0 : list Z) (T : rtree) (qs : list Z).
Let Nmax := zlen cells0.
Definition L0 (c : Z) (q : list Z) : Prop :=
  exists x, aget cells0 c = Ok x /\ chain inext0 (o_ifirst x) (o_ilast x) q /\ NoDup q /\ (forall p, In p q -> okp ps inext0 p).
Definition ct0 := ctree (fun _ _ => True) L0.
Hypothesis Hnd : NoDup (preorder T).
Hypothesis Hcell : forall d, In d (preorder T) -> 0 <= d < Nmax.
Hypothesis Hlink : linked (Nmax + 1) (cells_copen cells0) (cells_cnext cells0) T Nmax.
Hypothesis Hct : ct0 T qs.
Hypothesis Hqs : NoDup qs.

Lemma L0_fun : forall c q q', L0 c q -> L0 c q' -> q = q'.
Proof.
  clear. intros c q q' (x & E & C & N & B) (x' & E' & C' & N' & B'). assert (x' = x) by congruence. subst x'.
  eapply chain_det; eauto; intros p Hp; [destruct (B p Hp)|destruct (B' p Hp)]; lia.
Qed.
Lemma ct0_fun : forall t q, ct0 t q -> forall q', ct0 t q' -> q = q'.
Proof.
  clear. induction t as [c ks IH] using rtree_ind2. intros q C q' C'.
  inversion C as [? ? A B|? ? pss Hne A B]; subst; inversion C' as [? ? A' B'|? ? pss' Hne' A' B']; subst; try easy.
  - eapply L0_fun; eauto.
  - f_equal. clear C C' Hne Hne' B B'. revert pss pss' A A'. induction IH as [|k ks Hk Hks IH2]; intros pss pss' A A'; inversion A; inversion A'; subst; auto.
    f_equal; auto.
Qed.

(** What has been written into a cell that has been treated. *)
Definition done (cells : list ocell) (inext : list Z) (d : Z) : Prop :=
  forall ks q, sub (RNode d ks) T -> ct0 (RNode d ks) q ->
  exists x, aget cells d = Ok x /\ describes ndim ps x (lv ps q) /\ (ks = [] -> chain inext (o_ifirst x) (o_ilast x) (lv ps q)).

Record SInv (D : Z -> Prop) (cells : list ocell) (inext : list Z) : Prop := {
  s_len : zlen cells = zlen cells0;
  s_nlen : zlen inext = zlen inext0;
  s_links : forall d x0, aget cells0 d = Ok x0 -> exists x, aget cells d = Ok x /\ o_copen x = o_copen x0 /\ o_cnext x = o_cnext x0 /\ o_level x = o_level x0;
  s_same : forall d, ~ D d -> aget cells d = aget cells0 d;
  s_done : forall d, D d -> In d (preorder T) /\ done cells inext d;
  s_next : forall p, (forall d q, D d -> In d (leaves T) -> L0 d q -> ~ In p q) -> aget inext p = aget inext0 p }.

Lemma stock_step : forall D cells inext c, SInv D cells inext -> In c (preorder T) -> ~ D c ->
  (forall ks k, sub (RNode c ks) T -> In k ks -> D (root k)) ->
  exists cells' inext', stock_cell ndim ps c cells inext = Ok (cells', inext') /\ SInv (fun d => D d \/ d = c) cells' inext'.
Proof.
  intros D cells inext c I Ic Nc Kids. destruct I as [Hlen Hnl Hlk Hsame Hdone Hnx].
  destruct (preorder_sub _ _ Ic) as (ks & Sc).
  destruct (sub_ctree _ _ _ _ Sc qs Hct) as (q & Cq & Iq & Nq). specialize (Nq Hqs).
  destruct (linked_sub Nmax _ _ _ _ Sc Nmax Hlink Hnd) as (nx & Lk & Bn & Nn).
  { lia. } { intros X. specialize (Hcell _ X). lia. } { intros x X. specialize (Hcell _ X). lia. }
  destruct (aget_in cells0 c) as [x0 Ex0]; [apply Hcell, Ic|].
  unfold stock_cell. rewrite (Hsame c Nc), Ex0. cbn [bind].
  pose proof Lk as Lk'. rewrite linked_unfold in Lk'. destruct Lk' as ((y & Ey & SE) & Co & LL).
  unfold cells_cnext in Ey. rewrite Ex0 in Ey. cbn [bind] in Ey. injection Ey as <-.
  unfold cells_copen in Co. rewrite Ex0 in Co. cbn [bind] in Co. injection Co as Co. rewrite Co.
  assert (Ecn : o_cnext x0 = nx) by (destruct SE as [SE|[_ SE]]; [exact SE|lia]).
  assert (Kroot : forall k, In k ks -> In (root k) (preorder T)).
  { intros k Hk. eapply sub_preorder; [exact Sc|]. cbn [preorder]. right. apply in_flat_map. exists k. split; [exact Hk|]. destruct k; now left. }
  assert (Bz : 0 <= c < zlen cells) by (rewrite Hlen; apply Hcell, Ic).
  destruct ks as [|k1 ks'].
  - (* leaf *)
    cbn [Z.eqb Pos.eqb].
    inversion Cq as [? ? _ (x & Ex & Ch & Nd & Okq)|]; subst; [|easy]. assert (x = x0) by congruence. subst x.
    assert (Lfc : In c (leaves T)) by (eapply sub_leaves; [exact Sc|now left]).
    assert (Lc : L0 c q) by (exists x0; auto).
    assert (Hsq : forall p, In p q -> aget inext p = aget inext0 p).
    { intros p Hp. apply Hnx. intros d qd Dd Ld L0d. apply (proj1 (ctree_disjoint _ _ L0_fun) T qs Hct Hnd Hqs c d q qd); auto.
      intros <-. contradiction. }
    assert (Ch1 : chain inext (o_ifirst x0) (o_ilast x0) q).
    { eapply chain_ext; [|exact Ch]. intros p Hp. apply Hsq. now apply in_removelast. }
    assert (Ok1 : forall p, In p q -> okp ps inext p) by (intros p Hp; destruct (Okq p Hp); split; [easy|now rewrite Hnl]).
    destruct (relink_ok ndim ps q _ _ inext Nd Ok1 Ch1) as (f' & l' & n' & R1 & R2 & R3 & R4). rewrite R1. cbn [bind].
    assert (Nlv : NoDup (lv ps q)) by (unfold lv; now apply NoDup_filter).
    destruct (sum_leaf_ok ndim ps (lv ps q) f' l' n' x0 Nlv) as (b' & S1 & S2); [|exact R3|].
    { intros p Hp. unfold lv in Hp. apply filter_In in Hp as [Hp Al]. split; [|exact Al]. destruct (Ok1 p Hp). split; [easy|lia]. }
    rewrite S1. cbn [bind].
    set (xn := set_box (fst b') (snd b') (set_N (zlen (lv ps q)) (set_ilast l' (set_ifirst f' x0)))).
    destruct (aset_spec cells c xn) as (cs & E1 & Z1 & G1 & O1); [exact Bz|]. rewrite E1. cbn [bind].
    exists cs, n'. split; [reflexivity|]. constructor.
    + lia.
    + lia.
    + intros d x1 Ex1. destruct (Z.eq_dec d c) as [->|Ne].
      * exists xn. split; [exact G1|]. assert (x1 = x0) by congruence. subst x1. cbn. auto.
      * rewrite O1 by easy. apply Hlk. exact Ex1.
    + intros d Nd'. rewrite O1 by tauto. apply Hsame. tauto.
    + intros d [Dd| ->].
      * destruct (Hdone d Dd) as [Id Dn]. split; [exact Id|]. intros ks q1 Sd Cd. destruct (Dn ks q1 Sd Cd) as (x & Ex' & Dx & Cx).
        exists x. split; [rewrite O1; [exact Ex'|intros ->; contradiction]|]. split; [exact Dx|]. intros Ek.
        eapply chain_ext; [|exact (Cx Ek)]. intros p Hp. apply R4. apply in_removelast in Hp. unfold lv in Hp. apply filter_In in Hp as [Hp _].
        subst ks. inversion Cd as [? ? _ L0d|]; subst; [|easy].
        assert (Ld : In d (leaves T)) by (eapply sub_leaves; [exact Sd|now left]).
        apply (proj1 (ctree_disjoint _ _ L0_fun) T qs Hct Hnd Hqs d c q1 q); auto. intros ->. contradiction.
      * split; [exact Ic|]. intros ks q1 Sd Cd. assert (ks = []) by (eapply sub_unique; eauto). subst ks.
        assert (q1 = q) by (eapply ct0_fun; eauto). subst q1. exists xn. split; [exact G1|]. split; [|intros _; exact R3].
        split; [reflexivity|]. intros d' Hd'. cbn [o_min o_max xn set_box]. apply S2. exact Hd'.
    + intros p Hp. rewrite R4.
      * apply Hnx. intros d q1 Dd. apply Hp. now left.
      * apply (Hp c q); auto.
  - (* inner cell *)
    cbn [root] in Co. set (ks := k1 :: ks') in *.
    assert (Bk1 : 0 <= root k1) by (apply Hcell, Kroot; now left).
    replace (root k1 =? -1) with false by lia.
    assert (CQ : exists pss, q = concat pss /\ ctrees (fun _ _ => True) L0 ks pss) by (inversion Cq as [|? ? pss Hne Ct _]; eauto).
    destruct CQ as (pss & -> & Ct).
    assert (KQ : exists kq, map fst kq = ks /\ map snd kq = map (lv ps) pss /\ forall kk, In kk kq -> In (fst kk) ks /\ exists q1, ct0 (fst kk) q1 /\ snd kk = lv ps q1).
    { clear - Ct. induction Ct as [|k l q pss Ck Cl IH].
      - exists []. split; [reflexivity|]. split; [reflexivity|]. intros kk [].
      - destruct IH as (kq & E1 & E2 & H). exists ((k, lv ps q) :: kq). cbn [map fst snd]. split; [now f_equal|]. split; [now f_equal|].
        intros kk [<-|Hk]; cbn [fst snd].
        + split; [now left|]. exists q. split; [exact Ck|reflexivity].
        + destruct (H kk Hk) as (A & B). split; [now right|exact B]. }
    destruct KQ as (kq & Ek1 & Ek2 & Hkq).
    assert (Ehead : root k1 = match kq with [] => nx | kk :: _ => root (fst kk) end).
    { destruct kq as [|kk kq]; [discriminate|]. cbn [map] in Ek1. unfold ks in Ek1. injection Ek1 as -> _. reflexivity. }
    rewrite Ehead.
    destruct (sum_children_ok ndim ps kq cells (o_cnext x0) nx 0 (empty_box ndim x0) (S (length cells)) (cells_copen cells0) (cells_cnext cells0)) as (b' & S1 & S2).
    + assert (length (map root ks) <= length cells)%nat.
      { apply nodup_bound.
        - apply roots_nodup. pose proof (sub_nodup _ _ Sc Hnd) as N. cbn [preorder] in N. now inversion N.
        - intros p Hp. apply in_map_iff in Hp as (k & <- & Hk). fold (zlen cells). rewrite Hlen. apply Hcell, Kroot, Hk. }
      rewrite map_length in H. rewrite <- Ek1 in H. rewrite map_length in H. lia.
    + symmetry. exact Ecn.
    + intros kk Hk E. apply Nn. rewrite <- Ecn, <- E. cbn [preorder]. right. apply in_flat_map. exists (fst kk). split; [apply Hkq, Hk|]. destruct (fst kk); now left.
    + rewrite Ek1, Hlen. exact LL.
    + rewrite Hlen. exact Bn.
    + intros kk Hk. destruct (Hkq kk Hk) as [A _]. specialize (Hcell _ (Kroot _ A)). rewrite Hlen. unfold Nmax in Hcell. lia.
    + intros kk Hk. destruct (Hkq kk Hk) as (A & q1 & Cq1 & Eq1).
      pose proof (Kids _ _ Sc A) as Dk. destruct (Hdone _ Dk) as [_ Dn]. destruct (fst kk) as [e l] eqn:Ef. cbn [root] in *.
      assert (Se : sub (RNode e l) T) by (eapply sub_trans; [exact Sc|]; econstructor; [exact A|constructor]).
      destruct (Dn l q1 Se Cq1) as (x & Ex & Dx & _). exists x. split; [exact Ex|]. split; [rewrite Eq1; exact Dx|].
      assert (Ie : In e (preorder T)) by (eapply sub_preorder; [exact Se|now left]).
      destruct (aget_in cells0 e) as [xe Exe]; [apply Hcell, Ie|]. destruct (Hlk e xe Exe) as (x' & Ex' & _ & Cn & _).
      unfold cells_cnext. rewrite Exe. cbn [bind]. congruence.
    + apply empty_bounded.
    + rewrite S1. cbn [bind].
      assert (Elv : concat (map snd kq) = lv ps (concat pss)).
      { rewrite Ek2. clear. induction pss; cbn [map concat]; [reflexivity|]. now rewrite IHpss, lv_app. }
      rewrite Elv in *. replace (0 + zlen (lv ps (concat pss))) with (zlen (lv ps (concat pss))) by lia.
      set (xn := set_box (fst b') (snd b') (set_N (zlen (lv ps (concat pss))) x0)).
      destruct (aset_spec cells c xn) as (cs & E1 & Z1 & G1 & O1); [exact Bz|]. rewrite E1. cbn [bind].
      exists cs, inext. split; [reflexivity|]. constructor.
      * lia.
      * lia.
      * intros d x1 Ex1. destruct (Z.eq_dec d c) as [->|Ne].
        -- exists xn. split; [exact G1|]. assert (x1 = x0) by congruence. subst x1. cbn. auto.
        -- rewrite O1 by easy. apply Hlk. exact Ex1.
      * intros d Nd'. rewrite O1 by tauto. apply Hsame. tauto.
      * intros d [Dd| ->].
        -- destruct (Hdone d Dd) as [Id Dn]. split; [exact Id|]. intros ks1 q1 Sd Cd. destruct (Dn ks1 q1 Sd Cd) as (x & Ex & Dx & Cx).
           exists x. split; [rewrite O1; [exact Ex|intros ->; contradiction]|]. auto.
        -- split; [exact Ic|]. intros ks1 q1 Sd Cd. assert (ks1 = ks) by (eapply sub_unique; eauto). subst ks1.
           assert (q1 = concat pss) by (eapply ct0_fun; eauto). subst q1. exists xn. split; [exact G1|]. split; [|discriminate].
           split; [reflexivity|]. intros d' Hd'. cbn [o_min o_max xn set_box]. destruct (S2 d' Hd') as [-> ->]. destruct (empty_box_spec ndim x0 d' Hd') as [-> ->].
           split; [apply Rmin_right, blo_big|apply Rmax_right, bhi_big].
      * intros p Hp. apply Hnx. intros d q1 Dd. apply Hp. now left.
Qed.
End Stock.

Lemma SInv_ext : forall ndim ps cells0 inext0 T D D' cells inext, (forall d, D d <-> D' d) ->
  SInv ndim ps cells0 inext0 T D cells inext -> SInv ndim ps cells0 inext0 T D' cells inext.
Proof.
  intros ndim ps cells0 inext0 T D D' cells inext E [A B C F G H]. constructor; auto.
  - intros d Nd. apply F. now rewrite E.
  - intros d Dd. apply G. now rewrite E.
  - intros p Hp. apply H. intros d q Dd. apply Hp. now apply E.
Qed.

Section Levels.
Variables (ndim : nat) (ps : list opart) (t : octree) (T : rtree) (qs : list Z).
Hypothesis Hpre : forall d, In d (preorder T) <-> 0 <= d < o_Ncell t.
Hypothesis Hnd : NoDup (preorder T).
Hypothesis Hroom : o_Ncell t <= zlen (o_cells t).
Hypothesis Hlink : linked (zlen (o_cells t) + 1) (cells_copen (o_cells t)) (cells_cnext (o_cells t)) T (zlen (o_cells t)).
Hypothesis Hct : ct0 ps (o_cells t) (o_inext t) T qs.
Hypothesis Hqs : NoDup qs.
Hypothesis Hdepth : forall d n, depth_of T d n -> exists x, aget (o_cells t) d = Ok x /\ o_level x = n /\ 0 <= n.
Hypothesis Hlevs : levs t (o_ltot t).
Hypothesis Hmax : forall d x, 0 <= d < o_Ncell t -> aget (o_cells t) d = Ok x -> 0 <= o_level x <= o_ltot t.
Hypothesis Hltot : 0 <= o_ltot t.

Definition level0 (d : Z) : Z := match aget (o_cells t) d with Ok x => o_level x | _ => -1 end.
Definition upto (l c d : Z) : Prop := 0 <= d < o_Ncell t /\ (l < level0 d \/ (level0 d = l /\ d < c)).
Let INV := SInv ndim ps (o_cells t) (o_inext t) T.

Lemma kids_level : forall c ks k, sub (RNode c ks) T -> In k ks -> 0 <= root k < o_Ncell t /\ level0 (root k) = level0 c + 1.
Proof.
  intros c ks k S Hk. split.
  - apply Hpre. eapply sub_preorder; [exact S|]. cbn [preorder]. right. apply in_flat_map. exists k. split; [exact Hk|]. destruct k; now left.
  - destruct (sub_depth _ _ _ S) as (n & D & K). destruct (Hdepth _ _ D) as (x & Ex & Lx & _). destruct (Hdepth _ _ (K k Hk)) as (y & Ey & Ly & _).
    unfold level0. rewrite Ex, Ey. lia.
Qed.

Lemma stock_cells_ok : forall n l c cells inext, INV (upto l c) cells inext -> 0 <= c -> c + Z.of_nat n <= o_Ncell t ->
  (forall d, c <= d < c + Z.of_nat n -> level0 d = l) ->
  exists cells' inext', stock_cells ndim ps n c cells inext = Ok (cells', inext') /\ INV (upto l (c + Z.of_nat n)) cells' inext'.
Proof.
  induction n; intros l c cells inext I B Bn Lv.
  - exists cells, inext. split; [reflexivity|]. now replace (c + Z.of_nat 0) with c by lia.
  - cbn [stock_cells].
    destruct (stock_step ndim ps (o_cells t) (o_inext t) T qs Hnd) with (D := upto l c) (cells := cells) (inext := inext) (c := c) as (c1 & n1 & E1 & I1); auto.
    { intros d Hd. apply Hpre in Hd. lia. }
    { apply Hpre. lia. }
    { unfold upto. rewrite Lv by lia. lia. }
    { intros ks k S Hk. destruct (kids_level _ _ _ S Hk) as [K1 K2]. split; [exact K1|]. left. rewrite K2, Lv by lia. lia. }
    rewrite E1. cbn [bind].
    destruct (IHn l (c + 1) c1 n1) as (c2 & n2 & E2 & I2); try lia.
    + eapply SInv_ext; [|exact I1]. intros d. cbn beta. unfold upto. split.
      * intros [[A [X|[X Y]]]| ->]; [tauto|split; [tauto|right; lia]|]. split; [lia|]. right. split; [apply Lv|]; lia.
      * intros [A [X|[X Y]]]; [tauto|]. destruct (Z.eq_dec d c); [tauto|]. left. split; [tauto|right; lia].
    + intros d Hd. apply Lv. lia.
    + exists c2, n2. split; [exact E2|]. now replace (c + Z.of_nat (S n)) with (c + 1 + Z.of_nat n) by lia.
Qed.

Lemma stock_levels_ok : forall n cells inext, Z.of_nat n <= o_ltot t + 1 -> INV (upto (Z.of_nat n - 1) 0) cells inext ->
  exists cells' inext', stock_levels ndim ps n t cells inext = Ok (cells', inext') /\ INV (upto (-1) 0) cells' inext'.
Proof.
  induction n; intros cells inext B I.
  - exists cells, inext. split; [reflexivity|exact I].
  - cbn [stock_levels]. destruct (Hlevs (Z.of_nat n)) as (a & b & Ea & Eb & Bab & Bb & Lv); [lia|]. rewrite Ea, Eb. cbn [bind].
    assert (LV : forall d, 0 <= d < o_Ncell t -> (a <= d <= b <-> level0 d = Z.of_nat n)).
    { intros d Hd. destruct (aget_in (o_cells t) d) as [x Ex]; [lia|]. unfold level0. rewrite Ex. now apply Lv. }
    destruct (stock_cells_ok (Z.to_nat (b - a + 1)) (Z.of_nat n) a cells inext) as (c1 & n1 & E1 & I1); try lia.
    + eapply SInv_ext; [|exact I]. intros d. unfold upto. replace (Z.of_nat (S n) - 1) with (Z.of_nat n) by lia. split.
      * intros [A [X|X]]; [tauto|lia].
      * intros [A [X|[X Y]]]; [tauto|]. apply LV in X; lia.
    + intros d Hd. apply LV; lia.
    + rewrite E1. cbn [bind]. apply IHn; [lia|]. eapply SInv_ext; [|exact I1]. intros d. unfold upto. split.
      * intros [A [X|[X Y]]]; (split; [exact A|]); lia.
      * intros [A [X|X]]; (split; [exact A|]); [|lia]. destruct (Z.eq_dec (level0 d) (Z.of_nat n)) as [E|E]; [|lia]. right. split; [exact E|]. apply LV in E; lia.
Qed.

Lemma stock_init : INV (upto (o_ltot t) 0) (o_cells t) (o_inext t).
Proof.
  assert (No : forall d, ~ upto (o_ltot t) 0 d).
  { intros d [A B]. destruct (aget_in (o_cells t) d) as [x Ex]; [lia|]. unfold level0 in B. rewrite Ex in B. specialize (Hmax d x A Ex). lia. }
  constructor; auto; [|intros d Dd; now destruct (No d)].
  intros d x0 E. eauto.
Qed.

Lemma stock_ok : exists cells' inext', StockTree ndim ps t = Ok {| o_cells := cells'; o_inext := inext'; o_first := o_first t; o_last := o_last t;
    o_Ncell := o_Ncell t; o_ltot := o_ltot t; o_Ntotmax := o_Ntotmax t |} /\
  INV (fun d => In d (preorder T)) cells' inext'.
Proof.
  unfold StockTree. destruct (stock_levels_ok (S (Z.to_nat (o_ltot t))) (o_cells t) (o_inext t)) as (c1 & n1 & E1 & I1); [lia| |].
  - replace (Z.of_nat (S (Z.to_nat (o_ltot t))) - 1) with (o_ltot t) by lia. apply stock_init.
  - exists c1, n1. rewrite E1. cbn [bind]. split; [reflexivity|]. eapply SInv_ext; [|exact I1]. intros d. rewrite Hpre. unfold upto. split; [easy|].
    intros Hd. split; [exact Hd|]. left. destruct (aget_in (o_cells t) d) as [x Ex]; [lia|]. unfold level0. rewrite Ex. specialize (Hmax d x Hd Ex). lia.
Qed.
End Levels.

Lemma zlen_filter : forall (A : Type) (f : A -> bool) q, zlen (filter f q) <= zlen q.
Proof. intros A f q. unfold zlen. induction q; cbn [filter length]; [lia|]. destruct (f a); cbn [length]; lia. Qed.

Lemma ctree_sub_map : forall (P L P' L' : Z -> list Z -> Prop) (f : list Z -> list Z), f [] = [] -> (forall a b, f (a ++ b) = f a ++ f b) ->
  forall t q, ctree P L t q ->
  (forall c ks q, sub (RNode c ks) t -> ctree P L (RNode c ks) q -> P' c (f q)) ->
  (forall c q, sub (RNode c []) t -> ctree P L (RNode c []) q -> L' c (f q)) -> ctree P' L' t (f q).
Proof.
  intros P L P' L' f F0 F1. induction t as [c ks IH] using rtree_ind2. intros q C HP HL.
  inversion C as [? ? A B|? ? pss Hne A B]; subst.
  - constructor; [eapply HP; [constructor|exact C]|apply HL; [constructor|exact C]].
  - assert (Ef : f (concat pss) = concat (map f pss)).
    { clear - F0 F1. induction pss; cbn [concat map]; [exact F0|]. now rewrite F1, IHpss. }
    assert (K : ctrees P' L' ks (map f pss)).
    { assert (HP2 : forall k, In k ks -> forall e l q, sub (RNode e l) k -> ctree P L (RNode e l) q -> P' e (f q)).
      { intros k Hk e l q Sb. apply HP. econstructor; eauto. }
      assert (HL2 : forall k, In k ks -> forall e q, sub (RNode e []) k -> ctree P L (RNode e []) q -> L' e (f q)).
      { intros k Hk e q Sb. apply HL. econstructor; eauto. }
      clear - A IH HP2 HL2. revert pss A. induction ks as [|k ks IHk]; intros pss A; inversion A; subst; cbn [map]; constructor.
      - apply (Forall_inv IH); [assumption|eapply HP2|eapply HL2]; now left.
      - apply IHk; [exact (Forall_inv_tail IH)| | |assumption]; intros; [eapply HP2|eapply HL2]; eauto; now right. }
    rewrite Ef. constructor; [exact Hne|exact K|]. rewrite <- Ef. eapply HP; [constructor|exact C].
Qed.

Section Final.
Variables (ndim : nat) (ps : list opart) (Nleafmax : Z) (q0 : list Z) (ni Nmax : Z) (s0 : R) (in_root in_cube : Prop).
Hypothesis Hnd0 : NoDup q0.
Hypothesis Hq0 : forall p, In p q0 -> 0 <= p < zlen ps /\ 0 <= p < ni.

Lemma stock_final : forall t T lv', LInv ndim ps Nleafmax q0 ni Nmax s0 in_root in_cube t T [] lv' ->
  exists t', StockTree ndim ps t = Ok t' /\ oct_shape t T /\ oct_shape t' T /\ o_Ncell t' = o_Ncell t /\ zlen (o_cells t') = zlen (o_cells t) /\
    (o_first t' = o_first t /\ o_last t' = o_last t /\ o_Ntotmax t' = o_Ntotmax t /\ zlen (o_inext t') = zlen (o_inext t)) /\
    exists qs, Permutation qs q0 /\ ctree (holds ndim ps in_root t) (S_Oct.leaf_list Nleafmax q0 t) T qs /\
      ctree (stocked ndim ps t') (live_list Nleafmax ps q0 t') T (lv ps qs).
Proof.
  intros t T l' I. destruct I as [[Il In0 Inc Ipre Ilink Ibr Irt (qs & Ict & Iperm) Ifr _ _ _ Idep] Hlt _ _ Hlevs _ Hlv Hmax].
  assert (Nqs : NoDup qs) by (eapply Permutation_NoDup; [symmetry; exact Iperm|exact Hnd0]).
  assert (Npre : NoDup (preorder T)) by (eapply Permutation_NoDup; [symmetry; exact Ipre|apply zseq_nodup]).
  assert (Pre : forall d, In d (preorder T) <-> 0 <= d < o_Ncell t).
  { intros d. split; intros H.
    - apply (Permutation_in _ Ipre) in H. apply zseq_in in H. lia.
    - apply (Permutation_in _ (Permutation_sym Ipre)). apply zseq_in. lia. }
  assert (Cgrown : ctree (holds ndim ps in_root t) (S_Oct.leaf_list Nleafmax q0 t) T qs).
  { apply (ctree_sub_map _ _ _ _ (fun q => q) eq_refl (fun a b => eq_refl) _ _ Ict).
    - intros c ks q Sb C. destruct (ctree_root _ _ _ _ C) as (x & Ex & A & B & _). exists x. auto.
    - intros c q Sb C. inversion C as [? ? _ (x & Ex & A & B & Nx & D)|]; subst; [|easy]. exists x. destruct D as [D|[[]|D]]; [auto|]. exfalso.
      assert (Z1 : In c (preorder T)) by (eapply sub_preorder; [exact Sb|now left]). apply Pre in Z1. lia. }
  assert (Inq : forall p, In p qs -> 0 <= p < zlen ps /\ 0 <= p < ni) by (intros p Hp; apply Hq0; eapply Permutation_in; eauto).
  assert (C0 : ct0 ps (o_cells t) (o_inext t) T qs).
  { apply (ctree_sub_map _ _ _ _ (fun q => q) eq_refl (fun a b => eq_refl) _ _ Cgrown); [easy|].
    intros c q Sb C. inversion C as [? ? _ (x & Ex & A & B & D)|]; subst; [|easy]. exists x. split; [exact Ex|]. split; [exact A|].
    split; [eapply subseq_nodup; eauto|]. intros p Hp. destruct (Hq0 p) as [Y1 Y2]; [eapply subseq_in; eauto|]. unfold okp. lia. }
  assert (Ms : forall d x, 0 <= d < o_Ncell t -> aget (o_cells t) d = Ok x -> 0 <= o_level x <= o_ltot t) by (rewrite Hlt; exact Hmax).
  assert (Hlevs2 : levs t (o_ltot t)) by (rewrite Hlt; exact Hlevs).
  assert (Lk : linked (zlen (o_cells t) + 1) (cells_copen (o_cells t)) (cells_cnext (o_cells t)) T (zlen (o_cells t))) by (rewrite Il; exact Ilink).
  destruct (stock_ok ndim ps t T qs Pre Npre) as (cs & nx & E & [S1 S2 S3 S4 S5 S6]); auto; try lia.
  set (t' := {| o_cells := cs; o_inext := nx; o_first := o_first t; o_last := o_last t; o_Ncell := o_Ncell t; o_ltot := o_ltot t; o_Ntotmax := o_Ntotmax t |}) in *.
  assert (Sh : oct_shape t T).
  { constructor; auto; try lia.
    - eapply linked_weaken; [|exact Lk]. lia.
    - intros d n D. destruct (Idep d n D) as (x & Ex & Lx & B). assert (Id : In d (preorder T)).
      { clear - D. induction D as [|? ? ? ? ? Hk Hd IH]; [now left|]. cbn [preorder]. right. apply in_flat_map. eauto. }
      apply Pre in Id. specialize (Ms d x Id Ex). split; [lia|eauto].
    - intros l d x Bl Bd Ex. destruct (Hlevs2 l Bl) as (a & b & Ea & Eb & Bab & Bb & Lv). split.
      + intros El. exists a, b. split; [exact Ea|]. split; [exact Eb|]. now apply (Lv d x Bd Ex).
      + intros (a' & b' & Ea' & Eb' & B'). apply (Lv d x Bd Ex). assert (a' = a) by congruence. assert (b' = b) by congruence. lia. }
  assert (Sh' : oct_shape t' T).
  { destruct Sh as [A1 A2 A3 A4 A5 A6 A7 A8]. constructor; cbn [t' o_cells o_Ncell o_ltot o_first o_last]; auto; try lia.
    - rewrite S1. eapply linked_ext; [|exact A4]. intros c Hc. apply Pre in Hc. destruct (aget_in (o_cells t) c) as [x Ex]; [lia|].
      destruct (S3 c x Ex) as (x' & Ex' & Y1 & Y2 & Y3). unfold copen_of, cnext_of. cbn [t' o_cells]. rewrite Ex, Ex'. cbn [bind]. now rewrite Y1, Y2.
    - intros d n D. destruct (A6 d n D) as (B & x & Ex & Lx). split; [exact B|]. destruct (S3 d x Ex) as (x' & Ex' & Y1 & Y2 & Y3). exists x'. split; [exact Ex'|lia].
    - intros l d x' Bl Bd Ex'. destruct (aget_in (o_cells t) d) as [x Ex]; [lia|]. destruct (S3 d x Ex) as (x2 & Ex2 & Y1 & Y2 & Y3).
      assert (x2 = x') by congruence. subst x2. rewrite Y3. now apply A8. }
  exists t'. split; [exact E|]. split; [exact Sh|]. split; [exact Sh'|]. split; [reflexivity|]. split; [exact S1|]. split; [cbn [t' o_first o_last o_Ntotmax o_inext]; auto|].
  exists qs. split; [exact Iperm|]. split; [exact Cgrown|].
  assert (Lap : forall a b, lv ps (a ++ b) = lv ps a ++ lv ps b) by (intros; apply lv_app).
  assert (Cb : ctree (fun c q => L0 ps (o_cells t) (o_inext t) c q \/ True) (fun c q => L0 ps (o_cells t) (o_inext t) c q /\ S_Oct.leaf_list Nleafmax q0 t c q) T qs).
  { apply (ctree_sub_map _ _ _ _ (fun q => q) eq_refl (fun a b => eq_refl) _ _ Cgrown); [now right|].
    intros c q Sb C. inversion C as [? ? _ (x & Ex & A & B & D)|]; subst; [|easy]. split; [|exists x; auto]. exists x. split; [exact Ex|]. split; [exact A|].
    split; [eapply subseq_nodup; eauto|]. intros p Hp. destruct (Hq0 p) as [Y1 Y2]; [eapply subseq_in; eauto|]. unfold okp. lia. }
  apply (ctree_sub_map _ _ _ _ (lv ps) eq_refl Lap _ _ Cb).
  - intros c ks q Sb C.
    assert (Ic : In c (preorder T)) by (eapply sub_preorder; [exact Sb|now left]).
    assert (Cc : ct0 ps (o_cells t) (o_inext t) (RNode c ks) q).
    { eapply ctree_impl; [| |exact C]; [easy|]. intros ? ? [? _]. assumption. }
    destruct (S5 c Ic) as [_ Dn]. destruct (Dn ks q Sb Cc) as (x & Ex & (Nx & Bx) & _). exists x. split; [exact Ex|]. split; [exact Nx|].
    apply tight_box; [|exact Bx]. intros p Hp. unfold lv in Hp. apply filter_In in Hp as [Hp _].
    destruct (sub_ctree _ _ _ _ Sb qs C0) as (q1 & C1 & I1 & _). assert (q1 = q) by (eapply ct0_fun; eauto). subst q1. now apply Inq, I1.
  - intros c q Sb C.
    assert (Ic : In c (preorder T)) by (eapply sub_preorder; [exact Sb|now left]).
    inversion C as [? ? _ (Lq & x & Ex & A & B & D)|]; subst; [|easy].
    assert (Cc : ct0 ps (o_cells t) (o_inext t) (RNode c []) q) by (constructor; [easy|exact Lq]).
    destruct (S5 c Ic) as [_ Dn]. destruct (Dn [] q Sb Cc) as (x' & Ex' & _ & Ch). exists x'. split; [exact Ex'|]. split; [now apply Ch|].
    split; [eapply subseq_trans; [exact B|apply subseq_filter]|]. split; [pose proof (zlen_filter _ (alive ps) q); unfold lv; lia|].
    intros p Hp. unfold lv in Hp. now apply filter_In in Hp.
Qed.
End Final.
