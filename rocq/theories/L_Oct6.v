(** StockTree of the oct-tree. *)
From Verif Require Import Prelude L_Prelude Vec M_Box S_Tree L_Tree L_Search L_KDBuild L_KDDivide L_KDTop L_StockTree M_Oct S_Oct L_Oct L_Oct2 L_Oct3 L_Oct4.
From Coq Require Import Reals Permutation Lra.
Local Open Scope Z_scope.

(** ** Subtrees *)
Inductive sub : rtree -> rtree -> Prop :=
| sub_refl : forall t, sub t t
| sub_kid : forall t c ks k, In k ks -> sub t k -> sub t (RNode c ks).

Lemma sub_preorder : forall t T, sub t T -> forall x, In x (preorder t) -> In x (preorder T).
Proof. induction 1; intros x Hx; auto. cbn [preorder]. right. apply in_flat_map. eauto. Qed.
Lemma sub_leaves : forall t T, sub t T -> forall x, In x (leaves t) -> In x (leaves T).
Proof. induction 1; intros x Hx; auto. rewrite leaves_node by (intros ->; easy). apply in_flat_map. eauto. Qed.
Lemma preorder_sub : forall T d, In d (preorder T) -> exists ks, sub (RNode d ks) T.
Proof.
  induction T as [c ks IH] using rtree_ind2. intros d [<-|H].
  - exists ks. constructor.
  - apply in_flat_map in H as (k & Hk & Hd). rewrite Forall_forall in IH. destruct (IH k Hk d Hd) as (ks' & S). exists ks'. econstructor; eauto.
Qed.
Lemma leaves_sub : forall T d, In d (leaves T) -> sub (RNode d []) T.
Proof.
  induction T as [c ks IH] using rtree_ind2. intros d H. destruct ks as [|k ks].
  - destruct H as [<-|[]]. constructor.
  - rewrite leaves_node in H by easy. apply in_flat_map in H as (k' & Hk & Hd). rewrite Forall_forall in IH. econstructor; eauto.
Qed.
Lemma sub_trans : forall t T, sub t T -> forall s, sub s t -> sub s T.
Proof. induction 1; intros s S; auto. econstructor; eauto. Qed.

Lemma kids_nodup : forall c ks, NoDup (preorder (RNode c ks)) -> forall k, In k ks -> NoDup (preorder k).
Proof.
  intros c ks N k Hk. cbn [preorder] in N. inversion N as [|? ? _ N2]. apply in_split in Hk as (l1 & l2 & ->).
  rewrite flat_map_app in N2. cbn [flat_map] in N2. apply nodup_app_inv in N2 as (_ & N2 & _). now apply nodup_app_inv in N2 as (N2 & _ & _).
Qed.
Lemma kids_disj : forall c ks, NoDup (preorder (RNode c ks)) -> forall k k' d, In k ks -> In k' ks -> In d (preorder k) -> In d (preorder k') -> k = k'.
Proof.
  intros c ks N. assert (N2 : NoDup (flat_map preorder ks)) by (now inversion N). clear N. induction ks as [|a ks IH]; intros k k' d Hk Hk' D D'; [easy|].
  cbn [flat_map] in N2. apply nodup_app_inv in N2 as (N3 & N4 & N5).
  assert (X : forall m, In m ks -> In d (preorder m) -> In d (flat_map preorder ks)) by (intros; apply in_flat_map; eauto).
  destruct Hk as [<-|Hk], Hk' as [<-|Hk']; auto.
  - exfalso. eapply N5; eauto.
  - exfalso. eapply N5; eauto.
  - eapply IH; eauto.
Qed.

Lemma sub_unique : forall T, NoDup (preorder T) -> forall d ks ks', sub (RNode d ks) T -> sub (RNode d ks') T -> ks = ks'.
Proof.
  induction T as [c l IH] using rtree_ind2. intros N d ks ks' S S'.
  assert (R : forall m, sub (RNode d m) (RNode c l) -> (d = c /\ m = l) \/ (exists k, In k l /\ sub (RNode d m) k)).
  { intros m Sm. inversion Sm; subst; [now left|right; eauto]. }
  assert (Rt : forall m k, In k l -> sub (RNode d m) k -> In d (preorder k)).
  { intros m k _ Sm. eapply sub_preorder; [exact Sm|]. now left. }
  assert (Nc : forall k, In k l -> In c (preorder k) -> False).
  { intros k Hk Hc. cbn [preorder] in N. inversion N as [|? ? N1 _]. apply N1. apply in_flat_map. eauto. }
  destruct (R ks S) as [[E1 ->]|(k & Hk & Sk)], (R ks' S') as [[E2 ->]|(k' & Hk' & Sk')]; auto.
  - exfalso. subst d. eapply Nc; eauto.
  - exfalso. subst d. eapply Nc; eauto.
  - assert (k = k') by (eapply kids_disj; eauto). subst k'. rewrite Forall_forall in IH. eapply IH; eauto. eapply kids_nodup; eauto.
Qed.
Lemma sub_nodup : forall t T, sub t T -> NoDup (preorder T) -> NoDup (preorder t).
Proof. induction 1; intros N; auto. apply IHsub. eapply kids_nodup; eauto. Qed.

Lemma sub_depth : forall d ks T, sub (RNode d ks) T -> exists n, depth_of T d n /\ forall k, In k ks -> depth_of T (root k) (n + 1).
Proof.
  intros d ks T S. remember (RNode d ks) as t eqn:Et. revert d ks Et. induction S; intros d ks' ->.
  - exists 0. split; [constructor|]. intros k Hk. destruct k as [e l]. cbn [root]. econstructor; [exact Hk|constructor].
  - destruct (IHS d ks' eq_refl) as (n & D & K). exists (n + 1). split; [econstructor; eauto|]. intros k' Hk'. econstructor; eauto.
Qed.

Lemma linked_sub : forall Nm co cn t T, sub t T -> forall next, linked (Nm + 1) co cn T next -> NoDup (preorder T) -> next <= Nm ->
  ~ In next (preorder T) -> (forall x, In x (preorder T) -> x <= Nm) ->
  exists nx, linked (Nm + 1) co cn t nx /\ nx <= Nm /\ ~ In nx (preorder t).
Proof.
  intros Nm co cn. induction 1 as [|t c ks k Hk S IH]; intros next L N B NI BX; [eauto|].
  rewrite linked_unfold in L. destruct L as (_ & _ & L).
  pose proof (kids_nodup _ _ N k Hk) as Nk.
  apply in_split in Hk as (l1 & l2 & ->).
  apply (proj1 (linked_list_app _ _ _ _ _ _)) in L. destruct L as [_ L]. cbn [linked_list] in L. destruct L as [L _].
  assert (IN2 : forall x, In x (preorder k) \/ In x (flat_map preorder l2) -> In x (preorder (RNode c (l1 ++ k :: l2)))).
  { intros x Hx. cbn [preorder]. right. rewrite flat_map_app. cbn [flat_map]. rewrite !in_app_iff. tauto. }
  apply (IH _ L); auto.
  - destruct l2 as [|k2 l2]; [exact B|]. apply BX, IN2. right. cbn [flat_map]. apply in_or_app. left. destruct k2. now left.
  - destruct l2 as [|k2 l2]; [intros X; apply NI, IN2; now left|].
    intros X. cbn [preorder] in N. inversion N as [|? ? _ N2]. rewrite flat_map_app in N2. cbn [flat_map] in N2.
    apply nodup_app_inv in N2 as (_ & N2 & _). apply nodup_app_inv in N2 as (_ & _ & N2). apply (N2 _ X). apply in_or_app. left. destruct k2. now left.
Qed.

Section SubCT.
Variables (P L : Z -> list Z -> Prop).
Lemma ctrees_kid : forall ks pss, ctrees P L ks pss -> forall k, In k ks -> exists q, ctree P L k q /\ (forall p, In p q -> In p (concat pss)) /\ (NoDup (concat pss) -> NoDup q).
Proof.
  induction ks as [|a ks IH]; intros pss C k Hk; [easy|]. inversion C as [|? ? ps0 pss0 HT HS]; subst. cbn [concat]. destruct Hk as [<-|Hk].
  - exists ps0. split; [easy|]. split; [intros; apply in_or_app; now left|]. intros N. now apply nodup_app_inv in N as (N & _ & _).
  - destruct (IH _ HS k Hk) as (q & A & B & D). exists q. split; [easy|]. split; [intros; apply in_or_app; auto|].
    intros N. apply nodup_app_inv in N as (_ & N & _). auto.
Qed.
Lemma sub_ctree : forall t T, sub t T -> forall qs, ctree P L T qs -> exists q, ctree P L t q /\ (forall p, In p q -> In p qs) /\ (NoDup qs -> NoDup q).
Proof.
  induction 1 as [|t c ks k Hk S IH]; intros qs C; [eauto|].
  inversion C as [|? ? pss Hne HT HP]; subst; [easy|]. destruct (ctrees_kid _ _ HT k Hk) as (q & A & B & D). destruct (IH q A) as (q' & A' & B' & D'). exists q'. auto.
Qed.

Hypothesis Lfun : forall c q q', L c q -> L c q' -> q = q'.
Lemma ctree_disjoint :
  (forall t qs, ctree P L t qs -> NoDup (preorder t) -> NoDup qs -> forall c d qc qd, In c (leaves t) -> In d (leaves t) -> c <> d ->
     L c qc -> L d qd -> forall p, In p qc -> ~ In p qd) /\
  (forall ks pss, ctrees P L ks pss -> NoDup (flat_map preorder ks) -> NoDup (concat pss) -> forall c d qc qd, In c (flat_map leaves ks) -> In d (flat_map leaves ks) -> c <> d ->
     L c qc -> L d qd -> forall p, In p qc -> ~ In p qd).
Proof.
  apply ctree_mutind.
  - intros c ps _ _ _ _ a b qc qd [<-|[]] [<-|[]]. congruence.
  - intros c ks pss Hne _ IH _ N Nq. rewrite leaves_node by easy. apply IH; auto. cbn [preorder] in N. now inversion N.
  - easy.
  - intros k ks ps pss Ck IH1 Cs IH2 N Nq c d qc qd Hc Hd Ne Lc Ld p Hp Hq. cbn [flat_map concat] in *.
    apply nodup_app_inv in N as (N1 & N2 & N3). apply nodup_app_inv in Nq as (Q1 & Q2 & Q3).
    assert (A1 : forall x qx, In x (leaves k) -> L x qx -> forall p, In p qx -> In p ps).
    { intros x qx Hx Lx. destruct (proj1 (ctree_leaf_of P L) _ _ Ck x Hx) as (q' & Lq & _ & I'). rewrite (Lfun x qx q' Lx Lq). exact I'. }
    assert (A2 : forall x qx, In x (flat_map leaves ks) -> L x qx -> forall p, In p qx -> In p (concat pss)).
    { intros x qx Hx Lx. destruct (proj2 (ctree_leaf_of P L) _ _ Cs x Hx) as (q' & Lq & _ & I'). rewrite (Lfun x qx q' Lx Lq). exact I'. }
    apply in_app_or in Hc as [Hc|Hc]; apply in_app_or in Hd as [Hd|Hd].
    + exact (IH1 N1 Q1 c d qc qd Hc Hd Ne Lc Ld p Hp Hq).
    + apply (Q3 p); eauto.
    + apply (Q3 p); eauto.
    + exact (IH2 N2 Q2 c d qc qd Hc Hd Ne Lc Ld p Hp Hq).
Qed.
End SubCT.

(** ** The live particles of a leaf *)
Section Stock.
Variables (ndim : nat) (ps : list opart).
Definition lv (q : list Z) : list Z := filter (alive ps) q.
Definition px (p : Z) : vec := match aget ps p with Ok y => op_r y | _ => fun _ => 0%R end.
Definition blo (q : list Z) (d : nat) : R := fold_right (fun p m => Rmin (px p d) m) big_number q.
Definition bhi (q : list Z) (d : nat) : R := fold_right (fun p m => Rmax (px p d) m) (- big_number)%R q.

Lemma lv_app : forall a b, lv (a ++ b) = lv a ++ lv b.
Proof. intros. apply filter_app. Qed.
Lemma blo_big : forall q d, (blo q d <= big_number)%R.
Proof. induction q; intros d; cbn [blo fold_right]; [lra|]. eapply Rle_trans; [apply Rmin_r|apply IHq]. Qed.
Lemma bhi_big : forall q d, (- big_number <= bhi q d)%R.
Proof. induction q; intros d; cbn [bhi fold_right]; [lra|]. eapply Rle_trans; [apply IHq|apply Rmax_r]. Qed.
Lemma blo_app : forall a b d, blo (a ++ b) d = Rmin (blo a d) (blo b d).
Proof.
  induction a; intros b d; cbn [app].
  - cbn [blo fold_right]. rewrite Rmin_right; [reflexivity|apply blo_big].
  - change (blo (a :: a0 ++ b) d) with (Rmin (px a d) (blo (a0 ++ b) d)). change (blo (a :: a0) d) with (Rmin (px a d) (blo a0 d)).
    rewrite IHa. unfold Rmin. repeat destruct (Rle_dec _ _); lra.
Qed.
Lemma bhi_app : forall a b d, bhi (a ++ b) d = Rmax (bhi a d) (bhi b d).
Proof.
  induction a; intros b d; cbn [app].
  - cbn [bhi fold_right]. rewrite Rmax_right; [reflexivity|apply bhi_big].
  - change (bhi (a :: a0 ++ b) d) with (Rmax (px a d) (bhi (a0 ++ b) d)). change (bhi (a :: a0) d) with (Rmax (px a d) (bhi a0 d)).
    rewrite IHa. unfold Rmax. repeat destruct (Rle_dec _ _); lra.
Qed.

Lemma tight_box : forall q lo hi, (forall p, In p q -> 0 <= p < zlen ps) -> (forall d, (d < ndim)%nat -> lo d = blo q d /\ hi d = bhi q d) -> tight ndim ps q lo hi.
Proof.
  intros q lo hi B E d Hd. destruct (E d Hd) as [-> ->]. clear E.
  assert (PX : forall p y, aget ps p = Ok y -> px p d = op_r y d) by (intros p y Ey; unfold px; now rewrite Ey).
  induction q as [|a q IH]; [split; [easy|congruence]|].
  assert (Bq : forall p, In p q -> 0 <= p < zlen ps) by (intros; apply B; now right). destruct (IH Bq) as [I1 I2]. clear IH.
  change (blo (a :: q) d) with (Rmin (px a d) (blo q d)). change (bhi (a :: q) d) with (Rmax (px a d) (bhi q d)).
  destruct (aget_in ps a) as [ya Ea]; [apply B; now left|]. rewrite (PX a ya Ea).
  split.
  - intros p y [<-|Hp] Ey.
    + assert (y = ya) by congruence. subst y. split; [apply Rmin_l|apply Rmax_l].
    + destruct (I1 p y Hp Ey). split; [eapply Rle_trans; [apply Rmin_r|eassumption]|eapply Rle_trans; [eassumption|apply Rmax_r]].
  - intros _ RG. destruct q as [|b q].
    + cbn [blo bhi fold_right]. specialize (RG a ya (or_introl eq_refl) Ea).
      split; exists a, ya; (split; [now left|]; split; [exact Ea|]); [rewrite Rmin_left by lra|rewrite Rmax_left by lra]; reflexivity.
    + destruct I2 as [(p & y & Hp & Ey & El) (p' & y' & Hp' & Ey' & Eh)]; [discriminate|intros p0 y0 Hp0 Ey0; apply (RG p0 y0); [now right|exact Ey0]|].
      split.
      * unfold Rmin. destruct (Rle_dec _ _); [exists a, ya|exists p, y]; (split; [|split; auto]); [now left|now right].
      * unfold Rmax. destruct (Rle_dec _ _); [exists p', y'|exists a, ya]; (split; [|split; auto]); [now right|now left].
Qed.

Lemma relink_gen : forall rs i L first iaux ilast inext fuel,
  (length rs < fuel)%nat -> NoDup (L ++ i :: rs) -> links inext (i :: rs) -> ilast = List.last (i :: rs) (-1) ->
  (forall p, In p (L ++ i :: rs) -> okp ps inext p) -> chain inext first iaux L ->
  exists f' l' inext', relink ps fuel ilast i iaux first inext = Ok (f', l', inext') /\
    zlen inext' = zlen inext /\ chain inext' f' l' (L ++ lv (i :: rs)) /\
    (forall p, ~ In p (L ++ i :: rs) -> aget inext' p = aget inext p).
Proof.
  induction rs as [|j rs IH]; intros i L first iaux ilast inext fuel F ND LK EL OKP CH;
  (destruct fuel as [|fuel]; [cbn [length] in F; lia|]); cbn [relink].
  all: assert (OKi : okp ps inext i) by (apply OKP, in_or_app; right; now left).
  all: destruct (Z.eqb_spec i (-1)) as [?|_]; [unfold okp in OKi; lia|].
  all: destruct (aget_in ps i) as [y Ey]; [apply OKi|]; rewrite Ey; cbn [bind].
  all: assert (NL : ~ In i L) by (apply NoDup_remove_2 in ND; intros X; apply ND, in_or_app; now left).
  all: assert (STEP : exists x1 f1 n1, (if op_dead y then Ok (iaux, first, inext) else if iaux =? -1 then Ok (i, i, inext)
           else let! inext0 := aset inext iaux i in Ok (i, first, inext0)) = Ok (x1, f1, n1) /\ zlen n1 = zlen inext /\
         chain n1 f1 x1 (L ++ lv [i]) /\ (forall p, ~ In p L -> aget n1 p = aget inext p)).
  1, 3: (unfold lv; cbn [filter]; unfold alive; rewrite Ey; destruct (op_dead y); cbn [negb];
    [ exists iaux, first, inext; rewrite app_nil_r; auto
    | destruct (Z.eqb_spec iaux (-1)) as [E1|E1];
      [ destruct L as [|a L0];
        [ exists i, i, inext; cbn; repeat split; auto
        | exfalso; destruct (chain_last_in _ _ _ _ CH) as [X _]; [easy|]; assert (okp ps inext iaux) by (apply OKP, in_or_app; now left); unfold okp in *; lia ]
      | assert (Lne : L <> []) by (intros Q; rewrite Q in CH; cbn in CH; lia);
        destruct (chain_last_in _ _ _ _ CH Lne) as [X _];
        assert (OKx : okp ps inext iaux) by (apply OKP, in_or_app; now left);
        destruct (aset_spec inext iaux i) as (n1 & E2 & Z2 & _ & O2); [apply OKx|]; rewrite E2; cbn [bind];
        exists i, first, n1; split; [reflexivity|]; split; [exact Z2|]; split;
        [ eapply chain_snoc; eauto; eapply NoDup_app_l; rewrite <- app_assoc; exact ND
        | intros p Hp; apply O2; intros ->; easy ] ] ]).
  all: destruct STEP as (x1 & f1 & n1 & Es & Zn & Cn & On); rewrite Es; cbn [bind].
  - cbn [List.last] in EL. subst ilast. rewrite Z.eqb_refl. exists f1, x1, n1. split; [reflexivity|]. split; [exact Zn|]. split; [exact Cn|].
    intros p Hp. apply On. intros X. apply Hp, in_or_app. now left.
  - destruct LK as [L1 L2].
    assert (INl : In ilast (j :: rs)).
    { subst ilast. change (List.last (i :: j :: rs) (-1)) with (List.last (j :: rs) (-1)).
      destruct (exists_last' _ (j :: rs)) as (q' & b & Eq); [easy|]. rewrite Eq, last_app1. apply in_or_app. right. now left. }
    destruct (Z.eqb_spec i ilast) as [->|_].
    { exfalso. apply NoDup_remove_2 in ND. apply ND, in_or_app. now right. }
    rewrite (On i NL), L1. cbn [bind].
    assert (SB : forall p, In p ((L ++ lv [i]) ++ j :: rs) -> In p (L ++ i :: j :: rs)).
    { intros p Hp. rewrite !in_app_iff in *. destruct Hp as [[Hp|Hp]|Hp]; [now left| |right; now right].
      apply filter_In in Hp as [[->|[]] _]. right. now left. }
    destruct (IH j (L ++ lv [i]) f1 x1 ilast n1 fuel) as (f' & l' & inext' & R1 & R2 & R3 & R4).
    + cbn [length] in F. lia.
    + unfold lv. cbn [filter]. destruct (alive ps i).
      * rewrite <- app_assoc. exact ND.
      * rewrite app_nil_r. now apply NoDup_remove_1 in ND.
    + eapply links_ext; [|exact L2]. intros x Hx. apply On. apply in_removelast in Hx. intros X.
      clear - ND Hx X. induction L as [|a dn IHd]; [easy|]. cbn [app] in ND. inversion ND; subst.
      destruct X as [->|X]; [|auto]. apply H1, in_or_app. right. now right.
    + subst ilast. reflexivity.
    + intros x Hx. unfold okp. rewrite Zn. apply (OKP x (SB x Hx)).
    + exact Cn.
    + exists f', l', inext'. split; [exact R1|]. split; [lia|]. split.
      * replace (L ++ lv (i :: j :: rs)) with ((L ++ lv [i]) ++ lv (j :: rs)); [exact R3|].
        change (i :: j :: rs) with ([i] ++ j :: rs). rewrite lv_app, app_assoc. reflexivity.
      * intros x Hx. rewrite R4 by (intros X; apply Hx, SB, X). apply On. intros X. apply Hx, in_or_app. now left.
Qed.
Lemma fuel_ok : forall q inext, NoDup q -> (forall p, In p q -> okp ps inext p) -> (length q <= length inext)%nat.
Proof. intros q inext N B. apply nodup_bound; [exact N|]. intros p Hp. destruct (B p Hp) as [_ X]. unfold zlen in X. lia. Qed.
Lemma relink_ok : forall q first ilast inext, NoDup q -> (forall p, In p q -> okp ps inext p) -> chain inext first ilast q ->
  exists f' l' inext', relink ps (S (length inext)) ilast first (-1) (-1) inext = Ok (f', l', inext') /\
    zlen inext' = zlen inext /\ chain inext' f' l' (lv q) /\ (forall p, ~ In p q -> aget inext' p = aget inext p).
Proof.
  intros q first ilast inext N B C. destruct q as [|i rs].
  - destruct C as [-> ->]. exists (-1), (-1), inext. cbn. repeat split; auto.
  - destruct C as (-> & -> & L). pose proof (fuel_ok _ _ N B) as F. cbn [length] in F.
    destruct (relink_gen rs i [] (-1) (-1) (List.last (i :: rs) (-1)) inext (S (length inext)) ltac:(lia) N L eq_refl B (conj eq_refl eq_refl)) as (f' & l' & inext' & R).
    exists f', l', inext'. exact R.
Qed.

Lemma grow_box_spec : forall r b d, (d < ndim)%nat -> fst (grow_box ndim r b) d = Rmin (r d) (fst b d) /\ snd (grow_box ndim r b) d = Rmax (r d) (snd b d).
Proof.
  intros r b d Hd. unfold grow_box. cbn [fst snd]. rewrite (proj2 (Nat.ltb_lt d ndim) Hd). unfold rltb, Rmin, Rmax.
  split; repeat destruct (Rlt_dec _ _); repeat destruct (Rle_dec _ _); lra.
Qed.
Definition bounded (b : vec * vec) : Prop := forall d, (d < ndim)%nat -> (fst b d <= big_number)%R /\ (- big_number <= snd b d)%R.
Lemma grow_bounded : forall r b, bounded b -> bounded (grow_box ndim r b).
Proof.
  intros r b B d Hd. destruct (B d Hd). destruct (grow_box_spec r b d Hd) as [-> ->]. split.
  - eapply Rle_trans; [apply Rmin_r|eassumption].
  - eapply Rle_trans; [eassumption|apply Rmax_r].
Qed.
Lemma sum_leaf_gen : forall rs i ilast inext fuel N b,
  (length rs < fuel)%nat -> NoDup (i :: rs) -> links inext (i :: rs) -> ilast = List.last (i :: rs) (-1) ->
  (forall p, In p (i :: rs) -> okp ps inext p /\ alive ps p = true) -> bounded b ->
  exists b', sum_leaf ndim ps fuel inext ilast i N b = Ok (N + zlen (i :: rs), b') /\
    forall d, (d < ndim)%nat -> fst b' d = Rmin (fst b d) (blo (i :: rs) d) /\ snd b' d = Rmax (snd b d) (bhi (i :: rs) d) .
Proof.
  induction rs as [|j rs IH]; intros i ilast inext fuel N b F ND LK EL OKP BB; (destruct fuel as [|fuel]; [cbn [length] in F; lia|]); cbn [sum_leaf].
  all: destruct (OKP i (or_introl eq_refl)) as [OKi Al].
  all: destruct (Z.eqb_spec i (-1)) as [?|_]; [unfold okp in OKi; lia|].
  all: destruct (aget_in ps i) as [y Ey]; [apply OKi|]; rewrite Ey; cbn [bind].
  all: unfold alive in Al; rewrite Ey in Al; destruct (op_dead y); [discriminate|].
  all: assert (PX : px i = op_r y) by (unfold px; now rewrite Ey).
  - cbn [List.last] in EL. subst ilast. rewrite Z.eqb_refl. eexists. split; [unfold zlen; cbn [length]; reflexivity|].
    intros d Hd. destruct (grow_box_spec (op_r y) b d Hd) as [-> ->]. rewrite <- PX. cbn [blo bhi fold_right]. destruct (BB d Hd).
    unfold Rmin, Rmax. split; repeat destruct (Rle_dec _ _); lra.
  - destruct LK as [L1 L2].
    assert (INl : In ilast (j :: rs)).
    { subst ilast. change (List.last (i :: j :: rs) (-1)) with (List.last (j :: rs) (-1)).
      destruct (exists_last' _ (j :: rs)) as (q' & b' & Eq); [easy|]. rewrite Eq, last_app1. apply in_or_app. right. now left. }
    inversion ND as [|? ? N1 N2].
    destruct (Z.eqb_spec i ilast) as [->|_]; [contradiction|].
    rewrite L1. cbn [bind].
    destruct (IH j ilast inext fuel (N + 1) (grow_box ndim (op_r y) b)) as (b' & E' & B'); auto.
    + cbn [length] in F. lia.
    + intros p Hp. apply OKP. now right.
    + now apply grow_bounded.
    + exists b'. split; [rewrite E'; f_equal; f_equal; unfold zlen; cbn [length]; lia|].
      intros d Hd. destruct (B' d Hd) as [-> ->]. destruct (grow_box_spec (op_r y) b d Hd) as [-> ->]. rewrite <- PX.
      change (blo (i :: j :: rs) d) with (Rmin (px i d) (blo (j :: rs) d)). change (bhi (i :: j :: rs) d) with (Rmax (px i d) (bhi (j :: rs) d)).
      unfold Rmin, Rmax. split; repeat destruct (Rle_dec _ _); lra.
Qed.
Lemma empty_bounded : forall c, bounded (empty_box ndim c).
Proof. intros c d Hd. unfold empty_box. cbn [fst snd]. rewrite (proj2 (Nat.ltb_lt d ndim) Hd). lra. Qed.
Lemma empty_box_spec : forall c d, (d < ndim)%nat -> fst (empty_box ndim c) d = big_number /\ snd (empty_box ndim c) d = (- big_number)%R.
Proof. intros c d Hd. unfold empty_box. cbn [fst snd]. now rewrite (proj2 (Nat.ltb_lt d ndim) Hd). Qed.
Lemma sum_leaf_ok : forall q first ilast inext c, NoDup q -> (forall p, In p q -> okp ps inext p /\ alive ps p = true) -> chain inext first ilast q ->
  exists b', sum_leaf ndim ps (S (length inext)) inext ilast first 0 (empty_box ndim c) = Ok (zlen q, b') /\
    forall d, (d < ndim)%nat -> fst b' d = blo q d /\ snd b' d = bhi q d.
Proof.
  intros q first ilast inext c N B C. destruct q as [|i rs].
  - destruct C as [-> ->]. cbn [sum_leaf Z.eqb Pos.eqb]. exists (empty_box ndim c). split; [reflexivity|]. intros d Hd. now destruct (empty_box_spec c d Hd) as [-> ->].
  - destruct C as (-> & -> & L). pose proof (fuel_ok (i :: rs) inext N (fun p Hp => proj1 (B p Hp))) as F. cbn [length] in F.
    destruct (sum_leaf_gen rs i (List.last (i :: rs) (-1)) inext (S (length inext)) 0 (empty_box ndim c) ltac:(lia) N L eq_refl B (empty_bounded c)) as (b' & E' & B').
    exists b'. split; [exact E'|]. intros d Hd. destruct (B' d Hd) as [-> ->]. destruct (empty_box_spec c d Hd) as [-> ->].
    split; [apply Rmin_right, blo_big|apply Rmax_right, bhi_big].
Qed.

(** ** The cells *)
(** Cell [x] describes the live particles [q]. *)
Definition describes (x : ocell) (q : list Z) : Prop := o_N x = zlen q /\ forall d, (d < ndim)%nat -> o_min x d = blo q d /\ o_max x d = bhi q d.

Lemma sum_children_ok : forall kq cells cend next N b fuel co cn,
  (length kq < fuel)%nat -> next = cend -> (forall kk, In kk kq -> root (fst kk) <> cend) ->
  linked_list (zlen cells + 1) co cn (map fst kq) next -> next <= zlen cells -> (forall kk, In kk kq -> root (fst kk) <= zlen cells) ->
  (forall kk, In kk kq -> exists x, aget cells (root (fst kk)) = Ok x /\ describes x (snd kk) /\ cn (root (fst kk)) = Ok (o_cnext x)) -> bounded b ->
  exists b', sum_children ndim fuel cells cend (match kq with [] => next | kk :: _ => root (fst kk) end) N b = Ok (N + zlen (concat (map snd kq)), b') /\
    forall d, (d < ndim)%nat -> fst b' d = Rmin (fst b d) (blo (concat (map snd kq)) d) /\ snd b' d = Rmax (snd b d) (bhi (concat (map snd kq)) d).
Proof.
  induction kq as [|[k q] kq IH]; intros cells cend next N b fuel co cn F En Ne LK Bn Br DS BB; (destruct fuel as [|fuel]; [lia|]); cbn [sum_children].
  - subst next. rewrite Z.eqb_refl. exists b. cbn [map concat]. split; [f_equal; f_equal; unfold zlen; cbn [length]; lia|].
    intros d Hd. destruct (BB d Hd). cbn [blo bhi fold_right]. split; [rewrite Rmin_left by lra|rewrite Rmax_left by lra]; reflexivity.
  - cbn [map fst snd concat]. destruct (Z.eqb_spec (root k) cend) as [E|_]; [exfalso; apply (Ne (k, q)); [now left|exact E]|].
    destruct (DS (k, q)) as (x & Ex & (Nx & Bx) & Cx); [now left|]. cbn [fst snd] in *. rewrite Ex. cbn [bind].
    cbn [map fst linked_list] in LK. destruct LK as [L1 L2]. destruct k as [e l]. cbn [root] in *.
    rewrite linked_unfold in L1. destruct L1 as ((y & Ey & SE) & _).
    assert (Ecn : o_cnext x = match kq with [] => next | kk :: _ => root (fst kk) end).
    { assert (y = o_cnext x) by congruence. subst y. destruct SE as [SE|[_ SE]].
      - rewrite SE. destruct kq as [|[k2 q2] kq]; reflexivity.
      - exfalso. destruct kq as [|[k2 q2] kq]; cbn [map fst] in SE; [lia|]. specialize (Br (k2, q2) (or_intror (or_introl eq_refl))). cbn [fst] in Br. lia. }
    rewrite Ecn.
    set (b1 := if 0 <? o_N x then join_box ndim b (o_min x, o_max x) else b).
    assert (B1 : forall d, (d < ndim)%nat -> fst b1 d = Rmin (fst b d) (blo q d) /\ snd b1 d = Rmax (snd b d) (bhi q d)).
    { intros d Hd. destruct (Bx d Hd) as [E1 E2]. destruct (BB d Hd). unfold b1. destruct (0 <? o_N x) eqn:Ep.
      - unfold join_box. cbn [fst snd]. rewrite (proj2 (Nat.ltb_lt d ndim) Hd), E1, E2. split; [apply Rmin_comm|apply Rmax_comm].
      - assert (q = []) by (rewrite Nx in Ep; unfold zlen in Ep; destruct q; [reflexivity|cbn [length] in Ep; lia]). subst q.
        cbn [blo bhi fold_right]. split; [rewrite Rmin_left by lra|rewrite Rmax_left by lra]; reflexivity. }
    assert (BB1 : bounded b1).
    { intros d Hd. destruct (BB d Hd). destruct (B1 d Hd) as [-> ->]. split.
      - eapply Rle_trans; [apply Rmin_l|eassumption].
      - eapply Rle_trans; [eassumption|apply Rmax_l]. }
    destruct (IH cells cend next (N + zlen q) b1 fuel co cn) as (b' & E' & B'); auto.
    + cbn [length] in F. lia.
    + intros kk Hk. apply Ne. now right.
    + intros kk Hk. apply Br. now right.
    + intros kk Hk. apply DS. now right.
    + exists b'. split.
      * replace (if 0 <? o_N x then (N + o_N x, join_box ndim b (o_min x, o_max x)) else (N, b)) with (N + zlen q, b1).
        -- cbn beta iota zeta. rewrite E'. f_equal. f_equal. unfold zlen. rewrite app_length. lia.
        -- unfold b1. rewrite Nx. destruct (0 <? zlen q) eqn:Ep; [reflexivity|]. assert (zlen q = 0) by (unfold zlen in *; lia). f_equal; lia.
      * intros d Hd. destruct (B' d Hd) as [-> ->]. destruct (B1 d Hd) as [-> ->]. rewrite blo_app, bhi_app.
        unfold Rmin, Rmax. split; repeat destruct (Rle_dec _ _); lra.
Qed.
End Stock.
