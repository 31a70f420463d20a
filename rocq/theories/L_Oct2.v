(** Replacing a leaf of a tree by an inner cell. *)
From Verif Require Import Prelude L_Prelude S_Tree L_Tree L_Search L_StockTree S_Oct.
From Coq Require Import Permutation.
Local Open Scope Z_scope.

Fixpoint expand (c : Z) (ks : list rtree) (t : rtree) : rtree :=
  match t with RNode d l => if d =? c then RNode c ks else RNode d (map (expand c ks) l) end.

Lemma root_expand : forall c ks t, root (expand c ks t) = root t.
Proof. intros c ks [d l]. cbn. destruct (Z.eqb_spec d c); subst; reflexivity. Qed.

Lemma expand_out : forall c ks t, ~ In c (preorder t) -> expand c ks t = t.
Proof.
  intros c ks. induction t as [d l IH] using rtree_ind2. intros N. cbn [expand preorder] in *.
  destruct (Z.eqb_spec d c) as [->|]; [exfalso; apply N; now left|].
  f_equal. assert (N' : ~ In c (flat_map preorder l)) by (intros X; apply N; now right). clear N n.
  induction IH as [|k l Hk Hl IHl]; [reflexivity|]. cbn [map flat_map] in *. f_equal.
  - apply Hk. intros X. apply N', in_or_app. now left.
  - apply IHl. intros X. apply N', in_or_app. now right.
Qed.
Lemma expands_out : forall c ks l, ~ In c (flat_map preorder l) -> map (expand c ks) l = l.
Proof.
  induction l as [|k l IH]; intros N; [reflexivity|]. cbn [map flat_map] in *. f_equal.
  - apply expand_out. intros X. apply N, in_or_app. now left.
  - apply IH. intros X. apply N, in_or_app. now right.
Qed.

Lemma leaves_node : forall c l, l <> [] -> leaves (RNode c l) = flat_map leaves l.
Proof. intros c [|k l] H; [easy|reflexivity]. Qed.
Lemma leaves_preorder : forall t x, In x (leaves t) -> In x (preorder t).
Proof.
  induction t as [d l IH] using rtree_ind2. intros x H. destruct l as [|k l].
  - destruct H as [<-|[]]. now left.
  - rewrite leaves_node in H by easy. cbn [preorder]. right. apply in_flat_map in H as (y & Hy & Hx).
    apply in_flat_map. exists y. split; [easy|]. rewrite Forall_forall in IH. now apply IH.
Qed.

(** The child of a list of trees that contains [c]. *)
Lemma expands_split : forall c ks l, NoDup (flat_map preorder l) -> In c (flat_map leaves l) ->
  exists l1 k l2, l = l1 ++ k :: l2 /\ In c (leaves k) /\ ~ In c (flat_map preorder l1) /\ ~ In c (flat_map preorder l2) /\
    NoDup (preorder k) /\ map (expand c ks) l = l1 ++ expand c ks k :: l2.
Proof.
  induction l as [|k l IH]; intros ND H; [easy|]. cbn [flat_map] in *.
  apply nodup_app_inv in ND as (N1 & N2 & N3).
  apply in_app_or in H as [H|H].
  - exists [], k, l. split; [reflexivity|]. split; [easy|]. split; [easy|].
    assert (X : ~ In c (flat_map preorder l)) by (apply N3, leaves_preorder, H). split; [exact X|]. split; [exact N1|].
    cbn [map app]. f_equal. now apply expands_out.
  - destruct (IH N2 H) as (l1 & k' & l2 & -> & A & B & C & N4 & E).
    assert (X : ~ In c (preorder k)).
    { intros X. apply (N3 c X). rewrite flat_map_app. apply in_or_app. right. cbn [flat_map]. apply in_or_app. left. now apply leaves_preorder. }
    exists (k :: l1), k', l2. split; [reflexivity|]. split; [easy|]. split.
    { cbn [flat_map]. intros Y. apply in_app_or in Y as [Y|Y]; contradiction. }
    split; [exact C|]. split; [exact N4|]. cbn [map app]. rewrite E. now rewrite expand_out.
Qed.

Lemma leaf_cases : forall c d l, NoDup (preorder (RNode d l)) -> In c (leaves (RNode d l)) ->
  (d = c /\ l = []) \/ (d <> c /\ l <> [] /\ In c (flat_map leaves l) /\ NoDup (flat_map preorder l)).
Proof.
  intros c d l ND H. cbn [preorder] in ND. inversion ND as [|? ? N1 N2]; subst. destruct l as [|k l].
  - destruct H as [<-|[]]. now left.
  - right. rewrite leaves_node in H by easy. split; [|split; [easy|split; easy]]. intros ->. apply N1.
    apply in_flat_map in H as (y & Hy & Hx). apply in_flat_map. exists y. split; [easy|now apply leaves_preorder].
Qed.

Lemma preorder_expand : forall c ks t, NoDup (preorder t) -> In c (leaves t) ->
  Permutation (preorder (expand c ks t)) (preorder t ++ flat_map preorder ks).
Proof.
  intros c ks. induction t as [d l IH] using rtree_ind2. intros ND H.
  destruct (leaf_cases _ _ _ ND H) as [[-> ->]|(N & Hl & Hc & ND')].
  - cbn [expand]. rewrite Z.eqb_refl. reflexivity.
  - cbn [expand]. rewrite (proj2 (Z.eqb_neq d c) N).
    destruct (expands_split c ks l ND' Hc) as (l1 & k & l2 & El & A & B & C & Nk & Em). rewrite Em.
    rewrite Forall_forall in IH. assert (Ik : In k l) by (rewrite El; apply in_or_app; right; now left).
    specialize (IH k Ik Nk A). subst l. cbn [preorder app]. apply perm_skip. rewrite !flat_map_app. cbn [flat_map].
    rewrite IH. rewrite <- !app_assoc. apply Permutation_app_head.
    apply Permutation_app_head. apply Permutation_app_comm.
Qed.

Lemma leaves_expand : forall c ks t, ks <> [] -> NoDup (preorder t) -> In c (leaves t) ->
  forall d, In d (leaves (expand c ks t)) <-> (In d (leaves t) /\ d <> c) \/ In d (flat_map leaves ks).
Proof.
  intros c ks t Ks. induction t as [e l IH] using rtree_ind2. intros ND H d.
  destruct (leaf_cases _ _ _ ND H) as [[-> ->]|(N & Hl & Hc & ND')].
  - cbn [expand]. rewrite Z.eqb_refl. rewrite leaves_node by easy. cbn [leaves]. split; [now right|].
    intros [[[<-|[]] X]|X]; [congruence|easy].
  - cbn [expand]. rewrite (proj2 (Z.eqb_neq e c) N).
    destruct (expands_split c ks l ND' Hc) as (l1 & k & l2 & El & A & B & C & Nk & Em). rewrite Em.
    rewrite Forall_forall in IH. assert (Ik : In k l) by (rewrite El; apply in_or_app; right; now left).
    specialize (IH k Ik Nk A). rewrite !leaves_node by (try easy; now destruct l1). subst l.
    rewrite !flat_map_app. cbn [flat_map]. rewrite !in_app_iff. rewrite IH.
    assert (B' : forall x, In x (flat_map leaves l1) -> x <> c).
    { intros x Hx ->. apply B. apply in_flat_map in Hx as (y & Y1 & Y2). apply in_flat_map. exists y. split; [easy|now apply leaves_preorder]. }
    assert (C' : forall x, In x (flat_map leaves l2) -> x <> c).
    { intros x Hx ->. apply C. apply in_flat_map in Hx as (y & Y1 & Y2). apply in_flat_map. exists y. split; [easy|now apply leaves_preorder]. }
    specialize (B' d). specialize (C' d). tauto.
Qed.

Lemma linked_list_app : forall Nc co cn l1 l2 next, linked_list Nc co cn (l1 ++ l2) next <->
  linked_list Nc co cn l1 (match l2 with [] => next | k :: _ => root k end) /\ linked_list Nc co cn l2 next.
Proof.
  intros Nc co cn. induction l1 as [|k l1 IH]; intros l2 next; [cbn; tauto|].
  cbn [app linked_list]. change ((fix linked_kids (ks : list rtree) (next0 : Z) {struct ks} : Prop := _) (l1 ++ l2) next) with (linked_list Nc co cn (l1 ++ l2) next).
  rewrite IH. destruct l1 as [|k' l1]; cbn [app].
  - destruct l2; cbn; tauto.
  - tauto.
Qed.
Lemma linked_list_ext : forall Nc co cn co' cn' l next,
  (forall c, In c (flat_map preorder l) -> co' c = co c /\ cn' c = cn c) ->
  linked_list Nc co cn l next -> linked_list Nc co' cn' l next.
Proof.
  intros Nc co cn co' cn'. induction l as [|k l IH]; intros next E L; [easy|]. cbn [linked_list flat_map] in *. destruct L as [L1 L2]. split.
  - eapply linked_ext; [|exact L1]. intros x Hx. apply E, in_or_app. now left.
  - apply IH; [|exact L2]. intros x Hx. apply E, in_or_app. now right.
Qed.

Lemma linked_expand : forall Nc co cn co' cn' c ks t next,
  NoDup (preorder t) -> In c (leaves t) -> linked Nc co cn t next -> ks <> [] ->
  (forall d, In d (preorder t) -> cn' d = cn d) ->
  (forall d, In d (preorder t) -> d <> c -> co' d = co d) ->
  co' c = Ok (match ks with [] => -1 | k :: _ => root k end) ->
  (forall nx, (exists x, cn c = Ok x /\ same_exit Nc x nx) -> linked_list Nc co' cn' ks nx) ->
  linked Nc co' cn' (expand c ks t) next.
Proof.
  intros Nc co cn co' cn' c ks t next ND H L Ks EN EO EC EK. revert next ND H L EN EO.
  induction t as [e l IH] using rtree_ind2. intros next ND H L EN EO.
  rewrite linked_unfold in L. destruct L as (L1 & L2 & L3).
  destruct (leaf_cases _ _ _ ND H) as [[-> ->]|(N & Hl & Hc & ND')].
  - cbn [expand]. rewrite Z.eqb_refl. rewrite linked_unfold. rewrite EN by now left. split; [exact L1|]. split; [exact EC|]. now apply EK.
  - cbn [expand]. rewrite (proj2 (Z.eqb_neq e c) N). rewrite linked_unfold. rewrite EN by now left. split; [exact L1|].
    rewrite EO by (auto; now left). split.
    { rewrite L2. destruct l as [|k l]; [easy|]. cbn [map]. now rewrite root_expand. }
    destruct (expands_split c ks l ND' Hc) as (l1 & k & l2 & El & A & B & C & Nk & Em). rewrite Em.
    rewrite Forall_forall in IH. assert (Ik : In k l) by (rewrite El; apply in_or_app; right; now left).
    specialize (IH k Ik). subst l. clear EC EK L2 Em.
    assert (IN1 : forall x, In x (flat_map preorder l1) -> In x (preorder (RNode e (l1 ++ k :: l2)))).
    { intros x Hx. cbn [preorder]. right. rewrite flat_map_app. apply in_or_app. now left. }
    assert (IN2 : forall x, In x (preorder k) -> In x (preorder (RNode e (l1 ++ k :: l2)))).
    { intros x Hx. cbn [preorder]. right. rewrite flat_map_app. cbn [flat_map]. rewrite !in_app_iff. tauto. }
    assert (IN3 : forall x, In x (flat_map preorder l2) -> In x (preorder (RNode e (l1 ++ k :: l2)))).
    { intros x Hx. cbn [preorder]. right. rewrite flat_map_app. cbn [flat_map]. rewrite !in_app_iff. tauto. }
    rewrite linked_list_app in *. cbn [linked_list] in *. rewrite root_expand. destruct L3 as (L3 & L4 & L5).
    split; [|split].
    + eapply linked_list_ext; [|exact L3]. intros x Hx. split; [apply EO; auto; intros ->; easy|auto].
    + apply IH; auto.
    + eapply linked_list_ext; [|exact L5]. intros x Hx. split; [apply EO; auto; intros ->; easy|auto].
Qed.

Lemma depth_in : forall t d n, depth_of t d n -> In d (preorder t).
Proof.
  induction 1; cbn [preorder]; [now left|]. right. apply in_flat_map. eauto.
Qed.
Lemma depth_expand : forall c ks t d n, NoDup (preorder t) -> In c (leaves t) -> depth_of (expand c ks t) d n ->
  depth_of t d n \/ (exists k m, In k ks /\ depth_of k d m /\ depth_of t c (n - m - 1)).
Proof.
  intros c ks. induction t as [e l IH] using rtree_ind2. intros d n ND H D.
  destruct (leaf_cases _ _ _ ND H) as [[-> ->]|(N & Hl & Hc & ND')].
  - cbn [expand] in D. rewrite Z.eqb_refl in D. inversion D; subst.
    + left. constructor.
    + right. exists k, l. split; [easy|]. split; [easy|]. replace (l + 1 - l - 1) with 0 by lia. constructor.
  - cbn [expand] in D. rewrite (proj2 (Z.eqb_neq e c) N) in D.
    destruct (expands_split c ks l ND' Hc) as (l1 & k & l2 & El & A & B & C & Nk & Em). rewrite Em in D.
    rewrite Forall_forall in IH. assert (Ik : In k l) by (rewrite El; apply in_or_app; right; now left).
    inversion D; subst; [left; constructor|].
    assert (X : expand c ks k = k0 \/ In k0 (l1 ++ l2)) by (rewrite in_app_iff in *; cbn [In] in *; tauto).
    destruct X as [<-|X].
    + destruct (IH k Ik d l0 Nk A) as [X|(k' & m & X1 & X2 & X3)]; [easy| |].
      * left. econstructor; [exact Ik|exact X].
      * right. exists k', m. split; [easy|]. split; [easy|].
        replace (l0 + 1 - m - 1) with ((l0 - m - 1) + 1) by lia. econstructor; [exact Ik|exact X3].
    + left. econstructor; [|eassumption]. apply in_app_iff in X as [X|X]; apply in_or_app; [now left|right; now right].
Qed.

Lemma branching_expand : forall n c ks t, length ks = n -> (forall k, In k ks -> branching n k) ->
  branching n t -> branching n (expand c ks t).
Proof.
  intros n c ks t L K. induction t as [e l IH] using rtree_ind2. intros B. cbn [expand].
  destruct (e =? c); [now apply br_node|]. inversion B; subst; [now apply br_leaf|]. apply br_node; [now rewrite map_length|].
  intros k Hk. apply in_map_iff in Hk as (k0 & <- & Hk0). rewrite Forall_forall in IH. auto.
Qed.

(** Descriptions of the particles below the cells. *)
Section CT.
Variables (P L P' L' : Z -> list Z -> Prop).

Lemma ctrees_app_inv : forall l1 k l2 pss, ctrees P L (l1 ++ k :: l2) pss ->
  exists p1 q p2, pss = p1 ++ q :: p2 /\ ctrees P L l1 p1 /\ ctree P L k q /\ ctrees P L l2 p2.
Proof.
  induction l1 as [|a l1 IH]; intros k l2 pss H; cbn [app] in H; inversion H; subst.
  - exists [], ps, pss0. cbn. split; [easy|]. split; [constructor|]. split; easy.
  - destruct (IH _ _ _ H4) as (p1 & q & p2 & -> & A & B & C). exists (ps :: p1), q, p2. split; [easy|]. split; [now constructor|]. split; easy.
Qed.
Lemma ctrees_app : forall l1 k l2 p1 q p2, ctrees P' L' l1 p1 -> ctree P' L' k q -> ctrees P' L' l2 p2 ->
  ctrees P' L' (l1 ++ k :: l2) (p1 ++ q :: p2).
Proof. induction 1; intros; cbn [app]; constructor; auto. Qed.

Lemma ctree_leaf_of :
  (forall t ps, ctree P L t ps -> forall c, In c (leaves t) -> exists q, L c q /\ P c q /\ (forall p, In p q -> In p ps)) /\
  (forall ks pss, ctrees P L ks pss -> forall c, In c (flat_map leaves ks) -> exists q, L c q /\ P c q /\ (forall p, In p q -> In p (concat pss))).
Proof.
  apply ctree_mutind.
  - intros c ps HP HL c0 [<-|[]]. eauto.
  - intros c ks pss Hne _ IH _ c0 H. rewrite leaves_node in H by easy. auto.
  - intros c [].
  - intros k ks ps pss _ IH1 _ IH2 c H. cbn [flat_map concat] in *. apply in_app_or in H as [H|H].
    + destruct (IH1 c H) as (q & A & B & C). exists q. split; [easy|]. split; [easy|]. intros; apply in_or_app; auto.
    + destruct (IH2 c H) as (q & A & B & C). exists q. split; [easy|]. split; [easy|]. intros; apply in_or_app; auto.
Qed.

(** Subtrees whose cells and particles are not concerned. *)
Lemma ctree_frame : forall (C : Z -> Prop) (Q : Z -> Prop),
  (forall d q, C d -> P d q -> P' d q) -> (forall d q, C d -> (forall p, In p q -> Q p) -> L d q -> L' d q) ->
  (forall t ps, ctree P L t ps -> (forall d, In d (preorder t) -> C d) -> (forall p, In p ps -> Q p) -> ctree P' L' t ps) /\
  (forall ks pss, ctrees P L ks pss -> (forall d, In d (flat_map preorder ks) -> C d) -> (forall p, In p (concat pss) -> Q p) -> ctrees P' L' ks pss).
Proof.
  intros C Q HP HL. apply ctree_mutind.
  - intros c ps A B HC HQ. constructor; [apply HP|apply HL]; auto; apply HC; now left.
  - intros c ks pss Hne _ IH A HC HQ. constructor; auto. + apply IH; auto. intros; apply HC; now right. + apply HP; auto; apply HC; now left.
  - constructor.
  - intros k ks ps pss _ IH1 _ IH2 HC HQ. cbn [flat_map concat] in *. constructor.
    + apply IH1; intros; [apply HC|apply HQ]; apply in_or_app; now left.
    + apply IH2; intros; [apply HC|apply HQ]; apply in_or_app; now right.
Qed.

Lemma ctree_expand : forall c ks ql qss (C : Z -> Prop),
  ks <> [] -> ctrees P' L' ks qss -> Permutation (concat qss) ql ->
  (forall q, L c q -> q = ql) ->
  P' c (concat qss) ->
  (forall d q q', d <> c -> C d -> P d q -> Permutation q q' -> P' d q') ->
  (forall d q, d <> c -> C d -> (forall p, In p q -> ~ In p ql) -> L d q -> L' d q) ->
  forall t ps, ctree P L t ps -> (forall d, In d (preorder t) -> C d) -> NoDup (preorder t) -> NoDup ps -> In c (leaves t) ->
  exists ps', ctree P' L' (expand c ks t) ps' /\ Permutation ps' ps.
Proof.
  intros c ks ql qss C Ks CK PQ EQ PC HP HL. induction t as [e l IH] using rtree_ind2. intros ps T HC ND NP H.
  destruct (leaf_cases _ _ _ ND H) as [[-> ->]|(N & Hl & Hc & ND')].
  - cbn [expand]. rewrite Z.eqb_refl. exists (concat qss). split; [now constructor|]. inversion T; subst; [|easy].
    rewrite (EQ ps) by easy. exact PQ.
  - cbn [expand]. rewrite (proj2 (Z.eqb_neq e c) N).
    destruct (expands_split c ks l ND' Hc) as (l1 & k & l2 & El & A & B & Cn & Nk & Em). rewrite Em.
    rewrite Forall_forall in IH. assert (Ik : In k l) by (rewrite El; apply in_or_app; right; now left).
    specialize (IH k Ik). subst l. inversion T; subst; [now destruct l1|].
    match goal with X : ctrees _ _ _ _ |- _ => apply ctrees_app_inv in X as (p1 & q & p2 & -> & T1 & T2 & T3) end.
    rewrite concat_app in *. cbn [concat] in *.
    apply nodup_app_inv in NP as (NP1 & NP2 & NP3). apply nodup_app_inv in NP2 as (NP2 & NP4 & NP5).
    assert (IQ : forall p, In p ql -> In p q).
    { destruct (proj1 ctree_leaf_of _ _ T2 c A) as (q0 & Lq & _ & Iq). rewrite (EQ q0 Lq) in Iq. exact Iq. }
    assert (HCp : forall d, In d (flat_map preorder (l1 ++ k :: l2)) -> C d) by (intros; apply HC; now right).
    rewrite flat_map_app in HCp. cbn [flat_map] in HCp.
    destruct (IH q T2) as (q' & T2' & PQ'); auto.
    { intros d Hd. apply HCp. rewrite !in_app_iff. tauto. }
    assert (FR : forall l pp, ctrees P L l pp -> ~ In c (flat_map preorder l) -> (forall d, In d (flat_map preorder l) -> C d) ->
              (forall p, In p (concat pp) -> ~ In p ql) -> ctrees P' L' l pp).
    { intros l pp Tl Nl Cl Ql. refine (proj2 (ctree_frame (fun d => C d /\ d <> c) (fun p => ~ In p ql) _ _) l pp Tl _ Ql).
      - intros d qq [X1 X2] X3. eapply HP; eauto.
      - intros d qq [X1 X2] X3 X4. eapply HL; eauto.
      - intros d Hd. split; [auto|]. intros ->. easy. }
    exists (concat (p1 ++ q' :: p2)). split.
    + constructor; [now destruct l1| |].
      * apply ctrees_app; auto.
        -- apply FR; auto. { intros d Hd. apply HCp. rewrite !in_app_iff. tauto. }
           intros p Hp X. apply (NP3 p Hp). apply in_or_app. left. now apply IQ.
        -- apply FR; auto. { intros d Hd. apply HCp. rewrite !in_app_iff. tauto. }
           intros p Hp X. apply (NP5 p); [now apply IQ|easy].
      * eapply HP; [exact N|apply HC; now left|eassumption|].
        rewrite concat_app. cbn [concat]. apply Permutation_app_head. apply Permutation_app_tail. now symmetry.
    + rewrite concat_app. cbn [concat]. apply Permutation_app_head. now apply Permutation_app_tail.
Qed.
End CT.
