From Verif Require Import Prelude L_Prelude Vec S_Tree L_Tree M_Walk S_Box M_Box L_Box M_Periodic S_Periodic L_Periodic M_Prune S_Prune L_Prune L_Prune4 M_Export S_Export L_Export.
From Coq Require Import Reals Lra.
Local Open Scope R_scope.

Lemma zlen0 : forall A (l : list A), zlen l = 0%Z -> l = [].
Proof. intros A [|a l]; [easy|]. unfold zlen. cbn. lia. Qed.
Lemma zlen_pos : forall A (l : list A), zlen l <> 0%Z -> l <> [].
Proof. intros A l H ->. now apply H. Qed.
Lemma zlen_nn : forall A (l : list A), (0 <= zlen l)%Z.
Proof. intros. unfold zlen. lia. Qed.
Lemma in_root : forall t, In (root t) (preorder t).
Proof. intros [c ks]. now left. Qed.
Lemma leaves_incl : forall t c, In c (leaves t) -> In c (preorder t).
Proof.
  induction t as [c ks IH] using rtree_ind2. intros x H. destruct ks as [|k ks]; [exact H|]. rewrite leaves_node in H by discriminate.
  right. apply in_flat_map in H as (q & Hq & Hx). apply in_flat_map. exists q. split; [easy|]. rewrite Forall_forall in IH. now apply IH.
Qed.
Lemma leaves_kid : forall c ks k x, In k ks -> In x (leaves k) -> In x (leaves (RNode c ks)).
Proof. intros c ks k x Hk Hx. rewrite leaves_node; [apply in_flat_map; eauto|]. destruct ks; [destruct Hk|discriminate]. Qed.

Section Walks.
Variables (ndim : nat) (lo hi : vec) (bl br : nat -> boundary).
Hypothesis Hdom : forall k, (k < ndim)%nat -> lo k < hi k.
Let b := mkbox lo hi bl br.
Variables (kernrange : R).
Hypothesis Hk : 0 <= kernrange.
Variables (pos : Z -> vec) (hsm : Z -> R) (cells : list pcell) (content : Z -> list Z).
Variables (cell : pcell) (l0 : list Z) (pos0 : Z -> vec) (hsm0 : Z -> R).
Hypothesis Hcell : encloses ndim pos0 hsm0 l0 cell.
Notation SEP k := (sep ndim lo hi bl br cell k).

Definition good (c : Z) : Prop :=
  (0 <= c)%Z /\ exists k, aget cells c = Ok k /\ k_N k = zlen (content c) /\ encloses ndim pos hsm (content c) k /\ within ndim b (k_r cell) (k_r k).
Definition all_apart (l : list Z) : Prop := forall i j, In i l0 -> In j l -> out_of_reach ndim b kernrange (pos0 i) (hsm0 i) (pos j) (hsm j).
Definition leaf_meets (c : Z) : Prop :=
  exists k, aget cells c = Ok k /\ content c <> [] /\ may_touch ndim kernrange cell k (SEP k).

Lemma decent_of : forall p h l k, encloses ndim p h l k -> decent k.
Proof. intros p h l k (A & B & _). now split. Qed.

Notation OV := (overlap_visit ndim b kernrange cells cell).
Lemma overlap_twalk : forall t Nc cn nx, linked Nc (co_of cells) cn t nx -> contents content t -> (forall c, In c (preorder t) -> good c) ->
  exists st, twalk OV t tt = Ok (tt, st) /\
    (st = false -> all_apart (content (root t))) /\
    (st = true -> exists c, In c (leaves t) /\ leaf_meets c).
Proof.
  induction t as [c ks IH] using rtree_ind2. intros Nc cn nx LK CT G. rewrite linked_unfold in LK. destruct LK as (_ & LO & LL).
  destruct (G c (or_introl eq_refl)) as (Hc & k & Ek & EN & EE & EW). inversion CT as [? ? C1 C2]; subst.
  rewrite twalk_unfold. unfold overlap_visit at 1. rewrite Ek. cbn [bind].
  unfold co_of in LO. rewrite Ek in LO. cbn [bind] in LO. injection LO as LO.
  destruct (spheres_hydro ndim b kernrange cell k) eqn:ES.
  - pose proof (proj1 (touch_hydro ndim lo hi bl br kernrange Hk cell k (decent_of _ _ _ _ Hcell) (decent_of _ _ _ _ EE)) ES) as TT.
    destruct ks as [|k0 ks].
    + rewrite LO, Z.eqb_refl. cbn [negb bind]. rewrite EN. destruct (Z.eqb_spec (zlen (content c)) 0) as [Z0|Z0].
      * cbn [bind]. exists false. split; [reflexivity|]. split; [|discriminate]. intros _ i j _ Hj. cbn [root] in Hj. apply zlen0 in Z0. rewrite Z0 in Hj. destruct Hj.
      * pose proof (zlen_nn _ (content c)). destruct (Z.ltb_spec 0 (zlen (content c))); [|lia]. cbn [bind]. exists true. split; [reflexivity|]. split; [discriminate|].
        intros _. exists c. split; [now left|]. exists k. split; [easy|]. split; [now apply zlen_pos|exact TT].
    + assert (R0 : (0 <= root k0)%Z). { apply G. right. cbn [flat_map]. apply in_or_app. left. apply in_root. }
      rewrite LO. destruct (Z.eqb_spec (root k0) (-1)); [lia|]. cbn [negb bind].
      cbn [root]. rewrite C1 by discriminate.
      assert (X : exists st, twalks OV (k0 :: ks) tt = Ok (tt, st) /\ (st = false -> all_apart (flat_map (fun k => content (root k)) (k0 :: ks))) /\
         (st = true -> exists q c, In q (k0 :: ks) /\ In c (leaves q) /\ leaf_meets c)).
      { assert (G' : forall q, In q (flat_map preorder (k0 :: ks)) -> good q) by (intros; apply G; now right).
        clear - IH LL C2 G'. revert IH LL C2 G'. generalize (k0 :: ks) as l. induction l as [|a l IHl]; intros IH LL C2 G'.
        - exists false. split; [reflexivity|]. split; [intros _ i j _ []|discriminate].
        - inversion IH as [|? ? IHa IHl']; inversion C2; subst. destruct LL as [LA LB]. cbn [twalks].
          destruct (IHa _ _ _ LA) as (st & E & S1 & S2); [easy|intros; apply G', in_or_app; now left|]. rewrite E. cbn [bind].
          destruct st.
          + exists true. split; [reflexivity|]. split; [discriminate|]. intros _. destruct (S2 eq_refl) as (q & Q1 & Q2). exists a, q. split; [now left|easy].
          + destruct IHl as (st & E' & S1' & S2'); auto. { intros; apply G', in_or_app; now right. }
            rewrite E'. exists st. split; [reflexivity|]. split.
            * intros Hst i j Hi Hj. cbn [flat_map] in Hj. apply in_app_or in Hj as [Hj|Hj]; [now apply S1|now apply S1'].
            * intros Hst. destruct (S2' Hst) as (q & c & Q1 & Q2). exists q, c. split; [now right|easy]. }
      destruct X as (st & E & S1 & S2). rewrite E. exists st. split; [reflexivity|]. split; [exact S1|].
      intros Hst. destruct (S2 Hst) as (q & x & Q1 & Q2 & Q3). exists x. split; [|exact Q3]. eapply leaves_kid; eauto.
  - cbn [bind]. exists false. split; [reflexivity|]. split; [|discriminate]. intros _ i j Hi Hj. eapply (apart ndim lo hi bl br Hdom kernrange Hk); eauto.
    intros T. apply (touch_hydro ndim lo hi bl br kernrange Hk cell k) in T; [|eapply decent_of; eauto|eapply decent_of; eauto]. fold b in T. congruence.
Qed.

Variables (mac : MAC_Type) (macerror : R) (cm : Z -> R) (amin macf : R).
Notation DV := (distant_visit ndim b kernrange mac macerror cm cells cell amin macf).
Definition accepted (c : Z) (k : pcell) : Prop :=
  aget cells c = Ok k /\ ~ may_touch ndim kernrange cell k (SEP k) /\ ~ too_coarse ndim mac macerror (cm (k_data k)) amin macf k (SEP k).
Definition leaf_near (c : Z) : Prop :=
  exists k, aget cells c = Ok k /\ content c <> [] /\ (may_touch ndim kernrange cell k (SEP k) \/ too_coarse ndim mac macerror (cm (k_data k)) amin macf k (SEP k)).
(** The cells [acc] were appended. *)
Definition dout (l : list Z) (leafs : list Z) (top : list Z) (gl : list pcell) (x : res (list pcell * bool)) : Prop :=
  (exists acc ks, x = Ok (gl ++ ks, false) /\ Forall2 accepted acc ks /\ flat_map content acc = l /\ all_apart l /\
     Forall (fun c => In c top /\ content c <> []) acc) \/
  (exists ks c, x = Ok (gl ++ ks, true) /\ In c leafs /\ leaf_near c).

Lemma Forall2_app2 : forall A B (P : A -> B -> Prop) l1 l2 m1 m2, Forall2 P l1 m1 -> Forall2 P l2 m2 -> Forall2 P (l1 ++ l2) (m1 ++ m2).
Proof. intros. now apply Forall2_app. Qed.

Lemma distant_twalk : forall t Nc cn nx, linked Nc (co_of cells) cn t nx -> contents content t -> (forall c, In c (preorder t) -> good c) ->
  forall gl, dout (content (root t)) (leaves t) (preorder t) gl (twalk DV t gl).
Proof.
  induction t as [c ks IH] using rtree_ind2. intros Nc cn nx LK CT G gl. rewrite linked_unfold in LK. destruct LK as (_ & LO & LL).
  destruct (G c (or_introl eq_refl)) as (Hc & k & Ek & EN & EE & EW). inversion CT as [? ? C1 C2]; subst.
  rewrite twalk_unfold. unfold distant_visit at 1. rewrite Ek. cbn [bind].
  unfold co_of in LO. rewrite Ek in LO. cbn [bind] in LO. injection LO as LO.
  assert (KIDS : ks <> [] -> (k_copen k <> -1)%Z /\ dout (content c) (leaves (RNode c ks)) (preorder (RNode c ks)) gl (twalks DV ks gl)).
  { intros NE. split.
    { destruct ks as [|k0 ks]; [easy|]. assert (R0 : (0 <= root k0)%Z). { apply G. right. cbn [flat_map]. apply in_or_app. left. apply in_root. } lia. }
    rewrite C1 by easy. rewrite leaves_node by easy. cbn [preorder].
    assert (G' : forall q, In q (flat_map preorder ks) -> good q) by (intros; apply G; now right).
    assert (X : dout (flat_map (fun k => content (root k)) ks) (flat_map leaves ks) (flat_map preorder ks) gl (twalks DV ks gl)).
    { clear - IH LL C2 G'. revert gl IH LL C2 G'. generalize ks as l. induction l as [|a l IHl]; intros gl IH LL C2 G'.
      - left. exists [], []. cbn [twalks flat_map]. rewrite app_nil_r. repeat split; try constructor. intros i j _ [].
      - inversion IH as [|? ? IHa IHl']; inversion C2; subst. destruct LL as [LA LB]. cbn [twalks].
        destruct (IHa _ _ _ LA) with (gl := gl) as [(acc & q & E & S1 & S2 & S3 & S4)|(q & x & E & S1 & S2)]; [easy|intros; apply G', in_or_app; now left| |]; rewrite E; cbn [bind].
        + destruct (IHl (gl ++ q)) as [(acc' & q' & E' & S1' & S2' & S3' & S4')|(q' & x & E' & S1' & S2')]; auto. { intros; apply G', in_or_app; now right. }
          * rewrite E'. left. exists (acc ++ acc'), (q ++ q'). rewrite app_assoc. split; [reflexivity|]. split; [now apply Forall2_app2|].
            split; [cbn [flat_map]; rewrite flat_map_app; now f_equal|]. split.
            { intros i j Hi Hj. cbn [flat_map] in Hj. apply in_app_or in Hj as [Hj|Hj]; auto. }
            apply Forall_app. cbn [flat_map]. split; [eapply Forall_impl; [|exact S4]|eapply Forall_impl; [|exact S4']]; cbn beta; intros ? (? & ?); split; try easy; apply in_or_app; tauto.
          * rewrite E'. right. exists (q ++ q'), x. rewrite app_assoc. split; [reflexivity|]. split; [|easy]. cbn [flat_map]. apply in_or_app; tauto.
        + right. exists q, x. split; [reflexivity|]. split; [|easy]. cbn [flat_map]. apply in_or_app; tauto. }
    destruct X as [(acc & q & E & S1 & S2 & S3 & S4)|X]; [left|right; exact X]. exists acc, q. split; [exact E|]. split; [exact S1|]. split; [exact S2|]. split; [exact S3|].
    eapply Forall_impl; [|exact S4]. cbn beta. intros ? (? & ?). split; [now right|easy]. }
  assert (LEAF : ks = [] -> (k_copen k = -1)%Z) by (intros ->; exact LO).
  assert (EMPTY : zlen (content c) = 0%Z -> dout (content c) (leaves (RNode c ks)) (preorder (RNode c ks)) gl (Ok (gl, false))).
  { intros Z0. apply zlen0 in Z0. rewrite Z0. left. exists [], []. rewrite app_nil_r. repeat split; try constructor. intros i j _ []. }
  cbn [root].
  rewrite (touch_grav ndim lo hi bl br kernrange). fold b.
  pose proof (touch_hydro ndim lo hi bl br kernrange Hk cell k (decent_of _ _ _ _ Hcell) (decent_of _ _ _ _ EE)) as TT. fold b in TT.
  pose proof (coarse ndim lo hi bl br mac macerror cm k cell macf amin) as CO. fold b in CO. rewrite EN.
  destruct (spheres_hydro ndim b kernrange cell k) eqn:ES.
  - destruct ks as [|k0 ks].
    + rewrite LO, Z.eqb_refl. cbn [negb bind]. destruct (Z.eqb_spec (zlen (content c)) 0) as [Z0|Z0]; cbn [bind]; [now apply EMPTY|].
      right. exists [], c. rewrite app_nil_r. split; [reflexivity|]. split; [now left|]. exists k. split; [easy|]. split; [now apply zlen_pos|tauto].
    + destruct KIDS as [NE K]; [discriminate|]. destruct (Z.eqb_spec (k_copen k) (-1)); [lia|]. cbn [negb bind]. exact K.
  - destruct (Z.eqb_spec (zlen (content c)) 0) as [Z0|Z0]; cbn [bind]; [now apply EMPTY|].
    destruct (open_cell_for_gravity mac macerror cm k (pair_distsqd ndim b cell k) macf amin) eqn:EO; cbn [negb].
    + destruct ks as [|k0 ks].
      * rewrite LO, Z.eqb_refl. cbn [negb bind]. right. exists [], c. rewrite app_nil_r. split; [reflexivity|]. split; [now left|]. exists k. split; [easy|]. split; [now apply zlen_pos|tauto].
      * destruct KIDS as [NE K]; [discriminate|]. destruct (Z.eqb_spec (k_copen k) (-1)); [lia|]. cbn [negb bind]. exact K.
    + cbn [bind]. left. exists [c], [k]. split; [reflexivity|].
      assert (NT : ~ may_touch ndim kernrange cell k (SEP k)) by (intros T; apply TT in T; discriminate).
      split. { constructor; [|constructor]. split; [easy|]. split; [exact NT|]. intros T. apply CO in T. congruence. }
      split; [cbn; apply app_nil_r|]. split.
      * intros i j Hi Hj. eapply (apart ndim lo hi bl br Hdom kernrange Hk); eauto.
      * constructor; [|constructor]. split; [now left|now apply zlen_pos].
Qed.

Variables (Ncell : Z) (t : rtree).
Hypothesis HD : described ndim pos hsm cells Ncell t content.
Hypothesis HW : forall c k, In c (preorder t) -> aget cells c = Ok k -> within ndim b (k_r cell) (k_r k).

Lemma nodup_bound_z : forall l n, NoDup l -> (forall c, In c l -> (0 <= c < n)%Z) -> (length l <= Z.to_nat n)%nat.
Proof.
  intros l n ND H. rewrite <- (map_length Z.to_nat l), <- (seq_length (Z.to_nat n) 0). apply NoDup_incl_length.
  - clear - ND H. induction ND as [|x l Hx ND IH]; [constructor|]. cbn. constructor; [|apply IH; intros; apply H; now right].
    intros X. apply in_map_iff in X as (y & E & Hy). pose proof (H x (or_introl eq_refl)). pose proof (H y (or_intror Hy)). assert (x = y) by lia. subst. easy.
  - intros x Hx. apply in_map_iff in Hx as (y & <- & Hy). apply H in Hy. apply in_seq. lia.
Qed.
Lemma good_all : forall c, In c (preorder t) -> good c.
Proof.
  intros c Hc. split; [now apply (ds_range _ _ _ _ _ _ _ HD)|]. destruct (ds_cells _ _ _ _ _ _ _ HD c Hc) as (k & E & EN & EE). exists k. repeat split; try easy; try apply EE; auto.
  eapply HW; eauto.
Qed.
Lemma run_walk : forall S (visit : Z -> S -> res (S * ctl)) s x,
  (forall c s s', visit c s = Ok (s', Down) -> co_of cells c <> Ok (-1)%Z) ->
  twalk visit t s = Ok x -> walk (co_of cells) (cn_of cells) Ncell visit (Z.to_nat Ncell) 0%Z s = Ok x.
Proof.
  intros S visit s x NO T. destruct HD as [D1 D2 D3 (nx & D4 & D5) D6 D7].
  assert (W : walk (co_of cells) (cn_of cells) Ncell visit (msize t) (root t) s = Ok x).
  { eapply walk_correct; eauto. intros c Hc. now apply D3. }
  rewrite D1 in W. eapply walk_mono; [exact NO| |exact W]. now apply nodup_bound_z.
Qed.

Theorem overlap_correct : exists st, ComputeHydroTreeCellOverlap ndim b kernrange cells Ncell cell = Ok st /\
  (st = false -> all_apart (content 0%Z)) /\ (st = true -> exists c, In c (leaves t) /\ leaf_meets c).
Proof.
  pose proof HD as [D1 D2 D3 (nx & D4 & D5) D6 D7].
  destruct (overlap_twalk t _ _ _ D5 D6 good_all) as (st & E & S1 & S2). exists st. rewrite D1 in S1. split; [|easy].
  unfold ComputeHydroTreeCellOverlap. change (get_copen cells) with (co_of cells). change (get_cnext cells) with (cn_of cells).
  assert (NO : forall c s s', OV c s = Ok (s', Down) -> co_of cells c <> Ok (-1)%Z); [|now rewrite (run_walk _ _ _ _ NO E)].
  intros c s s'. unfold overlap_visit, co_of. destruct (aget cells c) as [k| | |]; cbn [bind]; try discriminate.
  destruct (spheres_hydro _ _ _ _ _); [|discriminate]. destruct (Z.eqb_spec (k_copen k) (-1)); cbn [negb]; [|congruence].
  destruct (k_N k =? 0)%Z; try discriminate. destruct (0 <? k_N k)%Z; discriminate.
Qed.
Theorem distant_correct : forall gl, exists r, ComputeDistantGravityInteractionList ndim b kernrange mac macerror cm cells Ncell cell amin macf gl = Ok r /\
  ((exists acc ks, r = (gl ++ ks, 0%Z) /\ Forall2 accepted acc ks /\ flat_map content acc = content 0%Z /\ all_apart (content 0%Z) /\
      Forall (fun c => In c (preorder t) /\ content c <> []) acc) \/
   (exists ks c, r = (gl ++ ks, (-1)%Z) /\ In c (leaves t) /\ leaf_near c)).
Proof.
  intros gl. pose proof HD as [D1 D2 D3 (nx & D4 & D5) D6 D7].
  assert (NO : forall c s s', DV c s = Ok (s', Down) -> co_of cells c <> Ok (-1)%Z).
  { intros c s s'. unfold distant_visit, co_of. destruct (aget cells c) as [k| | |]; cbn [bind]; try discriminate.
    destruct (spheres_grav _ _ _ _ _); destruct (Z.eqb_spec (k_copen k) (-1)); cbn [negb]; try congruence;
    destruct (k_N k =? 0)%Z; try discriminate; destruct (open_cell_for_gravity _ _ _ _ _ _ _); discriminate. }
  unfold ComputeDistantGravityInteractionList. change (get_copen cells) with (co_of cells). change (get_cnext cells) with (cn_of cells).
  destruct (distant_twalk t _ _ _ D5 D6 good_all gl) as [(acc & q & E & S)|(q & c & E & S)]; rewrite (run_walk _ _ _ _ NO E); cbn [bind]; eexists; (split; [reflexivity|]).
  - left. exists acc, q. rewrite D1 in S. auto.
  - right. exists q, c. auto.
Qed.
End Walks.
