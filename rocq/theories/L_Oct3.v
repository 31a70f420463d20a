(** The tree after each division of a cell. *)
From Verif Require Import Prelude L_Prelude Vec M_Box S_Tree L_Tree L_Search L_KDBuild L_KDDivide L_KDTop L_StockTree M_Oct S_Oct L_Oct L_Oct2.
From Coq Require Import Reals Permutation Lra.
Local Open Scope Z_scope.

Lemma subseq_in : forall l m, subseq l m -> forall p, In p l -> In p m.
Proof. induction 1; intros p Hp; auto; [right; auto|]. destruct Hp as [->|Hp]; [now left|right; auto]. Qed.
Lemma subseq_nodup : forall l m, subseq l m -> NoDup m -> NoDup l.
Proof.
  induction 1; intros N; auto; inversion N; subst; auto. constructor; auto. intros X. apply H2. eapply subseq_in; eauto.
Qed.
Lemma subseq_trans : forall l m, subseq l m -> forall k, subseq k l -> subseq k m.
Proof.
  induction 1; intros k K; auto.
  - apply sub_skip. auto.
  - inversion K; subst; [apply sub_skip|apply sub_take]; auto.
Qed.
Lemma subseq_filter : forall f l, subseq (filter f l) l.
Proof. induction l; cbn [filter]; [constructor|]. destruct (f a); [apply sub_take|apply sub_skip]; auto. Qed.
Lemma subseq_refl : forall l, subseq l l.
Proof. induction l; [constructor|apply sub_take]; auto. Qed.

Lemma chain_det : forall inext f l q q', NoDup q -> NoDup q' -> (forall p, In p q -> 0 <= p) -> (forall p, In p q' -> 0 <= p) ->
  chain inext f l q -> chain inext f l q' -> q = q'.
Proof.
  intros inext f l q q' N N' B B' C C'.
  destruct q as [|a q], q' as [|a' q']; cbn [chain] in *; auto.
  - destruct C as [-> _], C' as [<- _]. specialize (B' (-1) (or_introl eq_refl)). lia.
  - destruct C as [-> _], C' as [-> _]. specialize (B (-1) (or_introl eq_refl)). lia.
  - destruct C as (-> & -> & L), C' as (<- & E & L'). f_equal. clear B B'.
    revert a q' N N' L L' E. induction q as [|b q IH]; intros a q' N N' L L' E.
    + destruct q' as [|b' q']; [reflexivity|]. exfalso. cbn [List.last] in E. 
      inversion N' as [|? ? X _]. apply X. rewrite E.
      destruct (exists_last' _ (b' :: q')) as (z & y & Ez); [easy|].
      change (match q' with [] => b' | _ :: _ => List.last q' (-1) end) with (List.last (b' :: q') (-1)).
      rewrite Ez, last_app1. apply in_or_app. right. now left.
    + destruct q' as [|b' q'].
      * exfalso. cbn [List.last] in E. inversion N as [|? ? X _]. apply X. rewrite <- E.
        destruct (exists_last' _ (b :: q)) as (z & y & Ez); [easy|].
        change (match q with [] => b | _ :: _ => List.last q (-1) end) with (List.last (b :: q) (-1)).
        rewrite Ez, last_app1. apply in_or_app. right. now left.
      * destruct L as [L1 L2], L' as [L1' L2']. assert (b' = b) by congruence. subst b'. f_equal.
        inversion N; inversion N'; subst. apply (IH b q'); auto.
Qed.

(** Distribution of a list over classes. *)
Lemma one_class : forall (A : Type) (g : Z -> list A) (a : A) j ks, NoDup ks -> In j ks ->
  Permutation (concat (map (fun k => if j =? k then a :: g k else g k) ks)) (a :: concat (map g ks)).
Proof.
  induction ks as [|k ks IH]; intros N I; [easy|]. inversion N; subst. cbn [map concat].
  destruct (Z.eqb_spec j k) as [->|Ne].
  - cbn [app]. apply perm_skip. apply Permutation_app_head.
    assert (E : map (fun k0 => if k =? k0 then a :: g k0 else g k0) ks = map g ks).
    { apply map_ext_in. intros x Hx. destruct (Z.eqb_spec k x); [subst; contradiction|reflexivity]. }
    rewrite E. reflexivity.
  - destruct I as [I|I]; [congruence|]. rewrite IH by easy. symmetry. apply Permutation_middle.
Qed.
Lemma partition_perm : forall (f : Z -> Z) ks l, NoDup ks -> (forall p, In p l -> In (f p) ks) ->
  Permutation (concat (map (fun k => filter (fun p => f p =? k) l) ks)) l.
Proof.
  intros f ks l N. induction l as [|a l IH]; intros B.
  - clear. cbn [filter]. induction ks; auto.
  - transitivity (a :: concat (map (fun k => filter (fun p => f p =? k) l) ks)).
    + rewrite <- (one_class _ (fun k => filter (fun p => f p =? k) l) a (f a) ks N) by (apply B; now left).
      cbn [filter]. reflexivity.
    + apply perm_skip. apply IH. intros p Hp. apply B. now right.
Qed.

Definition cells_copen (cells : list ocell) (c : Z) : res Z := let! x := aget cells c in Ok (o_copen x).
Definition cells_cnext (cells : list ocell) (c : Z) : res Z := let! x := aget cells c in Ok (o_cnext x).

Lemma linked_leaves : forall Nc co cn n b nx x,
  (forall j, b <= j < b + Z.of_nat n -> co j = Ok (-1) /\ cn j = Ok (if j =? b + Z.of_nat n - 1 then x else j + 1)) ->
  same_exit Nc x nx -> linked_list Nc co cn (map (fun d => RNode d []) (zseq b n)) nx.
Proof.
  intros Nc co cn. induction n; intros b nx x H S; [exact I|]. cbn [zseq map linked_list]. split.
  - destruct (H b) as [A B]; [lia|]. rewrite linked_unfold. split; [|split; [exact A|exact I]].
    rewrite B. eexists. split; [reflexivity|]. destruct n.
    + cbn [zseq map]. replace (b =? b + Z.of_nat 1 - 1) with true by lia. exact S.
    + cbn [zseq map root]. replace (b =? b + Z.of_nat (Datatypes.S (Datatypes.S n)) - 1) with false by lia. now left.
  - apply (IHn (b + 1) nx x); [|exact S]. intros j Hj. destruct (H j) as [A B]; [lia|]. split; [exact A|]. rewrite B.
    replace (b + 1 + Z.of_nat n - 1) with (b + Z.of_nat (Datatypes.S n) - 1) by lia. reflexivity.
Qed.
Lemma preorder_leaves : forall l, flat_map preorder (map (fun d => RNode d []) l) = l.
Proof. induction l; cbn; auto. now f_equal. Qed.
Lemma leaves_leaves : forall l, flat_map leaves (map (fun d => RNode d []) l) = l.
Proof. induction l; cbn; auto. now f_equal. Qed.
Lemma ctrees_leaves : forall (P L : Z -> list Z -> Prop) (g : Z -> list Z) l,
  (forall j, In j l -> P j (g j) /\ L j (g j)) -> ctrees P L (map (fun d => RNode d []) l) (map g l).
Proof.
  induction l; intros H; cbn [map]; constructor.
  - destruct (H a); [now left|]. now constructor.
  - apply IHl. intros; apply H; now right.
Qed.

Section Inv.
Variables (ndim : nat) (ps : list opart) (Nleafmax : Z) (q0 : list Z) (ni Nmax : Z) (s0 : R).
(** The assumptions that the particles lie in the box, and in the cube, of the root cell. *)
Variables (in_root in_cube : Prop).

Definition half (l : Z) : R := (s0 * (1/2) ^ Z.to_nat l)%R.
Definition Pc (cells : list ocell) (c : Z) (q : list Z) : Prop :=
  exists x, aget cells c = Ok x /\ o_N x = zlen q /\
    (in_root -> forall p y, In p q -> aget ps p = Ok y -> inside ndim (op_r y) (o_min x) (o_max x)) /\
    (in_cube -> forall p y, In p q -> aget ps p = Ok y -> near ndim (op_r y) (o_rc x) (half (o_level x))).
Definition Lc (cells : list ocell) (inext : list Z) (pend : list Z) (nc0 : Z) (c : Z) (q : list Z) : Prop :=
  exists x, aget cells c = Ok x /\ chain inext (o_ifirst x) (o_ilast x) q /\ subseq q q0 /\ o_N x = zlen q /\
    (zlen q <= Nleafmax \/ In c pend \/ nc0 <= c).

Record Inv (cells : list ocell) (inext : list Z) (T : rtree) (pend : list Z) (lv nc0 nc : Z) : Prop := {
  i_len : zlen cells = Nmax;
  i_ni : zlen inext = ni;
  i_nc : 0 < nc0 <= nc /\ nc <= Nmax;
  i_pre : Permutation (preorder T) (zseq 0 (Z.to_nat nc));
  i_link : linked (Nmax + 1) (cells_copen cells) (cells_cnext cells) T Nmax;
  i_br : branching 8 T;
  i_root : root T = 0;
  i_ct : exists qs, ctree (Pc cells) (Lc cells inext pend nc0) T qs /\ Permutation qs q0;
  i_fresh : forall d, nc <= d < Nmax -> exists x, aget cells d = Ok x /\ pristine x;
  i_nd : NoDup pend;
  i_pend : forall d, In d pend -> In d (leaves T) /\ d < nc0 /\ exists x, aget cells d = Ok x /\ o_level x = lv;
  i_new : forall d, nc0 <= d < nc -> In d (leaves T) /\ exists x, aget cells d = Ok x /\ o_level x = lv + 1;
  i_depth : forall d n, depth_of T d n -> exists x, aget cells d = Ok x /\ o_level x = n /\ 0 <= n }.

Hypothesis Hndim : (1 <= ndim <= 3)%nat.
Hypothesis Hnd0 : NoDup q0.
Hypothesis Hq0 : forall p, In p q0 -> 0 <= p < zlen ps /\ 0 <= p < ni.

Lemma half_S : forall l, 0 <= l -> half l = (2 * half (l + 1))%R.
Proof.
  clear Hndim Hnd0 Hq0. intros l H. unfold half. replace (Z.to_nat (l + 1)) with (S (Z.to_nat l)) by lia. cbn [pow]. field.
Qed.

Lemma low_kid : forall rc r d, (d < ndim)%nat -> low (child_of ndim rc r) d = negb (rltb (rc d) (r d)).
Proof.
  intros rc r d Hd. unfold child_of.
  destruct ndim as [|[|[|[|n]]]] eqn:En; try lia; cbn [Nat.ltb Nat.leb Nat.eqb];
    destruct d as [|[|[|d]]]; try lia; cbn [low];
    repeat match goal with |- context [rltb ?a ?b] => destruct (rltb a b) end; reflexivity.
Qed.

Lemma child_inside : forall sz lv cell old p y, aget ps p = Ok y -> inside ndim (op_r y) (o_min cell) (o_max cell) ->
  inside ndim (op_r y) (o_min (new_child ndim sz lv cell (kid_of ndim ps (o_rc cell) p) old))
                  (o_max (new_child ndim sz lv cell (kid_of ndim ps (o_rc cell) p) old)).
Proof.
  intros sz lv cell old p y Ey H d Hd. specialize (H d Hd). unfold kid_of. rewrite Ey. cbn [new_child o_min o_max].
  rewrite (proj2 (Nat.ltb_lt d ndim) Hd), low_kid by easy. unfold rltb. destruct (Rlt_dec _ _); cbn [negb]; lra.
Qed.
Lemma child_near : forall lv cell old p y, 0 <= o_level cell -> lv = o_level cell + 1 -> aget ps p = Ok y ->
  near ndim (op_r y) (o_rc cell) (half (o_level cell)) ->
  near ndim (op_r y) (o_rc (new_child ndim (half lv) lv cell (kid_of ndim ps (o_rc cell) p) old)) (half lv).
Proof.
  intros lv cell old p y B -> Ey H d Hd. specialize (H d Hd). unfold kid_of. rewrite Ey. cbn [new_child o_rc].
  rewrite (proj2 (Nat.ltb_lt d ndim) Hd), low_kid by easy.
  rewrite half_S in H by easy. set (h := half (o_level cell + 1)) in *.
  unfold rltb. destruct (Rlt_dec _ _); cbn [negb]; unfold Rabs in *;
    repeat match goal with |- context [Rcase_abs ?a] => destruct (Rcase_abs a) | X : context [Rcase_abs ?a] |- _ => destruct (Rcase_abs a) end; lra.
Qed.

Lemma inv_divide : forall cells inext T c pend lv nc0 nc,
  Inv cells inext T (c :: pend) lv nc0 nc -> nc + 8 <= Nmax ->
  exists cells' inext', divide ndim ps (half (lv + 1)) (lv + 1) nc c cells inext = Ok (cells', inext') /\
    Inv cells' inext' (expand c (map (fun d => RNode d []) (zseq nc 8)) T) pend lv nc0 (nc + 8) /\
    (forall d x, 0 <= d < nc -> aget cells d = Ok x -> exists x', aget cells' d = Ok x' /\ o_level x' = o_level x /\ o_N x' = o_N x).
Proof.
  intros cells inext T c pend lv nc0 nc [Hlen Hni Hnc Hpre Hlk Hbr Hroot (qs & CT & PQ) Hfr Hpn Hpd Hnw Hdp] Room.
  destruct (Hpd c (or_introl eq_refl)) as (Hleaf & Hc0 & xc & Exc & Elv).
  assert (NDpre : NoDup (preorder T)).
  { eapply Permutation_NoDup; [symmetry; exact Hpre|]. apply zseq_nodup. }
  assert (Hcell : forall d, In d (preorder T) -> 0 <= d < nc).
  { intros d Hd. eapply Permutation_in in Hd; [|exact Hpre]. apply zseq_in in Hd. lia. }
  assert (NDq : NoDup qs) by (eapply Permutation_NoDup; [symmetry; exact PQ|easy]).
  destruct (proj1 (ctree_leaf_of (Pc cells) (Lc cells inext (c :: pend) nc0)) T qs CT c Hleaf) as (ql & Lq & Pq & Iq).
  destruct Lq as (xc' & E1 & Cq & Sq & _ & _). assert (xc' = xc) by congruence. subst xc'. clear E1.
  assert (NDql : NoDup ql) by (eapply subseq_nodup; eauto).
  assert (Bql : forall p, In p ql -> okp ps inext p).
  { intros p Hp. destruct (Hq0 p (subseq_in _ _ Sq p Hp)). unfold okp. rewrite Hni. easy. }
  assert (Hlv : 0 <= lv).
  { assert (D : exists n, depth_of T c n).
    { apply leaves_preorder in Hleaf. clear - Hleaf. induction T as [e l IH] using rtree_ind2. destruct Hleaf as [<-|H].
      - exists 0. constructor.
      - apply in_flat_map in H as (k & Hk & Hc). rewrite Forall_forall in IH. destruct (IH k Hk Hc) as (n & D). exists (n + 1). econstructor; eauto. }
    destruct D as (n & D). destruct (Hdp c n D) as (x & Ex & Lx & Nn). congruence. }
  destruct (divide_ok ndim ps (half (lv + 1)) (lv + 1) nc c xc ql cells inext) as (cells' & inext' & ED & DV); auto; try lia.
  { intros k Hk. apply Hfr. lia. }
  exists cells', inext'. split; [exact ED|].
  destruct DV as (V1 & V2 & V3 & V4 & V5 & V6).
  set (ks := map (fun d => RNode d []) (zseq nc 8)).
  assert (Hks : ks <> []) by (unfold ks; discriminate).
  assert (Hin : forall j, In j (zseq nc 8) <-> nc <= j < nc + 8) by (intros; rewrite zseq_in; lia).
  (* what happened to the old cells *)
  assert (OLD : forall d, 0 <= d < nc -> d <> c -> aget cells' d = aget cells d) by (intros; apply V5; lia).
  destruct (Hcell c (leaves_preorder _ _ Hleaf)) as [Hc1 Hc2].
  (* the new cells *)
  assert (NEW : forall j, nc <= j < nc + 8 -> exists old ch, aget cells' j = Ok ch /\
     chain inext' (o_ifirst ch) (o_ilast ch) (kids_of ndim ps (o_rc xc) (j - nc) ql) /\ o_N ch = zlen (kids_of ndim ps (o_rc xc) (j - nc) ql) /\
     geo ch = geo (set_cnext (if j - nc =? 7 then o_cnext xc else j + 1) (new_child ndim (half (lv + 1)) (lv + 1) xc (j - nc) old)) /\ o_copen ch = -1).
  { intros j Hj. destruct (V4 (j - nc)) as (old & ch & A & B & X & D & F & G); [lia|].
    replace (nc + (j - nc)) with j in * by lia. exists old, ch. auto. }
  assert (PRE' : Permutation (preorder (expand c ks T)) (zseq 0 (Z.to_nat (nc + 8)))).
  { rewrite preorder_expand by easy. unfold ks. rewrite preorder_leaves. rewrite Hpre.
    replace (Z.to_nat (nc + 8)) with (Z.to_nat nc + 8)%nat by lia. rewrite zseq_app. replace (0 + Z.of_nat (Z.to_nat nc)) with nc by lia. reflexivity. }
  split; [|intros d x Hd Ex; destruct (Z.eq_dec d c) as [->|Ne];
    [exists (set_copen nc xc); split; [exact V3|]; assert (x = xc) by congruence; subst x; auto | exists x; rewrite OLD by auto; auto]].
  constructor.
  - lia.
  - lia.
  - lia.
  - exact PRE'.
  - (* links *)
    eapply linked_expand; eauto.
    + intros d Hd. destruct (Z.eq_dec d c) as [->|Ne].
      * unfold cells_cnext. rewrite V3, Exc. reflexivity.
      * unfold cells_cnext. rewrite OLD by auto. reflexivity.
    + intros d Hd Ne. unfold cells_copen. rewrite OLD by auto. reflexivity.
    + unfold cells_copen. rewrite V3. reflexivity.
    + intros nx (x & Ex & SE). unfold cells_cnext in Ex. rewrite Exc in Ex. cbn [bind] in Ex. injection Ex as <-.
      unfold ks. apply linked_leaves with (x := o_cnext xc); [|exact SE].
      intros j Hj. destruct (NEW j) as (old & ch & A & _ & _ & G & Cp); [lia|]. unfold cells_copen, cells_cnext. rewrite A. cbn [bind].
      rewrite Cp. split; [reflexivity|]. f_equal.
      assert (EG : o_cnext ch = if j - nc =? 7 then o_cnext xc else j + 1) by (unfold geo in G; cbn [o_cnext set_cnext] in G; congruence).
      rewrite EG. destruct (Z.eqb_spec (j - nc) 7), (Z.eqb_spec j (nc + Z.of_nat 8 - 1)); try lia; reflexivity.
  - apply branching_expand; [reflexivity| |exact Hbr].
    intros k Hk. unfold ks in Hk. apply in_map_iff in Hk as (j & <- & _). constructor.
  - now rewrite root_expand.
  - (* particles *)
    set (qss := map (fun j => kids_of ndim ps (o_rc xc) (j - nc) ql) (zseq nc 8)).
    assert (PK : Permutation (concat qss) ql).
    { unfold qss. rewrite (map_ext_in _ (fun j => filter (fun p => kid_of ndim ps (o_rc xc) p + nc =? j) ql)).
      - apply partition_perm; [apply zseq_nodup|]. intros p _. apply Hin. pose proof (kid_range ndim ps (o_rc xc) p). lia.
      - intros j _. unfold kids_of. apply filter_ext. intros p. unfold is_kid.
        destruct (Z.eqb_spec (kid_of ndim ps (o_rc xc) p) (j - nc)), (Z.eqb_spec (kid_of ndim ps (o_rc xc) p + nc) j); try lia; reflexivity. }
    destruct Pq as (xc' & E1 & Nq & Bq & Cuq). assert (xc' = xc) by congruence. subst xc'. clear E1.
    destruct (ctree_expand (Pc cells) (Lc cells inext (c :: pend) nc0) (Pc cells') (Lc cells' inext' pend nc0) c ks ql qss (fun d => 0 <= d < nc))
      with (t := T) (ps := qs) as (ps' & CT' & PP); auto.
    + (* children *)
      unfold ks, qss. apply ctrees_leaves. intros j Hj. apply Hin in Hj. destruct (NEW j Hj) as (old & ch & A & B & Nn & G & Cp).
      assert (Emin : o_min ch = o_min (new_child ndim (half (lv + 1)) (lv + 1) xc (j - nc) old)) by (unfold geo in G; cbn [o_min set_cnext] in G; congruence).
      assert (Emax : o_max ch = o_max (new_child ndim (half (lv + 1)) (lv + 1) xc (j - nc) old)) by (unfold geo in G; cbn [o_max set_cnext] in G; congruence).
      assert (Erc : o_rc ch = o_rc (new_child ndim (half (lv + 1)) (lv + 1) xc (j - nc) old)) by (unfold geo in G; cbn [o_rc set_cnext] in G; congruence).
      assert (Elev : o_level ch = lv + 1) by (unfold geo in G; cbn [o_level set_cnext new_child] in G; congruence).
      split.
      * exists ch. split; [exact A|]. split; [exact Nn|]. split.
        -- intros HR p y Hp Ey. apply kids_in in Hp as [Hp Ek]. rewrite Emin, Emax, <- Ek. apply child_inside; auto. eapply Bq; eauto.
        -- intros HR p y Hp Ey. apply kids_in in Hp as [Hp Ek]. rewrite Erc, Elev, <- Ek. apply child_near; auto; [lia|lia|]. eapply Cuq; eauto.
      * exists ch. split; [exact A|]. split; [exact B|]. split; [|split; [exact Nn|right; right; lia]].
        eapply subseq_trans; [exact Sq|]. apply subseq_filter.
    + (* the list of c *)
      intros q (x & Ex & Cx & Sx & _ & _). assert (x = xc) by congruence. subst x.
      apply (chain_det inext (o_ifirst xc) (o_ilast xc)); auto.
      * eapply subseq_nodup; eauto.
      * intros p Hp. destruct (Hq0 p (subseq_in _ _ Sx p Hp)). lia.
      * intros p Hp. destruct (Hq0 p (subseq_in _ _ Sq p Hp)). lia.
    + (* c itself *)
      exists (set_copen nc xc). split; [exact V3|]. split.
      * cbn [o_N set_copen]. rewrite Nq. unfold zlen. now rewrite (Permutation_length PK).
      * split; cbn [o_min o_max o_rc o_level set_copen]; intros HR p y Hp; [apply (Bq HR)|apply (Cuq HR)]; eapply Permutation_in; eauto.
    + (* other cells *)
      intros d q q' Ne Hd (x & Ex & Nx & Bx & Cx) Pqq. exists x. rewrite OLD by auto. split; [exact Ex|]. split.
      * rewrite Nx. unfold zlen. now rewrite (Permutation_length Pqq).
      * split; intros HR p y Hp; [apply (Bx HR)|apply (Cx HR)]; eapply Permutation_in; try (symmetry; eassumption); auto.
    + (* other leaves *)
      intros d q Ne Hd Dj (x & Ex & Cx & Sx & Nx & Fx). exists x. rewrite OLD by auto. split; [exact Ex|]. split.
      * eapply chain_ext; [|exact Cx]. intros p Hp. apply V6. apply Dj. now apply in_removelast.
      * split; [exact Sx|]. split; [exact Nx|]. destruct Fx as [Fx|[[Fx|Fx]|Fx]]; auto. congruence.
    + exists ps'. split; [exact CT'|]. now rewrite PP.
  - intros d Hd. destruct (Hfr d) as (x & Ex & Px); [lia|]. exists x. rewrite V5 by lia. auto.
  - now inversion Hpn.
  - intros d Hd. destruct (Hpd d (or_intror Hd)) as (A & B & x & Ex & Lx).
    assert (Ne : d <> c) by (inversion Hpn; subst; intros ->; contradiction).
    split; [apply leaves_expand; auto|]. split; [exact B|]. exists x. rewrite OLD; auto. apply Hcell. now apply leaves_preorder.
  - intros d Hd. destruct (Z_lt_dec d nc) as [Lt|Ge].
    + destruct (Hnw d) as (A & x & Ex & Lx); [lia|]. split; [apply leaves_expand; auto; left; split; [easy|lia]|].
      exists x. rewrite OLD by lia. auto.
    + destruct (NEW d) as (old & ch & A & _ & _ & G & _); [lia|]. split.
      * apply leaves_expand; auto. right. unfold ks. rewrite leaves_leaves. apply Hin. lia.
      * exists ch. split; [exact A|]. unfold geo in G. cbn [o_level set_cnext new_child] in G. congruence.
  - intros d n D. destruct (depth_expand _ _ _ _ _ NDpre Hleaf D) as [D'|(k & m & Ik & Dk & Dc)]; [clear D; rename D' into D|].
    + destruct (Hdp d n D) as (x & Ex & Lx & Nn). destruct (Z.eq_dec d c) as [->|Ne].
      * exists (set_copen nc xc). split; [exact V3|]. assert (x = xc) by congruence. subst x. cbn. auto.
      * exists x. rewrite OLD; auto. apply Hcell. eapply depth_in; eauto.
    + unfold ks in Ik. apply in_map_iff in Ik as (j & <- & Hj). apply Hin in Hj. inversion Dk; subst; [|contradiction].
      destruct (NEW d Hj) as (old & ch & A & _ & _ & G & _). exists ch. split; [exact A|].
      destruct (Hdp c (n - 0 - 1) Dc) as (x & Ex & Lx & Nn). assert (x = xc) by congruence. subst x.
      split; [|lia]. assert (o_level ch = o_level xc + 1) by (unfold geo in G; cbn [o_level set_cnext new_child] in G; congruence). lia.
Qed.
End Inv.
