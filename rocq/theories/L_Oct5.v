(** The first part of BuildTree. *)
From Verif Require Import Prelude L_Prelude Vec M_Box S_Tree L_Tree L_Search L_KDBuild L_KDDivide L_KDTop L_StockTree M_Oct S_Oct L_Oct L_Oct2 L_Oct3 L_Oct4.
From Coq Require Import Reals Permutation Lra.
Local Open Scope Z_scope.

Lemma link_all_ok : forall n i inext, 0 <= i -> i + Z.of_nat n <= zlen inext ->
  exists inext', link_all n i inext = Ok inext' /\ zlen inext' = zlen inext /\ links inext' (zseq i n) /\
    (forall p, ~ (i <= p < i + Z.of_nat n) -> aget inext' p = aget inext p).
Proof.
  induction n; intros i inext B Z.
  - exists inext. cbn. auto.
  - cbn [link_all]. set (v := match n with O => -1 | S _ => i + 1 end).
    destruct (aset_spec inext i v) as (n1 & E1 & Z1 & G1 & O1); [lia|]. rewrite E1. cbn [bind].
    destruct (IHn (i + 1) n1) as (n2 & E2 & Z2 & L2 & O2); [lia|lia|].
    exists n2. split; [exact E2|]. split; [lia|]. split.
    + destruct n as [|n]; [exact I|]. cbn [zseq links] in *. split; [|exact L2]. rewrite O2 by lia. exact G1.
    + intros p Hp. rewrite O2 by lia. apply O1. lia.
Qed.
Lemma last_zseq : forall n a d, (0 < n)%nat -> List.last (zseq a n) d = a + Z.of_nat n - 1.
Proof.
  induction n; intros a d H; [lia|]. destruct n as [|n].
  - cbn. lia.
  - change (zseq a (S (S n))) with (a :: zseq (a + 1) (S n)).
    change (List.last (a :: zseq (a + 1) (S n)) d) with (List.last (zseq (a + 1) (S n)) d). rewrite IHn by lia. lia.
Qed.
Lemma chain_zseq : forall nx n a, (0 < n)%nat -> links nx (zseq a n) -> chain nx a (a + Z.of_nat n - 1) (zseq a n).
Proof.
  intros nx n a H L. pose proof (last_zseq n a (-1) H) as E. destruct n as [|n]; [lia|]. cbn [zseq chain]. split; [reflexivity|].
  split; [symmetry; exact E|exact L].
Qed.
Lemma zlen_zseq : forall n a, zlen (zseq a n) = Z.of_nat n.
Proof. intros. unfold zlen. now rewrite zseq_length. Qed.
Lemma aget_map : forall (A B : Type) (f : A -> B) l i x, aget l i = Ok x -> aget (map f l) i = Ok (f x).
Proof.
  intros A B f l i x H. unfold aget in *. destruct (i <? 0); [discriminate|].
  destruct (nth_error l (Z.to_nat i)) eqn:E; [|discriminate]. injection H as ->. erewrite map_nth_error; eauto.
Qed.
Lemma zlen_map : forall (A B : Type) (f : A -> B) l, zlen (map f l) = zlen l.
Proof. intros. unfold zlen. now rewrite map_length. Qed.
Lemma zlen_repeat : forall (A : Type) (x : A) n, 0 <= n -> zlen (repeat x (Z.to_nat n)) = n.
Proof. intros. unfold zlen. rewrite repeat_length. lia. Qed.
Lemma linked_weaken : forall Nc Nc' co cn t next, Nc' <= Nc -> linked Nc co cn t next -> linked Nc' co cn t next.
Proof.
  intros Nc Nc' co cn t next Le. revert next. induction t as [c ks IH] using rtree_ind2. intros next. rewrite !linked_unfold.
  intros ((x & E & S) & A & L). split; [exists x; split; [exact E|destruct S as [S|S]; [now left|right; lia]]|]. split; [exact A|].
  clear E S A. revert next L. induction IH as [|k ks Hk Hks IH2]; intros next L; [exact I|].
  cbn [linked_list] in *. destruct L as [L1 L2]. split; auto.
Qed.

(** A tree object: nothing allocated, or arrays of matching sizes. *)
Definition alloc_ok (t : octree) : Prop :=
  0 <= o_Ntotmax t /\
  (o_Ncellmax t = 0 \/ (zlen (o_first t) = 40 /\ zlen (o_last t) = 40 /\ zlen (o_inext t) = o_Ntotmax t)).

Lemma alloc_spec : forall Npartmax t, 0 < Npartmax -> alloc_ok t ->
  let t' := AllocateTreeMemory Npartmax 0 t in
  zlen (o_first t') = 40 /\ zlen (o_last t') = 40 /\ zlen (o_inext t') = o_Ntotmax t' /\ Npartmax <= o_Ntotmax t' /\ 0 < zlen (o_cells t').
Proof.
  intros Np t HN (NT & A). unfold AllocateTreeMemory, o_Ncellmax in *.
  assert (0 <= zlen (o_cells t)) by (unfold zlen; lia).
  destruct ((zlen (o_cells t) =? 0) || (o_Ntotmax t <? Np) || (zlen (o_cells t) <? 0)) eqn:E; cbn [o_first o_last o_inext o_cells o_Ntotmax].
  - rewrite !zlen_repeat by (unfold lmax; lia). unfold lmax. lia.
  - destruct A as [A|A]; [lia|]. lia.
Qed.

Section Grow.
Variables (ndim : nat) (ps : list opart) (Nleafmax ifirst Npart Npartmax : Z) (t : octree).
Hypothesis Hndim : (1 <= ndim <= 3)%nat.
Hypothesis Hleaf : 1 <= Nleafmax.
Hypothesis Hfirst : 0 <= ifirst.
Hypothesis Hpart : 0 < Npart.
Hypothesis Hmax : ifirst + Npart <= Npartmax.
Hypothesis Hps : ifirst + Npart <= zlen ps.
Hypothesis Halloc : alloc_ok t.

Let ta := AllocateTreeMemory Npartmax 0 t.
Let q0 := zseq ifirst (Z.to_nat Npart).
Definition c0_of (t : octree) : ocell := match aget (o_cells t) 0 with Ok x => x | _ => fresh_cell end.
Let c0 := c0_of ta.
Definition root_holds : Prop := forall p y, In p q0 -> aget ps p = Ok y -> inside ndim (op_r y) (o_min c0) (o_max c0).
Definition cube_holds : Prop := forall p y, In p q0 -> aget ps p = Ok y -> near ndim (op_r y) (root_centre c0) (root_size ndim c0).
Let EN := enough ndim ps Nleafmax q0 (zlen (o_cells ta)) (root_size ndim c0) cube_holds.

Lemma root_size_ext : forall n c c', o_min c = o_min c' -> o_max c = o_max c' -> root_size n c = root_size n c'.
Proof. clear. intros n c c' E1 E2. induction n; cbn [root_size]; [reflexivity|]. unfold root_centre. now rewrite IHn, E1, E2. Qed.

Lemma grow_ok :
  (exists t' T lv, grow_tree ndim ps Nleafmax ifirst Npart Npartmax t = Ok t' /\
     LInv ndim ps Nleafmax q0 (o_Ntotmax ta) (zlen (o_cells ta)) (root_size ndim c0) root_holds cube_holds t' T [] lv /\ o_Ntotmax t' = o_Ntotmax ta) \/
  (grow_tree ndim ps Nleafmax ifirst Npart Npartmax t = UB /\ ~ EN).
Proof.
  destruct (alloc_spec Npartmax t) as (A1 & A2 & A3 & A4 & A5); [lia|exact Halloc|]. fold ta in A1, A2, A3, A4, A5.
  unfold grow_tree. fold ta.
  destruct (link_all_ok (Z.to_nat Npart) ifirst (o_inext ta)) as (nx & E1 & Z1 & L1 & _); [lia|lia|]. rewrite E1. cbn [bind].
  destruct (aget_in (o_cells ta) 0) as [x0 Ex0]; [lia|].
  assert (Ec0 : c0 = x0) by (unfold c0, c0_of; now rewrite Ex0).
  rewrite (aget_map _ _ _ _ _ _ Ex0). cbn [bind].
  set (r0 := reset_cell (o_Ncellmax ta) x0).
  set (cs := map (reset_cell (o_Ncellmax ta)) (o_cells ta)).
  assert (Zcs : zlen cs = zlen (o_cells ta)) by apply zlen_map.
  destruct (aset_spec cs 0 (root_cell Npart ifirst (ifirst + Npart - 1) r0)) as (cells & E2 & Z2 & G2 & O2); [lia|].
  rewrite E2. cbn [bind]. replace (Npartmax =? 0) with false by lia.
  destruct (aset_spec (o_first ta) 0 0) as (f1 & E3 & Z3 & G3 & O3); [lia|]. rewrite E3. cbn [bind].
  destruct (aset_spec (o_last ta) 0 0) as (l1 & E4 & Z4 & G4 & O4); [lia|]. rewrite E4. cbn [bind].
  assert (Er : root_size ndim r0 = root_size ndim c0) by (rewrite Ec0; apply root_size_ext; reflexivity). rewrite Er.
  set (s0 := root_size ndim c0).
  set (t0 := {| o_cells := cells; o_inext := nx; o_first := f1; o_last := l1; o_Ncell := 1; o_ltot := 0; o_Ntotmax := o_Ntotmax ta |}).
  assert (Hs : s0 = half s0 0) by (unfold half; cbn [Z.to_nat pow]; ring).
  assert (Zq : zlen q0 = Npart) by (unfold q0; rewrite zlen_zseq; lia).
  assert (Hq : forall p, In p q0 <-> ifirst <= p < ifirst + Npart) by (intros; unfold q0; rewrite zseq_in; lia).
  assert (OTH : forall d, 0 < d < zlen (o_cells ta) -> exists x, aget cells d = Ok x /\ pristine x).
  { intros d Hd. destruct (aget_in (o_cells ta) d) as [x Ex]; [lia|]. exists (reset_cell (o_Ncellmax ta) x).
    rewrite O2 by lia. split; [apply aget_map; exact Ex|]. repeat split. }
  assert (INV0 : LInv ndim ps Nleafmax q0 (o_Ntotmax ta) (zlen (o_cells ta)) s0 root_holds cube_holds t0 (RNode 0 []) [0] 0).
  { constructor; auto; cbn [o_cells o_inext o_first o_last o_Ncell o_ltot t0].
    - constructor; auto; try lia.
      + rewrite linked_unfold. unfold cells_copen, cells_cnext. rewrite G2. cbn [bind o_copen o_cnext root_cell]. split; [|split; [reflexivity|exact I]].
        eexists. split; [reflexivity|]. left. reflexivity.
      + constructor.
      + exists q0. split; [|reflexivity]. constructor.
        * exists (root_cell Npart ifirst (ifirst + Npart - 1) r0). split; [exact G2|]. split; [cbn; lia|]. split.
          -- intros RH p y Hp Ey. specialize (RH p y Hp Ey). rewrite Ec0 in RH. exact RH.
          -- intros CH p y Hp Ey. specialize (CH p y Hp Ey). cbn [o_level root_cell]. rewrite <- Hs. unfold s0 in *. cbn [o_rc root_cell].
             rewrite Ec0 in *. exact CH.
        * exists (root_cell Npart ifirst (ifirst + Npart - 1) r0). split; [exact G2|]. split; [|split; [apply subseq_refl|split; [cbn; lia|right; left; now left]]].
          cbn [o_ifirst o_ilast root_cell]. replace (ifirst + Npart - 1) with (ifirst + Z.of_nat (Z.to_nat Npart) - 1) by lia.
          apply chain_zseq; [lia|exact L1].
      + intros d Hd. apply OTH. lia.
      + repeat constructor; easy.
      + intros d [<-|[]]. split; [now left|]. split; [lia|]. eexists. split; [exact G2|]. reflexivity.
      + intros d n D. inversion D; subst; [|easy]. eexists. split; [exact G2|]. split; [reflexivity|lia].
    - lia.
    - lia.
    - intros l Hl. assert (l = 0) by lia. subst l. exists 0, 0. cbn [o_first o_last o_Ncell o_cells t0]. split; [exact G3|]. split; [exact G4|]. split; [lia|]. split; [lia|].
      intros d x Hd Ex. assert (d = 0) by lia. subst d. assert (x = root_cell Npart ifirst (ifirst + Npart - 1) r0) by congruence. subst x.
      cbn [o_level root_cell]. lia.
    - lia.
    - intros d x Hd Ex. assert (d = 0) by lia. subst d. assert (x = root_cell Npart ifirst (ifirst + Npart - 1) r0) by congruence. subst x. cbn; lia. }
  remember (S (Z.to_nat lmax)) as fuel eqn:Ef.
  assert (X := levels_ok ndim ps Nleafmax q0 (o_Ntotmax ta) (zlen (o_cells ta)) s0 root_holds cube_holds Hndim
    (zseq_nodup _ _) ltac:(intros p Hp; apply Hq in Hp; lia) Hleaf fuel t0 (RNode 0 []) [0] 0 Npartmax INV0
    ltac:(rewrite Ef; unfold lmax; lia) ltac:(lia) ltac:(cbn; lia) ltac:(discriminate) eq_refl).
  rewrite <- Hs in X. exact X.
Qed.
End Grow.
