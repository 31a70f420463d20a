From Verif Require Import Prelude L_Prelude S_Tree L_Tree M_Walk Vec M_Box M_Util M_Periodic M_Prune S_Prune L_KDBuild L_KDTop L_StockTree L_Oct4 L_Oct5 L_Prune.
Local Open Scope Z_scope.

Lemma app_inj_len : forall {A} (a b c d : list A), a ++ b = c ++ d -> length a = length c -> a = c /\ b = d.
Proof. induction a; intros b [|x c] d H L; simpl in *; try discriminate; auto. injection H as -> H. destruct (IHa b c d H) as [-> ->]; auto. Qed.
(** In a linked tree numbered in preorder all links point forward. *)
Lemma linked_forward : forall n co cn t a m, linked n co cn t (a + Z.of_nat m) -> preorder t = zseq a m -> a + Z.of_nat m <= n ->
  (forall c x, In c (preorder t) -> cn c = Ok x -> x <= n) ->
  forall c o x, In c (preorder t) -> co c = Ok o -> cn c = Ok x -> 0 <= a -> c < x <= a + Z.of_nat m /\ o < x /\ (o = -1 \/ o = c + 1).
Proof.
  intros n co cn. induction t as [c ks IH] using rtree_ind2. intros a m Li Pr Hm Hx c0 o x Hc Eo Ex Ha.
  rewrite linked_unfold in Li. destruct Li as ((y & Ey & Sy) & Co & Lk). cbn [preorder] in Pr.
  destruct m as [|m]; [discriminate|]. cbn [zseq] in Pr. injection Pr as -> Pr.
  cbn [preorder] in Hc. destruct Hc as [<-|Hc].
  - rewrite Ex in Ey. injection Ey as <-. rewrite Co in Eo. injection Eo as Eo.
    assert (x = a + Z.of_nat (S m)) as ->.
    { destruct Sy as [Sy|[Sy1 Sy2]]; [easy|]. specialize (Hx a x (or_introl eq_refl) Ex). lia. }
    split; [lia|]. destruct ks as [|[k kk] ks]; [lia|]. cbn [flat_map preorder app root] in *. destruct m as [|m]; [discriminate|]. cbn [zseq] in Pr.
    injection Pr as -> _. subst o. lia.
  - assert (Hx' : forall c x, In c (flat_map preorder ks) -> cn c = Ok x -> x <= n) by (intros; eapply Hx; eauto; now right).
    replace (a + Z.of_nat (S m)) with (a + 1 + Z.of_nat m) in * by lia.
    assert (Ha' : 0 <= a + 1) by lia. clear Co Ey Sy y Hx Ha. revert m Lk Pr Hm Hx' Ha'. generalize (a + 1) as b. clear a.
    induction ks as [|k ks IHk]; intros b m Lk Pr Hm Hx Hb; [destruct Hc|].
    inversion IH as [|? ? IH1 IH2]; subst. cbn [linked_list] in Lk. destruct Lk as [L1 L2]. cbn [flat_map] in *.
    set (m1 := length (preorder k)).
    assert (Em : m = (m1 + (m - m1))%nat).
    { apply (f_equal (@length Z)) in Pr. rewrite app_length, zseq_length in Pr. unfold m1. lia. }
    rewrite Em, zseq_app in Pr. apply app_inj_len in Pr as [P1 P2]; [|rewrite zseq_length; reflexivity].
    assert (NX : (match ks with [] => b + Z.of_nat m | k' :: _ => root k' end) = b + Z.of_nat m1).
    { destruct ks as [|[k' kk] ks]. { cbn in P2. destruct (m - m1)%nat; [lia|discriminate]. }
      cbn [flat_map preorder app root] in *. destruct (m - m1)%nat; [discriminate|]. cbn [zseq] in P2. now injection P2 as ->. }
    rewrite NX in L1. apply in_app_iff in Hc as [Hc|Hc].
    + destruct (IH1 b m1) with (c := c0) (o := o) (x := x) as (A & B & C); auto; try lia. all: try (intros; eapply Hx; eauto; apply in_or_app; auto). all: lia.
    + destruct (IHk IH2 Hc (b + Z.of_nat m1) (m - m1)%nat) as (A & B & C); auto; try lia.
      { replace (b + Z.of_nat m1 + Z.of_nat (m - m1)) with (b + Z.of_nat m) by lia. exact L2. }
      { intros; eapply Hx; eauto. apply in_or_app; auto. }
Qed.

(** Renumbering, cell by cell. *)
Lemma renumber_ok : forall ids m c cells (h : Z -> pcell -> pcell), 0 <= c -> c + Z.of_nat m <= zlen cells ->
  (forall i, c <= i < c + Z.of_nat m -> exists k o x, aget cells i = Ok k /\ (if k_copen k =? -1 then o = -1 else aget ids (k_copen k) = Ok o) /\
     aget ids (k_cnext k) = Ok x /\ 0 < x /\ o < x /\ h i k = set_cnext x (set_copen o k)) ->
  exists cells', renumber m c ids cells = Ok cells' /\ zlen cells' = zlen cells /\
    (forall i k, aget cells i = Ok k -> aget cells' i = Ok (if (c <=? i) && (i <? c + Z.of_nat m) then h i k else k)).
Proof.
  intros ids. induction m as [|m IH]; intros c cells h Hc Hl H.
  - exists cells. repeat split; auto. intros i k E. destruct (Z.leb_spec c i), (Z.ltb_spec i (c + Z.of_nat 0)); cbn; auto; lia.
  - cbn [renumber]. destruct (H c ltac:(lia)) as (k & o & x & E1 & E2 & E3 & E4 & E5 & E6). rewrite E1. cbn [bind].
    assert (EO : (if negb (k_copen k =? -1) then aget ids (k_copen k) else Ok (-1)) = Ok o).
    { destruct (k_copen k =? -1); cbn; [now subst|exact E2]. }
    rewrite EO. cbn [bind]. rewrite E3. cbn [bind]. destruct (Z.leb_spec x 0), (Z.leb_spec x o); try lia. cbn [orb].
    rewrite aset_in by lia. cbn [bind]. set (cs := upd cells (Z.to_nat c) _).
    destruct (IH (c + 1) cs h) as (cells' & A & B & C); [lia|unfold cs; rewrite zlen_upd; lia| |].
    { intros i Hi. destruct (H i ltac:(lia)) as (k' & o' & x' & F). exists k', o', x'. unfold cs. rewrite aget_upd_ne by lia. exact F. }
    exists cells'. split; [exact A|]. split; [rewrite B; unfold cs; apply zlen_upd|].
    intros i k' E. destruct (Z.eq_dec i c) as [->|N].
    + rewrite E1 in E. injection E as <-. rewrite (C c (set_cnext x (set_copen o k))); [|unfold cs; apply aget_upd_eq; lia].
      destruct (Z.leb_spec (c + 1) c); [lia|]. destruct (Z.leb_spec c c); [|lia]. destruct (Z.ltb_spec c (c + Z.of_nat (S m))); [|lia]. cbn. now rewrite E6.
    + rewrite (C i k'); [|unfold cs; rewrite aget_upd_ne by lia; exact E].
      destruct (Z.leb_spec (c + 1) i), (Z.leb_spec c i); try lia; cbn [andb]; auto.
      destruct (Z.ltb_spec i (c + 1 + Z.of_nat m)), (Z.ltb_spec i (c + Z.of_nat (S m))); try lia; auto.
Qed.

Section L.
Variables (ndim : nat) (simbox : dombox) (kernrange macfactor : R) (localNode : bool) (lmin lmax : Z) (hmn hmx : vec).
Variables (celldata : list pcell) (Ncell : Z).
Notation opn := (opens ndim simbox kernrange macfactor localNode lmin lmax hmn hmx).
Notation op := (op ndim simbox kernrange macfactor localNode lmin lmax hmn hmx celldata).
Notation cof := (cof celldata).
Notation cnf := (cnf celldata).
Variables (W : list Z) (f : Z -> Z) (n : Z) (co' cn' : Z -> res Z).
Definition g (x : Z) : Z := if x <? Ncell then f x else n.
Hypothesis Hl : forall c k, In c W -> aget celldata c = Ok k ->
  cn' (f c) = Ok (g (k_cnext k)) /\ co' (f c) = Ok (if opn k then g (k_copen k) else -1).

Lemma prune_links : forall t next, linked Ncell cof cnf t next -> incl (preorder (prune op t)) W -> (forall c, In c (preorder t) -> c < Ncell) ->
  linked n co' cn' (relabel f (prune op t)) (g next).
Proof.
  induction t as [c ks IH] using rtree_ind2. intros next Li Inc Hb. rewrite linked_unfold in Li. destruct Li as ((y & Ey & Sy) & Co & Lk).
  unfold L_Prune.cnf in Ey. unfold L_Prune.cof in Co. destruct (aget celldata c) as [k| | |] eqn:Ek; try discriminate. cbn [bind] in *.
  injection Ey as <-. injection Co as Co. destruct (Hl c k) as [H1 H2]; [apply Inc; now left|exact Ek|].
  cbn [prune relabel]. unfold L_Prune.op at 1. rewrite Ek. rewrite linked_unfold. rewrite H1, H2. split; [|split].
  - eexists. split; [reflexivity|]. destruct Sy as [->|[S1 S2]]; [now left|]. left. unfold g.
    destruct (Z.ltb_spec (k_cnext k) Ncell), (Z.ltb_spec next Ncell); lia.
  - destruct (opn k) eqn:EO; [|reflexivity]. f_equal. apply opens_copen in EO. destruct ks as [|k0 ks]; [congruence|].
    cbn [map]. rewrite relabel_root, prune_root, Co. unfold g. destruct (Z.ltb_spec (root k0) Ncell) as [|K]; [reflexivity|]. exfalso.
    assert (root k0 < Ncell); [|lia]. apply Hb. cbn [preorder flat_map]. right. apply in_or_app. left. destruct k0; now left.
  - cbn [prune] in Inc. unfold L_Prune.op at 1 in Inc. rewrite Ek in Inc. destruct (opn k) eqn:EO; [|exact I].
    assert (Inc' : incl (flat_map preorder (map (prune op) ks)) W) by (intros x Hx; apply Inc; now right).
    assert (Hb' : forall c, In c (flat_map preorder ks) -> c < Ncell) by (intros; apply Hb; now right).
    clear Inc Hb Sy H1 H2 EO Ek Co. revert Lk Inc' Hb'. induction IH as [|t ks IH1 IH2 IHk]; [easy|].
    cbn [linked_list map flat_map]. intros [L1 L2] Inc Hb. split.
    + replace (match map (relabel f) (map (prune op) ks) with [] => g next | k' :: _ => root k' end)
        with (g (match ks with [] => next | k' :: _ => root k' end)).
      * apply IH1; [exact L1| |]; intros x Hx; [apply Inc|apply Hb]; apply in_or_app; auto.
      * destruct ks as [|k' ks]; [reflexivity|]. cbn [map]. rewrite relabel_root, prune_root. unfold g. destruct (Z.ltb_spec (root k') Ncell) as [|K]; [reflexivity|].
        exfalso. assert (root k' < Ncell); [|lia]. apply Hb. apply in_or_app. right. cbn [flat_map]. apply in_or_app. left. destruct k'; now left.
    + apply IHk; [exact L2| |]; intros x Hx; [apply Inc|apply Hb]; apply in_or_app; auto.
Qed.

Lemma prune_nexts : forall t next, linked Ncell cof cnf t next -> incl (preorder (prune op t)) W -> (forall c, In c (preorder t) -> c < Ncell) ->
  (next < Ncell -> In next W) ->
  forall c k, In c (preorder (prune op t)) -> aget celldata c = Ok k ->
  (k_cnext k < Ncell -> In (k_cnext k) W) /\ (opn k = true -> In (k_copen k) W).
Proof.
  clear Hl co' cn' f n.
  induction t as [c ks IH] using rtree_ind2. intros next Li Inc Hb Hnx c0 k0 Hc0 Ek0. rewrite linked_unfold in Li. destruct Li as ((y & Ey & Sy) & Co & Lk).
  unfold L_Prune.cnf in Ey. unfold L_Prune.cof in Co. destruct (aget celldata c) as [k| | |] eqn:Ek; try discriminate. cbn [bind] in *.
  injection Ey as <-. injection Co as Co. cbn [prune] in *. unfold L_Prune.op at 1 in Hc0. unfold L_Prune.op at 1 in Inc. rewrite Ek in *.
  cbn [preorder] in Hc0. destruct Hc0 as [<-|Hc0].
  - rewrite Ek in Ek0. injection Ek0 as <-. split.
    + intros H. destruct Sy as [Sy|[S1 S2]]; [rewrite Sy in *; auto|lia].
    + intros EO. rewrite EO in *. apply opens_copen in EO. destruct ks as [|k1 ks]; [congruence|]. rewrite Co. apply Inc. right. cbn [map flat_map]. apply in_or_app. left.
      rewrite <- (prune_root op k1). destruct (prune op k1). now left.
  - destruct (opn k) eqn:EO; [|destruct Hc0].
    assert (Inc' : incl (flat_map preorder (map (prune op) ks)) W) by (intros x Hx; apply Inc; now right).
    assert (Hb' : forall c, In c (flat_map preorder ks) -> c < Ncell) by (intros; apply Hb; now right).
    clear Inc Hb Sy EO Ek Co. revert Lk Inc' Hb' Hc0. induction IH as [|t ks IH1 IH2 IHk]; [intros _ _ _ []|].
    cbn [linked_list map flat_map]. intros [L1 L2] Inc Hb Hc0. apply in_app_iff in Hc0 as [Hc0|Hc0].
    + refine (IH1 _ L1 _ _ _ _ _ Hc0 Ek0); try (intros x Hx; first [apply Inc|apply Hb]; apply in_or_app; auto).
      destruct ks as [|k' ks]; [exact Hnx|]. intros _. apply Inc. apply in_or_app. right. cbn [map flat_map]. apply in_or_app. left.
      rewrite <- (prune_root op k'). destruct (prune op k'). now left.
    + apply IHk; auto; intros x Hx; first [apply Inc|apply Hb]; apply in_or_app; auto.
Qed.
End L.
