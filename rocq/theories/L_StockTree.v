From Verif Require Import Prelude L_Prelude Vec S_Tree S_KD M_Walk L_Tree M_KDTree L_KDStruct L_KDBuild L_KDDivide
  M_Search L_Search M_Stock S_Stock L_Stock.
From Coq Require Import Reals Permutation.
Local Open Scope Z_scope.

(** The particles of the leaves of the subtree of depth [d] at [c]. *)
Fixpoint leaf_chains (cs : list kcell) (inext : list Z) (Nl : Z) (d : nat) (c : Z) (ps : list Z) : Prop :=
  match d with
  | O => exists k, aget cs c = Ok k /\ chain inext (ifirst k) (ilast k) ps /\ zlen ps <= Nl
  | S d' => exists ps1 ps2, ps = ps1 ++ ps2 /\ leaf_chains cs inext Nl d' (c + 1) ps1 /\
              leaf_chains cs inext Nl d' (c + p2 d) ps2
  end.

Lemma leaf_chains_ext : forall cs cs' nx nx' Nl d c ps,
  (forall i, in_tree d c i -> aget cs' i = aget cs i) ->
  (forall p, In p ps -> aget nx' p = aget nx p) ->
  leaf_chains cs nx Nl d c ps -> leaf_chains cs' nx' Nl d c ps.
Proof.
  unfold in_tree. intros cs cs' nx nx' Nl. induction d; intros c ps E F.
  - rewrite p2_0 in E. intros (k & A & B & C). exists k. rewrite E by lia. split; [exact A|]. split; [|exact C].
    eapply chain_ext; [|exact B]. intros p Hp. apply F. now apply in_removelast.
  - pose proof (p2_pos d). pose proof (p2_S d). intros (p1 & q2 & -> & A & B). exists p1, q2. split; [easy|]. split.
    + apply IHd; auto. intros; apply E; lia. intros; apply F, in_or_app; now left.
    + apply IHd; auto. intros; apply E; lia. intros; apply F, in_or_app; now right.
Qed.

Lemma kdcell_leaf_chains : forall cs nx pos Nl d c ps, kdcell (info_of cs) nx pos Nl (ptree d c) ps ->
  leaf_chains cs nx Nl d c ps.
Proof.
  intros cs nx pos Nl. induction d; intros c ps H; cbn [ptree leaf_chains] in *; inversion H; subst.
  - destruct H1 as (k & A & B & C & D). exists k. subst. auto.
  - exists ps1, ps2. auto.
Qed.

Lemma nodup_app_inv : forall (a b : list Z), NoDup (a ++ b) -> NoDup a /\ NoDup b /\ (forall p, In p a -> ~ In p b).
Proof.
  induction a; intros b H; cbn in *; [repeat split; auto; constructor|].
  inversion H; subst. destruct (IHa b H3) as (A & B & C). repeat split; auto.
  - constructor; auto. intros X; apply H2, in_or_app; now left.
  - intros p [<-|Hp] Hq; [apply H2, in_or_app; now right|now apply (C p)].
Qed.

Section Stock.
Variables (ndim : nat) (kr th2 : R) (quad : bool) (pd : list particle) (ltot Nl : Z).
Let dead := map p_dead pd.
Let ST := fun f => StockTree f ndim kr th2 quad pd ltot.
Let SC := StockCellProperties ndim kr th2 quad pd ltot.

Definition cell_desc (cs : list kcell) (gs : list gcell) (c : Z) (ps : list Z) : Prop :=
  exists k g xs, aget cs c = Ok k /\ cN k = zlen ps /\ aget gs c = Ok g /\ parts_of pd ps = Ok xs /\
    full ndim kr th2 quad g xs.
Definition leaf_list (cs : list kcell) (nx : list Z) (c : Z) (ps : list Z) : Prop :=
  exists k, aget cs c = Ok k /\ chain nx (ifirst k) (ilast k) ps /\ zlen ps <= Nl.

Definition goodid (n : Z) (p : Z) : Prop := 0 <= p < n /\ exists x, aget pd p = Ok x /\ (0 <= gmass x)%R.

Lemma dead_get : forall p x, aget pd p = Ok x -> aget dead p = Ok (p_dead x).
Proof.
  intros p x H. unfold dead. unfold aget in *. destruct (p <? 0); [discriminate|].
  destruct (nth_error pd (Z.to_nat p)) eqn:E; [|discriminate]. injection H as ->.
  erewrite map_nth_error; eauto.
Qed.

Lemma parts_live : forall n ps, Forall (goodid n) ps ->
  exists xs, parts_of pd (live dead ps) = Ok xs /\ (forall x, In x xs -> p_dead x = false) /\
    (forall x, In x xs -> (0 <= gmass x)%R) /\ zlen xs = zlen (live dead ps).
Proof.
  induction 1 as [|p ps (Hp & x & Hx & Hm) Hps (xs & A & B & C & D)].
  - exists []. repeat split; easy.
  - unfold live in *. cbn [filter]. 
    assert (Ed' : is_dead dead p = p_dead x) by (unfold is_dead; now rewrite (dead_get p x Hx)).
    rewrite Ed'. destruct (p_dead x) eqn:Ed; cbn [negb]; [eauto|].
    exists (x :: xs). cbn [parts_of]. rewrite Hx. cbn [bind].
    change (filter (fun p0 => negb (is_dead dead p0)) ps) with (live dead ps) in *.
    rewrite A. cbn [bind]. split; [reflexivity|]. split; [|split].
    + intros y [<-|Hy]; auto.
    + intros y [<-|Hy]; auto.
    + unfold zlen in *. cbn [length]. lia.
Qed.

Lemma parts_app : forall a b xs ys, parts_of pd a = Ok xs -> parts_of pd b = Ok ys ->
  parts_of pd (a ++ b) = Ok (xs ++ ys).
Proof.
  induction a; intros b xs ys H1 H2; cbn [parts_of app] in *.
  - now injection H1 as <-.
  - destruct (aget pd a) as [x| | |]; cbn [bind] in *; try discriminate.
    destruct (parts_of pd a0) as [l| | |] eqn:E; cbn [bind] in *; try discriminate.
    injection H1 as <-. erewrite IHa; eauto. reflexivity.
Qed.

Lemma live_app : forall a b, live dead (a ++ b) = live dead a ++ live dead b.
Proof. intros. unfold live. apply filter_app. Qed.
Lemma live_incl : forall a p, In p (live dead a) -> In p a.
Proof. intros a p H. unfold live in H. now apply filter_In in H. Qed.
Lemma live_len : forall a, zlen (live dead a) <= zlen a.
Proof.
  intros. unfold zlen, live. induction a; cbn [filter length]; [lia|].
  destruct (negb (is_dead dead a)); cbn [length]; lia.
Qed.
Lemma live_nodup : forall a, NoDup a -> NoDup (live dead a).
Proof. intros. now apply NoDup_filter. Qed.

Definition frame (s s' : tstate) (d : nat) (c : Z) (ps : list Z) : Prop :=
  ids (ts_k s') = ids (ts_k s) /\
  zlen (inext (ts_k s')) = zlen (inext (ts_k s)) /\ zlen (cells (ts_k s')) = zlen (cells (ts_k s)) /\
  zlen (ts_g s') = zlen (ts_g s) /\
  (forall p, ~ In p ps -> aget (inext (ts_k s')) p = aget (inext (ts_k s)) p) /\
  (forall i, ~ in_tree d c i -> aget (cells (ts_k s')) i = aget (cells (ts_k s)) i) /\
  (forall i, ~ in_tree d c i -> aget (ts_g s') i = aget (ts_g s) i).

Lemma ctree_ext : forall cs cs' nx nx' gs gs' t ps,
  ctree (cell_desc cs gs) (leaf_list cs nx) t ps ->
  (forall c, In c (preorder t) -> aget cs' c = aget cs c) ->
  (forall c, In c (preorder t) -> aget gs' c = aget gs c) ->
  (forall p, In p ps -> aget nx' p = aget nx p) ->
  ctree (cell_desc cs' gs') (leaf_list cs' nx') t ps.
Proof.
  intros cs cs' nx nx' gs gs' t ps H.
  refine (ctree_ind2 _ _
    (fun t ps => (forall c, In c (preorder t) -> aget cs' c = aget cs c) ->
       (forall c, In c (preorder t) -> aget gs' c = aget gs c) ->
       (forall p, In p ps -> aget nx' p = aget nx p) -> ctree (cell_desc cs' gs') (leaf_list cs' nx') t ps)
    (fun ks pss => (forall c, In c (flat_map preorder ks) -> aget cs' c = aget cs c) ->
       (forall c, In c (flat_map preorder ks) -> aget gs' c = aget gs c) ->
       (forall p, In p (concat pss) -> aget nx' p = aget nx p) -> ctrees (cell_desc cs' gs') (leaf_list cs' nx') ks pss)
    _ _ _ _ t ps H).
  - intros c qs (k & g & xs & A & B & C & D & E) (k' & F & G & G') E1 E2 E3. constructor.
    + exists k, g, xs. rewrite E1, E2 by now left. auto.
    + exists k'. rewrite E1 by now left. split; [exact F|]. split; [|exact G'].
      eapply chain_ext; [|exact G]. intros p Hp. now apply E3, in_removelast.
  - intros c ks pss Hne Hks IH (k & g & xs & A & B & C & D & E) E1 E2 E3. constructor; auto.
    + apply IH; auto; intros; [apply E1|apply E2]; now right.
    + exists k, g, xs. rewrite E1, E2 by now left. auto.
  - intros. constructor.
  - intros k ks qs pss Hk IHk Hks IHks E1 E2 E3. constructor; [apply IHk|apply IHks]; intros;
      (apply E1 || apply E2 || apply E3); cbn; apply in_or_app; auto.
Qed.

Lemma get_range : forall A (l : list A) i, 0 <= i < zlen l -> exists x, aget l i = Ok x.
Proof.
  intros A l i H. unfold aget, zlen in *. destruct (Z.ltb_spec i 0); [lia|].
  destruct (nth_error l (Z.to_nat i)) eqn:E; eauto. apply nth_error_None in E. lia.
Qed.

Theorem StockTree_spec : forall d c nx s fuel ps,
  (d < fuel)%nat -> 0 <= c ->
  kstruct (cells (ts_k s)) ltot d c nx ->
  leaf_chains (cells (ts_k s)) (inext (ts_k s)) Nl d c ps ->
  NoDup ps -> Forall (goodid (zlen (inext (ts_k s)))) ps ->
  c + (2 * p2 d - 1) <= zlen (ts_g s) ->
  exists s', ST fuel c s = Ok s' /\ frame s s' d c ps /\
    kstruct (cells (ts_k s')) ltot d c nx /\
    leaf_chains (cells (ts_k s')) (inext (ts_k s')) Nl d c (live dead ps) /\
    ctree (cell_desc (cells (ts_k s')) (ts_g s')) (leaf_list (cells (ts_k s')) (inext (ts_k s')))
          (ptree d c) (live dead ps).
Proof.
  induction d; intros c nx s fuel ps Hf Hc HK HLC ND HG Hgs.
  - (* leaf *)
    destruct fuel; [lia|]. destruct HK as (k & K1 & K2 & K3 & K4). destruct HLC as (k' & E & HC & HNl).
    rewrite K1 in E. injection E as <-.
    unfold ST. cbn [StockTree]. rewrite K1. cbn [bind]. rewrite K3.
    replace (negb (-1 =? -1)) with false by reflexivity. cbn [bind].
    unfold StockCellProperties, StockLists. rewrite K1. cbn [bind]. unfold get_level. rewrite K2. cbn [bind].
    rewrite Z.eqb_refl.
    assert (HO : Forall (okpart dead (inext (ts_k s))) ps).
    { eapply Forall_impl; [|exact HG]. intros p (A & x & B & _). split; [exact A|]. exists (p_dead x). now apply dead_get. }
    destruct (purge_count dead _ _ _ _ HC ND HO) as (n' & f' & l' & P1 & P2 & P3 & P4 & P5).
    fold dead. rewrite P1. cbn [bind]. rewrite P5. cbn [bind].
    destruct (cmod_spec (cells (ts_k s)) c (fun k0 => set_N (zlen (live dead ps)) (set_range f' l' k0)) k K1)
      as (cs' & C1 & C2 & C3 & C4).
    rewrite C1. cbn [bind cells]. rewrite C3. cbn [bind].
    unfold get_level. cbn [level set_N set_range]. rewrite K2. cbn [bind]. rewrite Z.eqb_refl.
    cbn [ifirst ilast set_N set_range inext].
    rewrite (read_list_chain _ _ _ _ _ P3); [|now apply live_nodup| |].
    2:{ intros p Hp. apply live_incl in Hp. rewrite Forall_forall in HG. apply HG in Hp. destruct Hp as [? _]. lia. }
    2:{ assert (length (live dead ps) <= length n')%nat; [|lia]. apply nodup_bound; [now apply live_nodup|].
        intros p Hp. apply live_incl in Hp. rewrite Forall_forall in HG. apply HG in Hp. destruct Hp as [? _].
        unfold zlen in *. lia. }
    cbn [bind]. destruct (parts_live _ _ HG) as (xs & X1 & X2 & X3 & X4). rewrite X1. cbn [bind].
    rewrite p2_0 in *.
    destruct (aset_spec (ts_g s) c (leaf_geo ndim kr th2 quad xs)) as (gs & G1 & G2 & G3 & G4); [lia|].
    rewrite G1. cbn [bind].
    eexists. split; [reflexivity|]. cbn [ts_k ts_g ids inext cells].
    split; [|split; [|split]].
    + unfold frame. cbn [ts_k ts_g ids inext cells]. repeat split; auto.
      * intros i Hi. apply C4. unfold in_tree in Hi. rewrite p2_0 in Hi. lia.
      * intros i Hi. apply G4. unfold in_tree in Hi. rewrite p2_0 in Hi. lia.
    + exists (set_N (zlen (live dead ps)) (set_range f' l' k)). split; [exact C3|]. cbn. auto.
    + exists (set_N (zlen (live dead ps)) (set_range f' l' k)). split; [exact C3|]. cbn. split; [exact P3|].
      pose proof (live_len ps). lia.
    + cbn [ptree]. constructor.
      * exists (set_N (zlen (live dead ps)) (set_range f' l' k)), (leaf_geo ndim kr th2 quad xs), xs.
        repeat split; auto; now apply leaf_geo_full.
      * exists (set_N (zlen (live dead ps)) (set_range f' l' k)). split; [exact C3|]. cbn. split; [exact P3|].
        pose proof (live_len ps). lia.
  - (* inner cell *)
    destruct fuel; [lia|]. destruct HK as ((k & K1 & K2 & K3 & K4 & K5 & K6) & Ka & Kb).
    destruct HLC as (ps1 & ps2 & -> & La & Lb).
    pose proof (p2_S d) as PS. pose proof (p2_pos d) as PP.
    unfold ST. cbn [StockTree]. rewrite K1. cbn [bind]. rewrite K3.
    destruct (Z.eqb_spec (c + 1) (-1)); [lia|]. cbn [negb].
    assert (Hk1 : exists k1, aget (cells (ts_k s)) (c + 1) = Ok k1 /\ cnext k1 = c + p2 (S d)).
    { destruct d; [destruct Ka as (k1 & A & B & C & D)|destruct Ka as ((k1 & A & B & C & D & E & F) & _)]; exists k1; auto. }
    destruct Hk1 as (k1 & Hk1 & Hk1n). rewrite Hk1. cbn [bind]. rewrite Hk1n.
    destruct (nodup_app_inv _ _ ND) as (ND1 & ND2 & Dis).
    apply Forall_app in HG as [HG1 HG2].
    destruct (IHd (c + 1) (c + p2 (S d)) s fuel ps1) as (s1 & A1 & (F1 & F2 & F3 & F4 & F5 & F6 & F7) & A3 & A4 & A5); auto; try lia.
    unfold ST in A1. rewrite A1. cbn [bind].
    destruct (IHd (c + p2 (S d)) (c + (2 * p2 (S d) - 1)) s1 fuel ps2) as (s2 & B1 & (E1 & E2 & E3 & E4 & E5 & E6 & E7) & B3 & B4 & B5); auto; try lia.
    { apply kstruct_ext with (cs := cells (ts_k s)); [|exact Kb]. intros i Hi. apply F6. unfold in_tree in *. lia. }
    { eapply leaf_chains_ext; [| |exact Lb].
      - intros i Hi. apply F6. unfold in_tree in *. lia.
      - intros p Hp. apply F5. intros Hq. now apply (Dis p). }
    { rewrite F2. exact HG2. }
    unfold ST in B1. rewrite B1. cbn [bind].
    assert (K1' : aget (cells (ts_k s2)) c = Ok k).
    { rewrite E6, F6; [exact K1| |]; unfold in_tree; lia. }
    assert (Ca : ctree (cell_desc (cells (ts_k s2)) (ts_g s2)) (leaf_list (cells (ts_k s2)) (inext (ts_k s2))) (ptree d (c + 1)) (live dead ps1)).
    { eapply ctree_ext; [exact A5| | |].
      - intros i Hi. rewrite ptree_preorder, zseq_in, tsize_p2 in Hi. apply E6. unfold in_tree. lia.
      - intros i Hi. rewrite ptree_preorder, zseq_in, tsize_p2 in Hi. apply E7. unfold in_tree. lia.
      - intros p Hp. apply live_incl in Hp. apply E5. now apply Dis. }
    assert (Ha := ctree_root _ _ _ _ Ca). assert (Hb := ctree_root _ _ _ _ B5).
    rewrite ptree_root in Ha, Hb.
    destruct Ha as (ka & ga & xa & Ha1 & Ha2 & Ha3 & Ha4 & Ha5). destruct Hb as (kb & gb & xb & Hb1 & Hb2 & Hb3 & Hb4 & Hb5).
    unfold StockCellProperties, StockLists. rewrite K1'. cbn [bind]. unfold get_level. rewrite K2. cbn [bind].
    replace (ltot - Z.of_nat (S d) =? ltot) with false by lia. rewrite K3.
    destruct (Z.eqb_spec (c + 1) (-1)); [lia|]. cbn [negb].
    assert (Ks1 : kstruct (cells (ts_k s2)) ltot d (c + 1) (c + p2 (S d))).
    { apply kstruct_ext with (cs := cells (ts_k s1)); [|exact A3]. intros i Hi. apply E6. unfold in_tree in *. lia. }
    assert (Hkan : cnext ka = c + p2 (S d)).
    { destruct d; [destruct Ks1 as (kk & A & B & C & D)|destruct Ks1 as ((kk & A & B & C & D & E & F) & _)];
        rewrite Ha1 in A; injection A as ->; auto. }
    rewrite Ha1. cbn [bind]. rewrite Hkan, Hb1. cbn [bind].
    destruct (cmod_spec (cells (ts_k s2)) c (set_N (cN ka + cN kb)) k K1') as (cs' & C1 & C2 & C3 & C4).
    rewrite C1. cbn [bind cells]. rewrite C3. cbn [bind]. unfold get_level. cbn [level set_N]. rewrite K2. cbn [bind].
    replace (ltot - Z.of_nat (S d) =? ltot) with false by lia. cbn [copen set_N]. rewrite K3.
    destruct (Z.eqb_spec (c + 1) (-1)); [lia|]. cbn [negb].
    rewrite Ha3. cbn [bind]. rewrite C4 by lia. rewrite Ha1. cbn [bind]. rewrite Hkan, Hb3. cbn [bind].
    destruct (aset_spec (ts_g s2) c (node_geo ndim th2 quad ga gb)) as (gs & G1 & G2 & G3 & G4); [lia|].
    rewrite G1. cbn [bind].
    eexists. split; [reflexivity|]. cbn [ts_k ts_g ids inext cells].
    split; [|split; [|split]].
    + unfold frame. cbn [ts_k ts_g ids inext cells]. repeat split; try congruence.
      * intros p Hp. rewrite E5, F5; auto; intros X; apply Hp, in_or_app; auto.
      * intros i Hi. unfold in_tree in *. rewrite C4, E6, F6; auto; unfold in_tree; lia.
      * intros i Hi. unfold in_tree in *. rewrite G4, E7, F7; auto; unfold in_tree; lia.
    + cbn [kstruct]. split; [|split].
      * exists (set_N (cN ka + cN kb) k). split; [exact C3|]. cbn. auto 8.
      * apply kstruct_ext with (cs := cells (ts_k s2)); [|exact Ks1]. intros i Hi. apply C4. unfold in_tree in *. lia.
      * apply kstruct_ext with (cs := cells (ts_k s2)); [|exact B3]. intros i Hi. apply C4. unfold in_tree in *. lia.
    + cbn [leaf_chains]. exists (live dead ps1), (live dead ps2). split; [apply live_app|]. split.
      * eapply leaf_chains_ext; [| |exact A4].
        -- intros i Hi. unfold in_tree in *. rewrite C4, E6; auto; unfold in_tree; lia.
        -- intros p Hp. apply live_incl in Hp. apply E5. now apply Dis.
      * eapply leaf_chains_ext; [| |exact B4]; [|reflexivity].
        intros i Hi. unfold in_tree in *. rewrite C4; auto; lia.
    + cbn [ptree]. rewrite live_app.
      replace (live dead ps1 ++ live dead ps2) with (concat [live dead ps1; live dead ps2]) by (cbn; now rewrite app_nil_r).
      constructor; [easy| |].
      * constructor; [|constructor; [|constructor]].
        -- eapply ctree_ext; [exact Ca| | |reflexivity]; intros i Hi; rewrite ptree_preorder, zseq_in, tsize_p2 in Hi;
             [apply C4|apply G4]; lia.
        -- eapply ctree_ext; [exact B5| | |reflexivity]; intros i Hi; rewrite ptree_preorder, zseq_in, tsize_p2 in Hi;
             [apply C4|apply G4]; lia.
      * cbn [concat]. rewrite app_nil_r.
        exists (set_N (cN ka + cN kb) k), (node_geo ndim th2 quad ga gb), (xa ++ xb).
        split; [exact C3|]. split; [cbn; rewrite Ha2, Hb2; unfold zlen; rewrite app_length; lia|].
        split; [exact G3|]. split; [now apply parts_app|].
        apply node_geo_full; auto.
        destruct (parts_live _ _ HG1) as (y1 & Y1 & _ & Y3 & _). destruct (parts_live _ _ HG2) as (y2 & Z1 & _ & Z3 & _).
        rewrite Y1 in Ha4. injection Ha4 as ->. rewrite Z1 in Hb4. injection Hb4 as ->.
        intros x Hx. apply in_app_or in Hx as [Hx|Hx]; auto.
Qed.
End Stock.
