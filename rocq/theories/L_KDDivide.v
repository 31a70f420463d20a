From Verif Require Import Prelude L_Prelude S_Tree S_KD L_Tree M_KDTree L_KDStruct L_QuickSelect L_KDBuild.
From Coq Require Import Permutation.
Local Open Scope Z_scope.

(** ** Slices *)
Definition slice (l : list Z) (lo n : Z) : list Z := firstn (Z.to_nat n) (skipn (Z.to_nat lo) l).

Lemma nth_error_skipn : forall (A : Type) n (l : list A) i, nth_error (skipn n l) i = nth_error l (n + i).
Proof. induction n; intros [|a l] i; simpl; auto. now destruct i. Qed.
Lemma nth_error_firstn : forall (A : Type) n (l : list A) i, (i < n)%nat -> nth_error (firstn n l) i = nth_error l i.
Proof. induction n; intros [|a l] [|i] H; simpl; auto; try lia. apply IHn. lia. Qed.

Lemma slice_aget : forall l lo n i, 0 <= lo -> 0 <= i < n -> aget (slice l lo n) i = aget l (lo + i).
Proof.
  intros. unfold slice, aget. destruct (Z.ltb_spec i 0); [lia|]. destruct (Z.ltb_spec (lo + i) 0); [lia|].
  rewrite nth_error_firstn, nth_error_skipn by lia. replace (Z.to_nat lo + Z.to_nat i)%nat with (Z.to_nat (lo + i)) by lia. reflexivity.
Qed.
Lemma slice_zlen : forall l lo n, 0 <= lo -> 0 <= n -> lo + n <= zlen l -> zlen (slice l lo n) = n.
Proof. intros. unfold slice, zlen in *. rewrite firstn_length, skipn_length. lia. Qed.
Lemma slice_app : forall l lo a b, 0 <= lo -> 0 <= a -> 0 <= b ->
  slice l lo (a + b) = slice l lo a ++ slice l (lo + a) b.
Proof.
  intros. unfold slice. rewrite (Z2Nat.inj_add a b), (Z2Nat.inj_add lo a) by lia.
  generalize (Z.to_nat lo) as x, (Z.to_nat a) as y, (Z.to_nat b) as z. clear.
  intros. revert l. induction x; simpl; intros.
  - revert l. induction y; simpl; intros; [reflexivity|]. destruct l; simpl; [now rewrite firstn_nil|]. f_equal. apply IHy.
  - destruct l; simpl; [now rewrite !firstn_nil|]. apply IHx.
Qed.
Lemma slice_in : forall l lo n p, 0 <= lo -> 0 <= n -> lo + n <= zlen l ->
  In p (slice l lo n) <-> exists i, lo <= i < lo + n /\ aget l i = Ok p.
Proof.
  intros l lo n p H H0 H1. split.
  - intros HI. apply In_nth_error in HI as [i Hi].
    assert (Z.of_nat i < zlen (slice l lo n)).
    { unfold zlen. apply inj_lt. apply nth_error_Some. congruence. }
    rewrite slice_zlen in H2 by lia. exists (lo + Z.of_nat i). split; [lia|].
    rewrite <- (slice_aget l lo n) by lia. apply aget_nth_error; [lia|]. now rewrite Nat2Z.id.
  - intros (i & A & B). replace i with (lo + (i - lo)) in B by lia.
    rewrite <- (slice_aget l lo n) in B by lia. apply aget_Ok_inv in B as [_ B].
    eapply nth_error_In; eauto.
Qed.
Lemma slice_ext : forall l l' lo n, 0 <= lo -> 0 <= n -> zlen l = zlen l' -> lo + n <= zlen l ->
  (forall i, lo <= i < lo + n -> aget l' i = aget l i) -> slice l' lo n = slice l lo n.
Proof.
  intros. apply aget_ext; rewrite !slice_zlen by lia; [easy|].
  intros. rewrite !slice_aget by lia. apply H3. lia.
Qed.
Lemma slice_whole : forall l, slice l 0 (zlen l) = l.
Proof. intros. unfold slice, zlen. rewrite Nat2Z.id. simpl. apply firstn_all. Qed.
Lemma slice_perm : forall l l' lo n, 0 <= lo -> 0 <= n -> lo + n <= zlen l ->
  Permutation l l' -> (forall i, 0 <= i -> ~ (lo <= i < lo + n) -> aget l' i = aget l i) ->
  Permutation (slice l lo n) (slice l' lo n).
Proof.
  intros l l' lo n H H0 H1 HP HE.
  assert (HZ : zlen l = zlen l') by (unfold zlen; now rewrite (Permutation_length HP)).
  assert (S1 : forall x : list Z, zlen x = zlen l ->
     x = slice x 0 lo ++ slice x lo n ++ slice x (lo + n) (zlen l - (lo + n))).
  { intros x Hx. rewrite <- (slice_whole x) at 1. rewrite Hx.
    replace (zlen l) with (lo + (n + (zlen l - (lo + n)))) at 1 by lia.
    rewrite slice_app by lia. rewrite Z.add_0_l. rewrite slice_app by lia. reflexivity. }
  rewrite (S1 l eq_refl), (S1 l' (eq_sym HZ)) in HP.
  rewrite (slice_ext l l' 0 lo), (slice_ext l l' (lo + n)) in HP; try lia;
    try (intros; apply HE; lia).
  apply Permutation_app_inv_l in HP. apply Permutation_app_inv_r in HP. exact HP.
Qed.

Lemma NoDup_app_l : forall (A : Type) (l m : list A), NoDup (l ++ m) -> NoDup l.
Proof.
  induction l; intros m H; [constructor|]. simpl in H. inversion H; subst. constructor.
  - intros X. apply H2, in_or_app; now left.
  - eapply IHl; eauto.
Qed.
Lemma NoDup_app_r : forall (A : Type) (l m : list A), NoDup (l ++ m) -> NoDup m.
Proof. induction l; intros m H; [exact H|]. simpl in H. inversion H; subst. now apply IHl. Qed.

(** ** The link loop of a leaf *)
Lemma link_loop_spec : forall n ids inext j,
  0 <= j -> j + Z.of_nat n < zlen ids ->
  (forall i p, j <= i <= j + Z.of_nat n -> aget ids i = Ok p -> 0 <= p < zlen inext) ->
  (forall i i' p, j <= i < j + Z.of_nat n -> j <= i' < j + Z.of_nat n ->
      aget ids i = Ok p -> aget ids i' = Ok p -> i = i') ->
  exists inext', link_loop ids inext j n = Ok inext' /\ zlen inext' = zlen inext /\
    (forall i p q, j <= i < j + Z.of_nat n -> aget ids i = Ok p -> aget ids (i + 1) = Ok q ->
        aget inext' p = Ok q) /\
    (forall p, (forall i, j <= i < j + Z.of_nat n -> aget ids i <> Ok p) -> aget inext' p = aget inext p).
Proof.
  induction n; intros ids inext j Hj Hl Hb Hinj.
  - exists inext. cbn [link_loop]. split; [easy|]. split; [easy|]. split; [|easy]. intros; lia.
  - cbn [link_loop]. destruct (aget_in ids j) as [a Ha]; [lia|].
    destruct (aget_in ids (j + 1)) as [b Hb1]; [lia|]. rewrite Ha, Hb1. cbn [bind].
    destruct (aset_spec inext a b) as (x & A1 & A2 & A3 & A4).
    { apply (Hb j); [lia|easy]. }
    rewrite A1. cbn [bind].
    destruct (IHn ids x (j + 1)) as (x' & B1 & B2 & B3 & B4).
    + lia.
    + lia.
    + intros i p Hi Hp. rewrite A2. apply (Hb i); [lia|easy].
    + intros i i' p Hi Hi' Hp Hp'. apply (Hinj i i' p); auto; lia.
    + exists x'. split; [easy|]. split; [lia|]. split.
      * intros i p q Hi Hp Hq. destruct (Z.eq_dec i j) as [->|].
        -- assert (p = a) by congruence. assert (q = b) by congruence. subst.
           rewrite B4; [easy|]. intros i Hi' E. assert (i = j) by (apply (Hinj i j a); auto; lia). lia.
        -- apply (B3 i p q); auto; lia.
      * intros p Hp. rewrite B4.
        -- apply A4. intros ->. apply (Hp j); [lia|easy].
        -- intros i Hi. apply Hp. lia.
Qed.

Lemma nodup_slice_inj : forall l lo n i i' p, 0 <= lo -> 0 <= n -> lo + n <= zlen l ->
  NoDup (slice l lo n) -> lo <= i < lo + n -> lo <= i' < lo + n ->
  aget l i = Ok p -> aget l i' = Ok p -> i = i'.
Proof.
  intros l lo n i i' p H H0 H1 ND Hi Hi' A B.
  replace i with (lo + (i - lo)) in A by lia. replace i' with (lo + (i' - lo)) in B by lia.
  rewrite <- (slice_aget l lo n) in A, B by lia.
  apply aget_Ok_inv in A as [A1 A2]. apply aget_Ok_inv in B as [B1 B2].
  rewrite NoDup_nth_error in ND.
  assert (Z.to_nat (i - lo) = Z.to_nat (i' - lo)).
  { apply ND; [|congruence]. apply nth_error_Some. congruence. }
  lia.
Qed.

Lemma links_slice : forall n inext l lo, 0 <= lo -> lo + Z.of_nat n <= zlen l ->
  (forall i p q, lo <= i < lo + Z.of_nat n - 1 -> aget l i = Ok p -> aget l (i + 1) = Ok q -> aget inext p = Ok q) ->
  links inext (slice l lo (Z.of_nat n)).
Proof.
  induction n; intros inext l lo Hlo Hl H; [exact I|].
  destruct (aget_in l lo) as [p Hp]; [lia|].
  assert (E : slice l lo (Z.of_nat (S n)) = p :: slice l (lo + 1) (Z.of_nat n)).
  { replace (Z.of_nat (S n)) with (1 + Z.of_nat n) by lia. rewrite slice_app by lia.
    assert (slice l lo 1 = [p]) as ->; [|reflexivity].
    apply aget_ext; [rewrite slice_zlen by lia; reflexivity|]. rewrite slice_zlen by lia. intros i Hi.
    assert (i = 0) as -> by lia. rewrite slice_aget by lia. replace (lo + 0) with lo by lia. exact Hp. }
  rewrite E.
  assert (L : links inext (slice l (lo + 1) (Z.of_nat n))).
  { apply IHn; try lia. intros i a b Hi. apply H. lia. }
  destruct n.
  - exact I.
  - destruct (aget_in l (lo + 1)) as [q Hq]; [lia|].
    assert (E' : exists t, slice l (lo + 1) (Z.of_nat (S n)) = q :: t).
    { destruct (slice l (lo + 1) (Z.of_nat (S n))) as [|x t] eqn:X.
      - assert (zlen (slice l (lo + 1) (Z.of_nat (S n))) = Z.of_nat (S n)) by (apply slice_zlen; lia).
        rewrite X in H0. unfold zlen in H0. simpl in H0. lia.
      - exists t. f_equal.
        assert (aget (slice l (lo + 1) (Z.of_nat (S n))) 0 = Ok q) by (rewrite slice_aget by lia; replace (lo + 1 + 0) with (lo + 1) by lia; exact Hq).
        rewrite X in H0. unfold aget in H0. simpl in H0. congruence. }
    destruct E' as [t E']. rewrite E' in *. split; [|exact L].
    apply (H lo p q); auto. lia.
Qed.

Lemma slice_head : forall l lo n p, 0 <= lo -> 0 < n -> lo + n <= zlen l -> aget l lo = Ok p ->
  exists t, slice l lo n = p :: t.
Proof.
  intros l lo n p H H0 H1 Hp.
  assert (A : aget (slice l lo n) 0 = Ok p) by (rewrite slice_aget by lia; replace (lo + 0) with lo by lia; exact Hp).
  destruct (slice l lo n) as [|x t]; [discriminate|]. unfold aget in A; simpl in A. exists t. congruence.
Qed.
Lemma slice_last : forall l lo n p, 0 <= lo -> 0 < n -> lo + n <= zlen l -> aget l (lo + n - 1) = Ok p ->
  last (slice l lo n) (-1) = p.
Proof.
  intros l lo n p H H0 H1 Hp.
  replace n with ((n - 1) + 1) by lia. rewrite slice_app by lia.
  replace (lo + (n - 1)) with (lo + n - 1) by lia.
  destruct (slice_head l (lo + n - 1) 1 p) as [t E]; try lia; auto.
  assert (zlen (slice l (lo + n - 1) 1) = 1) by (apply slice_zlen; lia).
  rewrite E in *. destruct t; [|unfold zlen in H2; simpl in H2; lia]. apply last_last.
Qed.

(** ** Axis choice *)
Lemma longest_axis_range : forall bmin bmax k kd rk,
  0 <= kd -> 0 <= k -> 
  0 <= longest_axis bmin bmax k kd rk /\
  (longest_axis bmin bmax k kd rk = kd \/ longest_axis bmin bmax k kd rk < k + zlen bmin).
Proof.
  induction bmin as [|a t IH]; intros [|b u] k kd rk H H0; simpl; try lia.
  unfold zlen. cbn [length]. destruct (rk <? b - a).
  - destruct (IH u (k + 1) k (b - a)) as [A B]; try lia. unfold zlen in B. lia.
  - destruct (IH u (k + 1) kd rk) as [A B]; try lia. unfold zlen in B. lia.
Qed.

(** ** Frame property of the specification *)
Definition info_of (cs : list kcell) (c n f l : Z) : Prop :=
  exists k, aget cs c = Ok k /\ cN k = n /\ ifirst k = f /\ ilast k = l.

Lemma kdcell_ext : forall cs cs' nx nx' pos Nl t ps,
  (forall c, In c (preorder t) -> aget cs' c = aget cs c) ->
  (forall p, In p (removelast ps) -> aget nx' p = aget nx p) ->
  kdcell (info_of cs) nx pos Nl t ps -> kdcell (info_of cs') nx' pos Nl t ps.
Proof.
  intros cs cs' nx nx' pos Nl t ps E F K. induction K.
  - eapply kd_leaf with (n := n) (first := first) (last := last); auto.
    + destruct H as (k & ? & ?). exists k. rewrite E by now left. auto.
    + eapply chain_ext; eauto.
  - assert (F1 : forall p, In p (removelast ps1) -> aget nx' p = aget nx p).
    { intros p Hp. apply F. destruct ps2 as [|x t].
      - now rewrite app_nil_r.
      - rewrite removelast_app by easy. apply in_or_app; left. now apply in_removelast. }
    assert (F2 : forall p, In p (removelast ps2) -> aget nx' p = aget nx p).
    { intros p Hp. apply F. destruct ps2 as [|x t]; [easy|].
      rewrite removelast_app by easy. apply in_or_app; now right. }
    eapply kd_node with (n := n) (first := first) (last := last) (axis := axis) (key := key); auto.
    + destruct H as (k & ? & ?). exists k. rewrite E by now left. auto.
    + eapply chain_ext; eauto.
    + apply IHK1; auto. intros; apply E. simpl. right. apply in_or_app; now left.
    + apply IHK2; auto. intros; apply E. simpl. right. apply in_or_app; right. now rewrite app_nil_r.
Qed.

Lemma kdcell_info : forall cs nx pos Nl t ps,
  kdcell (info_of cs) nx pos Nl t ps -> exists k, aget cs (root t) = Ok k /\ cN k = zlen ps /\
    chain nx (ifirst k) (ilast k) ps.
Proof.
  intros cs nx pos Nl t ps K. inversion K; subst; simpl;
  match goal with H : info_of _ _ _ _ _ |- _ => destruct H as (k & A & B & C & D) end;
  exists k; subst; auto.
Qed.

Section Divide.
Variables (pos : list (list Z)) (dead : list bool) (ltot Nl : Z).
Hypothesis Hpos : 0 < zlen pos.

Definition goodp (len p : Z) : Prop :=
  0 <= p < len /\ aget dead p = Ok false /\ forall key, In key pos -> exists v, aget key p = Ok v.

Lemma StockLists_leaf : forall s c k ps,
  aget (cells s) c = Ok k -> level k = Some ltot -> chain (inext s) (ifirst k) (ilast k) ps ->
  NoDup ps -> Forall (goodp (zlen (inext s))) ps ->
  exists n' cs', StockLists dead ltot s c = Ok (mkst (ids s) n' cs') /\
    zlen n' = zlen (inext s) /\ zlen cs' = zlen (cells s) /\
    (forall p, ~ In p ps -> aget n' p = aget (inext s) p) /\
    (forall i, i <> c -> aget cs' i = aget (cells s) i) /\
    exists k', aget cs' c = Ok k' /\ level k' = level k /\ copen k' = copen k /\ cnext k' = cnext k /\
      cN k' = zlen ps /\ chain n' (ifirst k') (ilast k') ps.
Proof.
  intros s c k ps Hk Hl HC ND HF. unfold StockLists. rewrite Hk. cbn [bind]. unfold get_level. rewrite Hl. cbn [bind].
  rewrite Z.eqb_refl.
  assert (HF' : Forall (okpart dead (inext s)) ps).
  { eapply Forall_impl; [|exact HF]. intros p (A & B & _). split; [exact A|]. eauto. }
  assert (HL : live dead ps = ps).
  { apply live_all. eapply Forall_impl; [|exact HF]. intros p (A & B & _). exact B. }
  destruct (purge_count dead (inext s) (ifirst k) (ilast k) ps HC ND HF') as (n' & f' & l' & P1 & P2 & P3 & P4 & P5).
  rewrite HL in *. rewrite P1. cbn [bind]. rewrite P5. cbn [bind].
  destruct (cmod_spec (cells s) c (fun k => set_N (zlen ps) (set_range f' l' k)) k Hk) as (cs' & A1 & A2 & A3 & A4).
  rewrite A1. cbn [bind]. exists n', cs'. split; [reflexivity|]. repeat split; auto.
  eexists. split; [exact A3|]. simpl. repeat split; auto.
Qed.

Lemma divide_spec : forall d c nx lo n s fuel k,
  (d < fuel)%nat -> 0 <= c ->
  kstruct (cells s) ltot d c nx ->
  0 <= lo -> 0 <= n -> lo + n <= zlen (ids s) ->
  aget (cells s) c = Ok k -> cN k = n -> (0 < n -> ifirst k = lo /\ ilast k = lo + n - 1) ->
  zlen (bbmin k) = zlen pos -> zlen (bbmax k) = zlen pos ->
  n <= Nl * p2 d -> (forall d', d = S d' -> p2 d' <= n) ->
  Forall (goodp (zlen (inext s))) (slice (ids s) lo n) -> NoDup (slice (ids s) lo n) ->
  exists s', DivideTreeCell fuel pos dead ltot lo (lo + n - 1) c s = Ok s' /\
    zlen (ids s') = zlen (ids s) /\ zlen (inext s') = zlen (inext s) /\ zlen (cells s') = zlen (cells s) /\
    Permutation (slice (ids s) lo n) (slice (ids s') lo n) /\
    (forall i, 0 <= i -> ~ (lo <= i < lo + n) -> aget (ids s') i = aget (ids s) i) /\
    (forall p, ~ In p (slice (ids s) lo n) -> aget (inext s') p = aget (inext s) p) /\
    (forall i, ~ in_tree d c i -> aget (cells s') i = aget (cells s) i) /\
    kstruct (cells s') ltot d c nx /\
    kdcell (info_of (cells s')) (inext s') pos Nl (ptree d c) (slice (ids s') lo n).
Proof.
  induction d; intros c nx lo n s fuel k Hfu Hc HK Hlo Hn0 Hlen Hk HkN Hrange Hbm HbM HnU HnL HG ND.
  - (* leaf *)
    destruct fuel; [lia|]. cbn [DivideTreeCell]. rewrite Hk. cbn [bind].
    destruct HK as (k' & Hk' & Hlv & Hop & Hnx). rewrite Hk in Hk'. inversion Hk'; subst k'. clear Hk'.
    unfold get_level. rewrite Hlv. cbn [bind]. rewrite Z.eqb_refl.
    rewrite p2_0 in HnU.
    assert (X : exists s1,
       (if 0 <? cN k then
          if negb (ilast k - ifirst k =? cN k - 1) then Raise
          else
            let! inext' := link_loop (ids s) (inext s) (ifirst k) (Z.to_nat (ilast k - ifirst k)) in
            let! a := aget (ids s) (ifirst k) in
            let! b := aget (ids s) (ilast k) in
            let! cs := cmod (cells s) c (set_range a b) in
            Ok (mkst (ids s) inext' cs)
        else
          let! cs := cmod (cells s) c (set_range (-1) (-1)) in
          Ok (mkst (ids s) (inext s) cs)) = Ok s1 /\
       ids s1 = ids s /\ zlen (inext s1) = zlen (inext s) /\ zlen (cells s1) = zlen (cells s) /\
       (forall p, ~ In p (slice (ids s) lo n) -> aget (inext s1) p = aget (inext s) p) /\
       (forall i, i <> c -> aget (cells s1) i = aget (cells s) i) /\
       exists k1, aget (cells s1) c = Ok k1 /\ level k1 = level k /\ copen k1 = copen k /\ cnext k1 = cnext k /\
         chain (inext s1) (ifirst k1) (ilast k1) (slice (ids s) lo n)).
    { destruct (Z.ltb_spec 0 (cN k)).
      - destruct Hrange as [R1 R2]; [lia|]. rewrite R1, R2, HkN.
        replace (lo + n - 1 - lo =? n - 1) with true by lia. cbn [negb].
        replace (Z.to_nat (lo + n - 1 - lo)) with (Z.to_nat (n - 1)) by lia.
        destruct (link_loop_spec (Z.to_nat (n - 1)) (ids s) (inext s) lo) as (x & A1 & A2 & A3 & A4); try lia.
        { intros i p Hi Hp. rewrite Forall_forall in HG. apply HG. apply slice_in; try lia. exists i. split; [lia|easy]. }
        { intros i i' p Hi Hi' Hp Hp'. apply (nodup_slice_inj (ids s) lo n i i' p); auto; lia. }
        rewrite A1. cbn [bind].
        destruct (aget_in (ids s) lo) as [a Ha]; [lia|].
        destruct (aget_in (ids s) (lo + n - 1)) as [b Hb]; [lia|].
        rewrite Ha, Hb. cbn [bind].
        destruct (cmod_spec (cells s) c (set_range a b) k Hk) as (cs' & B1 & B2 & B3 & B4).
        rewrite B1. cbn [bind]. eexists. split; [reflexivity|]. cbn [ids inext cells].
        split; [easy|]. split; [easy|]. split; [easy|]. split; [|split; [easy|]].
        + intros p Hp. apply A4. intros i Hi E. apply Hp. apply slice_in; try lia. exists i. split; [lia|easy].
        + eexists. split; [exact B3|]. cbn [set_range level copen cnext ifirst ilast]. repeat split; auto.
          destruct (slice_head (ids s) lo n a) as [t Et]; try lia; auto.
          assert (Hla : last (slice (ids s) lo n) (-1) = b) by (apply slice_last; auto; lia).
          assert (HLk : links x (slice (ids s) lo n)).
          { replace n with (Z.of_nat (Z.to_nat n)) by lia. apply links_slice; try lia.
            intros i p q Hi. apply A3. lia. }
          rewrite Et in *. split; [reflexivity|]. split; [symmetry; exact Hla|exact HLk].
      - assert (n = 0) by lia. rewrite H0 in *.
        destruct (cmod_spec (cells s) c (set_range (-1) (-1)) k Hk) as (cs' & B1 & B2 & B3 & B4).
        rewrite B1. cbn [bind]. eexists. split; [reflexivity|]. cbn [ids inext cells].
        split; [easy|]. split; [easy|]. split; [easy|]. split; [easy|]. split; [easy|].
        eexists. split; [exact B3|]. cbn [set_range level copen cnext ifirst ilast]. repeat split; auto. }
    destruct X as (s1 & X1 & X2 & X3 & X4 & X5 & X6 & k1 & Y1 & Y2 & Y3 & Y4 & Y5).
    rewrite X1. cbn [bind].
    destruct (StockLists_leaf s1 c k1 (slice (ids s) lo n)) as (n' & cs' & S1 & S2 & S3 & S4 & S5 & k2 & T1 & T2 & T3 & T4 & T5 & T6); auto.
    { congruence. }
    { rewrite X3. exact HG. }
    eexists. split; [exact S1|]. cbn [ids inext cells]. rewrite X2.
    split; [easy|]. split; [lia|]. split; [lia|]. split; [apply Permutation_refl|].
    split; [easy|]. split; [intros p Hp; rewrite S4, X5 by easy; reflexivity|].
    split; [|split].
    + unfold in_tree. rewrite p2_0. intros i Hi. rewrite S5, X6 by lia. reflexivity.
    + cbn [kstruct]. exists k2. repeat split; auto; congruence.
    + cbn [ptree]. eapply kd_leaf with (n := zlen (slice (ids s) lo n)) (first := ifirst k2) (last := ilast k2).
      * exists k2. auto.
      * reflexivity.
      * exact T6.
      * rewrite slice_zlen by lia. lia.
  - (* inner cell *)
    destruct fuel; [lia|]. cbn [DivideTreeCell]. rewrite Hk. cbn [bind].
    destruct HK as ((k' & Hk' & Hlv & Hop & Hc1 & Hc2 & Hnx) & K1 & K2).
    rewrite Hk in Hk'. inversion Hk'; subst k'. clear Hk'.
    unfold get_level. rewrite Hlv. cbn [bind].
    replace (ltot - Z.of_nat (S d) =? ltot) with false by lia.
    pose proof (p2_S d) as PS. pose proof (p2_pos d) as PP.
    assert (HnL' : p2 d <= n) by (apply HnL; reflexivity).
    assert (Hnpos : 0 < n) by lia.
    destruct Hrange as [R1 R2]; [lia|].
    set (kd := longest_axis (bbmin k) (bbmax k) 0 0 0).
    assert (Hkd : 0 <= kd < zlen pos).
    { pose proof (longest_axis_range (bbmin k) (bbmax k) 0 0 0 ltac:(lia) ltac:(lia)) as X. fold kd in X. lia. }
    destruct (aget_in pos kd Hkd) as [key Hkey]. rewrite Hkey. cbn [bind]. rewrite HkN.
    assert (Hq : 0 <= Z.quot n 2 <= n - Z.quot n 2 /\ n - Z.quot n 2 <= Z.quot n 2 + 1).
    { rewrite Z.quot_div_nonneg by lia. lia. }
    assert (Hq2 : n = 2 * Z.quot n 2 \/ n = 2 * Z.quot n 2 + 1) by (rewrite Z.quot_div_nonneg by lia; lia).
    set (n1 := Z.quot n 2) in *. clearbody n1. rewrite R1, R2.
    assert (HinKey : In key pos) by (apply aget_Ok_inv in Hkey as [_ Hkey]; eapply nth_error_In; eauto).
    destruct (QuickSelect_correct key (ids s) lo (lo + n - 1) (lo + n1)) as (ids1 & rp & Q1 & Q2 & Q3 & Q4 & Q5 & Q6); try lia.
    { intros i Hi. destruct (aget_in (ids s) i) as [a Ha]; [lia|]. exists a.
      rewrite Forall_forall in HG. destruct (HG a) as (_ & _ & HV).
      { apply slice_in; try lia. exists i. split; [lia|easy]. }
      destruct (HV key HinKey) as [v Hv]. exists v. auto. }
    rewrite Q1. cbn [bind].
    assert (Z1 : zlen ids1 = zlen (ids s)) by (unfold zlen; now rewrite (Permutation_length Q2)).
    assert (P1 : Permutation (slice (ids s) lo n) (slice ids1 lo n)).
    { apply slice_perm; auto. intros i Hi Hi2. apply Q3; lia. }
    assert (HG1 : Forall (goodp (zlen (inext s))) (slice ids1 lo n)) by (eapply Permutation_Forall; eauto).
    assert (ND1 : NoDup (slice ids1 lo n)) by (eapply Permutation_NoDup; eauto).
    assert (SP1 : slice ids1 lo n = slice ids1 lo n1 ++ slice ids1 (lo + n1) (n - n1)).
    { rewrite <- slice_app by lia. f_equal. lia. }
    (* bounding boxes and the fields of the children *)
    destruct (aset_spec (bbmax k) kd rp) as (bM & BM1 & BM2 & _ & _); [lia|].
    destruct (aset_spec (bbmin k) kd rp) as (bm & Bm1 & Bm2 & _ & _); [lia|].
    rewrite BM1, Bm1. cbn [bind]. rewrite Hc1, Hc2.
    assert (KC1 : exists ka, aget (cells s) (c + 1) = Ok ka).
    { destruct d; [destruct K1 as (ka & A & _)|destruct K1 as ((ka & A & _) & _)]; eauto. }
    destruct KC1 as [ka Hka].
    assert (KC2 : exists kb, aget (cells s) (c + p2 (S d)) = Ok kb).
    { destruct d; [destruct K2 as (kb & A & _)|destruct K2 as ((kb & A & _) & _)]; eauto. }
    destruct KC2 as [kb Hkb].
    destruct (cmod_spec (cells s) (c + 1) (fun x => set_N n1 (set_bb (bbmin k) bM x)) ka Hka) as (cs1 & C1 & C2 & C3 & C4).
    rewrite C1. cbn [bind].
    assert (XX : exists cs2, (if negb (n1 =? 0) then
                     if negb (lo + n1 - 1 - lo =? n1 - 1) then Raise
                     else cmod cs1 (c + 1) (set_range lo (lo + n1 - 1))
                   else Ok cs1) = Ok cs2 /\ zlen cs2 = zlen cs1 /\
        (forall j, j <> c + 1 -> aget cs2 j = aget cs1 j) /\
        exists k1, aget cs2 (c + 1) = Ok k1 /\ level k1 = level ka /\ copen k1 = copen ka /\ cnext k1 = cnext ka /\
          M_KDTree.c1 k1 = M_KDTree.c1 ka /\ M_KDTree.c2 k1 = M_KDTree.c2 ka /\
          cN k1 = n1 /\ (0 < n1 -> ifirst k1 = lo /\ ilast k1 = lo + n1 - 1) /\
          zlen (bbmin k1) = zlen pos /\ zlen (bbmax k1) = zlen pos).
    { destruct (Z.eqb_spec n1 0); cbn [negb].
      - exists cs1. split; [reflexivity|]. split; [easy|]. split; [easy|]. eexists. split; [exact C3|].
        cbn. repeat split; auto; lia.
      - replace (lo + n1 - 1 - lo =? n1 - 1) with true by lia. cbn [negb].
        destruct (cmod_spec cs1 (c + 1) (set_range lo (lo + n1 - 1)) _ C3) as (cs2 & E1 & E2 & E3 & E4).
        exists cs2. split; [exact E1|]. split; [easy|]. split; [easy|]. eexists. split; [exact E3|].
        cbn. repeat split; auto; lia. }
    destruct XX as (cs2 & D1 & D2 & D3 & k1 & D4 & D5 & D6 & D7 & D8 & D9 & D10 & D11 & D12 & D13).
    rewrite D1. cbn [bind]. clear D1.
    assert (Hkb2 : aget cs2 (c + p2 (S d)) = Ok kb) by (rewrite D3, C4 by lia; exact Hkb).
    destruct (cmod_spec cs2 (c + p2 (S d)) (fun x => set_N (n - n1) (set_bb bm (bbmax k) x)) kb Hkb2) as (cs3 & E1 & E2 & E3 & E4).
    rewrite E1. cbn [bind].
    replace (n - n1 =? 0) with false by lia. cbn [negb].
    replace (lo + n - 1 - (lo + n1) =? n - n1 - 1) with true by lia. cbn [negb].
    destruct (cmod_spec cs3 (c + p2 (S d)) (set_range (lo + n1) (lo + n - 1)) _ E3) as (cs4 & F1 & F2 & F3 & F4).
    rewrite F1. cbn [bind].
    (* cells other than the two children are unchanged *)
    assert (Oth : forall i, i <> c + 1 -> i <> c + p2 (S d) -> aget cs4 i = aget (cells s) i).
    { intros i Hi Hi2. rewrite F4, E4, D3, C4 by easy. reflexivity. }
    assert (K1' : kstruct cs4 ltot d (c + 1) (c + p2 (S d))).
    { assert (A4 : aget cs4 (c + 1) = Ok k1) by (rewrite F4, E4 by lia; exact D4).
      destruct d.
      - destruct K1 as (kk & A & B & C & D). rewrite Hka in A. inversion A; subst kk.
        exists k1. repeat split; auto; congruence.
      - destruct K1 as ((kk & A & B & C & G1 & G2 & D) & L1 & L2). rewrite Hka in A. inversion A; subst kk.
        cbn [kstruct]. pose proof (p2_S d). pose proof (p2_pos d). split; [|split].
        + exists k1. repeat split; auto; congruence.
        + apply kstruct_ext with (cs := cells s); [|exact L1]. unfold in_tree. intros i Hi. apply Oth; lia.
        + apply kstruct_ext with (cs := cells s); [|exact L2]. unfold in_tree. intros i Hi. apply Oth; lia. }
    assert (K2' : kstruct cs4 ltot d (c + p2 (S d)) (c + (2 * p2 (S d) - 1))).
    { destruct d.
      - destruct K2 as (kk & A & B & C & D). rewrite Hkb in A. inversion A; subst kk.
        eexists. split; [exact F3|]. cbn. repeat split; auto; congruence.
      - destruct K2 as ((kk & A & B & C & G1 & G2 & D) & L1 & L2). rewrite Hkb in A. inversion A; subst kk.
        cbn [kstruct]. pose proof (p2_S d). pose proof (p2_pos d). split; [|split].
        + eexists. split; [exact F3|]. cbn. repeat split; auto; congruence.
        + apply kstruct_ext with (cs := cells s); [|exact L1]. unfold in_tree. intros i Hi. apply Oth; lia.
        + apply kstruct_ext with (cs := cells s); [|exact L2]. unfold in_tree. intros i Hi. apply Oth; lia. }
    (* bounds for the children *)
    assert (U1 : n1 <= Nl * p2 d) by (rewrite PS in HnU; nia).
    assert (U2 : n - n1 <= Nl * p2 d) by (rewrite PS in HnU; nia).
    assert (L1 : forall d', d = S d' -> p2 d' <= n1).
    { intros d' ->. pose proof (p2_S d'). lia. }
    assert (L2 : forall d', d = S d' -> p2 d' <= n - n1).
    { intros d' ->. pose proof (p2_S d'). lia. }
    rewrite SP1 in HG1, ND1, P1.
    assert (HG1a : Forall (goodp (zlen (inext s))) (slice ids1 lo n1)) by (apply Forall_app in HG1; apply HG1).
    assert (HG1b : Forall (goodp (zlen (inext s))) (slice ids1 (lo + n1) (n - n1))) by (apply Forall_app in HG1; apply HG1).
    assert (ND1a : NoDup (slice ids1 lo n1)) by (eapply NoDup_app_l; eauto).
    assert (ND1b : NoDup (slice ids1 (lo + n1) (n - n1))) by (eapply NoDup_app_r; eauto).
    assert (Disj : forall p, In p (slice ids1 lo n1) -> In p (slice ids1 (lo + n1) (n - n1)) -> False).
    { clear - ND1. intros p A B. induction (slice ids1 lo n1); [easy|]. simpl in ND1. inversion ND1; subst.
      destruct A as [->|A]; [apply H1, in_or_app; now right|]. now apply IHl. }
    (* first recursive call *)
    destruct (IHd (c + 1) (c + p2 (S d)) lo n1 (mkst ids1 (inext s) cs4) fuel k1)
      as (s5 & R5 & V1 & V2 & V3 & V4 & V5 & V6 & V7 & V8 & V9); cbn [ids inext cells]; auto; try lia.
    { rewrite F4, E4 by lia. exact D4. }
    cbn [ids inext cells] in *.
    rewrite R5. cbn [bind].
    (* second recursive call *)
    assert (Sb5 : slice (ids s5) (lo + n1) (n - n1) = slice ids1 (lo + n1) (n - n1)).
    { apply slice_ext; try lia. intros i Hi. apply V5; lia. }
    assert (Hkb5 : aget (cells s5) (c + p2 (S d)) = aget cs4 (c + p2 (S d))).
    { apply V7. unfold in_tree. lia. }
    assert (K2'' : kstruct (cells s5) ltot d (c + p2 (S d)) (c + (2 * p2 (S d) - 1))).
    { apply kstruct_ext with (cs := cs4); [|exact K2']. intros i Hi. apply V7. unfold in_tree in *. lia. }
    destruct (IHd (c + p2 (S d)) (c + (2 * p2 (S d) - 1)) (lo + n1) (n - n1) s5 fuel
               (set_range (lo + n1) (lo + n - 1) (set_N (n - n1) (set_bb bm (bbmax k) kb))))
      as (s6 & R6 & W1 & W2 & W3 & W4 & W5 & W6 & W7 & W8 & W9); auto; try lia.
    { rewrite Hkb5. exact F3. }
    { cbn. lia. }
    { cbn. lia. }
    { rewrite Sb5, V2. exact HG1b. }
    { rewrite Sb5. exact ND1b. }
    replace (lo + n1 + (n - n1) - 1) with (lo + n - 1) in R6 by lia.
    rewrite R6. cbn [bind].
    (* particle lists of the two children *)
    assert (Sa6 : slice (ids s6) lo n1 = slice (ids s5) lo n1).
    { apply slice_ext; try lia. intros i Hi. apply W5; lia. }
    set (psa := slice (ids s6) lo n1) in *. set (psb := slice (ids s6) (lo + n1) (n - n1)) in *.
    assert (Pa : Permutation (slice ids1 lo n1) psa) by (rewrite Sa6; exact V4).
    assert (Pb : Permutation (slice ids1 (lo + n1) (n - n1)) psb) by (rewrite <- Sb5; exact W4).
    assert (Hza : zlen psa = n1) by (apply slice_zlen; lia).
    assert (Hzb : zlen psb = n - n1) by (apply slice_zlen; lia).
    assert (Ka : kdcell (info_of (cells s6)) (inext s6) pos Nl (ptree d (c + 1)) psa).
    { rewrite Sa6. apply kdcell_ext with (cs := cells s5) (nx := inext s5); [| |exact V9].
      - intros i Hi. rewrite ptree_preorder in Hi. apply zseq_in in Hi. rewrite tsize_p2 in Hi.
        apply W7. unfold in_tree. lia.
      - intros p Hp. apply W6. apply in_removelast in Hp. rewrite Sb5. intros Hp2. apply (Disj p); [|exact Hp2].
        eapply Permutation_in; [apply Permutation_sym, V4|exact Hp]. }
    destruct (kdcell_info _ _ _ _ _ _ Ka) as (kA & IA1 & IA2 & IA3). rewrite ptree_root in IA1.
    destruct (kdcell_info _ _ _ _ _ _ W9) as (kB & IB1 & IB2 & IB3). rewrite ptree_root in IB1.
    rewrite IA1, IB1. cbn [bind]. rewrite IA2, IB2, Hza, Hzb.
    replace (negb (n =? n1 + (n - n1))) with false by lia.
    assert (Npsb : psb <> []) by (intros X; rewrite X in Hzb; unfold zlen in Hzb; simpl in Hzb; lia).
    assert (NDa : NoDup psa) by (eapply Permutation_NoDup; eauto).
    assert (Gb : forall p, In p psa \/ In p psb -> 0 <= p < zlen (inext s)).
    { intros p [Hp|Hp].
      - rewrite Forall_forall in HG1a. apply HG1a. eapply Permutation_in; [apply Permutation_sym; eauto|easy].
      - rewrite Forall_forall in HG1b. apply HG1b. eapply Permutation_in; [apply Permutation_sym; eauto|easy]. }
    assert (Hlastb : ilast kB = last (psa ++ psb) (-1) /\ 0 <= ilast kB).
    { destruct psb as [|b tb] eqn:Epsb; [easy|]. destruct IB3 as (B1 & B2 & B3).
      destruct (exists_last' _ (b :: tb)) as (X & y & EX); [easy|]. rewrite B2, EX, app_assoc, !last_app1.
      split; [reflexivity|]. apply Gb. right. rewrite EX. apply in_or_app; right; now left. }
    assert (YY : exists n7 first,
       (if 0 <? n1 then
          let! inext' := aset (inext s6) (ilast kA) (ifirst kB) in Ok (inext', ifirst kA)
        else Ok (inext s6, ifirst kB)) = Ok (n7, first) /\
       zlen n7 = zlen (inext s6) /\
       chain n7 first (ilast kB) (psa ++ psb) /\
       (forall p, ~ In p (slice (ids s) lo n) -> aget n7 p = aget (inext s) p) /\
       (forall p, In p (removelast psa) -> aget n7 p = aget (inext s6) p) /\
       (forall p, In p psb -> aget n7 p = aget (inext s6) p)).
    { assert (Same : forall p, ~ In p (slice (ids s) lo n) -> aget (inext s6) p = aget (inext s) p).
      { intros p Hp. rewrite W6, V6; [reflexivity| |].
        - intros X. apply Hp. eapply Permutation_in; [apply Permutation_sym, P1|]. apply in_or_app; now left.
        - rewrite Sb5. intros X. apply Hp. eapply Permutation_in; [apply Permutation_sym, P1|]. apply in_or_app; now right. }
      destruct (Z.ltb_spec 0 n1).
      - destruct psa as [|a ta] eqn:Epsa; [unfold zlen in Hza; simpl in Hza; lia|].
        destruct IA3 as (A1 & A2 & A3).
        destruct (exists_last' _ (a :: ta)) as (X & y & EX); [easy|].
        rewrite EX, last_app1 in A2.
        assert (Hy : 0 <= y < zlen (inext s6)).
        { rewrite W2, V2. apply Gb. left. rewrite EX. apply in_or_app; right; now left. }
        rewrite A2. destruct (aset_spec (inext s6) y (ifirst kB) Hy) as (n7 & N1 & N2 & N3 & N4).
        rewrite N1. cbn [bind]. exists n7, (ifirst kA). split; [reflexivity|]. split; [easy|].
        assert (RL : forall p, In p (removelast (a :: ta)) -> aget n7 p = aget (inext s6) p).
        { intros p Hp. apply N4. rewrite EX, removelast_app in Hp by easy. cbn [removelast] in Hp. rewrite app_nil_r in Hp.
          intros ->. rewrite EX in NDa. apply NoDup_remove_2 in NDa. apply NDa. now rewrite app_nil_r. }
        assert (Yb : ~ In y psb).
        { intros Hyb. apply (Disj y).
          - eapply Permutation_in; [apply Permutation_sym, Pa|]. rewrite EX. apply in_or_app; right; now left.
          - eapply Permutation_in; [apply Permutation_sym, Pb|]. exact Hyb. }
        split; [|split; [|split]].
        + destruct psb as [|b tb] eqn:Epsb; [easy|]. destruct IB3 as (B1 & B2 & B3).
          cbn [app chain]. split; [exact A1|]. split; [apply Hlastb|].
          change (a :: ta ++ b :: tb) with ((a :: ta) ++ b :: tb). rewrite EX, <- app_assoc. cbn [app].
          apply links_app.
          * rewrite <- EX. eapply links_ext; [|exact A3]. exact RL.
          * rewrite N3. now rewrite B1.
          * eapply links_ext; [|exact B3]. intros p Hp. apply N4. apply in_removelast in Hp. intros ->. apply Yb, Hp.
        + intros p Hp. rewrite N4; [now apply Same|]. intros ->. apply Hp.
          eapply Permutation_in; [apply Permutation_sym, P1|]. apply in_or_app; left.
          eapply Permutation_in; [apply Permutation_sym, Pa|]. rewrite EX. apply in_or_app; right; now left.
        + exact RL.
        + intros p Hp. apply N4. intros ->. apply Yb, Hp.
      - assert (psa = []) as Epsa.
        { destruct psa; [reflexivity|]. unfold zlen in Hza; simpl in Hza; lia. }
        rewrite Epsa in *. exists (inext s6), (ifirst kB). split; [reflexivity|]. split; [easy|].
        split; [exact IB3|]. split; [exact Same|]. split; easy. }
    destruct YY as (n7 & first & Y1 & Y2 & Y3 & Y4 & Y5 & Y6).
    rewrite Y1. cbn [bind].
    (* the cell itself *)
    assert (Hkc : aget (cells s6) c = Ok k).
    { rewrite W7, V7, Oth; auto; unfold in_tree; lia. }
    destruct (cmod_spec (cells s6) c (set_range first (ilast kB)) k Hkc) as (cs7 & G1 & G2 & G3 & G4).
    rewrite G1. cbn [bind].
    replace ((first =? -1) && (ilast kB =? -1))%bool with false by lia.
    unfold StockLists. cbn [cells]. rewrite G3. cbn [bind]. unfold get_level. cbn [set_range level].
    rewrite Hlv. cbn [bind].
    replace (ltot - Z.of_nat (S d) =? ltot) with false by lia. cbn [set_range copen].
    rewrite Hop. replace (c + 1 =? -1) with false by lia. cbn [negb].
    rewrite G4 by lia. rewrite IA1. cbn [bind].
    assert (HnA : cnext kA = c + p2 (S d)).
    { assert (KK : kstruct (cells s6) ltot d (c + 1) (c + p2 (S d))).
      { apply kstruct_ext with (cs := cells s5); [|exact V8]. intros i Hi. apply W7. unfold in_tree in *. lia. }
      destruct d; [destruct KK as (kk & A & B & C & D)|destruct KK as ((kk & A & B & C & E & F & D) & _)];
      rewrite IA1 in A; inversion A; subst; exact D. }
    rewrite HnA. rewrite G4 by lia. rewrite IB1. cbn [bind].
    rewrite IA2, IB2, Hza, Hzb.
    destruct (cmod_spec cs7 c (set_N (n1 + (n - n1))) _ G3) as (cs8 & H1 & H2 & H3 & H4).
    rewrite H1. cbn [bind]. eexists. split; [reflexivity|]. cbn [ids inext cells].
    assert (SP6 : slice (ids s6) lo n = psa ++ psb).
    { unfold psa, psb. rewrite <- slice_app by lia. f_equal. lia. }
    split; [lia|]. split; [lia|]. split; [lia|].
    split.
    { rewrite SP6. rewrite P1. apply Permutation_app; auto. }
    split.
    { intros i Hi Hi2. rewrite W5, V5 by lia. apply Q3; lia. }
    split.
    { exact Y4. }
    assert (Cin : forall i, in_tree d (c + 1) i \/ in_tree d (c + p2 (S d)) i -> aget cs8 i = aget (cells s6) i).
    { unfold in_tree. intros i Hi. rewrite H4, G4 by lia. reflexivity. }
    split.
    { unfold in_tree. intros i Hi. rewrite H4, G4, W7, V7, Oth by (try (unfold in_tree); lia). reflexivity. }
    split.
    + cbn [kstruct]. split; [|split].
      * eexists. split; [exact H3|]. cbn. repeat split; auto.
      * apply kstruct_ext with (cs := cells s6); [intros; apply Cin; now left|].
        apply kstruct_ext with (cs := cells s5); [|exact V8]. intros i Hi. apply W7. unfold in_tree in *. lia.
      * apply kstruct_ext with (cs := cells s6); [intros; apply Cin; now right|]. exact W8.
    + rewrite SP6. cbn [ptree].
      eapply kd_node with (n := n1 + (n - n1)) (first := first) (last := ilast kB) (axis := kd) (key := key).
      * eexists. split; [exact H3|]. cbn. auto.
      * unfold zlen in *. rewrite app_length. lia.
      * exact Y3.
      * apply kdcell_ext with (cs := cells s6) (nx := inext s6); [| |exact Ka].
        -- intros i Hi. rewrite ptree_preorder in Hi. apply zseq_in in Hi. rewrite tsize_p2 in Hi.
           apply Cin. left. unfold in_tree. lia.
        -- exact Y5.
      * apply kdcell_ext with (cs := cells s6) (nx := inext s6); [| |exact W9].
        -- intros i Hi. rewrite ptree_preorder in Hi. apply zseq_in in Hi. rewrite tsize_p2 in Hi.
           apply Cin. right. unfold in_tree. lia.
        -- intros p Hp. apply Y6. now apply in_removelast.
      * lia.
      * exact Hkey.
      * intros p q x y Hp Hq' Hx Hy.
        assert (Hp1 : In p (slice ids1 lo n1)) by (eapply Permutation_in; [apply Permutation_sym; eauto|easy]).
        assert (Hq1 : In q (slice ids1 (lo + n1) (n - n1))) by (eapply Permutation_in; [apply Permutation_sym; eauto|easy]).
        apply slice_in in Hp1 as (i & Hi & Ei); try lia. apply slice_in in Hq1 as (j & Hj & Ej); try lia.
        assert (x <= rp) by (apply (Q5 i x); [lia|]; unfold keyat; rewrite Ei; exact Hx).
        assert (rp <= y) by (apply (Q6 j y); [lia|]; unfold keyat; rewrite Ej; exact Hy).
        lia.
Qed.
End Divide.
