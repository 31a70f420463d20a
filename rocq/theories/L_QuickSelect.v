(** Proofs about QuickSelect. *)
From Verif Require Import Prelude L_Prelude M_KDTree.
From Coq Require Import Permutation.
Local Open Scope Z_scope.

Definition get (l : list Z) (i : Z) : Z := nth (Z.to_nat i) l 0.

Lemma aget_get l i : 0 <= i < zlen l -> aget l i = Ok (get l i).
Proof.
  intros H. destruct (aget_in l i H) as [x Hx]. rewrite Hx.
  apply aget_Ok_inv in Hx as [_ Hx]. unfold get. f_equal. symmetry. now apply nth_error_nth.
Qed.

Lemma aget_get_inv l i x : aget l i = Ok x -> 0 <= i < zlen l /\ get l i = x.
Proof.
  intros H. apply aget_Ok_inv in H as [H1 H2]. split; [exact H1|]. unfold get. now apply nth_error_nth.
Qed.

Lemma nth_upd_eq (l : list Z) n x : (n < length l)%nat -> nth n (upd l n x) 0 = x.
Proof. intros. apply nth_error_nth. now apply nth_error_upd_eq. Qed.

Lemma nth_upd_ne (l : list Z) n m x : n <> m -> nth m (upd l n x) 0 = nth m l 0.
Proof.
  intros. destruct (nth_error l m) eqn:E.
  - transitivity z; [|symmetry]; apply nth_error_nth; [|assumption]. rewrite nth_error_upd_ne; auto.
  - rewrite !nth_overflow; auto; [|rewrite length_upd]; now apply nth_error_None.
Qed.

Lemma get_upd_eq l i x : 0 <= i < zlen l -> get (upd l (Z.to_nat i) x) i = x.
Proof. unfold get, zlen. intros. apply nth_upd_eq. lia. Qed.

Lemma get_upd_ne l i j x : 0 <= i -> 0 <= j -> i <> j -> get (upd l (Z.to_nat i) x) j = get l j.
Proof. unfold get. intros. apply nth_upd_ne. lia. Qed.

(** What a swap does, pointwise. *)
Lemma swap_spec l i j :
  0 <= i < zlen l -> 0 <= j < zlen l ->
  exists l', swap l i j = Ok l' /\ zlen l' = zlen l /\ Permutation l l' /\
    get l' i = get l j /\ get l' j = get l i /\
    (forall m, 0 <= m -> m <> i -> m <> j -> get l' m = get l m).
Proof.
  intros Hi Hj. unfold swap.
  rewrite (aget_get l i Hi), (aget_get l j Hj). cbn [bind].
  rewrite aset_in by assumption. cbn [bind].
  rewrite aset_in by (rewrite zlen_upd; assumption).
  eexists. split; [reflexivity|]. rewrite !zlen_upd. split; [reflexivity|].
  split; [|split; [|split]].
  - apply swap_perm.
    + unfold get. apply nth_error_nth'. unfold zlen in *; lia.
    + unfold get. apply nth_error_nth'. unfold zlen in *; lia.
  - destruct (Z.eq_dec i j) as [->|Hne].
    + now rewrite get_upd_eq by (rewrite zlen_upd; assumption).
    + rewrite get_upd_ne by lia. now rewrite get_upd_eq.
  - now rewrite get_upd_eq by (rewrite zlen_upd; assumption).
  - intros m Hm H1 H2. now rewrite !get_upd_ne by lia.
Qed.

Global Opaque get.
Section QS.
  Variable key : list Z.
  Definition K (l : list Z) (i : Z) : Z := get key (get l i).
  Definition valid (l : list Z) (a b : Z) : Prop :=
    0 <= a /\ b < zlen l /\ forall i, a <= i <= b -> 0 <= get l i < zlen key.

  Lemma keyat_K l a b i : valid l a b -> a <= i <= b -> keyat key l i = Ok (K l i).
  Proof.
    intros (Ha & Hb & Hv) Hi. unfold keyat. rewrite aget_get by lia. cbn [bind].
    rewrite aget_get by auto. reflexivity.
  Qed.

  (** [l'] is obtained from [l] by rearranging the entries in [a..b]. *)
  Definition rearr (l l' : list Z) (a b : Z) : Prop :=
    zlen l' = zlen l /\ Permutation l l' /\
    (forall m, 0 <= m -> ~ (a <= m <= b) -> get l' m = get l m) /\
    (forall m, a <= m <= b -> exists m', a <= m' <= b /\ get l' m = get l m').

  Lemma rearr_refl l a b : rearr l l a b.
  Proof. repeat split; auto. intros m Hm; exists m; auto. Qed.

  Lemma rearr_trans l1 l2 l3 a b : rearr l1 l2 a b -> rearr l2 l3 a b -> rearr l1 l3 a b.
  Proof.
    intros (Z1 & P1 & O1 & I1) (Z2 & P2 & O2 & I2). repeat split.
    - congruence.
    - etransitivity; eauto.
    - intros. rewrite O2, O1; auto.
    - intros m Hm. destruct (I2 m Hm) as (m' & Hm' & E). destruct (I1 m' Hm') as (m'' & Hm'' & E').
      exists m''. split; [auto|congruence].
  Qed.

  Lemma rearr_wider l l' a b c d : rearr l l' a b -> c <= a -> b <= d -> 0 <= c -> rearr l l' c d.
  Proof.
    intros (Z1 & P1 & O1 & I1) Hc Hd H0. repeat split; auto.
    - intros m Hm Hn. apply O1; lia.
    - intros m Hm. destruct (Z_le_dec a m); [destruct (Z_le_dec m b)|].
      + destruct (I1 m) as (m' & Hm' & E); [lia|]. exists m'. split; [lia|auto].
      + exists m. split; [lia|]. apply O1; lia.
      + exists m. split; [lia|]. apply O1; lia.
  Qed.

  Lemma swap_rearr l i j a b :
    0 <= a -> b < zlen l -> a <= i <= b -> a <= j <= b ->
    exists l', swap l i j = Ok l' /\ rearr l l' a b /\
      get l' i = get l j /\ get l' j = get l i /\
      (forall m, 0 <= m -> m <> i -> m <> j -> get l' m = get l m).
  Proof.
    intros Ha Hb Hi Hj.
    destruct (swap_spec l i j) as (l' & E & HZ & HP & Gi & Gj & Go); [lia|lia|].
    exists l'. repeat split; auto.
    - intros m Hm Hn. apply Go; lia.
    - intros m Hm. destruct (Z.eq_dec m i) as [->|]; [exists j; auto|].
      destruct (Z.eq_dec m j) as [->|]; [exists i; auto|].
      exists m. split; [auto|]. apply Go; lia.
  Qed.

  Lemma valid_rearr l l' a b : valid l a b -> rearr l l' a b -> valid l' a b.
  Proof.
    intros (Ha & Hb & Hv) (Z1 & _ & _ & I). repeat split; try lia.
    - destruct (I i) as (m & Hm & ->); [lia|]. apply Hv; lia.
    - destruct (I i) as (m & Hm & ->); [lia|]. apply Hv; lia.
  Qed.

  Lemma qs_partition_spec : forall n l p jg j a b,
    valid l a b -> a <= jg <= j -> j + Z.of_nat n = b ->
    (forall m, a <= m < jg -> K l m <= p) -> (forall m, jg <= m < j -> p < K l m) ->
    exists l' jg', qs_partition key l p jg j n = Ok (l', jg') /\
      rearr l l' a b /\ get l' b = get l b /\ jg <= jg' <= b /\
      (forall m, a <= m < jg' -> K l' m <= p) /\ (forall m, jg' <= m < b -> p < K l' m).
  Proof.
    induction n as [|n IH]; intros l p jg j a b HV Hj Hn Hlo Hhi.
    - exists l, jg. cbn [qs_partition]. split; [reflexivity|].
      replace b with j in * by qlia. repeat split; auto using rearr_refl; try qlia.
      intros m Hm; exists m; auto.
    - cbn [qs_partition]. rewrite (keyat_K l a b) by (auto; qlia). cbn [bind].
      destruct (Z.leb_spec (K l j) p) as [Hle|Hgt].
      + destruct HV as (Ha & Hb & Hv).
        destruct (swap_rearr l j jg a b) as (l1 & E & HR & Gj & Gg & Go); [qlia..|].
        rewrite E. cbn [bind].
        assert (HV1 : valid l1 a b) by (eapply valid_rearr; eauto; repeat split; auto; apply Hv; qlia).
        destruct (IH l1 p (jg + 1) (j + 1) a b) as (l2 & jg2 & E2 & R2 & G2 & B2 & L2 & H2); auto; try qlia.
        * intros m Hm. destruct (Z.eq_dec m jg) as [->|].
          -- unfold K. rewrite Gg. exact Hle.
          -- unfold K. rewrite Go by qlia. apply Hlo; qlia.
        * intros m Hm. destruct (Z.eq_dec m j) as [->|].
          -- unfold K. rewrite Gj. apply Hhi. qlia.
          -- unfold K. rewrite Go by qlia. apply Hhi; qlia.
        * exists l2, jg2. split; [exact E2|]. split; [eapply rearr_trans; eauto|].
          split; [rewrite G2; apply Go; qlia|]. split; [qlia|]. auto.
      + destruct (IH l p jg (j + 1) a b) as (l2 & jg2 & E2 & R2 & G2 & B2 & L2 & H2); auto; try qlia.
        * intros m Hm. destruct (Z.eq_dec m j) as [->|]; [exact Hgt|]. apply Hhi; qlia.
        * exists l2, jg2. repeat split; auto; try qlia; apply R2.
  Qed.

  Lemma K_unfold l i : K l i = get key (get l i).
  Proof. reflexivity. Qed.

  Opaque K.
  Lemma quickselect_spec : forall fuel l left right jp L R,
    right - left < Z.of_nat fuel ->
    L <= left -> left <= jp <= right -> right <= R -> valid l L R ->
    (forall i j, L <= i < left -> left <= j <= R -> K l i <= K l j) ->
    (forall i j, L <= i <= right -> right < j <= R -> K l i <= K l j) ->
    exists l' rp, QuickSelect fuel key l left right jp = Ok (l', rp) /\
      rearr l l' left right /\ K l' jp = rp /\
      (forall i, L <= i < jp -> K l' i <= rp) /\ (forall i, jp < i <= R -> rp <= K l' i).
  Proof.
    induction fuel as [|fuel IH]; intros l left right jp L R Hf HL Hjp HR HV Hlo Hhi; [qlia|].
    cbn [QuickSelect]. cbv zeta.
    assert (Hv0 : valid l left right).
    { destruct HV as (? & ? & Hv). repeat split; try qlia; apply Hv; qlia. }
    assert (HL0 : 0 <= L) by (destruct HV; qlia).
    assert (HRl : R < zlen l) by (destruct HV as (? & ? & ?); qlia).
    assert (Hg0 : left <= Z.quot (left + right) 2 <= right).
    { rewrite Z.quot_div_nonneg by qlia. qlia. }
    set (g0 := Z.quot (left + right) 2) in *. clearbody g0.
    rewrite (keyat_K l left right) by auto. cbn [bind].
    destruct (swap_rearr l g0 right left right) as (l1 & E1 & R1 & Gg & Gr & Go1); [qlia..|].
    rewrite E1. cbn [bind].
    assert (HV1 : valid l1 left right) by (eapply valid_rearr; eauto).
    destruct (qs_partition_spec (Z.to_nat (right - left)) l1 (K l g0) left left left right)
      as (l2 & jg & E2 & R2 & Gb & Bj & Lo2 & Hi2); auto; try qlia.
    rewrite E2. cbn [bind].
    assert (HZ2 : zlen l2 = zlen l) by (destruct R1, R2; congruence).
    destruct (swap_rearr l2 right jg left right) as (l3 & E3 & R3 & Gr3 & Gj3 & Go3); [qlia..|].
    rewrite E3. cbn [bind].
    assert (R13 : rearr l l3 left right) by (eapply rearr_trans; [eapply rearr_trans|]; eauto).
    assert (Kjg : K l3 jg = K l g0) by (rewrite !K_unfold; rewrite Gj3, Gb, Gr; reflexivity).
    assert (Klo : forall i, left <= i < jg -> K l3 i <= K l g0).
    { intros i Hi. rewrite (K_unfold l3), Go3, <- K_unfold by qlia. apply Lo2; qlia. }
    assert (Khi : forall i, jg < i <= right -> K l g0 <= K l3 i).
    { intros i Hi. destruct (Z.eq_dec i right) as [->|].
      - rewrite !K_unfold. rewrite Gr3. destruct (Z.eq_dec jg right); [qlia|].
        assert (K l g0 < K l2 jg) by (apply Hi2; qlia). rewrite ?K_unfold in *. qlia.
      - rewrite !K_unfold. rewrite Go3 by qlia. assert (K l g0 < K l2 i) by (apply Hi2; qlia).
        rewrite ?K_unfold in *; qlia. }
    assert (HV3 : valid l3 L R).
    { destruct HV as (Ha & Hb & Hv). eapply valid_rearr; [repeat split; [exact Ha|exact Hb|..]; apply Hv; auto|].
      eapply rearr_wider; [exact R13|qlia..]. }
    (* relations with the outside survive the rearrangement *)
    assert (Hlo3 : forall i j, L <= i < left -> left <= j <= R -> K l3 i <= K l3 j).
    { intros i j Hi Hj. destruct R13 as (_ & _ & HOo & HIi).
      assert (Ei : K l3 i = K l i) by (rewrite !K_unfold; rewrite HOo by qlia; reflexivity).
      rewrite Ei. destruct (Z_le_dec j right).
      - destruct (HIi j) as (m & Hm & Em); [qlia|]. rewrite (K_unfold l3 j), Em, <- K_unfold. apply Hlo; qlia.
      - rewrite (K_unfold l3 j), HOo, <- K_unfold by qlia. apply Hlo; qlia. }
    assert (Hhi3 : forall i j, L <= i <= right -> right < j <= R -> K l3 i <= K l3 j).
    { intros i j Hi Hj. destruct R13 as (_ & _ & HOo & HIi).
      assert (Ej : K l3 j = K l j) by (rewrite !K_unfold; rewrite HOo by qlia; reflexivity).
      rewrite Ej. destruct (Z_le_dec left i).
      - destruct (HIi i) as (m & Hm & Em); [qlia|]. rewrite (K_unfold l3 i), Em, <- K_unfold. apply Hhi; qlia.
      - rewrite (K_unfold l3 i), HOo, <- K_unfold by qlia. apply Hhi; qlia. }
    (* split at jg *)
    assert (Sp1 : forall i j, L <= i < jg + 1 -> jg + 1 <= j <= R -> K l3 i <= K l3 j).
    { intros i j Hi Hj. destruct (Z_lt_dec i left); [apply Hlo3; qlia|].
      destruct (Z_lt_dec right j); [apply Hhi3; qlia|].
      assert (K l3 i <= K l g0) by (destruct (Z.eq_dec i jg) as [->|]; [qlia|apply Klo; qlia]).
      assert (K l g0 <= K l3 j) by (apply Khi; qlia). qlia. }
    assert (Sp2 : forall i j, L <= i <= jg - 1 -> jg - 1 < j <= R -> K l3 i <= K l3 j).
    { intros i j Hi Hj. destruct (Z_lt_dec i left); [apply Hlo3; qlia|].
      destruct (Z_lt_dec right j); [apply Hhi3; qlia|].
      assert (K l3 i <= K l g0) by (apply Klo; qlia).
      assert (K l g0 <= K l3 j) by (destruct (Z.eq_dec j jg) as [->|]; [qlia|apply Khi; qlia]). qlia. }
    destruct (Z.ltb_spec jg jp).
    - destruct (IH l3 (jg + 1) right jp L R) as (l' & rp & E' & R' & Kp & A & B); auto; try qlia.
      exists l', rp. split; [exact E'|]. split; [|auto].
      eapply rearr_trans; [exact R13|]. eapply rearr_wider; [exact R'|qlia..].
    - destruct (Z.ltb_spec jp jg).
      + destruct (IH l3 left (jg - 1) jp L R) as (l' & rp & E' & R' & Kp & A & B); auto; try qlia.
        exists l', rp. split; [exact E'|]. split; [|auto].
        eapply rearr_trans; [exact R13|]. eapply rearr_wider; [exact R'|qlia..].
      + assert (jg = jp) by qlia. subst jg.
        exists l3, (K l g0). split; [reflexivity|]. split; [exact R13|]. split; [exact Kjg|].
        split; intros i Hi; rewrite <- Kjg.
        * apply Sp2; qlia.
        * apply Sp1; qlia.
  Qed.
End QS.
Global Transparent get.

Lemma QuickSelect_correct : forall key ids left right jpivot,
  0 <= left -> left <= jpivot <= right -> right < zlen ids ->
  (forall i, left <= i <= right -> exists a v, aget ids i = Ok a /\ aget key a = Ok v) ->
  exists ids' rp,
    QuickSelect (S (Z.to_nat (right - left))) key ids left right jpivot = Ok (ids', rp) /\
    Permutation ids ids' /\
    (forall i, 0 <= i -> ~ (left <= i <= right) -> aget ids' i = aget ids i) /\
    keyat key ids' jpivot = Ok rp /\
    (forall i v, left <= i <= jpivot -> keyat key ids' i = Ok v -> v <= rp) /\
    (forall i v, jpivot <= i <= right -> keyat key ids' i = Ok v -> rp <= v).
Proof.
  intros key ids left right jp H0 Hj Hr Hv.
  assert (HV : valid key ids left right).
  { split; [lia|]. split; [lia|]. intros i Hi. destruct (Hv i Hi) as (a & v & Ha & Hk).
    apply aget_get_inv in Ha as [_ Ha]. apply aget_get_inv in Hk as [Hk _]. subst a. lia. }
  destruct (quickselect_spec key (S (Z.to_nat (right - left))) ids left right jp left right)
    as (l' & rp & E & HR & Hp & Lo & Hi'); try lia; auto.
  exists l', rp. split; [exact E|].
  assert (HV' : valid key l' left right) by (eapply valid_rearr; eauto).
  destruct HR as (HZ & HP & HO & HI). split; [exact HP|]. split; [|split; [|split]].
  - intros i Hi Hn. unfold aget. destruct (Z.ltb_spec i 0); [reflexivity|].
    destruct (Z_lt_dec i (zlen ids)).
    + pose proof (HO i Hi Hn) as HG. unfold get in HG.
      rewrite (nth_error_nth' l' 0) by (unfold zlen in *; lia).
      rewrite (nth_error_nth' ids 0) by (unfold zlen in *; lia). now rewrite HG.
    + assert (N1 : nth_error l' (Z.to_nat i) = None) by (apply nth_error_None; unfold zlen in *; lia).
      assert (N2 : nth_error ids (Z.to_nat i) = None) by (apply nth_error_None; unfold zlen in *; lia).
      now rewrite N1, N2.
  - rewrite (keyat_K key l' left right) by auto. now rewrite Hp.
  - intros i v Hi. rewrite (keyat_K key l' left right) by (auto; lia). intros [= <-].
    destruct (Z.eq_dec i jp) as [->|]; [lia|]. apply Lo; lia.
  - intros i v Hi. rewrite (keyat_K key l' left right) by (auto; lia). intros [= <-].
    destruct (Z.eq_dec i jp) as [->|]; [lia|]. apply Hi'; lia.
Qed.
