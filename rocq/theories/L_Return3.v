(** Lemmas on the return of changes made to ghosts. *)
From Verif Require Import Prelude L_Prelude Vec S_Tree L_Tree L_KDTop M_Util S_Util L_Util M_Sync L_Sync M_Store L_Store M_Return S_Return L_Return L_Return2.
From Coq Require Import Reals Lra.
Local Open Scope Z_scope.

Lemma zlen_cons : forall {A} (x : A) l, zlen (x :: l) = 1 + zlen l. Proof. intros. unfold zlen. cbn [length]. lia. Qed.
(** ** To which process a ghost belongs *)
Lemma ub_ok : forall {A} (f : Z -> list A) n a base k i, 0 <= k < Z.of_nat n ->
  base + zlen (concat (map f (zseq a (Z.to_nat k)))) <= i < base + zlen (concat (map f (zseq a (Z.to_nat k)))) + zlen (f (a + k)) ->
  upper_bound (i_start_ghost base (map (fun x => zlen (f x)) (zseq a n))) i = k.
Proof.
  intros A f. induction n as [|n IH]; intros a base k i Hk Hi; [lia|]. cbn [zseq map i_start_ghost upper_bound]. destruct (Z.eq_dec k 0) as [->|K0].
  - cbn [Z.to_nat zseq map concat] in Hi. change (zlen []) with 0 in Hi. replace (a + 0) with a in Hi by lia. destruct (Z.ltb_spec i (base + zlen (f a))); lia.
  - replace (Z.to_nat k) with (S (Z.to_nat (k - 1))) in Hi by lia. cbn [zseq map concat] in Hi. rewrite !L_Sync.zlen_app in Hi. pose proof (zlen_nonneg (concat (map f (zseq (a + 1) (Z.to_nat (k - 1)))))).
    destruct (Z.ltb_spec i (base + zlen (f a))); [lia|]. rewrite (IH (a + 1) (base + zlen (f a)) (k - 1)); [lia|lia|]. replace (a + 1 + (k - 1)) with (a + k) by lia. lia.
Qed.
Lemma ub_upto : forall {A} (f : Z -> list A) N base q i, 0 <= q < N -> base + zlen (upto f q) <= i < base + zlen (upto f q) + zlen (f q) ->
  upper_bound (i_start_ghost base (map (fun x => zlen (f x)) (zs N))) i = q.
Proof. intros A f N base q i Hq Hi. unfold zs. apply ub_ok; [lia|]. exact Hi. Qed.
Lemma find_block : forall {A} (f : Z -> list A) N t, 0 <= N -> 0 <= t < zlen (upto f N) -> exists q, 0 <= q < N /\ zlen (upto f q) <= t < zlen (upto f q) + zlen (f q).
Proof.
  intros A f N t HN. replace N with (Z.of_nat (Z.to_nat N)) by lia. induction (Z.to_nat N) as [|n IH]; intros Ht.
  - unfold upto, zs in Ht. cbn in Ht. unfold zlen in Ht. cbn in Ht. lia.
  - rewrite Nat2Z.inj_succ, <- Z.add_1_r in Ht. rewrite upto_S, L_Sync.zlen_app in Ht by lia. destruct (Z_lt_ge_dec t (zlen (upto f (Z.of_nat n)))) as [L|G].
    + destruct IH as (q & Hq & Bq); [lia|]. exists q. split; [lia|exact Bq].
    + exists (Z.of_nat n). split; [lia|]. lia.
Qed.

(** ** Sorting the updates *)
Lemma aset_zs : forall {A} (B : Z -> A) N j v, 0 <= j < N -> aset (map B (zs N)) j v = Ok (map (fun q => if q =? j then v else B q) (zs N)).
Proof.
  intros A B N j v Hj. assert (L : zlen (map B (zs N)) = N) by (unfold zlen; rewrite map_length; unfold zs; rewrite zseq_length; lia).
  rewrite aset_in by lia. f_equal. apply aget_ext.
  - rewrite zlen_upd, L. unfold zlen. rewrite map_length. unfold zs. rewrite zseq_length. lia.
  - intros i Hi. rewrite zlen_upd, L in Hi. destruct (Z.eq_dec i j) as [->|NE].
    + rewrite aget_upd_eq by lia. rewrite aget_zs by lia. now rewrite Z.eqb_refl.
    + rewrite aget_upd_ne by lia. rewrite !aget_zs by lia. now rewrite (proj2 (Z.eqb_neq i j) NE).
Qed.
Lemma sort_ok : forall k starts d junk N ids B, (forall i, In i ids -> 0 <= upper_bound starts i < N /\ 0 <= i < zlen d) ->
  sort_updates k starts d ids (map B (zs N)) =
  Ok (map (fun q => B q ++ map (fun i => make k (nth (Z.to_nat i) d junk)) (filter (fun i => upper_bound starts i =? q) ids)) (zs N)).
Proof.
  intros k starts d junk N. induction ids as [|i ids IH]; intros B H; cbn [sort_updates].
  - f_equal. apply map_ext. intros q. cbn. now rewrite app_nil_r.
  - destruct (H i (or_introl eq_refl)) as [H1 H2]. rewrite aget_zs by exact H1. cbn [bind]. rewrite (aget_nth_error d i (nth (Z.to_nat i) d junk)); [|lia|apply nth_error_nth'; unfold zlen in H2; lia].
    cbn [bind]. rewrite aset_zs by exact H1. cbn [bind]. rewrite (IH (fun q => if q =? upper_bound starts i then B (upper_bound starts i) ++ [make k (nth (Z.to_nat i) d junk)] else B q)) by (intros; apply H; now right).
    f_equal. apply map_ext. intros q. cbn [filter]. rewrite (Z.eqb_sym q). destruct (Z.eqb_spec (upper_bound starts i) q) as [<-|NE]; [|reflexivity].
    cbn [map]. rewrite <- app_assoc. reflexivity.
Qed.
Lemma part_len : forall (h : Z -> Z) N ids, 0 <= N -> (forall i, In i ids -> 0 <= h i < N) -> zlen (upto (fun q => filter (fun i => h i =? q) ids) N) = zlen ids.
Proof.
  intros h N ids HN. rewrite <- zsum_upto. induction ids as [|i ids IH]; intros H.
  - cbn [filter]. change (zlen []) with 0. induction (zs N); cbn; [reflexivity|exact IHl].
  - assert (X : zsum (map (fun x => zlen (filter (fun i0 => h i0 =? x) (i :: ids))) (zs N)) = zsum (map (fun x => if h i =? x then 1 else 0) (zs N)) + zsum (map (fun x => zlen (filter (fun i0 => h i0 =? x) ids)) (zs N))).
    { clear. induction (zs N) as [|x l IH]; [reflexivity|]. cbn [map zsum]. rewrite IH. cbn [filter]. destruct (h i =? x); [|lia]. rewrite zlen_cons. lia. }
    rewrite X, IH by (intros; apply H; now right). rewrite zlen_cons.
    assert (Y : forall n a, zsum (map (fun x => if h i =? x then 1 else 0) (zseq a n)) = if (a <=? h i) && (h i <? a + Z.of_nat n) then 1 else 0).
    { clear. induction n as [|n IH]; intros a; cbn [zseq map zsum].
      - destruct (Z.leb_spec a (h i)), (Z.ltb_spec (h i) (a + Z.of_nat 0)); cbn; lia.
      - rewrite IH. destruct (Z.eqb_spec (h i) a), (Z.leb_spec (a + 1) (h i)), (Z.leb_spec a (h i)), (Z.ltb_spec (h i) (a + 1 + Z.of_nat n)), (Z.ltb_spec (h i) (a + Z.of_nat (S n))); cbn; lia. }
    unfold zs. rewrite Y. specialize (H i (or_introl eq_refl)). destruct (Z.leb_spec 0 (h i)), (Z.ltb_spec (h i) (0 + Z.of_nat (Z.to_nat N))); cbn; lia.
Qed.
Lemma copy_buf_ok : forall (f : Z -> list rdata) n a ds rest, 0 <= a -> zlen ds = Z.of_nat n -> (forall j, 0 <= j < Z.of_nat n -> aget ds j = Ok (zlen (upto f (a + j)))) ->
  zlen rest + zlen (upto f a) = zlen (upto f (a + Z.of_nat n)) -> copy_buffers (map f (zseq a n)) ds (upto f a ++ rest) = Ok (upto f (a + Z.of_nat n)).
Proof.
  intros f. induction n as [|n IH]; intros a ds rest Ha LD HD HL; cbn [zseq map].
  - rewrite (zlen0 ds) by exact LD. cbn [copy_buffers]. replace (a + Z.of_nat 0) with a in * by lia. rewrite (zlen0 rest) by lia. now rewrite app_nil_r.
  - destruct ds as [|o ds]; [unfold zlen in LD; cbn in LD; lia|]. cbn [copy_buffers]. pose proof (HD 0 ltac:(lia)) as H0. change (Ok o = Ok (zlen (upto f (a + 0)))) in H0. injection H0 as ->. replace (a + 0) with a by lia.
    assert (EA : upto f (a + 1) = upto f a ++ f a) by (apply upto_S; lia).
    assert (M : zlen (upto f (a + 1)) <= zlen (upto f (a + Z.of_nat (S n)))).
    { destruct (Z.eq_dec (a + 1) (a + Z.of_nat (S n))) as [->|NE]; [lia|]. pose proof (upto_len_mono f (a + 1) (a + Z.of_nat (S n)) ltac:(lia)). pose proof (zlen_nonneg (f (a + 1))). lia. }
    rewrite EA, L_Sync.zlen_app in M.
    assert (X : exists r1 r2, rest = r1 ++ r2 /\ length r1 = length (f a)).
    { exists (firstn (length (f a)) rest), (skipn (length (f a)) rest). split; [symmetry; apply firstn_skipn|]. rewrite firstn_length. unfold zlen in *. lia. }
    destruct X as (r1 & r2 & -> & L1). rewrite blit_ok by lia. cbn [bind]. rewrite app_assoc, <- EA. replace (a + Z.of_nat (S n)) with (a + 1 + Z.of_nat n) in * by lia. apply IH; [lia| | |].
    + unfold zlen in *. cbn [length] in LD. lia.
    + intros j Hj. pose proof (HD (j + 1) ltac:(lia)) as X. replace (a + 1 + j) with (a + (j + 1)) by lia. rewrite <- X.
      pose proof (aget_app2 [zlen (upto f a)] ds j ltac:(lia)) as Y. change (zlen [zlen (upto f a)]) with 1 in Y. rewrite (Z.add_comm j 1). symmetry. replace (a + 0) with a by lia. exact Y.
    + rewrite EA. rewrite !L_Sync.zlen_app in *. unfold zlen in *. lia.
Qed.

(** ** Real particles behind ghosts *)
Lemma stands_det : forall d Nh i j j', stands_for d Nh i j -> stands_for d Nh i j' -> j = j'.
Proof.
  intros d Nh i j j' H. revert j'. induction H as [j R|j p k R A H IH]; intros j' H'; inversion H' as [x R' |x p' k' R' A' H'' ]; subst; try lia. rewrite A in A'. injection A' as <-. auto.
Qed.
Lemma stands_range : forall d Nh i j, stands_for d Nh i j -> 0 <= j < Nh. Proof. intros d Nh i j H. induction H; auto. Qed.
Lemma rp_ext : forall fuel Nh d d' i, (forall j, Nh <= j -> aget d j = aget d' j) -> real_parent fuel Nh d i = real_parent fuel Nh d' i.
Proof.
  induction fuel as [|fuel IH]; intros Nh d d' i H; [reflexivity|]. cbn [real_parent]. destruct (Z.ltb_spec i Nh); [reflexivity|]. rewrite H by lia. destruct (aget d' i); try reflexivity. cbn [bind]. now apply IH.
Qed.
Lemma rp_ok : forall Nh np d, 0 <= Nh -> Nh + np <= zlen d -> (forall j x, Nh <= j < Nh + np -> aget d j = Ok x -> 0 <= piorig x < j) ->
  forall fuel i, 0 <= i < Nh + np -> i < Z.of_nat fuel -> exists j, real_parent fuel Nh d i = Ok j /\ stands_for d Nh i j.
Proof.
  intros Nh np d H0 HL PG. induction fuel as [|fuel IH]; intros i Hi Hf; [lia|]. cbn [real_parent]. destruct (Z.ltb_spec i Nh) as [L|G].
  - exists i. split; [reflexivity|]. constructor. lia.
  - destruct (aget_in d i) as (x & Ex); [lia|]. rewrite Ex. cbn [bind]. pose proof (PG i x ltac:(lia) Ex). destruct (IH (piorig x)) as (j & E & S); [lia|lia|]. exists j. split; [exact E|]. eapply image; eauto.
Qed.
Lemma update_all_ok : forall k Nh np L d, 0 <= Nh -> 0 <= np -> Nh + np <= zlen d -> (forall j x, Nh <= j < Nh + np -> aget d j = Ok x -> 0 <= piorig x < j) ->
  (forall x, In x L -> 0 <= r_iorig x < Nh + np) ->
  exists d', update_all k Nh L d = Ok d' /\ zlen d' = zlen d /\ (forall i, ~ (0 <= i < Nh) -> aget d' i = aget d i) /\
  forall j p, 0 <= j < Nh -> aget d j = Ok p -> aget d' j = Ok (fold_left (fun p x => update_received k x p)
     (filter (fun x => match real_parent (S (length d)) Nh d (r_iorig x) with Ok i => i =? j | _ => false end) L) p).
Proof.
  intros k Nh np. induction L as [|x L IH]; intros d H0 H1 HL PG HX; cbn [update_all].
  - exists d. split; [reflexivity|]. split; [reflexivity|]. split; [reflexivity|]. intros j p Hj Hp. exact Hp.
  - destruct (rp_ok Nh np d H0 HL PG (S (length d)) (r_iorig x)) as (i & Ei & Si); [apply HX; now left| |].
    { specialize (HX x (or_introl eq_refl)). unfold zlen in HL. lia. }
    rewrite Ei. cbn [bind]. pose proof (stands_range _ _ _ _ Si) as Ri. destruct (aget_in d i) as (p & Ep); [lia|]. rewrite Ep. cbn [bind].
    destruct (aset_spec d i (update_received k x p)) as (d1 & E1 & L1 & G1 & O1); [lia|]. rewrite E1. cbn [bind].
    destruct (IH d1) as (d' & Ed & Ld & Od & Gd); [lia|lia|lia| |intros; apply HX; now right|].
    { intros j y Hj Hy. rewrite O1 in Hy by lia. apply (PG j y Hj Hy). }
    exists d'. split; [exact Ed|]. split; [lia|]. split; [intros j Hj; rewrite Od by exact Hj; apply O1; lia|].
    assert (LE : length d1 = length d) by (unfold zlen in L1; lia).
    assert (RP : forall j, real_parent (S (length d1)) Nh d1 j = real_parent (S (length d)) Nh d j) by (intros j; rewrite LE; apply rp_ext; intros y Hy; apply O1; lia).
    intros j q Hj Hq. cbn [filter]. rewrite Ei. destruct (Z.eqb_spec i j) as [->|NE].
    + cbn [fold_left]. rewrite Ep in Hq. injection Hq as <-. rewrite (Gd j _ Hj G1). f_equal. f_equal. apply filter_ext. intros y. now rewrite RP.
    + rewrite (Gd j q Hj); [|rewrite O1 by lia; exact Hq]. f_equal. f_equal. apply filter_ext. intros y. now rewrite RP.
Qed.

(** ** Lists of pairs *)
Lemma filter_upto : forall {A} (g : A -> bool) f N, filter g (upto f N) = upto (fun r => filter g (f r)) N.
Proof. intros A g f N. unfold upto. induction (zs N) as [|x l IH]; [reflexivity|]. cbn. rewrite filter_app, IH. reflexivity. Qed.
Lemma map_upto : forall {A B} (g : A -> B) f N, map g (upto f N) = upto (fun r => map g (f r)) N.
Proof. intros A B g f N. unfold upto. rewrite concat_map, map_map. reflexivity. Qed.
Lemma filter_map_comm : forall {A B} (g : B -> bool) (f : A -> B) l, filter g (map f l) = map f (filter (fun x => g (f x)) l).
Proof. intros A B g f. induction l as [|x l IH]; [reflexivity|]. cbn. destruct (g (f x)); cbn; now rewrite IH. Qed.
Lemma in_upto : forall {A} (f : Z -> list A) N x, In x (upto f N) <-> exists r, 0 <= r < Z.max 0 N /\ In x (f r).
Proof.
  intros A f N x. unfold upto. rewrite in_concat. split.
  - intros (l & Hl & Hx). apply in_map_iff in Hl as (r & <- & Hr). unfold zs in Hr. rewrite zseq_in in Hr. exists r. split; [lia|exact Hx].
  - intros (r & Hr & Hx). exists (f r). split; [|exact Hx]. apply in_map. unfold zs. rewrite zseq_in. lia.
Qed.
Lemma nd_app : forall A (l m : list A), NoDup l -> NoDup m -> (forall x, In x l -> In x m -> False) -> NoDup (l ++ m).
Proof.
  intros A l m H. induction H as [|x l NI ND IH]; intros Hm D; [exact Hm|]. cbn. constructor.
  - rewrite in_app_iff. intros [I|I]; [now apply NI|]. apply (D x); [now left|exact I].
  - apply IH; [exact Hm|]. intros y Hy. apply D. now right.
Qed.
Lemma nodup_pairs : forall {A} (f : Z -> list A) N, (forall r, 0 <= r < N -> NoDup (f r)) -> NoDup (upto (fun r => map (pair r) (f r)) N).
Proof.
  intros A f N. destruct (Z_lt_ge_dec N 0) as [L|G]. { intros _. unfold upto, zs. replace (Z.to_nat N) with 0%nat by lia. constructor. }
  replace N with (Z.of_nat (Z.to_nat N)) by lia. induction (Z.to_nat N) as [|n IH]; intros H; [constructor|].
  rewrite Nat2Z.inj_succ, <- Z.add_1_r, upto_S by lia. apply nd_app.
  - apply IH. intros r Hr. apply H. lia.
  - apply FinFun.Injective_map_NoDup; [intros a b E; congruence|apply H; lia].
  - intros [r a] H1 H2. apply in_upto in H1 as (r1 & R1 & H1). apply in_map_iff in H1 as (a1 & E1 & _). apply in_map_iff in H2 as (a2 & E2 & _). injection E1 as <- <-. injection E2 as E2 E3. lia.
Qed.
