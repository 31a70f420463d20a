(** Proofs for the utility functions. *)
From Verif Require Import Prelude L_Prelude M_Util S_Util.
From Coq Require Import NArith Permutation.

(** * Flags *)
Lemma check_bit : forall x k, fl_check x (N.shiftl 1 k) = N.testbit x k.
Proof.
  intros x k. unfold fl_check.
  assert (E : N.land x (N.shiftl 1 k) = if N.testbit x k then N.shiftl 1 k else 0%N).
  { apply N.bits_inj. intros j. rewrite N.land_spec, N.shiftl_1_l.
    rewrite N.pow2_bits_eqb. destruct (N.eqb_spec k j) as [ -> |D].
    - destruct (N.testbit x j); [rewrite N.pow2_bits_eqb, N.eqb_refl|rewrite N.bits_0]; reflexivity.
    - rewrite andb_false_r. destruct (N.testbit x k); [rewrite N.pow2_bits_eqb|now rewrite N.bits_0].
      symmetry. now apply N.eqb_neq. }
  rewrite E. destruct (N.testbit x k); [|reflexivity].
  rewrite N.shiftl_1_l. destruct (N.eqb_spec (2 ^ k) 0) as [Z|]; [|reflexivity].
  exfalso. now apply (N.pow_nonzero 2 k).
Qed.
Lemma setv_bit : forall x k v j, (j < 32)%N ->
  N.testbit (fl_setv x (N.shiftl 1 k) v) j = if N.eqb k j then v else N.testbit x j.
Proof.
  intros x k v j Hj. rewrite N.shiftl_1_l. destruct v; unfold fl_setv, fl_set, fl_unset.
  - rewrite N.lor_spec, N.pow2_bits_eqb. destruct (N.eqb_spec k j); [now rewrite orb_true_r|now rewrite orb_false_r].
  - rewrite N.land_spec, N.lxor_spec, N.pow2_bits_eqb, N.ones_spec_low by assumption.
    destruct (N.eqb_spec k j); cbn; [now rewrite andb_false_r|now rewrite andb_true_r].
Qed.
Lemma elementary_bit : forall f, In f elementary -> exists k, (k < 32)%N /\ f = N.shiftl 1 k.
Proof.
  intros f H. unfold elementary in H. cbn [In] in H.
  repeat (destruct H as [<-|H]; [eexists; split; [|reflexivity]; reflexivity|]). destruct H.
Qed.
Lemma shift_inj : forall a b, N.shiftl 1 a = N.shiftl 1 b -> a = b.
Proof. intros a b. rewrite !N.shiftl_1_l. intros H. apply N.pow_inj_r in H; [exact H|reflexivity]. Qed.

Theorem flags_history : forall h x f, In f elementary ->
  Forall (fun o => match o with SetTo g _ => In g elementary | Reset => True end) h ->
  fl_check (fold_left run_op h x) f = expected f (fl_check x f) h.
Proof.
  induction h as [|o h IH]; intros x f Hf Hh; [reflexivity|].
  inversion Hh as [|? ? Ho Hh']; subst. cbn [fold_left expected]. rewrite IH by assumption. f_equal.
  destruct (elementary_bit f Hf) as (k & Hk & ->). destruct o as [g v|]; cbn [run_op].
  - destruct (elementary_bit g Ho) as (j & Hj & ->). rewrite !check_bit, setv_bit by assumption.
    destruct (N.eqb_spec (N.shiftl 1 j) (N.shiftl 1 k)) as [E|E].
    + apply shift_inj in E. subst. now rewrite N.eqb_refl.
    + destruct (N.eqb_spec j k) as [ -> |]; [congruence|reflexivity].
  - rewrite check_bit. unfold fl_reset. apply N.bits_0.
Qed.

Lemma check_lor : forall x a b, fl_check x (N.lor a b) = fl_check x a || fl_check x b.
Proof.
  intros. unfold fl_check. rewrite N.land_lor_distr_r.
  destruct (N.eqb_spec (N.lor (N.land x a) (N.land x b)) 0) as [C|C].
  - apply N.lor_eq_0_iff in C as [-> ->]. reflexivity.
  - destruct (N.eqb_spec (N.land x a) 0) as [A|A]; [|reflexivity].
    destruct (N.eqb_spec (N.land x b) 0) as [B|B]; [|reflexivity]. rewrite A, B in C. now destruct C.
Qed.
Theorem flags_composite : forall x,
  is_periodic x = existsb (fl_check x) periodic_flags /\
  is_mirror x = existsb (fl_check x) mirror_flags /\
  is_boundary x = is_periodic x || is_mirror x.
Proof.
  intros x. split; [|split].
  - unfold is_periodic, periodic_boundary, x_periodic, y_periodic, z_periodic, periodic_flags. cbn [existsb]. rewrite !check_lor.
    destruct (fl_check x x_periodic_lhs), (fl_check x x_periodic_rhs), (fl_check x y_periodic_lhs),
      (fl_check x y_periodic_rhs), (fl_check x z_periodic_lhs), (fl_check x z_periodic_rhs); reflexivity.
  - unfold is_mirror, mirror_boundary, x_mirror, y_mirror, z_mirror, mirror_flags. cbn [existsb]. rewrite !check_lor.
    destruct (fl_check x x_mirror_lhs), (fl_check x x_mirror_rhs), (fl_check x y_mirror_lhs),
      (fl_check x y_mirror_rhs), (fl_check x z_mirror_lhs), (fl_check x z_mirror_rhs); reflexivity.
  - unfold is_boundary, any_boundary. rewrite check_lor. reflexivity.
Qed.
Theorem flags_tables : forall (tab : list (list N)) j side,
  (tab = periodic_bound_flags \/ tab = mirror_bound_flags) -> (j < 3)%nat -> (side < 2)%nat ->
  exists f, nth side (nth j tab []) 0%N = f /\ In f elementary /\
    (forall j' side', (j' < 3)%nat -> (side' < 2)%nat -> nth side' (nth j' tab []) 0%N = f -> j' = j /\ side' = side) /\
    (In f periodic_flags <-> tab = periodic_bound_flags) /\ (In f mirror_flags <-> tab = mirror_bound_flags).
Proof.
  intros tab j side H Hj Hs. exists (nth side (nth j tab []) 0%N). split; [reflexivity|].
  assert (J : j = 0%nat \/ j = 1%nat \/ j = 2%nat) by lia. assert (S' : side = 0%nat \/ side = 1%nat) by lia.
  assert (PM : periodic_bound_flags <> mirror_bound_flags) by (vm_compute; discriminate).
  destruct H as [ -> | -> ]; destruct J as [ -> |[ -> | -> ]]; destruct S' as [ -> | -> ];
    (split; [vm_compute; tauto|]); (split; [|split]);
    try (intros j' side' Hj' Hs'; assert (J : j' = 0%nat \/ j' = 1%nat \/ j' = 2%nat) by lia;
         assert (S' : side' = 0%nat \/ side' = 1%nat) by lia;
         destruct J as [ -> |[ -> | -> ]]; destruct S' as [ -> | -> ]; vm_compute; intros; try discriminate; auto);
    split; intros X; try reflexivity; try (now (exfalso; apply PM; auto)); try (vm_compute; tauto);
    vm_compute in X; exfalso; intuition discriminate.
Qed.

Local Open Scope Z_scope.
(** * VerifyUniqueIds *)
Definition count (v : Z) (l : list Z) : Z := Z.of_nat (count_occ Z.eq_dec l v).

Lemma vui_count_spec : forall vals Nrange counter i, zlen counter = Nrange ->
  (exists v, In v vals /\ ~ (0 <= v < Nrange) /\ vui_count vals Nrange counter i = Ok None) \/
  ((forall v, In v vals -> 0 <= v < Nrange) /\
   exists c', vui_count vals Nrange counter i = Ok (Some (c', match rev vals with [] => i | x :: _ => Some x end)) /\
     zlen c' = Nrange /\ forall v c, aget counter v = Ok c -> aget c' v = Ok (c + count v vals)).
Proof.
  induction vals as [|v vals IH]; intros Nrange counter i HL.
  - right. split; [intros ? []|]. exists counter. split; [reflexivity|]. split; [exact HL|].
    intros v c Hc. rewrite Hc. f_equal. unfold count. cbn. lia.
  - cbn [vui_count]. destruct (negb ((0 <=? v) && (v <? Nrange))) eqn:B.
    + left. exists v. split; [now left|]. split; [|reflexivity]. lia.
    + assert (R : 0 <= v < Nrange) by lia. destruct (aget_in counter v) as [c Hc]; [lia|].
      rewrite Hc. cbn [bind]. destruct (aset_spec counter v (c + 1)) as (cn & E1 & E2 & E3 & E4); [lia|].
      rewrite E1. cbn [bind]. destruct (IH Nrange cn (Some v)) as [(w & W1 & W2 & W3)|(A & c' & C1 & C2 & C3)]; [lia| |].
      * left. exists w. split; [now right|]. auto.
      * right. split; [intros w [<-|Hw]; auto|]. exists c'. split.
        { rewrite C1. do 3 f_equal. cbn [rev]. destruct (rev vals); reflexivity. }
        split; [exact C2|]. intros w cw Hw. unfold count. cbn [count_occ]. destruct (Z.eq_dec v w) as [ -> |D].
        -- rewrite (C3 w (c + 1)) by exact E3. rewrite Hw in Hc. injection Hc as ->. f_equal. unfold count. lia.
        -- apply C3. rewrite E4 by auto. exact Hw.
Qed.
Lemma vui_check_spec : forall n counter i c, aget counter i = Ok c ->
  vui_check n counter (Some i) = if (n =? 0)%nat || (c =? 0) || (c =? 1) then Ok true else Raise.
Proof.
  induction n; intros counter i c H; [reflexivity|]. cbn [vui_check]. rewrite H. cbn [bind].
  cbn [Nat.eqb orb]. destruct ((c =? 0) || (c =? 1)) eqn:E; [|reflexivity].
  rewrite (IHn counter i c H). rewrite <- orb_assoc, E, orb_true_r. reflexivity.
Qed.
Lemma aget_repeat : forall (x : Z) n v, 0 <= v < Z.of_nat n -> aget (repeat x n) v = Ok x.
Proof.
  intros x n v H. apply aget_nth_error; [lia|].
  rewrite (nth_error_nth' _ x) by (rewrite repeat_length; lia). now rewrite nth_repeat.
Qed.
(** What VerifyUniqueIds really decides. *)
Theorem VerifyUniqueIds_exact : forall Nrange vals, 0 <= Nrange ->
  VerifyUniqueIds Nrange vals =
    if forallb (fun v => (0 <=? v) && (v <? Nrange)) vals
    then match rev vals with [] => Ok true | x :: r => if in_dec Z.eq_dec x r then Raise else Ok true end
    else Ok false.
Proof.
  intros Nrange vals HN. unfold VerifyUniqueIds.
  assert (ZL : zlen (repeat 0 (Z.to_nat Nrange)) = Nrange) by (unfold zlen; rewrite repeat_length; lia).
  destruct (vui_count_spec vals Nrange (repeat 0 (Z.to_nat Nrange)) None ZL) as [(v & V1 & V2 & V3)|(A & c' & C1 & C2 & C3)].
  - rewrite V3. cbn [bind]. replace (forallb _ vals) with false; [reflexivity|]. symmetry. apply not_true_is_false. intros F.
    rewrite forallb_forall in F. specialize (F v V1). cbn beta in F. lia.
  - rewrite C1. cbn [bind]. replace (forallb _ vals) with true by (symmetry; apply forallb_forall; intros v Hv; specialize (A v Hv); lia).
    destruct (rev vals) as [|x r] eqn:E.
    + assert (vals = []) as -> by (rewrite <- (rev_involutive vals), E; reflexivity). reflexivity.
    + assert (V : vals = rev r ++ [x]) by (rewrite <- (rev_involutive vals), E; reflexivity).
      assert (Hx : 0 <= x < Nrange) by (apply A; rewrite V; apply in_or_app; right; now left).
      rewrite (vui_check_spec _ _ _ (0 + count x vals)) by (apply C3, aget_repeat; lia).
      assert (CN : count x vals = 1 + count x r).
      { unfold count. rewrite V, count_occ_app. cbn [count_occ]. destruct (Z.eq_dec x x); [|congruence].
        rewrite (proj1 (Permutation_count_occ Z.eq_dec (rev r) r) (Permutation_sym (Permutation_rev r))). lia. }
      assert (LN : (length vals =? 0)%nat = false) by (rewrite V, app_length; cbn; apply Nat.eqb_neq; lia).
      rewrite LN, CN. cbn [orb]. unfold count. destruct (in_dec Z.eq_dec x r) as [I|NI].
      * apply (count_occ_In Z.eq_dec) in I. destruct (_ =? 0) eqn:?; [lia|]. destruct (_ =? 1) eqn:?; [lia|]. reflexivity.
      * apply (count_occ_not_In Z.eq_dec) in NI. rewrite NI. reflexivity.
Qed.
Theorem VerifyUniqueIds_positive : forall Nrange vals, 0 <= Nrange ->
  (NoDup vals -> (forall v, In v vals -> 0 <= v < Nrange) -> VerifyUniqueIds Nrange vals = Ok true) /\
  (VerifyUniqueIds Nrange vals = Ok true -> forall v, In v vals -> 0 <= v < Nrange) /\
  (VerifyUniqueIds Nrange vals <> UB).
Proof.
  intros Nrange vals HN. rewrite (VerifyUniqueIds_exact _ _ HN). split; [|split].
  - intros ND R. replace (forallb _ vals) with true by (symmetry; apply forallb_forall; intros v Hv; specialize (R v Hv); lia).
    destruct (rev vals) as [|x r] eqn:E; [reflexivity|]. assert (ND' := NoDup_rev ND). rewrite E in ND'. inversion ND'; subst.
    destruct (in_dec Z.eq_dec x r); [contradiction|reflexivity].
  - destruct (forallb _ vals) eqn:F; [|discriminate]. intros _ v Hv. rewrite forallb_forall in F. specialize (F v Hv). cbn beta in F. lia.
  - destruct (forallb _ vals); [|discriminate]. destruct (rev vals) as [|x r]; [discriminate|]. destruct (in_dec Z.eq_dec x r); discriminate.
Qed.

(** * Displacements *)
Lemma zsum_app : forall a b, zsum (a ++ b) = zsum a + zsum b.
Proof. induction a; intros; cbn; [reflexivity|]. rewrite IHa. lia. Qed.
Lemma firstn_S_nth : forall {A} (l : list A) n x, nth_error l n = Some x -> firstn (S n) l = firstn n l ++ [x].
Proof. induction l; intros n x H; destruct n; cbn in *; try discriminate; [now injection H as ->|]. now rewrite <- (IHl n x H). Qed.
Lemma displs_loop_spec : forall n i displs counts, 1 <= i -> zlen displs = i + Z.of_nat n -> zlen displs <= zlen counts + 1 ->
  (forall j, 0 <= j < i -> aget displs j = Ok (zsum (firstn (Z.to_nat j) counts))) ->
  exists d, displs_loop n i displs counts = Ok d /\ zlen d = zlen displs /\
    forall j, 0 <= j < zlen d -> aget d j = Ok (zsum (firstn (Z.to_nat j) counts)).
Proof.
  induction n; intros i displs counts Hi HL HC Inv.
  - exists displs. split; [reflexivity|]. split; [reflexivity|]. intros j Hj. apply Inv. lia.
  - cbn [displs_loop]. destruct (aget_in counts (i - 1)) as [c Hc]; [lia|]. rewrite Hc, (Inv (i - 1)) by lia. cbn [bind].
    destruct (aset_spec displs i (c + zsum (firstn (Z.to_nat (i - 1)) counts))) as (d & E1 & E2 & E3 & E4); [lia|].
    rewrite E1. cbn [bind]. destruct (IHn (i + 1) d counts) as (d' & F1 & F2 & F3); [lia|lia|lia| |].
    + intros j Hj. destruct (Z.eq_dec j i) as [ -> |Dj].
      * rewrite E3. f_equal. apply aget_Ok_inv in Hc as [_ Hc].
        replace (Z.to_nat i) with (S (Z.to_nat (i - 1))) by lia. rewrite (firstn_S_nth _ _ _ Hc), zsum_app. cbn. lia.
      * rewrite E4 by auto. apply Inv. lia.
    + exists d'. split; [exact F1|]. split; [lia|exact F3].
Qed.
Theorem compute_displs_spec : forall displs counts, zlen displs <= zlen counts + 1 ->
  exists d, compute_displs displs counts = Ok d /\ zlen d = zlen displs /\
    forall j, 0 <= j < zlen d -> aget d j = Ok (zsum (firstn (Z.to_nat j) counts)).
Proof.
  intros displs counts HC. unfold compute_displs. destruct (Z.eqb_spec (zlen displs) 0) as [Z0|N0].
  - exists displs. split; [reflexivity|]. split; [reflexivity|]. intros; lia.
  - assert (0 <= zlen displs) by (unfold zlen; lia).
    destruct (aset_spec displs 0 0) as (d & E1 & E2 & E3 & E4); [lia|]. rewrite E1. cbn [bind].
    destruct (Z.eqb_spec (zlen d) 1) as [Z1|N1].
    + exists d. split; [reflexivity|]. split; [exact E2|]. intros j Hj. replace j with 0 by lia. exact E3.
    + destruct (displs_loop_spec (Z.to_nat (zlen d - 1)) 1 d counts) as (d' & F1 & F2 & F3); [lia|lia|lia| |].
      * intros j Hj. replace j with 0 by lia. exact E3.
      * exists d'. split; [exact F1|]. split; [lia|exact F3].
Qed.
(** Adjacent, disjoint blocks: block j is [d_j, d_j + counts_j) and block j+1 starts at its end. *)
Theorem compute_displs_blocks : forall displs counts d, zlen displs <= zlen counts + 1 ->
  compute_displs displs counts = Ok d ->
  (forall j c, 0 <= j -> j + 1 < zlen d -> aget counts j = Ok c ->
     exists a, aget d j = Ok a /\ aget d (j + 1) = Ok (a + c)) /\
  ((forall c, In c counts -> 0 <= c) ->
   forall i j a b ci cj, i < j -> aget d i = Ok a -> aget d j = Ok b -> aget counts i = Ok ci -> aget counts j = Ok cj ->
     forall x y, 0 <= x < ci -> 0 <= y < cj -> a + x <> b + y).
Proof.
  intros displs counts d HC E. destruct (compute_displs_spec displs counts HC) as (d' & E' & L & S).
  rewrite E in E'. injection E' as <-. split.
  - intros j c Hj Hj1 Hc. exists (zsum (firstn (Z.to_nat j) counts)). split; [apply S; lia|].
    rewrite S by lia. f_equal. apply aget_Ok_inv in Hc as [_ Hc].
    replace (Z.to_nat (j + 1)) with (Datatypes.S (Z.to_nat j)) by lia.
    rewrite (firstn_S_nth _ _ _ Hc), zsum_app. cbn. lia.
  - intros Pos i j a b ci cj Hij Ha Hb Hci Hcj x y Hx Hy.
    assert (Ri := proj1 (aget_Ok_inv _ _ _ Ha)). assert (Rj := proj1 (aget_Ok_inv _ _ _ Hb)).
    rewrite S in Ha by lia. rewrite S in Hb by lia. injection Ha as <-. injection Hb as <-.
    apply aget_Ok_inv in Hci as [_ Hci].
    assert (M : zsum (firstn (Z.to_nat (i + 1)) counts) <= zsum (firstn (Z.to_nat j) counts)).
    { assert (MO : forall k l n, (forall c, In c l -> 0 <= c) -> zsum (firstn n l) <= zsum (firstn (n + k) l)).
      { clear. intros k l. induction l as [|c l IH]; intros n P; [now rewrite !firstn_nil|].
        destruct n; cbn [firstn plus zsum].
        - destruct k; cbn; [lia|]. assert (0 <= zsum (firstn k l)).
          { clear IH. assert (P' : forall c, In c l -> 0 <= c) by (intros; apply P; now right). clear P. revert k.
            induction l; intros [|k]; cbn; try lia. specialize (IHl ltac:(intros; apply P'; now right) k). specialize (P' a (or_introl eq_refl)). lia. }
          specialize (P c (or_introl eq_refl)). lia.
        - specialize (IH n ltac:(intros; apply P; now right)). lia. }
      replace (Z.to_nat j) with (Z.to_nat (i + 1) + Z.to_nat (j - i - 1))%nat by lia. now apply MO. }
    replace (Z.to_nat (i + 1)) with (Datatypes.S (Z.to_nat i)) in M by lia.
    rewrite (firstn_S_nth _ _ _ Hci), zsum_app in M. cbn in M. lia.
Qed.

(** * Byte buffers *)
Lemma pack_all_concat : forall {byte} (es : list (list byte)) buf, pack_all es buf = buf ++ concat es.
Proof.
  intros byte es. induction es as [|e es IH]; intros buf; cbn; [now rewrite app_nil_r|].
  unfold pack_all in IH. rewrite IH. unfold append_bytes. now rewrite app_assoc.
Qed.
Lemma unpack_all_spec : forall {byte} (es : list (list byte)) pre post,
  unpack_all (map (@length byte) es) (pre ++ concat es ++ post) (length pre) = Ok (es, (length pre + length (concat es))%nat).
Proof.
  intros byte es. induction es as [|e es IH]; intros pre post; cbn [map unpack_all concat]; [cbn; now rewrite Nat.add_0_r|].
  unfold unpack_bytes. rewrite !app_length.
  destruct (Nat.leb_spec (length pre + length e) (length pre + (length e + length (concat es) + length post))); [|lia].
  cbn [bind]. rewrite skipn_app, skipn_all, Nat.sub_diag. cbn [skipn app].
  rewrite <- app_assoc, firstn_app, firstn_all, Nat.sub_diag. cbn [firstn]. rewrite app_nil_r.
  specialize (IH (pre ++ e) post). rewrite app_length, <- app_assoc in IH. rewrite IH. cbn [bind]. do 2 f_equal. lia.
Qed.
Theorem pack_unpack : forall {byte} (es : list (list byte)) buf post,
  unpack_all (map (@length byte) es) (pack_all es buf ++ post) (length buf) = Ok (es, length (pack_all es buf)).
Proof.
  intros. rewrite pack_all_concat, <- app_assoc, unpack_all_spec, app_length. reflexivity.
Qed.
Theorem unpack_overrun : forall {byte} n (buf : list byte) it,
  (length buf < it + n)%nat <-> unpack_bytes n buf it = UB.
Proof. intros. unfold unpack_bytes. destruct (Nat.leb_spec (it + n) (length buf)); split; intros; try lia; try discriminate; auto. Qed.

(** * isPowerOfTwo *)
Lemma pow2_loop_spec : forall fuel x, x < Z.of_nat fuel ->
  (exists y, pow2_loop fuel x = Ok y /\ (y = 1 <-> exists k, 0 <= k /\ x = 2 ^ k)) \/ fuel = O.
Proof.
  induction fuel; intros x H; [now right|]. left. cbn [pow2_loop].
  destruct ((Z.rem x 2 =? 0) && (1 <? x)) eqn:B.
  - assert (X : 1 < x) by lia. assert (R : x = 2 * Z.quot x 2) by (pose proof (Z.quot_rem x 2 ltac:(lia)); lia).
    destruct (IHfuel (Z.quot x 2)) as [(y & E & Y)| -> ]; [lia| |cbn in H; lia].
    exists y. split; [exact E|]. rewrite Y. split.
    + intros (k & Hk & Ek). exists (k + 1). split; [lia|]. rewrite Z.pow_add_r by lia. lia.
    + intros (k & Hk & Ek). destruct (Z.eq_dec k 0) as [ -> |]; [cbn in Ek; lia|]. exists (k - 1). split; [lia|].
      replace k with ((k - 1) + 1) in Ek by lia. rewrite Z.pow_add_r in Ek by lia. lia.
  - exists x. split; [reflexivity|]. split; [intros ->; exists 0; split; [lia|reflexivity]|].
    intros (k & Hk & Ek). destruct (Z.eq_dec k 0) as [ -> |]; [exact Ek|].
    assert (E2 : x = 2 * 2 ^ (k - 1)) by (rewrite Ek, <- Z.pow_succ_r by lia; f_equal; lia).
    assert (P := Z.pow_pos_nonneg 2 (k - 1) ltac:(lia) ltac:(lia)).
    assert (Z.rem x 2 = 0) by (rewrite E2, Z.mul_comm; apply Z.rem_mul; lia). lia.
Qed.
Theorem isPowerOfTwo_spec : forall x, exists b, isPowerOfTwo x = Ok b /\ (b = true <-> exists k, 0 <= k /\ x = 2 ^ k).
Proof.
  intros x. unfold isPowerOfTwo. destruct (pow2_loop_spec (S (Z.to_nat x)) x) as [(y & E & Y)|]; [lia| |discriminate].
  rewrite E. cbn [bind]. eexists. split; [reflexivity|]. rewrite Z.eqb_eq. exact Y.
Qed.
