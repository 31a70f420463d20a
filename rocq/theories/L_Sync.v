(** Lemmas on the update of the sinks on all processes. *)
From Verif Require Import Prelude L_Prelude Vec S_Tree L_Tree M_Box S_Box L_Box M_Util L_Util M_Balance S_Balance M_Sync S_Sync.
From Coq Require Import Reals Lra.
Local Open Scope Z_scope.

(** ** Processes *)
Lemma each_from_ok : forall {A} (g : Z -> A) f n r, (forall q, r <= q < r + Z.of_nat n -> f q = Ok (g q)) -> each_from n r f = Ok (map g (zseq r n)).
Proof.
  intros A g f. induction n as [|n IH]; intros r H; [reflexivity|]. cbn [each_from zseq map]. rewrite (H r) by lia. cbn [bind]. rewrite IH; [reflexivity|]. intros q Hq. apply H. lia.
Qed.
Lemma each_ok : forall {A} (g : Z -> A) f N, (forall r, 0 <= r < N -> f r = Ok (g r)) -> each N f = Ok (map g (zseq 0 (Z.to_nat N))).
Proof. intros A g f N H. apply each_from_ok. intros q Hq. apply H. lia. Qed.
Lemma each_from_ub : forall {A} f n r q, (forall p, r <= p < q -> exists x : A, f p = Ok x) -> r <= q < r + Z.of_nat n -> f q = UB -> each_from n r f = UB.
Proof.
  intros A f. induction n as [|n IH]; intros r q H Hq E; [lia|]. cbn [each_from]. destruct (Z.eq_dec r q) as [->|N]; [now rewrite E|].
  destruct (H r) as (x & Ex); [lia|]. rewrite Ex. cbn [bind]. rewrite (IH (r + 1) q); [reflexivity| |lia|exact E]. intros p Hp. apply H. lia.
Qed.
Lemma zseq_nth : forall n a i d, (i < n)%nat -> nth i (zseq a n) d = a + Z.of_nat i.
Proof. induction n as [|n IH]; intros a i d H; [lia|]. destruct i; cbn [zseq nth]; [lia|]. rewrite IH by lia. lia. Qed.
Lemma aget_map_zseq : forall {A} (g : Z -> A) N r, 0 <= r < N -> aget (map g (zseq 0 (Z.to_nat N))) r = Ok (g r).
Proof.
  intros A g N r H. apply aget_nth_error; [lia|]. erewrite map_nth_error; [reflexivity|]. 
  rewrite (nth_error_nth' _ 0) by (rewrite zseq_length; lia). f_equal. rewrite zseq_nth by lia. lia.
Qed.

(** ** Allreduce *)
Lemma max2_ok : forall a b, length a = length b -> exists w, max2 a b = Ok w /\ length w = length a /\ forall s, nth s w 0 = Z.max (nth s a 0) (nth s b 0).
Proof.
  induction a as [|x a IH]; intros [|y b] H; try discriminate; cbn [max2].
  - exists []. split; [reflexivity|]. split; [reflexivity|]. now destruct s.
  - destruct (IH b) as (w & E & L & N); [now injection H|]. rewrite E. cbn [bind]. exists (Z.max x y :: w). split; [reflexivity|]. split; [cbn; now rewrite L|].
    intros [|s]; cbn [nth]; [reflexivity|apply N].
Qed.
Lemma reduce_ok : forall vs n, vs <> [] -> (forall v, In v vs -> length v = n) ->
  exists w, Allreduce_max vs = Ok w /\ length w = n /\
    forall s, (exists v, In v vs /\ nth s w 0 = nth s v 0) /\ (forall v, In v vs -> nth s v 0 <= nth s w 0).
Proof.
  induction vs as [|v vs IH]; intros n Hne HL; [easy|]. destruct vs as [|v' vs].
  - exists v. split; [reflexivity|]. split; [apply HL; now left|]. intros s. split; [exists v; split; [now left|reflexivity]|]. intros u [<-|[]]. lia.
  - destruct (IH n) as (w & E & L & W); [easy|intros u Hu; apply HL; now right|].
    destruct (max2_ok v w) as (z & Ez & Lz & Nz); [rewrite L; apply HL; now left|].
    exists z. split; [change (Allreduce_max (v :: v' :: vs)) with (let! w := Allreduce_max (v' :: vs) in max2 v w); rewrite E; exact Ez|].
    split; [rewrite Lz; apply HL; now left|]. intros s. destruct (W s) as ((u & Hu & Eu) & M). rewrite Nz. split.
    + destruct (Z_le_gt_dec (nth s v 0) (nth s w 0)).
      * exists u. split; [now right|]. rewrite <- Eu. lia.
      * exists v. split; [now left|]. lia.
    + intros q [<-|Hq]; [lia|]. specialize (M q Hq). lia.
Qed.

(** ** Buffers *)
Lemma aget_app1 : forall {A} (a b : list A) i, i < zlen a -> aget (a ++ b) i = aget a i.
Proof.
  intros A a b i H. unfold aget, zlen in *. destruct (Z.ltb_spec i 0); [reflexivity|]. rewrite nth_error_app1 by lia. reflexivity.
Qed.
Lemma aget_app2 : forall {A} (a b : list A) i, 0 <= i -> aget (a ++ b) (zlen a + i) = aget b i.
Proof.
  intros A a b i H. unfold aget, zlen. destruct (Z.ltb_spec (Z.of_nat (length a) + i) 0); [lia|]. destruct (Z.ltb_spec i 0); [lia|].
  rewrite nth_error_app2 by lia. now replace (Z.to_nat (Z.of_nat (length a) + i) - length a)%nat with (Z.to_nat i) by lia.
Qed.
Lemma zlen_app : forall {A} (a b : list A), zlen (a ++ b) = zlen a + zlen b.
Proof. intros. unfold zlen. rewrite app_length. lia. Qed.
Lemma write_all_ok : forall xs pre rest, (length xs <= length rest)%nat ->
  write_all (pre ++ rest) (zlen pre) xs = Ok (pre ++ xs ++ skipn (length xs) rest, zlen pre + zlen xs).
Proof.
  induction xs as [|x xs IH]; intros pre rest H; cbn [write_all].
  - cbn [app length skipn]. f_equal. f_equal. unfold zlen; cbn [length]. lia.
  - destruct rest as [|y rest]; [cbn in H; lia|]. rewrite (aset_app_mid pre rest y x) by reflexivity. cbn [bind].
    replace (pre ++ x :: rest) with ((pre ++ [x]) ++ rest) by (rewrite <- app_assoc; reflexivity).
    replace (zlen pre + 1) with (zlen (pre ++ [x])) by (rewrite zlen_app; reflexivity).
    rewrite IH by (cbn in H; lia). f_equal. f_equal; [rewrite <- app_assoc; reflexivity|]. rewrite zlen_app. unfold zlen. cbn [length]. lia.
Qed.
Lemma write_all_ub : forall xs pre rest, (length rest < length xs)%nat -> write_all (pre ++ rest) (zlen pre) xs = UB.
Proof.
  induction xs as [|x xs IH]; intros pre rest H; [cbn in H; lia|]. cbn [write_all]. destruct rest as [|y rest].
  - rewrite app_nil_r. unfold aset. fold (zlen pre). destruct (Z.ltb_spec (zlen pre) 0); [reflexivity|]. destruct (Z.leb_spec (zlen pre) (zlen pre)); [|lia]. reflexivity.
  - rewrite (aset_app_mid pre rest y x) by reflexivity. cbn [bind].
    replace (pre ++ x :: rest) with ((pre ++ [x]) ++ rest) by (rewrite <- app_assoc; reflexivity).
    replace (zlen pre + 1) with (zlen (pre ++ [x])) by (rewrite zlen_app; reflexivity). apply IH. cbn in H. lia.
Qed.

Section Sync.
Variable ndim : nat.
Notation nv := (number_variables ndim).
Lemma nv_pos : 0 < nv. Proof. unfold number_variables. lia. Qed.
Lemma fields_length : forall x, sized ndim x -> zlen (fields x) = nv.
Proof.
  intros x (A & B & C & D & E & F & G). unfold zlen, fields, number_variables. rewrite !app_length, A, B, C, D, E, F, G. cbn [length]. lia.
Qed.
Lemma read_vec_ok : forall l b off, (forall t, 0 <= t < zlen l -> aget b (off + t) = aget l t) -> read_vec (length l) b off = Ok l.
Proof.
  induction l as [|x l IH]; intros b off H; [reflexivity|]. cbn [length read_vec]. specialize (H 0) as H0. rewrite Z.add_0_r in H0. rewrite H0 by (unfold zlen; cbn [length]; lia).
  change (aget (x :: l) 0) with (Ok x). cbn [bind]. rewrite IH; [reflexivity|]. intros t Ht. specialize (H (1 + t)). replace (off + 1 + t) with (off + (1 + t)) by lia. rewrite H.
  - change (x :: l) with ([x] ++ l). change 1 with (zlen [x]). apply aget_app2. lia.
  - unfold zlen in *. cbn [length]. lia.
Qed.
Lemma unpack_ok : forall b base x y, sized ndim y -> (forall t, 0 <= t < nv -> aget b (base + t) = aget (fields y) t) -> unpack ndim b base x = Ok (adopt x y).
Proof.
  intros b base x y (A & B & C & D & E & F & G) H. unfold unpack.
  assert (NV : nv = Z.of_nat ndim * 6 + 15) by reflexivity. remember (nv) as n eqn:En. clear En.
  assert (P : forall pre l post off, fields y = pre ++ l ++ post -> off = base + zlen pre -> read_vec (length l) b off = Ok l).
  { intros pre l post off Ef ->. apply read_vec_ok. intros t Ht. rewrite <- Z.add_assoc, H.
    - rewrite Ef, aget_app2 by lia. apply aget_app1. lia.
    - assert (zlen (fields y) = n) by (rewrite NV; apply fields_length; repeat split; assumption). rewrite Ef, !zlen_app in *. unfold zlen in *. lia. }
  assert (Q : forall pre a post off, fields y = pre ++ [a] ++ post -> off = base + zlen pre -> aget b off = Ok a).
  { intros pre a post off Ef ->. rewrite H.
    - rewrite Ef. replace (zlen pre) with (zlen pre + 0) by lia. rewrite aget_app2 by lia. reflexivity.
    - assert (zlen (fields y) = n) by (rewrite NV; apply fields_length; repeat split; assumption). rewrite Ef, !zlen_app in *. unfold zlen in *. cbn [length] in *. lia. }
  set (h := [menc y; trad y; tvisc y; ketot y; rotketot y; gpetot y; taccrete y; trot y; utot y; dmdt y]).
  assert (FE : fields y = h ++ angmom y ++ st_r y ++ st_v y ++ st_a y ++ [st_m y] ++ st_r0 y ++ st_v0 y ++ st_a0 y ++ [dt_internal y]) by reflexivity.
  assert (HD : forall k z, z = base + Z.of_nat k -> (k < 10)%nat -> aget b z = Ok (nth k h 0%R)).
  { intros k z -> Hk. apply (Q (firstn k h) (nth k h 0%R) (skipn (S k) h ++ angmom y ++ st_r y ++ st_v y ++ st_a y ++ [st_m y] ++ st_r0 y ++ st_v0 y ++ st_a0 y ++ [dt_internal y])).
    - rewrite FE. do 10 (destruct k as [|k]; [reflexivity|]). lia.
    - unfold zlen. rewrite firstn_length. cbn [length h]. lia. }
  rewrite (HD 0%nat base), (HD 1%nat (base + 1)), (HD 2%nat (base + 2)), (HD 3%nat (base + 3)), (HD 4%nat (base + 4)), (HD 5%nat (base + 5)), (HD 6%nat (base + 6)), (HD 7%nat (base + 7)), (HD 8%nat (base + 8)), (HD 9%nat (base + 9)) by lia. cbn [bind].
  assert (L10 : zlen h = 10) by reflexivity.
  rewrite <- A at 1. rewrite (P h (angmom y) _ (base + 10) FE) by lia. cbn [bind].
  assert (FE2 := FE). rewrite app_assoc in FE2.
  rewrite <- B at 1. rewrite (P _ (st_r y) _ (base + 13) FE2) by (rewrite zlen_app; unfold zlen; rewrite A; cbn [length h]; lia). cbn [bind].
  assert (FE3 := FE2). rewrite app_assoc in FE3.
  rewrite <- C at 1. rewrite (P _ (st_v y) _ (base + 13 + Z.of_nat ndim) FE3) by (rewrite !zlen_app; unfold zlen; rewrite A, B; cbn [length h]; lia). cbn [bind].
  assert (FE4 := FE3). rewrite app_assoc in FE4.
  rewrite <- D at 1. rewrite (P _ (st_a y) _ (base + 13 + 2 * Z.of_nat ndim) FE4) by (rewrite !zlen_app; unfold zlen; rewrite A, B, C; cbn [length h]; lia). cbn [bind].
  assert (FE5 := FE4). rewrite app_assoc in FE5.
  rewrite (Q _ (st_m y) _ (base + 13 + 3 * Z.of_nat ndim) FE5) by (rewrite !zlen_app; unfold zlen; rewrite A, B, C, D; cbn [length h]; lia). cbn [bind].
  assert (FE6 := FE5). rewrite app_assoc in FE6.
  rewrite <- E at 1. rewrite (P _ (st_r0 y) _ (base + 14 + 3 * Z.of_nat ndim) FE6) by (rewrite !zlen_app; unfold zlen; rewrite A, B, C, D; cbn [length h]; lia). cbn [bind].
  assert (FE7 := FE6). rewrite app_assoc in FE7.
  rewrite <- F at 1. rewrite (P _ (st_v0 y) _ (base + 14 + 4 * Z.of_nat ndim) FE7) by (rewrite !zlen_app; unfold zlen; rewrite A, B, C, D, E; cbn [length h]; lia). cbn [bind].
  assert (FE8 := FE7). rewrite app_assoc in FE8.
  rewrite <- G at 1. rewrite (P _ (st_a0 y) _ (base + 14 + 5 * Z.of_nat ndim) FE8) by (rewrite !zlen_app; unfold zlen; rewrite A, B, C, D, E, F; cbn [length h]; lia). cbn [bind].
  assert (FE9 := FE8). rewrite app_assoc in FE9. rewrite <- (app_nil_r [dt_internal y]) in FE9.
  rewrite (Q _ (dt_internal y) _ (base + 14 + 6 * Z.of_nat ndim) FE9) by (rewrite !zlen_app; unfold zlen; rewrite A, B, C, D, E, F, G; cbn [length h]; lia). reflexivity.
Qed.

(** ** Packing *)
(** The elements of [l] whose owner is [q]. *)
Fixpoint sel {A} (q : Z) (own : list Z) (l : list A) : list A :=
  match own, l with o :: own, x :: l => if o =? q then x :: sel q own l else sel q own l | _, _ => [] end.
Lemma sel_in : forall {A} q own (l : list A) x, In x (sel q own l) -> In x l.
Proof.
  intros A q. induction own as [|o own IH]; intros [|y l] x; cbn [sel]; try easy. destruct (o =? q); [intros [->|H]; [now left|right; eauto]|intros H; right; eauto].
Qed.
Lemma sel_length : forall {A B} q own (l : list A) (l' : list B), length l = length l' -> length (sel q own l) = length (sel q own l').
Proof.
  intros A B q. induction own as [|o own IH]; intros [|x l] [|y l'] H; cbn [sel]; try discriminate; auto. injection H as H. destruct (o =? q); cbn [length]; rewrite (IH l l' H); reflexivity.
Qed.
Definition data (l : list sinkd) : list R := concat (map fields l).
Lemma data_length : forall l, (forall x, In x l -> sized ndim x) -> zlen (data l) = zlen l * nv.
Proof.
  unfold data. induction l as [|x l IH]; intros H; [reflexivity|]. cbn [map concat]. rewrite zlen_app, IH by (intros y Hy; apply H; now right). rewrite fields_length by (apply H; now left).
  unfold zlen. cbn [length]. lia.
Qed.
Lemma fill_ok : forall q own l pre rest, length own = length l -> (forall x, In x l -> sized ndim x) -> zlen rest = zlen (sel q own l) * nv ->
  exists off, fill_buffer q own l (pre ++ rest) (zlen pre) = Ok (pre ++ data (sel q own l), off).
Proof.
  intros q. induction own as [|o own IH]; intros [|x l] pre rest HL HS HR; try discriminate; cbn [fill_buffer sel] in *.
  - destruct rest; [|unfold zlen in HR; cbn [length] in HR; lia]. exists (zlen pre). reflexivity.
  - injection HL as HL. destruct (o =? q).
    + assert (LF : zlen (fields x) = nv) by (apply fields_length, HS; now left).
      assert (NN : 0 <= zlen (sel q own l) * nv) by (pose proof nv_pos; unfold zlen; nia).
      assert (LX : (length (fields x) <= length rest)%nat) by (unfold zlen in *; cbn [length] in HR; lia).
      rewrite write_all_ok by exact LX. cbn [bind].
      rewrite app_assoc. replace (zlen pre + zlen (fields x)) with (zlen (pre ++ fields x)) by apply zlen_app.
      destruct (IH l (pre ++ fields x) (skipn (length (fields x)) rest)) as (off & E); [exact HL|intros y Hy; apply HS; now right| |].
      { unfold zlen in *. rewrite skipn_length. cbn [length] in HR. lia. }
      exists off. rewrite E. unfold data. cbn [map concat]. now rewrite <- app_assoc.
    + apply IH; auto. intros y Hy. apply HS. now right.
Qed.
Lemma fill_ub : forall q own l pre rest, length own = length l -> (forall x, In x l -> sized ndim x) -> zlen rest < zlen (sel q own l) * nv ->
  fill_buffer q own l (pre ++ rest) (zlen pre) = UB.
Proof.
  intros q. induction own as [|o own IH]; intros [|x l] pre rest HL HS HR; try discriminate; cbn [fill_buffer sel] in *.
  - unfold zlen in HR. cbn [length] in HR. lia.
  - injection HL as HL. destruct (o =? q).
    + assert (LF : zlen (fields x) = nv) by (apply fields_length, HS; now left).
      destruct (le_lt_dec (length (fields x)) (length rest)) as [LX|LX].
      * rewrite write_all_ok by exact LX. cbn [bind].
        rewrite app_assoc. replace (zlen pre + zlen (fields x)) with (zlen (pre ++ fields x)) by apply zlen_app.
        apply IH; [exact HL|intros y Hy; apply HS; now right|]. unfold zlen in *. rewrite skipn_length. cbn [length] in HR. lia.
      * rewrite write_all_ub by exact LX. reflexivity.
    + apply IH; auto. intros y Hy. apply HS. now right.
Qed.

(** ** Allgatherv *)
Lemma block_all : forall {A} (l : list A), block l 0 (zlen l) = Ok l.
Proof.
  intros A l. unfold block. replace ((0 <=? 0) && (0 <=? zlen l) && (0 + zlen l <=? zlen l)) with true; [|symmetry; unfold zlen; rewrite !andb_true_iff, !Z.leb_le; lia].
  cbn [Z.to_nat skipn]. unfold zlen. now rewrite Nat2Z.id, firstn_all.
Qed.
Lemma blit_ok : forall {A} (a b c d : list A), length c = length b -> blit (a ++ b ++ d) (zlen a) c = Ok (a ++ c ++ d).
Proof.
  intros A a b c d H. unfold blit. replace ((0 <=? zlen a) && (zlen a + zlen c <=? zlen (a ++ b ++ d))) with true.
  2:{ symmetry. rewrite andb_true_iff, !Z.leb_le, !zlen_app. unfold zlen. lia. }
  f_equal. f_equal.
  - unfold zlen. rewrite Nat2Z.id, firstn_app, Nat.sub_diag, firstn_all, firstn_O. apply app_nil_r.
  - f_equal. replace (Z.to_nat (zlen a + zlen c)) with (length (a ++ b)) by (rewrite app_length; unfold zlen; lia). rewrite app_assoc, skipn_app, Nat.sub_diag, skipn_all. reflexivity.
Qed.
Lemma gatherv_ok : forall {A} (post : list (list A)) pre scounts displs rest,
  (forall q, 0 <= q < zlen (pre ++ post) -> exists b, aget (pre ++ post) q = Ok b /\ aget scounts q = Ok (zlen b)) ->
  (forall q, 0 <= q < zlen (pre ++ post) -> aget displs q = Ok (zlen (concat (firstn (Z.to_nat q) (pre ++ post))))) ->
  zlen rest = zlen (concat post) ->
  Allgatherv (length post) (zlen pre) (pre ++ post) scounts scounts displs (concat pre ++ rest) = Ok (concat (pre ++ post)).
Proof.
  intros A. induction post as [|b post IH]; intros pre scounts displs rest HC HD HR; cbn [Allgatherv length].
  - rewrite app_nil_r. destruct rest; [now rewrite app_nil_r|]. unfold zlen in HR. cbn in HR. lia.
  - assert (LP : zlen pre < zlen (pre ++ b :: post)) by (unfold zlen; rewrite app_length; cbn [length]; lia). assert (0 <= zlen pre) by (unfold zlen; lia).
    destruct (HC (zlen pre)) as (b' & Eb & Ec); [lia|]. rewrite (aget_app_mid pre post b) in Eb by reflexivity. injection Eb as <-. rewrite Ec. cbn [bind]. rewrite Z.eqb_refl. cbn [negb].
    rewrite (aget_app_mid pre post b) by reflexivity. cbn [bind]. rewrite block_all. cbn [bind]. rewrite HD by lia. cbn [bind].
    replace (firstn (Z.to_nat (zlen pre)) (pre ++ b :: post)) with pre.
    2:{ unfold zlen. rewrite Nat2Z.id, firstn_app, Nat.sub_diag, firstn_all, firstn_O. symmetry. apply app_nil_r. }
    assert (ER : exists r1 r2, rest = r1 ++ r2 /\ length r1 = length b /\ zlen r2 = zlen (concat post)).
    { exists (firstn (length b) rest), (skipn (length b) rest). cbn [concat] in HR. rewrite zlen_app in HR. unfold zlen in *. split; [symmetry; apply firstn_skipn|]. rewrite firstn_length, skipn_length. lia. }
    destruct ER as (r1 & r2 & -> & L1 & L2). rewrite blit_ok by lia. cbn [bind].
    replace (pre ++ b :: post) with ((pre ++ [b]) ++ post) in * by (rewrite <- app_assoc; reflexivity).
    replace (zlen pre + 1) with (zlen (pre ++ [b])) by (rewrite zlen_app; reflexivity).
    replace (concat pre ++ b ++ r2) with (concat (pre ++ [b]) ++ r2) by (rewrite concat_app; cbn [concat]; rewrite app_nil_r, <- app_assoc; reflexivity).
    apply IH; auto.
Qed.

(** ** Unpacking *)
Definition cnt (q : Z) (own : list Z) : Z := zlen (sel q own own).
Lemma cnt_cons : forall q o own, cnt q (o :: own) = (if o =? q then 1 else 0) + cnt q own.
Proof.
  intros q o own. unfold cnt. cbn [sel]. assert (E : length (sel q own own) = length (sel q own own)) by reflexivity.
  destruct (o =? q); unfold zlen; cbn [length]; lia.
Qed.
Lemma cnt_app : forall q a b, cnt q (a ++ b) = cnt q a + cnt q b.
Proof. intros q a b. induction a as [|o a IH]; [unfold cnt; reflexivity|]. cbn [app]. rewrite !cnt_cons, IH. lia. Qed.
Lemma sel_mid : forall {A} q o1 o2 (l1 l2 : list A) x, length o1 = length l1 -> exists a b, sel q (o1 ++ q :: o2) (l1 ++ x :: l2) = a ++ x :: b /\ zlen a = cnt q o1.
Proof.
  intros A q. induction o1 as [|o o1 IH]; intros o2 [|y l1] l2 x H; try discriminate.
  - exists [], (sel q o2 l2). cbn [app sel]. rewrite Z.eqb_refl. now split.
  - injection H as H. destruct (IH o2 l1 l2 x H) as (a & b & E & L). cbn [app sel]. rewrite cnt_cons. destruct (o =? q).
    + exists (y :: a), b. rewrite E. split; [reflexivity|]. unfold zlen in *. cbn [length]. lia.
    + exists a, b. rewrite E. split; [reflexivity|]. lia.
Qed.
Lemma data_mid : forall a x b t, (forall y, In y (a ++ x :: b) -> sized ndim y) -> 0 <= t < nv -> aget (data (a ++ x :: b)) (zlen a * nv + t) = aget (fields x) t.
Proof.
  intros a x b t HS Ht. unfold data. rewrite map_app, concat_app. fold (data a). rewrite <- data_length by (intros y Hy; apply HS, in_or_app; now left).
  rewrite aget_app2 by lia. cbn [map concat]. apply aget_app1. rewrite fields_length; [lia|]. apply HS, in_or_app. right. now left.
Qed.
Definition merge (r o : Z) (x y : sinkd) : sinkd := if o =? r then x else adopt x y.
Lemma unpack_loop_ok : forall r (L : Z -> list sinkd) displ recv Nmpi Ns own, (forall q, 0 <= q < Nmpi -> length (L q) = Ns) -> length own = Ns -> (forall o, In o own -> 0 <= o < Nmpi) -> 0 <= r < Nmpi ->
  (forall q x, 0 <= q < Nmpi -> In x (L q) -> sized ndim x) ->
  (forall q t, 0 <= q < Nmpi -> 0 <= t < cnt q own * nv -> exists d, aget displ q = Ok d /\ aget recv (d + t) = aget (data (sel q own (L q))) t) ->
  forall o2 o1 l1 l2 consumed, own = o1 ++ o2 -> L r = l1 ++ l2 -> length o1 = length l1 -> zlen consumed = Nmpi ->
  (forall q, 0 <= q < Nmpi -> q <> r -> aget consumed q = Ok (cnt q o1)) ->
  exists l', unpack_loop ndim r o2 l2 displ consumed recv = Ok l' /\ length l' = length l2 /\
    forall i o x y, nth_error o2 i = Some o -> nth_error l2 i = Some x -> nth_error (L o) (length o1 + i) = Some y -> nth_error l' i = Some (merge r o x y).
Proof.
  intros r L displ recv Nmpi Ns own HL HO HOr Hr HS HB. induction o2 as [|o o2 IH]; intros o1 l1 l2 consumed EO EL LO LC HC.
  - assert (l2 = []) as ->. { destruct l2; [reflexivity|]. pose proof (HL r Hr) as HLr. rewrite EL, app_length in HLr. rewrite EO, app_length in HO. cbn [length] in *. lia. }
    exists []. split; [reflexivity|]. split; [reflexivity|]. intros i ? ? ? H. destruct i; discriminate.
  - destruct l2 as [|x l2]. { pose proof (HL r Hr) as HLr. rewrite EL, app_length in HLr. rewrite EO, app_length in HO. cbn [length] in *. lia. }
    assert (Ho : 0 <= o < Nmpi) by (apply HOr; rewrite EO; apply in_or_app; right; now left).
    assert (EO' : own = (o1 ++ [o]) ++ o2) by (rewrite <- app_assoc; exact EO). assert (EL' : L r = (l1 ++ [x]) ++ l2) by (rewrite <- app_assoc; exact EL).
    assert (LO' : length (o1 ++ [o]) = length (l1 ++ [x])) by (rewrite !app_length; cbn [length]; lia).
    cbn [unpack_loop]. destruct (Z.eqb_spec o r) as [Eo|No].
    + destruct (IH (o1 ++ [o]) (l1 ++ [x]) l2 consumed EO' EL' LO' LC) as (l' & E & Ll & N).
      { intros q Hq Nq. rewrite HC by assumption. rewrite cnt_app, cnt_cons. replace (o =? q) with false by (symmetry; apply Z.eqb_neq; congruence). unfold cnt at 3. cbn. f_equal. lia. }
      rewrite E. cbn [bind]. exists (x :: l'). split; [reflexivity|]. split; [cbn [length]; lia|].
      intros [|i] o' x' y Eo' Ex Ey; cbn [nth_error] in *.
      * injection Eo' as <-. injection Ex as <-. unfold merge. rewrite (proj2 (Z.eqb_eq o r) Eo). reflexivity.
      * apply (N i o' x' y Eo' Ex). rewrite app_length. cbn [length]. rewrite <- Ey. f_equal. lia.
    + assert (LL : length (L o) = Ns) by (apply HL; lia).
      assert (exists m1 y m2, L o = m1 ++ y :: m2 /\ length m1 = length o1) as (m1 & y & m2 & Em & Lm).
      { assert (H : (length o1 < length (L o))%nat) by (rewrite EO, app_length in HO; cbn [length] in HO; lia). destruct (nth_error (L o) (length o1)) as [y|] eqn:E; [|apply nth_error_None in E; lia].
        apply nth_error_split in E as (m1 & m2 & E & Lm). eauto. }
      destruct (sel_mid o o1 o2 m1 m2 y ltac:(lia)) as (a & b & Es & La). rewrite <- EO, <- Em in Es.
      assert (CN : cnt o own = cnt o o1 + 1 + cnt o o2) by (rewrite EO, cnt_app, cnt_cons, Z.eqb_refl; lia). assert (0 <= cnt o o2) by (unfold cnt, zlen; lia). assert (0 <= cnt o o1) by (unfold cnt, zlen; lia).
      pose proof nv_pos as NP. destruct (HB o 0 Ho) as (d & Ed & _); [nia|].
      rewrite Ed. cbn [bind]. rewrite HC by assumption. cbn [bind].
      assert (HSs : forall z, In z (a ++ y :: b) -> sized ndim z) by (intros z Hz; rewrite <- Es in Hz; apply sel_in in Hz; exact (HS o z Ho Hz)).
      rewrite (unpack_ok recv _ x y).
      2:{ apply HSs, in_or_app. right. now left. }
      2:{ intros t Ht. destruct (HB o (cnt o o1 * nv + t) Ho) as (d' & Ed' & E); [nia|]. assert (d' = d) as -> by congruence. rewrite <- Z.add_assoc, E, Es, <- La. apply data_mid; [exact HSs|exact Ht]. }
      cbn [bind]. rewrite aset_in by lia. cbn [bind].
      destruct (IH (o1 ++ [o]) (l1 ++ [x]) l2 (upd consumed (Z.to_nat o) (cnt o o1 + 1)) EO' EL' LO') as (l' & E & Ll & N).
      { now rewrite zlen_upd. }
      { intros q Hq Nq. rewrite cnt_app, cnt_cons. change (cnt q []) with 0. destruct (Z.eqb_spec o q) as [<-|Nqo].
        - rewrite aget_upd_eq by lia. f_equal.
        - rewrite aget_upd_ne by lia. rewrite HC by assumption. f_equal. lia. }
      rewrite E. cbn [bind]. exists (adopt x y :: l'). split; [reflexivity|]. split; [cbn [length]; lia|].
      intros [|i] o' x' y' Eo' Ex Ey; cbn [nth_error] in *.
      * injection Eo' as <-. injection Ex as <-. rewrite Em, nth_error_app2, Lm, Nat.add_0_r, Nat.sub_diag in Ey by lia. injection Ey as <-. unfold merge. rewrite (proj2 (Z.eqb_neq o r) No). reflexivity.
      * apply (N i o' x' y' Eo' Ex). rewrite app_length. cbn [length]. rewrite <- Ey. f_equal. lia.
Qed.
End Sync.
