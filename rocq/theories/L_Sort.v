(** Proofs about the insertion sorts. *)
From Verif Require Import Prelude L_Prelude M_Sort S_Sort.
From Coq Require Import Permutation Sorted.
Local Open Scope Z_scope.

Lemma isort_inner_spec : forall (A : list Z) d B raux,
  exists A1 A2 d', A = A1 ++ A2 /\
    isort_inner (A ++ d :: B) raux (length A) = Ok (A1 ++ d' :: A2 ++ B, Z.of_nat (length A1)) /\
    Forall (fun x => raux < x) A2 /\
    (A1 = [] \/ exists A0 y, A1 = A0 ++ [y] /\ y <= raux).
Proof.
  induction A as [|y A IH] using rev_ind; intros d B raux.
  - exists [], [], d. simpl. auto.
  - rewrite app_length; simpl length. rewrite Nat.add_1_r. cbn [isort_inner].
    rewrite <- app_assoc; simpl app.
    rewrite (aget_app_mid A (d :: B) y) by reflexivity. cbn [bind].
    destruct (Z.leb_spec y raux).
    + exists (A ++ [y]), [], d. rewrite app_nil_r. repeat split; auto.
      * rewrite <- app_assoc, app_length. simpl. do 2 f_equal. lia.
      * right. exists A, y. auto.
    + replace (A ++ y :: d :: B) with ((A ++ [y]) ++ d :: B) by (rewrite <- app_assoc; reflexivity).
      rewrite (aset_app_mid (A ++ [y]) B d y) by (rewrite app_length; simpl; lia).
      cbn [bind]. rewrite <- app_assoc; simpl app.
      destruct (IH y (y :: B) raux) as (A1 & A2 & d' & -> & -> & H2 & H1).
      exists A1, (A2 ++ [y]), d'. repeat split; auto.
      * rewrite app_assoc. reflexivity.
      * rewrite <- app_assoc. reflexivity.
      * apply Forall_app; auto.
Qed.

Lemma isortids_inner_spec : forall (A : list (Z*Z)) d Bi Br raux,
  exists A1 A2 d', A = A1 ++ A2 /\
    isortids_inner (map snd A ++ snd d :: Bi) (map fst A ++ fst d :: Br) raux (length A)
      = Ok (map snd A1 ++ snd d' :: map snd A2 ++ Bi, map fst A1 ++ fst d' :: map fst A2 ++ Br,
            Z.of_nat (length A1)) /\
    Forall (fun x => raux < fst x) A2 /\
    (A1 = [] \/ exists A0 y, A1 = A0 ++ [y] /\ fst y <= raux).
Proof.
  induction A as [|y A IH] using rev_ind; intros d Bi Br raux.
  - exists [], [], d. simpl. auto.
  - rewrite app_length; simpl length. rewrite Nat.add_1_r. cbn [isortids_inner].
    rewrite !map_app; cbn [map]. rewrite <- !app_assoc; simpl app.
    rewrite (aget_app_mid (map fst A)) by (rewrite map_length; reflexivity). cbn [bind].
    destruct (Z.leb_spec (fst y) raux).
    + exists (A ++ [y]), [], d. rewrite app_nil_r. repeat split; auto.
      * rewrite app_length. simpl. rewrite !map_app, <- !app_assoc. simpl. do 2 f_equal. lia.
      * right. exists A, y. auto.
    + replace (map fst A ++ fst y :: fst d :: Br)
        with ((map fst A ++ [fst y]) ++ fst d :: Br) by (rewrite <- app_assoc; reflexivity).
      rewrite (aset_app_mid (map fst A ++ [fst y])) by (rewrite app_length, map_length; simpl; lia).
      cbn [bind].
      rewrite (aget_app_mid (map snd A)) by (rewrite map_length; reflexivity). cbn [bind].
      replace (map snd A ++ snd y :: snd d :: Bi)
        with ((map snd A ++ [snd y]) ++ snd d :: Bi) by (rewrite <- app_assoc; reflexivity).
      rewrite (aset_app_mid (map snd A ++ [snd y])) by (rewrite app_length, map_length; simpl; lia).
      cbn [bind].
      rewrite <- !app_assoc; simpl app.
      destruct (IH y (snd y :: Bi) (fst y :: Br) raux) as (A1 & A2 & d' & HA & HE & H2 & H1).
      rewrite HE.
      exists A1, (A2 ++ [y]), d'. repeat split; auto.
      * rewrite HA, app_assoc. reflexivity.
      * rewrite !map_app, <- !app_assoc. reflexivity.
      * apply Forall_app; auto.
Qed.

(** Insertion of an element into a sorted prefix at the place found by the loop. *)
Section Insert.
  Context {T : Type} (key : T -> Z).
  Let le (a b : T) := key a <= key b.

  Lemma insert_sorted A1 A2 x :
    StronglySorted le (A1 ++ A2) ->
    Forall (fun y => key x < key y) A2 ->
    (A1 = [] \/ exists A0 y, A1 = A0 ++ [y] /\ key y <= key x) ->
    StronglySorted le (A1 ++ x :: A2).
  Proof.
    intros HS H2 H1.
    assert (H1' : Forall (fun y => key y <= key x) A1).
    { destruct H1 as [->|(A0 & y & -> & Hy)]; [constructor|].
      apply Forall_app; split; [|constructor; auto].
      clear -HS Hy. rewrite <- app_assoc in HS. simpl in HS.
      induction A0 as [|a A0 IH]; [constructor|].
      simpl in HS. inversion HS as [|? ? HS' HF]; subst.
      constructor; [|auto].
      apply Forall_app in HF as [_ HF]. inversion HF; subst. unfold le in *. lia. }
    clear H1. induction A1 as [|a A1 IH]; simpl in *.
    - constructor; [auto|]. eapply Forall_impl; [|exact H2]. unfold le; simpl; intros; lia.
    - inversion HS as [|? ? HS' HF]; subst. inversion H1'; subst.
      constructor; [auto|].
      apply Forall_app in HF as [HF1 HF2].
      apply Forall_app; split; [auto|]. constructor; auto.
  Qed.

  Lemma insert_filter A1 A2 B x v :
    Forall (fun y => key x < key y) A2 ->
    filter (fun p => key p =? v) (A1 ++ x :: A2 ++ B) = filter (fun p => key p =? v) ((A1 ++ A2) ++ x :: B).
  Proof.
    intros H. rewrite <- app_assoc. rewrite !filter_app.
    f_equal. simpl. rewrite filter_app. 
    destruct (Z.eqb_spec (key x) v); [|reflexivity].
    assert (E : filter (fun p => key p =? v) A2 = []).
    { clear -H e. induction H; [reflexivity|]. simpl. destruct (Z.eqb_spec (key x0) v); [lia|auto]. }
    rewrite E. reflexivity.
  Qed.

  Lemma insert_perm (A1 A2 B : list T) x : Permutation ((A1 ++ A2) ++ x :: B) (A1 ++ x :: A2 ++ B).
  Proof.
    rewrite <- app_assoc. apply Permutation_app_head. symmetry. apply Permutation_middle.
  Qed.
End Insert.

Lemma isort_outer_spec : forall k (A B C : list Z),
  length B = k ->
  StronglySorted Z.le A -> A <> [] ->
  exists A', isort_outer (A ++ B ++ C) (length A) k = Ok (A' ++ C) /\
    Permutation (A ++ B) A' /\ StronglySorted Z.le A'.
Proof.
  induction k as [|k IH]; intros A B C HB HS HA.
  - destruct B; [|discriminate]. simpl. exists A. rewrite app_nil_r. auto.
  - destruct B as [|x B]; [discriminate|]. cbn [isort_outer].
    simpl app at 1. rewrite aget_app_mid by reflexivity. cbn [bind].
    destruct (isort_inner_spec A x (B ++ C) x) as (A1 & A2 & d' & -> & HE & H2 & H1).
    simpl app. rewrite HE. cbn [bind].
    rewrite aset_app_mid by reflexivity. cbn [bind].
    destruct (IH (A1 ++ x :: A2) B C) as (A' & HE' & HP & HS').
    + simpl in HB; lia.
    + apply (insert_sorted (fun z => z)); auto.
    + destruct A1; discriminate.
    + exists A'. split; [|split].
      * rewrite <- HE'. f_equal; [rewrite <- app_assoc; reflexivity|rewrite !app_length; simpl; lia].
      * rewrite <- HP. rewrite <- (app_assoc A1 (x :: A2)). simpl. apply insert_perm.
      * auto.
Qed.

Lemma InsertionSort_correct : forall (V rest : list Z),
  exists V', InsertionSort (length V) (V ++ rest) = Ok (V' ++ rest) /\
    Permutation V V' /\ StronglySorted Z.le V'.
Proof.
  intros [|x V] rest.
  - exists []. simpl. repeat split; constructor.
  - unfold InsertionSort. cbn [length]. rewrite Nat.sub_1_r. cbn [Nat.pred].
    destruct (isort_outer_spec (length V) [x] V rest eq_refl) as (A' & HE & HP & HS).
    + repeat constructor.
    + discriminate.
    + exists A'. split; [exact HE|]. auto.
Qed.

Lemma isortids_outer_spec : forall k (A B : list (Z*Z)) Ci Cr,
  length B = k ->
  StronglySorted (fun a b => fst a <= fst b) A -> A <> [] ->
  exists A', isortids_outer (map snd (A ++ B) ++ Ci) (map fst (A ++ B) ++ Cr) (length A) k
              = Ok (map snd A' ++ Ci, map fst A' ++ Cr) /\
    Permutation (A ++ B) A' /\ StronglySorted (fun a b => fst a <= fst b) A' /\
    (forall v, filter (fun p => fst p =? v) A' = filter (fun p => fst p =? v) (A ++ B)).
Proof.
  induction k as [|k IH]; intros A B Ci Cr HB HS HA.
  - destruct B; [|discriminate]. simpl. exists A. rewrite app_nil_r. auto.
  - destruct B as [|x B]; [discriminate|]. cbn [isortids_outer].
    rewrite (map_app fst A (x :: B)), (map_app snd A (x :: B)). cbn [map].
    rewrite <- !app_assoc. simpl app.
    rewrite aget_app_mid by (rewrite map_length; reflexivity). cbn [bind].
    rewrite aget_app_mid by (rewrite map_length; reflexivity). cbn [bind].
    destruct (isortids_inner_spec A x (map snd B ++ Ci) (map fst B ++ Cr) (fst x))
      as (A1 & A2 & d' & HA' & HE & H2 & H1).
    rewrite HE. cbn [bind].
    rewrite aset_app_mid by (rewrite map_length; reflexivity). cbn [bind].
    rewrite aset_app_mid by (rewrite map_length; reflexivity). cbn [bind].
    subst A.
    destruct (IH (A1 ++ x :: A2) B Ci Cr) as (A' & HE' & HP & HS' & HF).
    + simpl in HB; lia.
    + apply (insert_sorted fst); auto.
    + destruct A1; discriminate.
    + exists A'. split; [|split; [|split]].
      * rewrite <- HE'. f_equal;
        [rewrite !map_app; simpl; rewrite <- ?app_assoc; reflexivity..|].
        rewrite !app_length; simpl; lia.
      * rewrite <- HP. rewrite <- (app_assoc A1 (x :: A2)). simpl. apply insert_perm.
      * auto.
      * intros v. rewrite HF. rewrite <- (app_assoc A1 (x :: A2)). simpl.
        apply (insert_filter fst); auto.
Qed.

Lemma InsertionSortIds_pairs : forall (V : list (Z*Z)) Ci Cr,
  exists V', InsertionSortIds (length V) (map snd V ++ Ci) (map fst V ++ Cr)
               = Ok (map snd V' ++ Ci, map fst V' ++ Cr) /\
    stable_sort_of V V'.
Proof.
  intros [|x V] Ci Cr.
  - exists []. simpl. split; [reflexivity|]. split; [constructor|]. split; [constructor|]. reflexivity.
  - unfold InsertionSortIds. cbn [length]. rewrite Nat.sub_1_r. cbn [Nat.pred].
    destruct (isortids_outer_spec (length V) [x] V Ci Cr eq_refl) as (A' & HE & HP & HS & HF).
    + repeat constructor.
    + discriminate.
    + exists A'. split; [exact HE|]. split; [exact HP|]. split; [exact HS|]. exact HF.
Qed.

Lemma map_fst_combine_len (a b : list Z) : length a = length b -> map fst (combine a b) = a.
Proof. revert b; induction a; destruct b; simpl; intros; try congruence. f_equal; auto. Qed.
Lemma map_snd_combine_len (a b : list Z) : length a = length b -> map snd (combine a b) = b.
Proof. revert b; induction a; destruct b; simpl; intros; try congruence. f_equal; auto. Qed.
Lemma combine_map_fst_snd (V : list (Z*Z)) : combine (map fst V) (map snd V) = V.
Proof. induction V as [|[]]; simpl; congruence. Qed.

Lemma InsertionSortIds_correct : forall N ids r,
  (N <= length ids)%nat -> (N <= length r)%nat ->
  exists ids' r', InsertionSortIds N ids r = Ok (ids', r') /\
    length ids' = length ids /\ length r' = length r /\
    skipn N ids' = skipn N ids /\ skipn N r' = skipn N r /\
    stable_sort_of (combine (firstn N r) (firstn N ids)) (combine (firstn N r') (firstn N ids')).
Proof.
  intros N ids r Hi Hr.
  assert (Li : length (firstn N ids) = N) by (rewrite firstn_length; lia).
  assert (Lr : length (firstn N r) = N) by (rewrite firstn_length; lia).
  set (V := combine (firstn N r) (firstn N ids)).
  assert (Ei : map snd V = firstn N ids) by (apply map_snd_combine_len; lia).
  assert (Er : map fst V = firstn N r) by (apply map_fst_combine_len; lia).
  assert (LV : length V = N) by (unfold V; rewrite combine_length; lia).
  destruct (InsertionSortIds_pairs V (skipn N ids) (skipn N r)) as (V' & HE & HS).
  rewrite Ei, Er, !firstn_skipn, LV in HE.
  assert (LV' : length V' = N) by (destruct HS as [HP _]; apply Permutation_length in HP; lia).
  exists (map snd V' ++ skipn N ids), (map fst V' ++ skipn N r).
  split; [exact HE|].
  rewrite !app_length, !map_length, !skipn_length.
  split; [lia|]. split; [lia|].
  rewrite !skipn_app, !firstn_app, !map_length, LV', Nat.sub_diag, !skipn_O, !firstn_O, !app_nil_r.
  rewrite !(skipn_all2 (map _ V')), !(firstn_all2 (map _ V')) by (rewrite map_length; lia).
  split; [reflexivity|]. split; [reflexivity|].
  now rewrite combine_map_fst_snd.
Qed.

Lemma InsertionSort_array : forall N r,
  (N <= length r)%nat ->
  exists r', InsertionSort N r = Ok r' /\
    Permutation (firstn N r) (firstn N r') /\ skipn N r' = skipn N r /\
    StronglySorted Z.le (firstn N r').
Proof.
  intros N r Hr.
  assert (Lr : length (firstn N r) = N) by (rewrite firstn_length; lia).
  destruct (InsertionSort_correct (firstn N r) (skipn N r)) as (V' & HE & HP & HS).
  rewrite firstn_skipn, Lr in HE.
  assert (LV' : length V' = N) by (apply Permutation_length in HP; lia).
  exists (V' ++ skipn N r). split; [exact HE|].
  rewrite firstn_app, skipn_app, LV', Nat.sub_diag, firstn_O, app_nil_r, skipn_O.
  rewrite (firstn_all2 V'), (skipn_all2 V') by lia. auto.
Qed.
