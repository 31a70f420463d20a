(** Lemmas on checked arrays. *)
From Verif Require Import Prelude.
From Coq Require Import Permutation.
Local Open Scope Z_scope.

Lemma aget_app_mid {A} (l1 l2 : list A) x i :
  i = Z.of_nat (length l1) -> aget (l1 ++ x :: l2) i = Ok x.
Proof.
  intros ->. unfold aget.
  destruct (Z.ltb_spec (Z.of_nat (length l1)) 0); [lia|].
  rewrite Nat2Z.id, nth_error_app2, Nat.sub_diag by lia. reflexivity.
Qed.

Lemma upd_app_mid {A} (l1 l2 : list A) x y :
  upd (l1 ++ x :: l2) (length l1) y = l1 ++ y :: l2.
Proof. induction l1; simpl; congruence. Qed.

Lemma aset_app_mid {A} (l1 l2 : list A) x y i :
  i = Z.of_nat (length l1) -> aset (l1 ++ x :: l2) i y = Ok (l1 ++ y :: l2).
Proof.
  intros ->. unfold aset.
  destruct (Z.ltb_spec (Z.of_nat (length l1)) 0); [lia|].
  rewrite app_length; simpl length.
  destruct (Z.leb_spec (Z.of_nat (length l1 + S (length l2))) (Z.of_nat (length l1))); [lia|].
  simpl. now rewrite Nat2Z.id, upd_app_mid.
Qed.

Lemma length_upd {A} (l : list A) n x : length (upd l n x) = length l.
Proof. revert n; induction l; destruct n; simpl; auto. Qed.

Lemma nth_error_upd_eq {A} (l : list A) n x :
  (n < length l)%nat -> nth_error (upd l n x) n = Some x.
Proof. revert n; induction l; destruct n; simpl; intros; try lia; auto. apply IHl; lia. Qed.

Lemma nth_error_upd_ne {A} (l : list A) n m x :
  n <> m -> nth_error (upd l n x) m = nth_error l m.
Proof. revert n m; induction l; destruct n, m; simpl; intros; try lia; auto. Qed.

Lemma aget_Ok_inv {A} (l : list A) i x :
  aget l i = Ok x -> 0 <= i < zlen l /\ nth_error l (Z.to_nat i) = Some x.
Proof.
  unfold aget, zlen. destruct (Z.ltb_spec i 0); [discriminate|].
  destruct (nth_error l (Z.to_nat i)) eqn:E; [|discriminate].
  intros [= ->]. split; [|reflexivity].
  assert (nth_error l (Z.to_nat i) <> None) by congruence.
  apply nth_error_Some in H0. lia.
Qed.

Lemma aget_in {A} (l : list A) i : 0 <= i < zlen l -> exists x, aget l i = Ok x.
Proof.
  unfold zlen, aget. intros H. destruct (Z.ltb_spec i 0); [lia|].
  destruct (nth_error l (Z.to_nat i)) eqn:E; [eauto|].
  apply nth_error_None in E. lia.
Qed.

Lemma aget_nth_error {A} (l : list A) i x :
  0 <= i -> nth_error l (Z.to_nat i) = Some x -> aget l i = Ok x.
Proof. unfold aget. intros H ->. destruct (Z.ltb_spec i 0); [lia|reflexivity]. Qed.

Lemma aset_in {A} (l : list A) i x : 0 <= i < zlen l -> aset l i x = Ok (upd l (Z.to_nat i) x).
Proof.
  unfold zlen, aset. intros H. destruct (Z.ltb_spec i 0); [lia|].
  destruct (Z.leb_spec (Z.of_nat (length l)) i); [lia|reflexivity].
Qed.

Lemma aset_Ok_inv {A} (l l' : list A) i x :
  aset l i x = Ok l' -> 0 <= i < zlen l /\ l' = upd l (Z.to_nat i) x.
Proof.
  unfold zlen, aset. destruct (Z.ltb_spec i 0); [discriminate|].
  destruct (Z.leb_spec (Z.of_nat (length l)) i); [discriminate|].
  simpl. intros [= <-]. split; [lia|reflexivity].
Qed.

Lemma zlen_upd {A} (l : list A) n x : zlen (upd l n x) = zlen l.
Proof. unfold zlen; now rewrite length_upd. Qed.

Lemma aget_upd_eq {A} (l : list A) i x : 0 <= i < zlen l -> aget (upd l (Z.to_nat i) x) i = Ok x.
Proof.
  intros H. apply aget_nth_error; [lia|]. apply nth_error_upd_eq. unfold zlen in H; lia.
Qed.

Lemma aget_upd_ne {A} (l : list A) i j x :
  0 <= i -> i <> j -> aget (upd l (Z.to_nat i) x) j = aget l j.
Proof.
  intros Hi Hne. unfold aget. destruct (Z.ltb_spec j 0); [reflexivity|].
  rewrite nth_error_upd_ne by lia. reflexivity.
Qed.

Lemma upd_split {A} (l : list A) n x :
  (n < length l)%nat ->
  exists l1 y l2, l = l1 ++ y :: l2 /\ length l1 = n /\ upd l n x = l1 ++ x :: l2.
Proof.
  intros H. destruct (nth_error l n) eqn:E.
  - apply nth_error_split in E as (l1 & l2 & -> & <-).
    exists l1, a, l2. rewrite upd_app_mid. auto.
  - apply nth_error_None in E. lia.
Qed.

Lemma upd_same {A} (l : list A) n x : nth_error l n = Some x -> upd l n x = l.
Proof. revert n; induction l; destruct n; simpl; intros; try congruence. f_equal; auto. Qed.

Lemma upd_comm {A} (l : list A) n m x y :
  n <> m -> upd (upd l n x) m y = upd (upd l m y) n x.
Proof. revert n m; induction l; destruct n, m; simpl; intros; try lia; auto. f_equal; auto. Qed.

Lemma upd_upd {A} (l : list A) n x y : upd (upd l n x) n y = upd l n y.
Proof. revert n; induction l; destruct n; simpl; intros; auto. f_equal; auto. Qed.

(** Exchanging two entries is a permutation. *)
Lemma swap_perm {A} (l : list A) i j x y :
  nth_error l i = Some x -> nth_error l j = Some y ->
  Permutation l (upd (upd l i y) j x).
Proof.
  intros Hi Hj.
  destruct (Nat.eq_dec i j) as [->|Hne].
  - assert (x = y) by congruence. subst y. rewrite upd_upd, upd_same; auto.
  - assert (W : forall i j x y, (i < j)%nat -> nth_error l i = Some x -> nth_error l j = Some y ->
                Permutation l (upd (upd l i y) j x)).
    { clear. intros i j x y Hlt Hi Hj.
      apply nth_error_split in Hi as (l1 & l2 & -> & <-).
      rewrite upd_app_mid.
      rewrite nth_error_app2 in Hj by lia.
      destruct (j - length l1)%nat as [|m] eqn:E; [lia|]. simpl in Hj.
      apply nth_error_split in Hj as (l3 & l4 & -> & Hm).
      replace j with (length (l1 ++ y :: l3)) by (rewrite app_length; simpl; lia).
      replace (l1 ++ y :: l3 ++ y :: l4) with ((l1 ++ y :: l3) ++ y :: l4)
        by (rewrite <- app_assoc; reflexivity).
      rewrite upd_app_mid. rewrite <- app_assoc. simpl.
      apply Permutation_app_head.
      transitivity (y :: x :: l3 ++ l4).
      - rewrite perm_swap. apply perm_skip. symmetry. apply Permutation_middle.
      - apply perm_skip. apply Permutation_middle. }
    destruct (Nat.lt_ge_cases i j).
    + apply W; auto.
    + rewrite upd_comm by auto. apply W; auto; lia.
Qed.

Lemma aset_spec {A} (l : list A) i x : 0 <= i < zlen l ->
  exists l', aset l i x = Ok l' /\ zlen l' = zlen l /\ aget l' i = Ok x /\
             (forall j, j <> i -> aget l' j = aget l j).
Proof.
  intros H. exists (upd l (Z.to_nat i) x). rewrite aset_in by easy.
  split; [easy|]. split; [apply zlen_upd|]. split; [now apply aget_upd_eq|].
  intros; apply aget_upd_ne; lia.
Qed.

Lemma aget_ext {A} (l l' : list A) :
  zlen l = zlen l' -> (forall i, 0 <= i < zlen l -> aget l i = aget l' i) -> l = l'.
Proof.
  revert l'. induction l as [|a l IH]; intros [|b l'] H E; unfold zlen in H; cbn [length] in H; try lia; auto.
  f_equal.
  - assert (E0 : aget (a :: l) 0 = aget (b :: l') 0) by (apply E; unfold zlen; cbn [length]; lia).
    unfold aget in E0; simpl in E0. congruence.
  - apply IH; [unfold zlen; lia|]. intros i Hi.
    assert (Ei : aget (a :: l) (i + 1) = aget (b :: l') (i + 1)) by (apply E; unfold zlen in *; cbn [length]; lia).
    unfold aget in *. destruct (Z.ltb_spec (i + 1) 0); [lia|]. destruct (Z.ltb_spec i 0); [lia|].
    replace (Z.to_nat (i + 1)) with (S (Z.to_nat i)) in Ei by lia. exact Ei.
Qed.
