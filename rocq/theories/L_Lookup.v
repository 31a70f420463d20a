From Verif Require Import Prelude L_Prelude Vec M_Box L_Box M_Lookup.
From Coq Require Import Reals Lra Sorted.
Local Open Scope R_scope.

Lemma lower_bound_spec : forall l v, StronglySorted Rle l ->
  (lower_bound l v <= length l)%nat /\
  (forall i x, nth_error l i = Some x -> ((i < lower_bound l v)%nat -> x < v) /\ ((lower_bound l v <= i)%nat -> v <= x)).
Proof.
  induction l as [|a l IH]; intros v S; cbn; [split; [lia|intros [|i] x; discriminate]|].
  inversion S as [|? ? S' F]; subst. destruct (IH v S') as [L H]. destruct (rltb a v) eqn:E.
  - apply rltb_true in E. split; [lia|]. intros [|i] x Hx; cbn in Hx.
    + injection Hx as ->. split; [auto|lia].
    + destruct (H i x Hx). split; intros; [apply H0|apply H1]; lia.
  - apply rltb_false in E. split; [lia|]. intros [|i] x Hx; cbn in Hx.
    + injection Hx as ->. split; [lia|auto].
    + split; [lia|]. intros _. rewrite Forall_forall in F. specialize (F x (nth_error_In _ _ Hx)). lra.
Qed.
Lemma sorted_nth : forall l i j x y, StronglySorted Rle l -> (i <= j)%nat -> nth_error l i = Some x -> nth_error l j = Some y -> x <= y.
Proof.
  induction l as [|a l IH]; intros i j x y S H Hx Hy; [destruct i; discriminate|].
  inversion S as [|? ? S' F]; subst. destruct i, j; cbn in Hx, Hy; try lia.
  - replace x with y by congruence. lra.
  - injection Hx as ->. rewrite Forall_forall in F. apply F. now apply nth_error_In in Hy.
  - apply (IH i j); auto. lia.
Qed.
Theorem getClosestIndex_correct : forall l v, l <> [] -> StronglySorted Rle l ->
  exists i x, getClosestIndex l v = Ok i /\ aget l i = Ok x /\ forall y, In y l -> Rabs (x - v) <= Rabs (y - v).
Proof.
  intros l v NE S. destruct (lower_bound_spec l v S) as [L H]. set (b := lower_bound l v) in *.
  assert (LP : (0 < length l)%nat) by (destruct l; [congruence|cbn; lia]).
  assert (G : forall i, (i < length l)%nat -> exists x, nth_error l i = Some x /\ aget l (Z.of_nat i) = Ok x).
  { intros i Hi. destruct (nth_error l i) eqn:E; [|apply nth_error_None in E; lia]. eexists. split; [reflexivity|].
    apply aget_nth_error; [lia|]. now rewrite Nat2Z.id. }
  unfold getClosestIndex. fold b. destruct (Z.eqb_spec (Z.of_nat b) 0) as [B0|B0].
  - destruct (G 0%nat LP) as (x & Hx & Ax). exists 0%Z, x. split; [reflexivity|]. split; [exact Ax|].
    intros y Hy. apply In_nth_error in Hy as [i Hi].
    assert (v <= x) by (apply (H 0%nat x Hx); lia). assert (x <= y) by (apply (sorted_nth l 0 i); auto; lia).
    rewrite !Rabs_pos_eq by lra. lra.
  - destruct (Z.eqb_spec (Z.of_nat b) (zlen l)) as [BL|BL].
    + destruct (G (length l - 1)%nat ltac:(lia)) as (x & Hx & Ax). exists (zlen l - 1)%Z, x. split; [reflexivity|].
      split; [unfold zlen; rewrite <- Ax; f_equal; lia|].
      intros y Hy. apply In_nth_error in Hy as [i Hi]. unfold zlen in BL.
      assert (Li : (i < length l)%nat) by (apply nth_error_Some; congruence).
      assert (x < v) by (apply (H _ x Hx); lia). assert (y <= x) by (apply (sorted_nth l i (length l - 1)); auto; lia).
      rewrite !Rabs_left by lra. lra.
    + unfold zlen in BL. destruct (G b ltac:(lia)) as (a & Ha & Aa). destruct (G (b - 1)%nat ltac:(lia)) as (c & Hc & Ac).
      rewrite Aa. cbn [bind]. replace (Z.of_nat b - 1)%Z with (Z.of_nat (b - 1)) by lia. rewrite Ac. cbn [bind].
      assert (v <= a) by (apply (H b a Ha); lia). assert (c < v) by (apply (H _ c Hc); lia).
      assert (O : forall y, In y l -> y <= c \/ a <= y).
      { intros y Hy. apply In_nth_error in Hy as [i Hi]. destruct (Nat.lt_ge_cases i b).
        - left. apply (sorted_nth l i (b - 1)); auto; lia.
        - right. apply (sorted_nth l b i); auto. }
      destruct (rltb (a - v) (v - c)) eqn:E; [apply rltb_true in E|apply rltb_false in E]; eexists; eexists; (split; [reflexivity|]);
        (split; [eassumption|]); intros y Hy; unfold Rabs; destruct (O y Hy); repeat destruct (Rcase_abs _); lra.
Qed.
