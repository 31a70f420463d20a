From Coq Require Import Reals Lra Lia Psatz List.
From Verif Require Import Prelude L_Prelude Vec M_Lattice S_Lattice L_Lattice L_Lattice2.
Import ListNotations.
Local Open Scope Z_scope.

(** Which cells of a hexagonal lattice touch. *)
Definition par (x a b : Z) : Z := if x mod 2 =? 0 then a else b.
(** The twelve cells that touch cell (i, j, k). *)
Definition touching (i j k : Z) : list (Z * Z * Z) :=
  let s := par j (-1) 0 in let t := par k 0 (-1) in let y := par k (-1) 1 in let x := par k (par j 0 1) (par j (-1) 0) in
  [(i - 1, j, k); (i + 1, j, k); (i + s, j - 1, k); (i + s + 1, j - 1, k); (i + s, j + 1, k); (i + s + 1, j + 1, k);
   (i + t, j, k - 1); (i + t + 1, j, k - 1); (i + x, j + y, k - 1); (i + t, j, k + 1); (i + t + 1, j, k + 1); (i + x, j + y, k + 1)].
Definition form (i j k i' j' k' : Z) : Z :=
  3 * (2 * (i - i') + (j mod 2 - j' mod 2) + ((k + 1) mod 2 - (k' + 1) mod 2)) ^ 2 + (3 * (j - j') + (k mod 2 - k' mod 2)) ^ 2 + 8 * (k - k') ^ 2.
Lemma par_cases x : (x mod 2 = 0 /\ forall a b, par x a b = a) \/ (x mod 2 = 1 /\ forall a b, par x a b = b).
Proof. unfold par. assert (x mod 2 = 0 \/ x mod 2 = 1) as [E|E] by lia; rewrite E; [left|right]; auto. Qed.
Lemma form12 X Y Z0 : 3 * X ^ 2 + Y ^ 2 + 8 * Z0 ^ 2 = 12 ->
  (Z0 = 0 /\ Y = 0 /\ Z.abs X = 2) \/ (Z0 = 0 /\ Z.abs Y = 3 /\ Z.abs X = 1) \/ (Z.abs Z0 = 1 /\ Z.abs Y = 2 /\ X = 0) \/ (Z.abs Z0 = 1 /\ Z.abs Y = 1 /\ Z.abs X = 1).
Proof.
  intros H. rewrite !Z.pow_2_r in H.
  assert (-1 <= Z0 <= 1) by nia. assert (-3 <= Y <= 3) by nia. assert (-2 <= X <= 2) by nia.
  assert (CZ : Z0 = -1 \/ Z0 = 0 \/ Z0 = 1) by lia. assert (CY : Y = -3 \/ Y = -2 \/ Y = -1 \/ Y = 0 \/ Y = 1 \/ Y = 2 \/ Y = 3) by lia.
  assert (CX : X = -2 \/ X = -1 \/ X = 0 \/ X = 1 \/ X = 2) by lia. clear - H CX CY CZ.
  destruct CZ as [ -> |[ -> | -> ]]; destruct CY as [ -> |[ -> |[ -> |[ -> |[ -> |[ -> | -> ]]]]]]; destruct CX as [ -> |[ -> |[ -> |[ -> | -> ]]]]; cbn in *; lia.
Qed.
Lemma modp x : (x + 1) mod 2 = 1 - x mod 2. Proof. lia. Qed.
Lemma modm x : (x - 1) mod 2 = 1 - x mod 2. Proof. lia. Qed.
Lemma modn x : (x + -1) mod 2 = 1 - x mod 2. Proof. lia. Qed.
Ltac mods := rewrite ?modp, ?modm, ?modn, ?modp, ?modm.
Lemma touching_form i j k i' j' k' : In (i', j', k') (touching i j k) <-> form i j k i' j' k' = 12.
Proof.
  unfold touching. split.
  - destruct (par_cases j) as [[Ej Pj]|[Ej Pj]]; destruct (par_cases k) as [[Ek Pk]|[Ek Pk]]; rewrite ?Pj, ?Pk; cbn [In]; intros H;
    repeat match type of H with _ \/ _ => destruct H as [H|H] end; try contradiction; injection H; intros; subst i' j' k'; clear H; unfold form;
    mods; rewrite ?Ej, ?Ek; ring.
  - unfold form. intros H. apply form12 in H.
    assert (Dk : k' = k - 1 \/ k' = k \/ k' = k + 1) by (clear - H; lia).
    assert (K1 : 0 <= k mod 2 <= 1) by (clear; lia). assert (K2 : 0 <= k' mod 2 <= 1) by (clear; lia).
    assert (Dj : j' = j - 1 \/ j' = j \/ j' = j + 1). { set (u := k mod 2) in *. set (v := k' mod 2) in *. clearbody u v. clear - H K1 K2. generalize dependent ((k + 1) mod 2 - (k' + 1) mod 2). intros. generalize dependent (j mod 2 - j' mod 2). intros. lia. }
    clear K1 K2.
    destruct (par_cases j) as [[Ej Pj]|[Ej Pj]]; destruct (par_cases k) as [[Ek Pk]|[Ek Pk]]; rewrite ?Pj, ?Pk; cbn [In]; clear Pj Pk;
    destruct Dk as [ -> |[ -> | -> ]]; destruct Dj as [ -> |[ -> | -> ]]; rewrite ?modp, ?modm, ?modp, ?modm, ?Ej, ?Ek in H; clear Ej Ek;
    (assert (Di : i' = i - 1 \/ i' = i \/ i' = i + 1) by lia); destruct Di as [ -> |[ -> | -> ]]; try (exfalso; lia); clear H;
    rewrite ?Z.add_0_r; replace (i + -1) with (i - 1) by lia; replace (j + -1) with (j - 1) by lia; replace (i - 1 + 1) with i by lia; auto 15.
Qed.

Lemma touching_near i j k i' j' k' : In (i', j', k') (touching i j k) -> i - 1 <= i' <= i + 1 /\ j - 1 <= j' <= j + 1 /\ k - 1 <= k' <= k + 1.
Proof.
  unfold touching. destruct (par_cases j) as [[_ Pj]|[_ Pj]]; destruct (par_cases k) as [[_ Pk]|[_ Pk]]; rewrite ?Pj, ?Pk; cbn [In]; intros H;
  repeat match type of H with _ \/ _ => destruct H as [H|H] end; try contradiction; injection H; intros; subst i' j' k'; clear; lia.
Qed.
Lemma touching_NoDup i j k : NoDup (touching i j k).
Proof.
  unfold touching. destruct (par_cases j) as [[_ Pj]|[_ Pj]]; destruct (par_cases k) as [[_ Pk]|[_ Pk]]; rewrite ?Pj, ?Pk; clear;
  repeat (apply NoDup_cons; [cbn [In]; intros H; repeat match type of H with _ \/ _ => destruct H as [H|H] end; try contradiction; injection H; clear; intros; lia|]); apply NoDup_nil.
Qed.
Lemma NoDup_map_in {A B} (f : A -> B) l : (forall x y, In x l -> In y l -> f x = f y -> x = y) -> NoDup l -> NoDup (map f l).
Proof.
  induction l as [|a l IH]; intros H D; [constructor|]. inversion D; subst. cbn [map]. constructor.
  - intros I. apply in_map_iff in I. destruct I as (b & E & I). apply H2. rewrite (H a b); [exact I|left; reflexivity|right; exact I|symmetry; exact E].
  - apply IH; [|assumption]. intros x y I J. apply H; right; assumption.
Qed.
Lemma hex3_touch (rad : R) (bmin : vec) i j k i' j' k' : (0 < rad)%R ->
  dist2 3 (hex_coord 3 (fun _ => rad) bmin (i, j, k)) (hex_coord 3 (fun _ => rad) bmin (i', j', k')) = ((2 * rad) * (2 * rad))%R <-> form i j k i' j' k' = 12.
Proof.
  intros P. assert (Y := hex3_sq rad bmin i j k i' j' k'). cbv zeta in Y. fold (form i j k i' j' k') in Y.
  set (D := dist2 3 _ _) in *. set (F := form i j k i' j' k') in *. clearbody D F. assert (RR : (0 < rad * rad)%R) by nra. split; intros H.
  - apply eq_IZR. apply (Rmult_eq_reg_l (rad * rad)); [rewrite <- Y, H; ring|lra].
  - rewrite H in Y. lra.
Qed.
