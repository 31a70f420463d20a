From Coq Require Import Reals Lra Lia Psatz.
From Verif Require Import Prelude L_Prelude Vec M_Box L_Box M_Lattice S_Lattice L_Lattice.
Local Open Scope R_scope.

Definition ix (c : Z * Z * Z) (d : nat) : Z := let '(i, j, k) := c in match d with 0%nat => i | 1%nat => j | _ => k end.
Lemma cell_ix ndim N i j k : (1 <= ndim <= 3)%nat ->
  cell_of ndim N (i, j, k) <-> (forall d, (d < ndim)%nat -> (0 <= ix (i, j, k) d < N d)%Z) /\ (forall d, (ndim <= d < 3)%nat -> ix (i, j, k) d = 0%Z).
Proof.
  intros D. unfold cell_of. rewrite (cells_in ndim N i j k D). unfold e1, e2.
  assert (C : (ndim = 1 \/ ndim = 2 \/ ndim = 3)%nat) by lia.
  split.
  - intros H. split; intros d Hd; destruct C as [ -> |[ -> | -> ]]; cbn [Nat.leb] in H; (destruct d as [|[|[|d]]]; [..|lia]); cbn [ix]; lia.
  - intros [H H']. destruct C as [ -> |[ -> | -> ]]; cbn [Nat.leb];
    assert (H0 := H 0%nat ltac:(lia)); try assert (H1 := H 1%nat ltac:(lia)); try assert (H2 := H 2%nat ltac:(lia));
    try assert (H1 := H' 1%nat ltac:(lia)); try assert (H2 := H' 2%nat ltac:(lia)); cbn [ix] in *; lia.
Qed.
Lemma cubic_coord_ix s bmin c d : (d < 3)%nat -> cubic_coord s bmin c d = bmin d + (IZR (ix c d) + 1 / 2) * s d.
Proof. destruct c as [[i j] k]. intros. destruct d as [|[|[|d]]]; [..|lia]; reflexivity. Qed.

Lemma floor_unique (z : Z) t : IZR z <= t < IZR z + 1 -> z = Int_part t.
Proof.
  intros H. destruct (base_Int_part t) as [A B].
  assert (IZR z < IZR (Int_part t) + 1) by lra. assert (IZR (Int_part t) < IZR z + 1) by lra.
  rewrite <- plus_IZR in H0, H1. apply lt_IZR in H0. apply lt_IZR in H1. lia.
Qed.
Lemma floor_range (n : Z) t : 0 <= t < IZR n -> (0 <= Int_part t < n)%Z.
Proof.
  intros H. destruct (base_Int_part t) as [A B]. split.
  - assert (IZR (-1) < IZR (Int_part t)) by (simpl; lra). apply lt_IZR in H0. lia.
  - apply lt_IZR. lra.
Qed.

Lemma cubic_tiles ndim N s bmin a a' : (1 <= ndim <= 3)%nat -> (forall k, (k < ndim)%nat -> (0 <= N k)%Z) -> (forall k, (k < ndim)%nat -> 0 < s k) ->
  zlen a = (Z.of_nat ndim * Z.of_nat (sites ndim N))%Z ->
  lattice ndim N (cubic_coord s bmin) a = Ok a' -> tiles ndim (sites ndim N) (xyz ndim a') s bmin (fun k => bmin k + IZR (N k) * s k).
Proof.
  intros D P S L E. destruct (lattice_ok ndim N (cubic_coord s bmin) a D P L) as (b & E' & _ & W & V).
  rewrite E in E'. injection E' as <-. split.
  - intros x X.
    set (t := fun d => (x d - bmin d) / s d). set (m := fun d => if (d <? ndim)%nat then Int_part (t d) else 0%Z).
    assert (T : forall d, (d < ndim)%nat -> x d = bmin d + t d * s d) by (intros d Hd; unfold t; specialize (S d Hd); field; lra).
    assert (M : forall d, (d < ndim)%nat -> (0 <= m d < N d)%Z).
    { intros d Hd. unfold m. rewrite (proj2 (Nat.ltb_lt d ndim) Hd). specialize (X d Hd). specialize (S d Hd). specialize (T d Hd).
      apply floor_range. split.
      - unfold t. apply Rmult_le_pos; [lra|]. left. apply Rinv_0_lt_compat. lra.
      - apply (Rmult_lt_reg_r (s d)); [lra|]. lra. }
    assert (C : cell_of ndim N (m 0%nat, m 1%nat, m 2%nat)).
    { apply cell_ix; [exact D|]. split; intros d Hd.
      - replace (ix (m 0%nat, m 1%nat, m 2%nat) d) with (m d). apply M. exact Hd. destruct d as [|[|[|d]]]; [..|lia]; reflexivity.
      - replace (ix (m 0%nat, m 1%nat, m 2%nat) d) with (m d). unfold m. rewrite (proj2 (Nat.ltb_ge d ndim)) by lia. reflexivity.
        destruct d as [|[|[|d]]]; [..|lia]; reflexivity. }
    destruct (W _ _ _ C) as (p & Hp & Ep & Xp). exists p. split.
    + split; [exact Hp|]. intros d Hd. rewrite (Xp d Hd), cubic_coord_ix by lia.
      replace (ix (m 0%nat, m 1%nat, m 2%nat) d) with (m d) by (destruct d as [|[|[|d]]]; [..|lia]; reflexivity).
      unfold m. rewrite (proj2 (Nat.ltb_lt d ndim) Hd). destruct (base_Int_part (t d)) as [A B]. specialize (S d Hd).
      rewrite (T d Hd). nra.
    + intros q [Hq Xq]. destruct (V q Hq) as (i & j & k & C' & Eq & Yq).
      assert (forall d, (d < ndim)%nat -> ix (i, j, k) d = m d).
      { intros d Hd. unfold m. rewrite (proj2 (Nat.ltb_lt d ndim) Hd). apply floor_unique.
        specialize (Xq d Hd). rewrite (Yq d Hd), cubic_coord_ix in Xq by lia. rewrite (T d Hd) in Xq. specialize (S d Hd).
        split. apply (Rmult_le_reg_r (s d)); [lra|]. lra. apply (Rmult_lt_reg_r (s d)); [lra|]. lra. }
      assert (Q : forall d, (d < 3)%nat -> ix (i, j, k) d = m d).
      { intros d Hd. destruct (Nat.ltb_spec d ndim); [auto|]. apply (cell_ix ndim N i j k D) in C'. destruct C' as [_ C'].
        rewrite C' by lia. unfold m. rewrite (proj2 (Nat.ltb_ge d ndim)) by lia. reflexivity. }
      assert (Q0 := Q 0%nat ltac:(lia)). assert (Q1 := Q 1%nat ltac:(lia)). assert (Q2 := Q 2%nat ltac:(lia)). cbn [ix] in *. subst. lia.
  - intros p d Hp Hd. destruct (V p Hp) as (i & j & k & C & Ep & Xp). rewrite (Xp d Hd), cubic_coord_ix by lia.
    apply (cell_ix ndim N i j k D) in C. destruct C as [C _]. specialize (C d Hd). specialize (S d Hd).
    destruct C as [C C']. assert (C2 : (ix (i, j, k) d + 1 <= N d)%Z) by lia. apply IZR_le in C. apply IZR_le in C2. rewrite plus_IZR in C2. nra.
Qed.

(** *** Hexagonal lattice in units of rad. *)
Lemma hex3_sq rad bmin (i j k i' j' k' : Z) :
  let R0 := fun _ : nat => rad in
  3 * dist2 3 (hex_coord 3 R0 bmin (i, j, k)) (hex_coord 3 R0 bmin (i', j', k')) =
  rad * rad * IZR (3 * (2 * (i - i') + (j mod 2 - j' mod 2) + ((k + 1) mod 2 - (k' + 1) mod 2)) ^ 2 + (3 * (j - j') + (k mod 2 - k' mod 2)) ^ 2 + 8 * (k - k') ^ 2).
Proof.
  unfold dist2, dot, vsub. cbn [sumf hex_coord].
  assert (T : sqrt 3 * sqrt 3 = 3) by (apply sqrt_sqrt; lra). assert (P3 : 0 < sqrt 3) by (apply sqrt_lt_R0; lra).
  assert (T6 : sqrt 6 * sqrt 6 = 6) by (apply sqrt_sqrt; lra).
  repeat first [rewrite Z.pow_2_r | rewrite plus_IZR | rewrite mult_IZR | rewrite minus_IZR].
  set (A := IZR i). set (B := IZR i'). set (C := IZR j). set (D := IZR j'). set (E := IZR k). set (F := IZR k').
  set (a := IZR (j mod 2)). set (b := IZR (j' mod 2)). set (c := IZR ((k + 1) mod 2)). set (d := IZR ((k' + 1) mod 2)). set (e := IZR (k mod 2)). set (f := IZR (k' mod 2)).
  assert (X : forall g, g * rad / sqrt 3 = g * rad * sqrt 3 / 3). { intros g. transitivity (g * rad * sqrt 3 / (sqrt 3 * sqrt 3)); [field; lra|rewrite T; reflexivity]. }
  rewrite !X.
  set (s := sqrt 3) in *. set (q := sqrt 6) in *.
  replace (bmin 1%nat + 1 / 2 * s * rad + C * s * rad + e * rad * s / 3 - (bmin 1%nat + 1 / 2 * s * rad + D * s * rad + f * rad * s / 3)) with (s * (rad * (3 * (C - D) + (e - f)) / 3)) by field.
  replace (bmin 2%nat + q * rad / 3 + E * 2 * q * rad / 3 - (bmin 2%nat + q * rad / 3 + F * 2 * q * rad / 3)) with (q * (2 * rad * (E - F) / 3)) by field.
  replace (s * (rad * (3 * (C - D) + (e - f)) / 3) * (s * (rad * (3 * (C - D) + (e - f)) / 3))) with (s * s * (rad * (3 * (C - D) + (e - f)) / 3) * (rad * (3 * (C - D) + (e - f)) / 3)) by ring.
  replace (q * (2 * rad * (E - F) / 3) * (q * (2 * rad * (E - F) / 3))) with (q * q * (2 * rad * (E - F) / 3) * (2 * rad * (E - F) / 3)) by ring.
  rewrite T, T6. field.
Qed.
Lemma hex2_sq rad bmin (i j k i' j' k' : Z) :
  let R0 := fun _ : nat => rad in
  dist2 2 (hex_coord 2 R0 bmin (i, j, k)) (hex_coord 2 R0 bmin (i', j', k')) =
  rad * rad * IZR ((2 * (i - i') + (j mod 2 - j' mod 2)) ^ 2 + 3 * (j - j') ^ 2).
Proof.
  unfold dist2, dot, vsub. cbn [sumf hex_coord].
  assert (T : sqrt 3 * sqrt 3 = 3) by (apply sqrt_sqrt; lra).
  repeat first [rewrite Z.pow_2_r | rewrite plus_IZR | rewrite mult_IZR | rewrite minus_IZR].
  set (s := sqrt 3) in *. set (a := IZR (j mod 2)). set (b := IZR (j' mod 2)).
  replace (bmin 1%nat + 1 / 2 * s * rad + IZR j * s * rad - (bmin 1%nat + 1 / 2 * s * rad + IZR j' * s * rad)) with (s * (rad * (IZR j - IZR j'))) by ring.
  replace (s * (rad * (IZR j - IZR j')) * (s * (rad * (IZR j - IZR j')))) with (s * s * (rad * (IZR j - IZR j')) * (rad * (IZR j - IZR j'))) by ring.
  rewrite T. ring.
Qed.
Lemma hex1_sq rad bmin (i j k i' j' k' : Z) :
  let R0 := fun _ : nat => rad in
  dist2 1 (hex_coord 1 R0 bmin (i, j, k)) (hex_coord 1 R0 bmin (i', j', k')) = rad * rad * IZR ((2 * (i - i')) ^ 2).
Proof.
  unfold dist2, dot, vsub. cbn [sumf hex_coord]. repeat first [rewrite Z.pow_2_r | rewrite plus_IZR | rewrite mult_IZR | rewrite minus_IZR]. ring.
Qed.
Lemma sq_ge (x n : Z) : (0 <= n -> n <= Z.abs x -> n * n <= x ^ 2)%Z.
Proof. intros. rewrite Z.pow_2_r. nia. Qed.
Lemma sq_nonneg (x : Z) : (0 <= x ^ 2)%Z.
Proof. rewrite Z.pow_2_r. nia. Qed.
Lemma hex3_far (i j k i' j' k' : Z) : (i, j, k) <> (i', j', k') ->
  (12 <= 3 * (2 * (i - i') + (j mod 2 - j' mod 2) + ((k + 1) mod 2 - (k' + 1) mod 2)) ^ 2 + (3 * (j - j') + (k mod 2 - k' mod 2)) ^ 2 + 8 * (k - k') ^ 2)%Z.
Proof.
  intros H.
  set (X := (2 * (i - i') + (j mod 2 - j' mod 2) + ((k + 1) mod 2 - (k' + 1) mod 2))%Z). set (Y := (3 * (j - j') + (k mod 2 - k' mod 2))%Z). set (Z0 := (k - k')%Z).
  assert (SX := sq_nonneg X). assert (SY := sq_nonneg Y). assert (SZ := sq_nonneg Z0).
  destruct (Z_le_dec 2 (Z.abs Z0)) as [A|A]. { assert (B := sq_ge Z0 2 ltac:(lia) A). lia. }
  destruct (Z.eq_dec Z0 0) as [E|E].
  - assert (k = k') by (unfold Z0 in E; lia). subst k'.
    destruct (Z_le_dec 2 (Z.abs (j - j'))) as [B|B]. { assert (6 <= Z.abs Y)%Z by (unfold Y; lia). assert (C := sq_ge Y 6 ltac:(lia) H0). lia. }
    destruct (Z.eq_dec j j') as [F|F].
    + subst j'. assert (i <> i') by congruence. assert (2 <= Z.abs X)%Z by (unfold X; lia). assert (C := sq_ge X 2 ltac:(lia) H1). lia.
    + assert (3 <= Z.abs Y)%Z by (unfold Y; lia). assert (C := sq_ge Y 3 ltac:(lia) H0).
      assert (1 <= Z.abs X)%Z by (unfold X; lia). assert (C' := sq_ge X 1 ltac:(lia) H1). lia.
  - assert (1 <= Z.abs Z0)%Z by lia. assert (C := sq_ge Z0 1 ltac:(lia) H0). fold Z0.
    destruct (Z_le_dec 2 (Z.abs Y)) as [B|B]. { assert (C' := sq_ge Y 2 ltac:(lia) B). lia. }
    assert (HY : (1 <= Z.abs Y)%Z) by (unfold Y, Z0 in *; lia). assert (C1 := sq_ge Y 1 ltac:(lia) HY).
    assert (HX : (1 <= Z.abs X)%Z) by (unfold X, Y, Z0 in *; lia). assert (C2 := sq_ge X 1 ltac:(lia) HX). lia.
Qed.
Lemma hex2_far (i j i' j' : Z) : (i, j) <> (i', j') -> (4 <= (2 * (i - i') + (j mod 2 - j' mod 2)) ^ 2 + 3 * (j - j') ^ 2)%Z.
Proof.
  intros H. set (X := (2 * (i - i') + (j mod 2 - j' mod 2))%Z). set (Y := (j - j')%Z).
  assert (SX := sq_nonneg X). assert (SY := sq_nonneg Y).
  destruct (Z_le_dec 2 (Z.abs Y)) as [A|A]. { assert (B := sq_ge Y 2 ltac:(lia) A). lia. }
  destruct (Z.eq_dec Y 0) as [E|E].
  - assert (j = j') by (unfold Y in E; lia). subst j'. assert (i <> i') by congruence.
    assert (2 <= Z.abs X)%Z by (unfold X; lia). assert (C := sq_ge X 2 ltac:(lia) H1). lia.
  - assert (1 <= Z.abs Y)%Z by lia. assert (C := sq_ge Y 1 ltac:(lia) H0). assert (1 <= Z.abs X)%Z by (unfold X, Y in *; lia). assert (C' := sq_ge X 1 ltac:(lia) H1). lia.
Qed.
Lemma hex_far ndim rad bmin i j k i' j' k' : (1 <= ndim <= 3)%nat -> (i, j, k) <> (i', j', k') ->
  (forall d, (ndim <= d < 3)%nat -> ix (i, j, k) d = 0%Z) -> (forall d, (ndim <= d < 3)%nat -> ix (i', j', k') d = 0%Z) ->
  (2 * rad) * (2 * rad) <= dist2 ndim (hex_coord ndim (fun _ => rad) bmin (i, j, k)) (hex_coord ndim (fun _ => rad) bmin (i', j', k')).
Proof.
  intros D H Z1 Z2. assert (C : (ndim = 1 \/ ndim = 2 \/ ndim = 3)%nat) by lia. destruct C as [ -> |[ -> | -> ]].
  - rewrite hex1_sq. assert (A1 := Z1 1%nat ltac:(lia)). assert (A2 := Z2 1%nat ltac:(lia)). assert (B1 := Z1 2%nat ltac:(lia)). assert (B2 := Z2 2%nat ltac:(lia)).
    cbn [ix] in *. subst. assert (i <> i') by congruence. assert (X := sq_ge (2 * (i - i')) 2 ltac:(lia) ltac:(lia)). apply IZR_le in X. simpl (IZR (2 * 2)) in X. nra.
  - rewrite hex2_sq. assert (B1 := Z1 2%nat ltac:(lia)). assert (B2 := Z2 2%nat ltac:(lia)). cbn [ix] in *. subst.
    assert (X := hex2_far i j i' j' ltac:(congruence)). apply IZR_le in X. nra.
  - assert (X := hex3_far i j k i' j' k' H). apply IZR_le in X. assert (Y := hex3_sq rad bmin i j k i' j' k'). cbv zeta in Y. nra.
Qed.
Lemma dist2_ext n x y x' y' : (forall d, (d < n)%nat -> x d = x' d) -> (forall d, (d < n)%nat -> y d = y' d) -> dist2 n x y = dist2 n x' y'.
Proof. intros. unfold dist2. apply dot_ext; intros d Hd; unfold vsub; rewrite H, H0; auto. Qed.
Lemma hex_apart ndim N rad bmin a a' : (1 <= ndim <= 3)%nat -> (forall k, (k < ndim)%nat -> (0 <= N k)%Z) ->
  zlen a = (Z.of_nat ndim * Z.of_nat (sites ndim N))%Z -> lattice ndim N (hex_coord ndim (fun _ => rad) bmin) a = Ok a' ->
  forall p q, (p < sites ndim N)%nat -> (q < sites ndim N)%nat -> p <> q -> (2 * rad) * (2 * rad) <= dist2 ndim (xyz ndim a' p) (xyz ndim a' q).
Proof.
  intros D P L E p q Hp Hq H. destruct (lattice_ok ndim N (hex_coord ndim (fun _ => rad) bmin) a D P L) as (b & E' & _ & _ & V).
  rewrite E in E'. injection E' as <-.
  destruct (V p Hp) as (i & j & k & C & Ep & Xp). destruct (V q Hq) as (i' & j' & k' & C' & Eq & Xq).
  rewrite (dist2_ext ndim _ _ _ _ Xp Xq). apply hex_far; [exact D| | |].
  - intros Q. injection Q; intros; subst. lia.
  - apply (cell_ix ndim N i j k D) in C. apply C.
  - apply (cell_ix ndim N i' j' k' D) in C'. apply C'.
Qed.
