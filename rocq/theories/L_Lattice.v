From Coq Require Import Reals Lra Lia Psatz.
From Verif Require Import Prelude L_Prelude Vec M_Box L_Box M_Lattice S_Lattice.
Local Open Scope R_scope.

(** *** Storing. *)
Lemma store_ok ws : forall a, (forall i x, In (i, x) ws -> (0 <= i < zlen a)%Z) -> (forall i x y, In (i, x) ws -> In (i, y) ws -> x = y) ->
  exists a', store ws a = Ok a' /\ length a' = length a /\ (forall i x, In (i, x) ws -> aget a' i = Ok x) /\
    (forall i, (forall x, ~ In (i, x) ws) -> aget a' i = aget a i).
Proof.
  induction ws as [|[i x] l IH]; intros a R F.
  - exists a. split; [reflexivity|]. split; [reflexivity|]. split; [intros ? ? []|reflexivity].
  - cbn [store]. assert (Ri := R i x (or_introl eq_refl)). rewrite (aset_in a i x Ri). cbn [bind].
    destruct (IH (upd a (Z.to_nat i) x)) as (a' & E & L & W & O).
    + intros j y I. rewrite zlen_upd. apply (R j y). right. exact I.
    + intros j y z I J. apply (F j y z); right; assumption.
    + exists a'. split; [exact E|]. split; [rewrite L; apply length_upd|]. split.
      * intros j y [I|I]; [|apply W; exact I]. injection I; intros; subst j y.
        destruct (in_dec Z.eq_dec i (map fst l)) as [J|J].
        -- apply in_map_iff in J. destruct J as ((i' & y) & Ei & J). cbn in Ei. subst i'.
           rewrite (F i x y); [apply W; exact J|left; reflexivity|right; exact J].
        -- rewrite O. apply aget_upd_eq. exact Ri. intros y J'. apply J. apply in_map_iff. exists (i, y). auto.
      * intros j J. rewrite O by (intros y I; apply (J y); right; exact I).
        assert (j <> i) by (intros ->; apply (J x); left; reflexivity).
        apply aget_upd_ne; lia.
Qed.

Lemma zupto_in n k : In k (zupto n) <-> (0 <= k < n)%Z.
Proof. unfold zupto. rewrite in_map_iff. split. intros (m & <- & I). apply in_seq in I. lia. intros. exists (Z.to_nat k). rewrite in_seq. lia. Qed.

Definition e1 (ndim : nat) (N : nat -> Z) : Z := if (2 <=? ndim)%nat then N 1%nat else 1%Z.
Definition e2 (ndim : nat) (N : nat -> Z) : Z := if (3 <=? ndim)%nat then N 2%nat else 1%Z.
Lemma cells_in ndim N i j k : (1 <= ndim <= 3)%nat ->
  In (i, j, k) (cells ndim N) <-> (0 <= i < N 0%nat /\ 0 <= j < e1 ndim N /\ 0 <= k < e2 ndim N)%Z.
Proof.
  intros H. assert (D : (ndim = 1 \/ ndim = 2 \/ ndim = 3)%nat) by lia. unfold e1, e2.
  destruct D as [ -> |[ -> | -> ]]; cbn [cells Nat.leb].
  - rewrite in_map_iff. split. intros (x & E & I). apply zupto_in in I. injection E; lia.
    intros. exists i. rewrite zupto_in. split; [f_equal; [f_equal|]; lia|lia].
  - rewrite in_flat_map. split. intros (x & I & J). apply in_map_iff in J. destruct J as (y & E & J). apply zupto_in in I. apply zupto_in in J. injection E; lia.
    intros. exists j. rewrite zupto_in, in_map_iff. split; [lia|]. exists i. rewrite zupto_in. split; [f_equal; lia|lia].
  - rewrite in_flat_map. split. intros (x & I & J). apply in_flat_map in J. destruct J as (y & I' & J). apply in_map_iff in J. destruct J as (z & E & J).
    apply zupto_in in I. apply zupto_in in J. apply zupto_in in I'. injection E; lia.
    intros. exists k. rewrite zupto_in, in_flat_map. split; [lia|]. exists j. rewrite zupto_in, in_map_iff. split; [lia|]. exists i. rewrite zupto_in. split; [reflexivity|lia].
Qed.
Lemma number_eq ndim N i j k : (1 <= ndim <= 3)%nat -> In (i, j, k) (cells ndim N) ->
  number ndim N (i, j, k) = (k * (N 0%nat * e1 ndim N) + j * N 0%nat + i)%Z.
Proof.
  intros H I. apply (cells_in ndim N i j k H) in I. unfold e1, e2 in *.
  assert (D : (ndim = 1 \/ ndim = 2 \/ ndim = 3)%nat) by lia.
  destruct D as [ -> |[ -> | -> ]]; cbn [number Nat.leb] in *.
  - assert (k = 0 /\ j = 0)%Z as [-> ->] by lia. lia.
  - assert (k = 0)%Z as -> by lia. lia.
  - ring.
Qed.
Lemma sites_eq ndim N : (1 <= ndim <= 3)%nat -> (forall k, (k < ndim)%nat -> (0 <= N k)%Z) -> Z.of_nat (sites ndim N) = (N 0%nat * e1 ndim N * e2 ndim N)%Z.
Proof.
  intros H P. unfold e1, e2. assert (D : (ndim = 1 \/ ndim = 2 \/ ndim = 3)%nat) by lia.
  destruct D as [ -> |[ -> | -> ]]; cbn [sites Nat.leb]; rewrite ?Nat2Z.inj_mul, ?Z2Nat.id; try (apply P; lia); lia.
Qed.
Lemma mix_range n0 n1 n2 i j k : (0 <= i < n0 -> 0 <= j < n1 -> 0 <= k < n2 -> 0 <= k * (n0 * n1) + j * n0 + i < n0 * n1 * n2)%Z.
Proof.
  intros. assert (0 <= j * n0 + i < n0 * n1)%Z by nia. set (m := (n0 * n1)%Z) in *. assert (0 <= k * m)%Z by nia. nia.
Qed.
Lemma mix_inj n0 n1 i j k i' j' k' : (0 <= i < n0 -> 0 <= j < n1 -> 0 <= i' < n0 -> 0 <= j' < n1 ->
  k * (n0 * n1) + j * n0 + i = k' * (n0 * n1) + j' * n0 + i' -> i = i' /\ j = j' /\ k = k')%Z.
Proof.
  intros A B A' B' E. assert (R1 : (0 <= j * n0 + i < n0 * n1)%Z) by nia. assert (R2 : (0 <= j' * n0 + i' < n0 * n1)%Z) by nia.
  destruct (Z.div_mod_unique (n0 * n1) k k' (j * n0 + i) (j' * n0 + i')) as [-> E2]; [left; lia|left; lia|lia|].
  destruct (Z.div_mod_unique n0 j j' i i') as [-> ->]; [left; lia|left; lia|lia|]. auto.
Qed.
Lemma mix_surj n0 n1 n2 p : (0 < n0 -> 0 < n1 -> 0 <= p < n0 * n1 * n2 ->
  exists i j k, 0 <= i < n0 /\ 0 <= j < n1 /\ 0 <= k < n2 /\ p = k * (n0 * n1) + j * n0 + i)%Z.
Proof.
  intros A B C. exists ((p mod (n0 * n1)) mod n0)%Z, ((p mod (n0 * n1)) / n0)%Z, (p / (n0 * n1))%Z.
  assert (M : (0 < n0 * n1)%Z) by nia.
  assert (X := Z.mod_pos_bound p _ M). assert (Y := Z.mod_pos_bound (p mod (n0 * n1)) _ A).
  split; [exact Y|]. split. split. apply Z.div_pos; lia. apply Z.div_lt_upper_bound; lia.
  split. split. apply Z.div_pos; lia. apply Z.div_lt_upper_bound; lia.
  rewrite (Z.div_mod p (n0 * n1)) at 1 by lia. rewrite (Z.div_mod (p mod (n0 * n1)) n0) at 1 by lia. lia.
Qed.

(** *** A lattice: the particles are the cells, each once. *)
Definition cell_of (ndim : nat) (N : nat -> Z) (c : Z * Z * Z) : Prop := In c (cells ndim N).
Lemma lattice_ok ndim N coord a : (1 <= ndim <= 3)%nat -> (forall k, (k < ndim)%nat -> (0 <= N k)%Z) -> zlen a = (Z.of_nat ndim * Z.of_nat (sites ndim N))%Z ->
  exists a', lattice ndim N coord a = Ok a' /\ length a' = length a /\
    (forall i j k, cell_of ndim N (i, j, k) -> exists p, (p < sites ndim N)%nat /\ Z.of_nat p = (k * (N 0%nat * e1 ndim N) + j * N 0%nat + i)%Z /\
        forall d, (d < ndim)%nat -> xyz ndim a' p d = coord (i, j, k) d) /\
    (forall p, (p < sites ndim N)%nat -> exists i j k, cell_of ndim N (i, j, k) /\ Z.of_nat p = (k * (N 0%nat * e1 ndim N) + j * N 0%nat + i)%Z /\
        forall d, (d < ndim)%nat -> xyz ndim a' p d = coord (i, j, k) d).
Proof.
  intros D P L. unfold lattice. set (ws := flat_map _ _).
  assert (I : forall q x, In (q, x) ws <-> exists i j k d, cell_of ndim N (i, j, k) /\ (d < ndim)%nat /\ q = (Z.of_nat ndim * (k * (N 0%nat * e1 ndim N) + j * N 0%nat + i) + Z.of_nat d)%Z /\ x = coord (i, j, k) d).
  { intros q x. unfold ws. rewrite in_flat_map. split.
    - intros ([[i j] k] & C & M). apply in_map_iff in M. destruct M as (d & E & M). apply in_seq in M.
      assert (Ea := f_equal fst E). assert (Eb := f_equal snd E). cbn [fst snd] in Ea, Eb. subst q x.
      exists i, j, k, d. rewrite (number_eq ndim N i j k D C). split; [exact C|]. split; [lia|]. split; reflexivity.
    - intros (i & j & k & d & C & M & -> & ->). exists (i, j, k). split; [exact C|]. apply in_map_iff. exists d. rewrite (number_eq ndim N i j k D C).
      split; [reflexivity|]. apply in_seq. lia. }
  assert (S := sites_eq ndim N D P).
  assert (RG : forall i j k, cell_of ndim N (i, j, k) -> (0 <= k * (N 0%nat * e1 ndim N) + j * N 0%nat + i < Z.of_nat (sites ndim N))%Z).
  { intros i j k C. apply (cells_in ndim N i j k D) in C. rewrite S. apply mix_range; lia. }
  destruct (store_ok ws a) as (a' & E & L' & W & _).
  - intros q x J. apply I in J. destruct J as (i & j & k & d & C & M & -> & ->). specialize (RG i j k C). rewrite L. nia.
  - intros q x y J J'. apply I in J. apply I in J'. destruct J as (i & j & k & d & C & M & -> & ->). destruct J' as (i' & j' & k' & d' & C' & M' & E & ->).
    destruct (Z.div_mod_unique (Z.of_nat ndim) _ _ _ _ (or_introl (conj (Nat2Z.is_nonneg d) (proj1 (Nat2Z.inj_lt d ndim) M))) (or_introl (conj (Nat2Z.is_nonneg d') (proj1 (Nat2Z.inj_lt d' ndim) M'))) E) as [E1 E2].
    apply Nat2Z.inj in E2. apply (cells_in ndim N i j k D) in C. apply (cells_in ndim N i' j' k' D) in C'.
    destruct (mix_inj (N 0%nat) (e1 ndim N) i j k i' j' k') as (-> & -> & ->); try lia. rewrite E2. reflexivity.
  - exists a'. split; [exact E|]. split; [exact L'|].
    assert (V : forall i j k p d, cell_of ndim N (i, j, k) -> Z.of_nat p = (k * (N 0%nat * e1 ndim N) + j * N 0%nat + i)%Z -> (d < ndim)%nat -> xyz ndim a' p d = coord (i, j, k) d).
    { intros i j k p d C Ep M. assert (G := W (Z.of_nat ndim * (k * (N 0%nat * e1 ndim N) + j * N 0%nat + i) + Z.of_nat d)%Z (coord (i, j, k) d)).
      assert (G' := G (proj2 (I _ _) (ex_intro _ i (ex_intro _ j (ex_intro _ k (ex_intro _ d (conj C (conj M (conj eq_refl eq_refl))))))))). clear G.
      rewrite <- Ep in G'. apply aget_Ok_inv in G'. destruct G' as [_ G']. unfold xyz.
      replace (Z.to_nat (Z.of_nat ndim * Z.of_nat p + Z.of_nat d)) with (ndim * p + d)%nat in G' by lia.
      apply nth_error_nth. exact G'. }
    split.
    + intros i j k C. specialize (RG i j k C). exists (Z.to_nat (k * (N 0%nat * e1 ndim N) + j * N 0%nat + i)). split; [lia|]. split; [lia|].
      intros d M. apply V; [exact C|lia|exact M].
    + intros p Hp. assert (Zp : (0 <= Z.of_nat p < N 0%nat * e1 ndim N * e2 ndim N)%Z) by lia.
      assert (N0 : (0 <= N 0%nat)%Z) by (apply P; lia).
      assert (N1 : (0 <= e1 ndim N)%Z) by (unfold e1; destruct (2 <=? ndim)%nat eqn:X; [apply P; apply Nat.leb_le in X; lia|lia]).
      assert (N2 : (0 <= e2 ndim N)%Z) by (unfold e2; destruct (3 <=? ndim)%nat eqn:X; [apply P; apply Nat.leb_le in X; lia|lia]).
      destruct (mix_surj (N 0%nat) (e1 ndim N) (e2 ndim N) (Z.of_nat p)) as (i & j & k & A & B & C & E'); [nia|nia|exact Zp|].
      assert (CC : cell_of ndim N (i, j, k)) by (apply (cells_in ndim N i j k D); auto).
      exists i, j, k. split; [exact CC|]. split; [exact E'|]. intros d M. apply V; assumption.
Qed.
