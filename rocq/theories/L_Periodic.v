From Verif Require Import Prelude Vec M_Box S_Box L_Box M_Util M_Periodic S_Periodic.
From Coq Require Import Reals Lra NArith.
Local Open Scope R_scope.

Lemma loopk_S : forall S n body (s : S), loopk (Datatypes.S n) body s = body n (loopk n body s).
Proof. intros. unfold loopk. rewrite seq_S, fold_left_app. reflexivity. Qed.
Lemma loopk_0 : forall S body (s : S), loopk 0 body s = s.
Proof. reflexivity. Qed.
Lemma vset_eq : forall v k x, vset v k x k = x.
Proof. intros. unfold vset. now rewrite Nat.eqb_refl. Qed.
Lemma vset_ne : forall v k x j, j <> k -> vset v k x j = v j.
Proof. intros. unfold vset. apply Nat.eqb_neq in H. now rewrite H. Qed.
Lemma beq_true : forall a b, beq a b = true <-> a = b.
Proof. intros [] []; cbn; split; congruence. Qed.
Lemma beq_false : forall a b, beq a b = false <-> a <> b.
Proof. intros [] []; cbn; split; congruence. Qed.

Ltac rb := repeat match goal with
  | H : rltb _ _ = true |- _ => apply rltb_true in H
  | H : rltb _ _ = false |- _ => apply rltb_false in H
  | H : rleb _ _ = true |- _ => apply rleb_true in H
  | H : rleb _ _ = false |- _ => apply rleb_false in H
  end.

(** One component of the correction. *)
Definition near1 (per : bool) (size half d : R) : R :=
  if per then if rltb half d then - size else if rltb d (- half) then size else 0 else 0.

Lemma near1_spec : forall size half d, 0 < size -> size = 2 * half -> Rabs d <= 3 * half ->
  Rabs (d + near1 true size half d) <= half.
Proof.
  intros size half d Hs Hh Hd. unfold near1.
  destruct (rltb half d) eqn:E1; [|destruct (rltb d (-half)) eqn:E2]; rb;
    unfold Rabs in *; repeat destruct Rcase_abs; lra.
Qed.
Lemma near1_int : forall per size half d, exists z : Z, near1 per size half d = IZR z * size.
Proof.
  intros. unfold near1. destruct per; [destruct (rltb half d); [|destruct (rltb d (-half))]|].
  - exists (-1)%Z. lra.
  - exists 1%Z. lra.
  - exists 0%Z. lra.
  - exists 0%Z. lra.
Qed.
(** A vector of length at most half the period is not longer than any of its images. *)
Lemma half_nearest : forall size half x (z : Z), 0 < size -> size = 2 * half -> Rabs x <= half ->
  Rabs x <= Rabs (x + IZR z * size).
Proof.
  intros size half x z Hs Hh Hx.
  destruct (Z.eq_dec z 0) as [-> |Hz]; [replace (x + 0 * size) with x by lra; lra|].
  assert (H : 1 <= Rabs (IZR z)).
  { rewrite <- abs_IZR. apply (IZR_le 1). lia. }
  assert (size <= Rabs (IZR z * size)).
  { rewrite Rabs_mult, (Rabs_pos_eq size) by lra. nra. }
  assert (T := Rabs_triang (x + IZR z * size) (- x)).
  replace (x + IZR z * size + - x) with (IZR z * size) in T by lra. rewrite Rabs_Ropp in T. lra.
Qed.

(** ** DomainBox version *)
Definition perb (b : dombox) (k : nat) : bool := beq (blhs b k) periodicB && beq (brhs b k) periodicB.
Lemma perb_true : forall b k, perb b k = true <-> periodic_dir b k.
Proof. intros. unfold perb, periodic_dir. rewrite andb_true_iff, !beq_true. tauto. Qed.
Lemma perb_false : forall b k, perb b k = false <-> ~ periodic_dir b k.
Proof. intros. rewrite <- perb_true. destruct (perb b k); split; congruence. Qed.

Lemma npv_zero : forall n (junk : vec) k,
  loopk n (fun k c => vset c k 0) junk k = if (k <? n)%nat then 0 else junk k.
Proof.
  induction n; intros; [reflexivity|]. rewrite loopk_S. unfold vset at 1.
  destruct (Nat.eqb_spec k n).
  - subst. now rewrite (proj2 (Nat.ltb_lt n (S n))) by lia.
  - rewrite IHn. destruct (Nat.ltb_spec k n), (Nat.ltb_spec k (S n)); try lia; reflexivity.
Qed.
Lemma npv_corr : forall n b dr junk k,
  snd (NearestPeriodicVector n b dr junk) k =
    if (k <? n)%nat then near1 (perb b k) (dsize b k) (dhalf b k) (dr k) else junk k.
Proof.
  intros n b dr junk k. unfold NearestPeriodicVector. cbn [snd].
  assert (H : forall m c k,
    loopk m (fun k c =>
      if beq (blhs b k) periodicB && beq (brhs b k) periodicB then
        if rltb (dhalf b k) (dr k) then vset c k (- dsize b k)
        else if rltb (dr k) (- dhalf b k) then vset c k (dsize b k) else c
      else c) c k =
    if (k <? m)%nat then
      if perb b k then if rltb (dhalf b k) (dr k) then - dsize b k
                       else if rltb (dr k) (- dhalf b k) then dsize b k else c k else c k
    else c k).
  { clear. induction m; intros; [reflexivity|]. rewrite loopk_S.
    set (c' := loopk m _ c) in *.
    destruct (Nat.ltb_spec k (S m)).
    - destruct (Nat.eq_dec k m) as [-> |Hne].
      + fold (perb b m). assert (c' m = c m) as E.
        { unfold c'. rewrite IHm. now rewrite Nat.ltb_irrefl. }
        destruct (perb b m); [|exact E].
        destruct (rltb (dhalf b m) (dr m)); [apply vset_eq|].
        destruct (rltb (dr m) (- dhalf b m)); [apply vset_eq|exact E].
      + assert (c' k = if perb b k then if rltb (dhalf b k) (dr k) then - dsize b k
                       else if rltb (dr k) (- dhalf b k) then dsize b k else c k else c k) as E.
        { unfold c'. rewrite IHm. now rewrite (proj2 (Nat.ltb_lt k m)) by lia. }
        destruct (_ && _); [|exact E].
        destruct (rltb (dhalf b m) (dr m)); [now rewrite vset_ne|].
        destruct (rltb (dr m) (- dhalf b m)); [now rewrite vset_ne|exact E].
    - assert (c' k = c k) as E.
      { unfold c'. rewrite IHm. now rewrite (proj2 (Nat.ltb_ge k m)) by lia. }
      destruct (_ && _); [|exact E].
      destruct (rltb (dhalf b m) (dr m)); [rewrite vset_ne by lia; exact E|].
      destruct (rltb (dr m) (- dhalf b m)); [rewrite vset_ne by lia; exact E|exact E]. }
  rewrite H, npv_zero. destruct (k <? n)%nat; [|reflexivity]. unfold near1. reflexivity.
Qed.
Lemma npv_dr : forall n b dr junk k,
  fst (NearestPeriodicVector n b dr junk) k =
    if (k <? n)%nat then dr k + near1 (perb b k) (dsize b k) (dhalf b k) (dr k) else dr k.
Proof.
  intros n b dr junk k.
  assert (H : forall m c (d : vec) k, loopk m (fun k d => vset d k (d k + c k)) d k =
              if (k <? m)%nat then d k + c k else d k).
  { clear. induction m; intros; [reflexivity|]. rewrite loopk_S. unfold vset at 1.
    destruct (Nat.eqb_spec k m).
    - subst. rewrite IHm, Nat.ltb_irrefl, (proj2 (Nat.ltb_lt m (S m))) by lia. reflexivity.
    - rewrite IHm. destruct (Nat.ltb_spec k m), (Nat.ltb_spec k (S m)); try lia; reflexivity. }
  unfold NearestPeriodicVector at 1. cbn [fst]. rewrite H.
  assert (E := npv_corr n b dr junk k). unfold NearestPeriodicVector in E. cbn [snd] in E. rewrite E.
  now destruct (k <? n)%nat.
Qed.

(** ** Ghost finder version *)
Lemma loopk_and : forall n g, loopk n (fun k (ok : bool) => ok && g k) true = true <-> forall k, (k < n)%nat -> g k = true.
Proof.
  induction n; intros g; [split; intros; [lia|reflexivity]|].
  rewrite loopk_S, andb_true_iff, IHn. split.
  - intros (H & Hn) k Hk. destruct (Nat.eq_dec k n) as [-> |]; [easy|]. apply H. lia.
  - intros H. split; intros; apply H; lia.
Qed.
Lemma loopk_or : forall n g, loopk n (fun k (x : bool) => x || g k) false = true <-> exists k, (k < n)%nat /\ g k = true.
Proof.
  induction n; intros g; [split; [discriminate|intros (k & ? & _); lia]|].
  rewrite loopk_S, orb_true_iff, IHn. split.
  - intros [(k & Hk & H)|H]; [exists k|exists n]; split; auto; lia.
  - intros (k & Hk & H). destruct (Nat.eq_dec k n) as [-> |]; [now right|]. left. exists k. split; [lia|easy].
Qed.
Lemma mk_finder_ok : forall n b f, mk_finder n b = Ok f ->
  f_dom f = b /\ f_per f = (fun k => beq (blhs b k) periodicB) /\
  (forall k, (k < n)%nat -> f_per f k = perb b k) /\
  (f_anyper f = true <-> exists k, (k < n)%nat /\ perb b k = true).
Proof.
  intros n b f. unfold mk_finder. destruct (loopk n _ true) eqn:E; [|discriminate].
  intros H. injection H as <-. cbn.
  assert (P : forall k, (k < n)%nat -> beq (blhs b k) periodicB = perb b k).
  { intros k Hk. pose proof (proj1 (loopk_and n (fun k => negb (beq (blhs b k) periodicB) || beq (brhs b k) periodicB)) E k Hk) as X.
    cbn in X. unfold perb. destruct (beq (blhs b k) periodicB), (beq (brhs b k) periodicB); cbn in *; congruence. }
  split; [reflexivity|]. split; [reflexivity|]. split; [exact P|]. rewrite loopk_or. split; intros (k & Hk & H).
  - exists k. rewrite <- P by easy. easy.
  - exists k. rewrite P by easy. easy.
Qed.
Lemma mk_finder_two_sided : forall n b, two_sided n b -> exists f, mk_finder n b = Ok f.
Proof.
  intros n b H. unfold mk_finder.
  rewrite (proj2 (loopk_and n (fun k => negb (beq (blhs b k) periodicB) || beq (brhs b k) periodicB))); [eauto|].
  intros k Hk. destruct (beq (blhs b k) periodicB) eqn:E; [|reflexivity]. apply beq_true in E.
  apply H in E; [|easy]. rewrite E. reflexivity.
Qed.

(** Flag bits of the three directions: bit 7+k for lhs, 10+k for rhs. *)
Lemma perflag_bit : forall k s i, (k < 3)%nat -> (s < 2)%nat ->
  N.testbit (perflag k s) i = N.eqb i (N.of_nat (7 + 3 * s + k)).
Proof.
  intros k s i Hk Hs.
  assert (perflag k s = N.shiftl 1 (N.of_nat (7 + 3 * s + k))) as ->.
  { assert (k = 0 \/ k = 1 \/ k = 2)%nat as X by lia. assert (s = 0 \/ s = 1)%nat as Y by lia.
    destruct X as [-> |[-> | -> ]], Y as [-> | -> ]; reflexivity. }
  rewrite N.shiftl_1_l. rewrite N.pow2_bits_eqb. apply N.eqb_sym.
Qed.
Definition sgn1 (per : bool) (half d : R) (s : nat) : bool :=
  per && (if Nat.eqb s 1 then rltb half d else negb (rltb half d) && rltb d (- half)).

Lemma gf_npv : forall n f dr, (n <= 3)%nat -> (f_anyper f = false -> forall k, (k < n)%nat -> f_per f k = false) ->
  (forall k, snd (GF_NearestPeriodicVector n f dr) k =
     if (k <? n)%nat then dr k + near1 (f_per f k) (dsize (f_dom f) k) (dhalf (f_dom f) k) (dr k) else dr k) /\
  (forall k s, (k < 3)%nat -> (s < 2)%nat ->
     N.testbit (fst (GF_NearestPeriodicVector n f dr)) (N.of_nat (7 + 3 * s + k)) =
       ((k <? n)%nat && sgn1 (f_per f k) (dhalf (f_dom f) k) (dr k) s)) /\
  (forall i, N.testbit (fst (GF_NearestPeriodicVector n f dr)) i = true -> (7 <= i < 13)%N).
Proof.
  intros n f dr Hn Hany. unfold GF_NearestPeriodicVector. destruct (f_anyper f).
  2:{ split; [|split].
      - intros k. cbn [snd]. destruct (Nat.ltb_spec k n); [|easy]. rewrite Hany by easy. unfold near1. lra.
      - intros k s Hk Hs. cbn [fst]. destruct (Nat.ltb_spec k n); [|easy]. rewrite Hany by easy. reflexivity.
      - intros i H. discriminate. }
  clear Hany. revert Hn. induction n; intros Hn.
  { split; [reflexivity|]. split; [reflexivity|]. discriminate. }
  rewrite loopk_S. match goal with |- context [loopk n ?b (flag_none, dr)] => destruct (loopk n b (flag_none, dr)) as [bd d] end. cbn [fst snd] in IHn.
  destruct (IHn ltac:(lia)) as (Id & Ib & Ih). clear IHn.
  assert (Edn : d n = dr n). { rewrite Id, Nat.ltb_irrefl. reflexivity. }
  rewrite Edn.
  assert (N1 : forall s k, (k < 3)%nat -> (s < 2)%nat ->
    N.testbit (perflag n s) (N.of_nat (7 + 3 * s + k)) = Nat.eqb k n).
  { intros s k Hk Hs. rewrite perflag_bit by lia. destruct (Nat.eqb_spec k n); [apply N.eqb_eq; lia|apply N.eqb_neq; lia]. }
  assert (N2 : forall s s' k, (k < 3)%nat -> (s < 2)%nat -> (s' < 2)%nat -> s <> s' ->
    N.testbit (perflag n s) (N.of_nat (7 + 3 * s' + k)) = false).
  { intros s s' k Hk Hs Hs' Hne. rewrite perflag_bit by lia. apply N.eqb_neq. lia. }
  split; [|split].
  - intros k. destruct (Nat.eq_dec k n) as [-> |Hne].
    + rewrite (proj2 (Nat.ltb_lt n (S n))) by lia.
      unfold near1. destruct (f_per f n); [|cbn; rewrite Edn; lra].
      destruct (rltb (dhalf (f_dom f) n) (dr n)); cbn [snd]; [rewrite vset_eq; lra|].
      destruct (rltb (dr n) (- dhalf (f_dom f) n)); cbn [snd]; [rewrite vset_eq; lra|rewrite Edn; lra].
    + assert ((k <? S n)%nat = (k <? n)%nat) as ->.
      { destruct (Nat.ltb_spec k n), (Nat.ltb_spec k (S n)); try lia; reflexivity. }
      rewrite <- Id.
      destruct (f_per f n); [|reflexivity].
      destruct (rltb (dhalf (f_dom f) n) (dr n)); cbn [snd]; [now rewrite vset_ne|].
      destruct (rltb (dr n) (- dhalf (f_dom f) n)); cbn [snd]; [now rewrite vset_ne|reflexivity].
  - intros k s Hk Hs. assert (s = 0 \/ s = 1)%nat as Y by lia.
    assert (G : forall (e : bool) s', (s' < 2)%nat ->
      (s' = s -> e = sgn1 (f_per f n) (dhalf (f_dom f) n) (dr n) s) ->
      (s' <> s -> sgn1 (f_per f n) (dhalf (f_dom f) n) (dr n) s = false) -> e = true ->
      N.testbit (fl_set bd (perflag n s')) (N.of_nat (7 + 3 * s + k)) =
        (k <? S n)%nat && sgn1 (f_per f k) (dhalf (f_dom f) k) (dr k) s).
    { intros e s' Hs' He Hf Ht. unfold fl_set. rewrite N.lor_spec, Ib by lia.
      destruct (Nat.eq_dec s' s) as [-> |Hss].
      - rewrite N1 by lia. destruct (Nat.eqb_spec k n) as [-> |Hne].
        + rewrite Nat.ltb_irrefl, (proj2 (Nat.ltb_lt n (S n))) by lia. rewrite <- He by easy. now rewrite Ht.
        + rewrite orb_false_r. f_equal. destruct (Nat.ltb_spec k n), (Nat.ltb_spec k (S n)); try lia; reflexivity.
      - rewrite N2 by lia. rewrite orb_false_r. destruct (Nat.eq_dec k n) as [-> |Hne].
        + rewrite Nat.ltb_irrefl. rewrite Hf by easy. now rewrite !andb_false_r.
        + f_equal. destruct (Nat.ltb_spec k n), (Nat.ltb_spec k (S n)); try lia; reflexivity. }
    assert (G0 : sgn1 (f_per f n) (dhalf (f_dom f) n) (dr n) s = false ->
      N.testbit bd (N.of_nat (7 + 3 * s + k)) =
        (k <? S n)%nat && sgn1 (f_per f k) (dhalf (f_dom f) k) (dr k) s).
    { intros Hf. rewrite Ib by lia. destruct (Nat.eq_dec k n) as [-> |Hne].
      + rewrite Nat.ltb_irrefl. rewrite Hf by easy. now rewrite !andb_false_r.
      + f_equal. destruct (Nat.ltb_spec k n), (Nat.ltb_spec k (S n)); try lia; reflexivity. }
    unfold sgn1 at 1 in G0. unfold sgn1 at 1 2 in G.
    destruct (f_per f n); [|now apply G0].
    destruct (rltb (dhalf (f_dom f) n) (dr n)) eqn:E1; [|destruct (rltb (dr n) (- dhalf (f_dom f) n)) eqn:E2]; cbn [fst].
    + apply (G true 1%nat); [lia| |destruct Y as [-> | -> ]; cbn; congruence|easy].
      intros <-. reflexivity.
    + apply (G true 0%nat); [lia| |destruct Y as [-> | -> ]; cbn; congruence|easy].
      intros <-. reflexivity.
    + apply G0. destruct Y as [-> | -> ]; reflexivity.
  - intros i. assert (K : forall s, (s < 2)%nat -> N.testbit (fl_set bd (perflag n s)) i = true -> (7 <= i < 13)%N).
    { intros s Hs. unfold fl_set. rewrite N.lor_spec, orb_true_iff. intros [H|H]; [now apply Ih|].
      rewrite perflag_bit in H by lia. apply N.eqb_eq in H. lia. }
    destruct (f_per f n); [|apply Ih].
    destruct (rltb (dhalf (f_dom f) n) (dr n)); [apply (K 1%nat); lia|].
    destruct (rltb (dr n) (- dhalf (f_dom f) n)); [apply (K 0%nat); lia|apply Ih].
Qed.

(** Both versions agree, and the third function moves the position by the same amount. *)
Lemma apdc : forall n f r dr,
  let '(bd, r', dr') := ApplyPeriodicDistanceCorrection n f r dr in
  bd = fst (GF_NearestPeriodicVector n f dr) /\
  (forall k, dr' k = snd (GF_NearestPeriodicVector n f dr) k) /\
  (forall k, r' k - r k = dr' k - dr k).
Proof.
  intros n f r dr. unfold ApplyPeriodicDistanceCorrection, GF_NearestPeriodicVector.
  destruct (f_anyper f); [|cbn; split; [reflexivity|split; [reflexivity|intros; lra]]].
  induction n; [cbn; split; [reflexivity|split; [reflexivity|intros; lra]]|].
  rewrite !loopk_S. match goal with |- context [loopk n ?b (flag_none, r, dr)] => destruct (loopk n b (flag_none, r, dr)) as [[bd r'] d'] end.
  match goal with |- context [loopk n ?b (flag_none, dr)] => destruct (loopk n b (flag_none, dr)) as [bd2 d2] end. cbn [fst snd] in IHn.
  destruct IHn as (-> & Ed & Er).
  assert (K : forall x, (forall k, vset d' n (d' n + x) k = vset d2 n (d2 n + x) k) /\
     (forall k, vset r' n (r' n + x) k - r k = vset d' n (d' n + x) k - dr k)).
  { intros x. split; intros k; unfold vset; destruct (Nat.eqb_spec k n); subst; try rewrite Ed; auto.
    - specialize (Er n). rewrite Ed in Er. lra.
    - specialize (Er k). rewrite Ed in Er. lra. }
  rewrite <- (Ed n).
  destruct (f_per f n); [|cbn; auto].
  destruct (rltb (dhalf (f_dom f) n) (d' n)); [|destruct (rltb (d' n) (- dhalf (f_dom f) n))]; cbn [fst snd].
  - split; [reflexivity|]. split; [|apply K]. intros k. rewrite (proj1 (K _)). unfold vset.
    destruct (Nat.eqb k n); [|reflexivity]. rewrite Ed. lra.
  - split; [reflexivity|]. split; [|apply K]. intros k. rewrite (proj1 (K _)). unfold vset.
    destruct (Nat.eqb k n); [|reflexivity]. now rewrite Ed.
  - split; [reflexivity|]. auto.
Qed.
Lemma any_flag : forall bd, (forall i, N.testbit bd i = true -> (7 <= i < 13)%N) ->
  (is_periodic bd = true <-> exists i, N.testbit bd i = true).
Proof.
  intros bd H. unfold is_periodic, fl_check. rewrite negb_true_iff, N.eqb_neq.
  assert (E : N.land bd periodic_boundary = bd).
  { apply N.bits_inj. intros i. rewrite N.land_spec. destruct (N.testbit bd i) eqn:T; [|reflexivity].
    apply H in T. change periodic_boundary with (N.land (N.ones 13) (N.lnot (N.ones 7) 13)).
    assert (i = 7 \/ i = 8 \/ i = 9 \/ i = 10 \/ i = 11 \/ i = 12)%N as X by lia.
    repeat (destruct X as [-> |X]; [reflexivity|]). subst. reflexivity. }
  rewrite E. split.
  - intros Hne. destruct bd as [|p]; [congruence|]. exists (N.log2 (N.pos p)). now apply N.bit_log2.
  - intros (i & Hi) ->. rewrite N.bits_0 in Hi. discriminate.
Qed.
