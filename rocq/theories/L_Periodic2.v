From Verif Require Import Prelude Vec M_Box S_Box L_Box M_Util M_Periodic S_Periodic L_Periodic.
From Coq Require Import Reals Lra NArith.
Local Open Scope R_scope.

Lemma sq_abs_le : forall x y, Rabs x <= Rabs y -> x * x <= y * y.
Proof. intros x y. unfold Rabs. destruct (Rcase_abs x), (Rcase_abs y); intros; nra. Qed.
Lemma norm_mono : forall n a b, (forall k, (k < n)%nat -> Rabs (a k) <= Rabs (b k)) -> norm n a <= norm n b.
Proof.
  intros n a b H. unfold norm. apply sqrt_le_1_alt. unfold dot. apply sumf_le. intros k Hk.
  now apply sq_abs_le, H.
Qed.

Section NEAREST.
Variables (n : nat) (lo hi : vec) (bl bnr : nat -> boundary).
Hypothesis Hbox : forall k, (k < n)%nat -> lo k < hi k.
Let b := mkbox lo hi bl bnr.

Lemma near_all : forall d d' : vec, (forall k, (k < n)%nat -> Rabs (d k) <= 3 * dhalf b k) ->
  (forall k, (k < n)%nat -> d' k = d k + near1 (perb b k) (dsize b k) (dhalf b k) (d k)) ->
  image_of n b d d' /\
  (forall k, (k < n)%nat -> periodic_dir b k -> Rabs (d' k) <= dhalf b k) /\
  (forall d'', image_of n b d d'' -> forall k, (k < n)%nat -> Rabs (d' k) <= Rabs (d'' k)).
Proof.
  intros d d' Hd E.
  assert (H1 : image_of n b d d').
  { intros k Hk. specialize (E k Hk). destruct (perb b k) eqn:P.
    - left. split; [now apply perb_true|]. destruct (near1_int true (dsize b k) (dhalf b k) (d k)) as (z & Ez).
      exists z. now rewrite <- Ez.
    - right. split; [now apply perb_false|]. rewrite E. unfold near1. lra. }
  assert (H2 : forall k, (k < n)%nat -> periodic_dir b k -> Rabs (d' k) <= dhalf b k).
  { intros k Hk P. apply perb_true in P. rewrite (E k Hk), P. apply near1_spec; [| |now apply Hd].
    - cbn. specialize (Hbox k Hk). lra.
    - cbn. lra. }
  split; [exact H1|]. split; [exact H2|].
  intros d'' H k Hk. specialize (H k Hk). specialize (H1 k Hk).
  destruct H as [(P & z & Ez)|(P & Ez)], H1 as [(P' & z' & Ez')|(P' & Ez')]; try easy.
  - rewrite Ez. replace (d k + IZR z * dsize b k) with (d' k + IZR (z - z') * dsize b k).
    + apply (half_nearest _ (dhalf b k)); [| |now apply H2]; cbn; [specialize (Hbox k Hk); lra|lra].
    + rewrite Ez', minus_IZR. lra.
  - rewrite Ez, Ez'. lra.
Qed.
Lemma in_dom_sep : forall x y, in_box n lo hi x -> in_box n lo hi y ->
  forall k, (k < n)%nat -> Rabs (vsub y x k) <= 3 * dhalf b k.
Proof.
  intros x y Hx Hy k Hk. specialize (Hx k Hk). specialize (Hy k Hk). specialize (Hbox k Hk). cbn. unfold vsub.
  unfold Rabs. destruct Rcase_abs; lra.
Qed.

Theorem npv_nearest : forall x y junk, in_box n lo hi x -> in_box n lo hi y ->
  let d := vsub y x in
  let '(d', c) := NearestPeriodicVector n b d junk in
  image_of n b d d' /\
  (forall k, (k < n)%nat -> periodic_dir b k -> Rabs (d' k) <= dhalf b k) /\
  (forall d'', image_of n b d d'' -> norm n d' <= norm n d'') /\
  (forall k, (k < n)%nat -> c k = d' k - d k).
Proof.
  intros x y junk Hx Hy d. destruct (NearestPeriodicVector n b d junk) as [d' c] eqn:E.
  assert (E1 : forall k, (k < n)%nat -> d' k = d k + near1 (perb b k) (dsize b k) (dhalf b k) (d k)).
  { intros k Hk. assert (T := npv_dr n b d junk k). rewrite E in T. cbn [fst] in T. rewrite T.
    now rewrite (proj2 (Nat.ltb_lt k n)). }
  destruct (near_all d d' (in_dom_sep x y Hx Hy) E1) as (A & B & C).
  split; [exact A|]. split; [exact B|]. split.
  - intros d'' H. apply norm_mono. now apply C.
  - intros k Hk. rewrite E1 by easy. assert (T := npv_corr n b d junk k). rewrite E in T. cbn [snd] in T. rewrite T.
    rewrite (proj2 (Nat.ltb_lt k n)) by easy. lra.
Qed.

Hypothesis Hn : (n <= 3)%nat.
Variable f : finder.
Hypothesis Hf : mk_finder n b = Ok f.

Lemma gf_npv' : forall d,
  (forall k, (k < n)%nat -> snd (GF_NearestPeriodicVector n f d) k = d k + near1 (perb b k) (dsize b k) (dhalf b k) (d k)) /\
  (forall k s, (k < 3)%nat -> (s < 2)%nat ->
     N.testbit (fst (GF_NearestPeriodicVector n f d)) (N.of_nat (7 + 3 * s + k)) =
       ((k <? n)%nat && sgn1 (perb b k) (dhalf b k) (d k) s)) /\
  (forall i, N.testbit (fst (GF_NearestPeriodicVector n f d)) i = true -> (7 <= i < 13)%N).
Proof.
  intros d. destruct (mk_finder_ok n b f Hf) as (Ed & Ep & Ek & Ea).
  assert (Hany : f_anyper f = false -> forall k, (k < n)%nat -> f_per f k = false).
  { intros H k Hk. rewrite Ek by easy. destruct (perb b k) eqn:P; [|easy].
    assert (f_anyper f = true) by (apply Ea; eauto). congruence. }
  destruct (gf_npv n f d Hn Hany) as (A & B & C). rewrite Ed in A, B. split; [|split; [|exact C]].
  - intros k Hk. rewrite A, (proj2 (Nat.ltb_lt k n)), Ek by easy. reflexivity.
  - intros k s Hk Hs. rewrite B by easy. destruct (Nat.ltb_spec k n); [|reflexivity]. now rewrite Ek.
Qed.

Theorem gf_nearest : forall x y, in_box n lo hi x -> in_box n lo hi y ->
  let d := vsub y x in
  let '(bd, d') := GF_NearestPeriodicVector n f d in
  image_of n b d d' /\
  (forall k, (k < n)%nat -> periodic_dir b k -> Rabs (d' k) <= dhalf b k) /\
  (forall d'', image_of n b d d'' -> norm n d' <= norm n d'') /\
  (forall k, (k < n)%nat -> N.testbit bd (N.of_nat (7 + k)) = true <-> d' k = d k + dsize b k) /\
  (forall k, (k < n)%nat -> N.testbit bd (N.of_nat (10 + k)) = true <-> d' k = d k - dsize b k) /\
  (is_periodic bd = true <-> exists k, (k < n)%nat /\ d' k <> d k).
Proof.
  intros x y Hx Hy d. destruct (gf_npv' d) as (E1 & E2 & E3).
  destruct (GF_NearestPeriodicVector n f d) as [bd d']. cbn [fst snd] in *.
  destruct (near_all d d' (in_dom_sep x y Hx Hy) E1) as (A & B & C).
  split; [exact A|]. split; [exact B|]. split; [intros d'' H; apply norm_mono; now apply C|].
  assert (F0 : forall k, (k < n)%nat -> N.testbit bd (N.of_nat (7 + k)) = true <-> d' k = d k + dsize b k).
  { intros k Hk. change (7 + k)%nat with (7 + 3 * 0 + k)%nat. rewrite (E2 k 0%nat) by lia. rewrite (proj2 (Nat.ltb_lt k n)) by easy.
    rewrite (E1 k Hk). unfold sgn1, near1. cbn [Nat.eqb]. specialize (Hbox k Hk).
    assert (S0 : 0 < dsize b k) by (cbn; lra). assert (S1 : dhalf b k = 1/2 * dsize b k) by reflexivity.
    destruct (perb b k); [|cbn; split; [discriminate|lra]].
    destruct (rltb (dhalf b k) (d k)) eqn:U1; [|destruct (rltb (d k) (- dhalf b k)) eqn:U2];
      cbn [andb negb]; split; intros; try discriminate; try reflexivity; try lra. }
  assert (F1 : forall k, (k < n)%nat -> N.testbit bd (N.of_nat (10 + k)) = true <-> d' k = d k - dsize b k).
  { intros k Hk. change (10 + k)%nat with (7 + 3 * 1 + k)%nat. rewrite (E2 k 1%nat) by lia. rewrite (proj2 (Nat.ltb_lt k n)) by easy.
    rewrite (E1 k Hk). unfold sgn1, near1. cbn [Nat.eqb]. specialize (Hbox k Hk).
    assert (S0 : 0 < dsize b k) by (cbn; lra). assert (S1 : dhalf b k = 1/2 * dsize b k) by reflexivity.
    destruct (perb b k); [|cbn; split; [discriminate|lra]].
    destruct (rltb (dhalf b k) (d k)) eqn:U1; [|destruct (rltb (d k) (- dhalf b k)) eqn:U2];
      cbn [andb negb]; split; intros; try discriminate; try reflexivity; try lra. }
  split; [exact F0|]. split; [exact F1|].
  rewrite (any_flag bd E3). split.
  - intros (i & Hi). assert (R := E3 i Hi).
    assert (exists k s, (k < 3)%nat /\ (s < 2)%nat /\ i = N.of_nat (7 + 3 * s + k)) as (k & s & Hk & Hs & ->).
    { assert (i < 10 \/ 10 <= i)%N as [H|H] by lia.
      - exists (N.to_nat (i - 7)), 0%nat. lia.
      - exists (N.to_nat (i - 10)), 1%nat. lia. }
    assert (k < n)%nat as Hkn.
    { rewrite E2 in Hi by lia. apply andb_true_iff in Hi. apply Nat.ltb_lt. apply Hi. }
    exists k. split; [easy|]. specialize (Hbox k Hkn). assert (S0 : 0 < dsize b k) by (cbn; lra).
    assert (s = 0 \/ s = 1)%nat as [-> | -> ] by lia; [apply F0 in Hi|apply F1 in Hi]; auto; lra.
  - intros (k & Hk & Hne). destruct (Req_dec (d' k) (d k + dsize b k)) as [E|E].
    + eexists. apply F0; eauto.
    + exists (N.of_nat (10 + k)). apply F1; auto. rewrite E1 in * by easy. unfold near1 in *.
      destruct (perb b k); [destruct (rltb (dhalf b k) (d k)); [|destruct (rltb (d k) (- dhalf b k))]|]; lra.
Qed.

(** ** PeriodicBoxOverlap *)
Lemma pdc : forall d,
  fst (PeriodicDistanceCorrection n f d) = fst (GF_NearestPeriodicVector n f d) /\
  (forall k, (k < n)%nat -> snd (PeriodicDistanceCorrection n f d) k =
     if f_anyper f && f_per f k then Some (near1 (f_per f k) (dsize (f_dom f) k) (dhalf (f_dom f) k) (d k)) else None).
Proof.
  intros d. unfold PeriodicDistanceCorrection, GF_NearestPeriodicVector. destruct (f_anyper f); [|split; reflexivity].
  cbn [andb]. clear Hf Hn Hbox. 
  assert (forall m, fst (loopk m (fun k '(bound, c) =>
      if f_per f k then
        if rltb (dhalf (f_dom f) k) (d k) then (fl_set bound (perflag k 1), oset c k (- dsize (f_dom f) k))
        else if rltb (d k) (- dhalf (f_dom f) k) then (fl_set bound (perflag k 0), oset c k (dsize (f_dom f) k))
        else (bound, oset c k 0)
      else (bound, c)) (flag_none, fun _ => None)) = fst (loopk m (fun k '(bound, dr) =>
      if f_per f k then
        if rltb (dhalf (f_dom f) k) (dr k) then (fl_set bound (perflag k 1), vset dr k (dr k - dsize (f_dom f) k))
        else if rltb (dr k) (- dhalf (f_dom f) k) then (fl_set bound (perflag k 0), vset dr k (dr k + dsize (f_dom f) k))
        else (bound, dr)
      else (bound, dr)) (flag_none, d)) /\
    (forall k, (m <= k)%nat -> snd (loopk m (fun k '(bound, dr) =>
      if f_per f k then
        if rltb (dhalf (f_dom f) k) (dr k) then (fl_set bound (perflag k 1), vset dr k (dr k - dsize (f_dom f) k))
        else if rltb (dr k) (- dhalf (f_dom f) k) then (fl_set bound (perflag k 0), vset dr k (dr k + dsize (f_dom f) k))
        else (bound, dr)
      else (bound, dr)) (flag_none, d)) k = d k) /\
    (forall k, (k < m)%nat -> snd (loopk m (fun k '(bound, c) =>
      if f_per f k then
        if rltb (dhalf (f_dom f) k) (d k) then (fl_set bound (perflag k 1), oset c k (- dsize (f_dom f) k))
        else if rltb (d k) (- dhalf (f_dom f) k) then (fl_set bound (perflag k 0), oset c k (dsize (f_dom f) k))
        else (bound, oset c k 0)
      else (bound, c)) (flag_none, fun _ => None)) k =
        if f_per f k then Some (near1 (f_per f k) (dsize (f_dom f) k) (dhalf (f_dom f) k) (d k)) else None) /\
    (forall k, (m <= k)%nat -> snd (loopk m (fun k '(bound, c) =>
      if f_per f k then
        if rltb (dhalf (f_dom f) k) (d k) then (fl_set bound (perflag k 1), oset c k (- dsize (f_dom f) k))
        else if rltb (d k) (- dhalf (f_dom f) k) then (fl_set bound (perflag k 0), oset c k (dsize (f_dom f) k))
        else (bound, oset c k 0)
      else (bound, c)) (flag_none, fun _ => None)) k = None)) as X.
  { induction m.
    - split; [reflexivity|]. split; [reflexivity|]. split; [intros; lia|reflexivity].
    - rewrite !loopk_S.
      match goal with |- context [loopk m ?g (flag_none, fun _ => None)] => destruct (loopk m g (flag_none, fun _ => None)) as [bd c] end.
      match goal with |- context [loopk m ?g (flag_none, d)] => destruct (loopk m g (flag_none, d)) as [bd2 d2] end.
      cbn [fst snd] in *. destruct IHm as (-> & I2 & I3 & I4). rewrite (I2 m) by lia.
      assert (V : forall x k, (S m <= k)%nat -> vset d2 m x k = d k) by (intros; rewrite vset_ne by lia; apply I2; lia).
      assert (O1 : forall x k, (S m <= k)%nat -> oset c m x k = None).
      { intros x k Hk. unfold oset. rewrite (proj2 (Nat.eqb_neq k m)) by lia. apply I4. lia. }
      assert (O2 : forall x k, (k < S m)%nat -> f_per f m = true ->
         x = near1 true (dsize (f_dom f) m) (dhalf (f_dom f) m) (d m) -> oset c m x k =
        if f_per f k then Some (near1 (f_per f k) (dsize (f_dom f) k) (dhalf (f_dom f) k) (d k)) else None).
      { intros x k Hk Hp ->. unfold oset. destruct (Nat.eqb_spec k m); [subst; now rewrite Hp|]. apply I3. lia. }
      unfold near1 in O2 at 1.
      destruct (f_per f m) eqn:P; [destruct (rltb (dhalf (f_dom f) m) (d m)); [|destruct (rltb (d m) (- dhalf (f_dom f) m))]|]; cbn [fst snd].
      + repeat split; auto.
      + repeat split; auto.
      + split; [reflexivity|]. split; [intros; apply I2; lia|]. split; auto.
      + split; [reflexivity|]. split; [intros; apply I2; lia|]. split; [|intros; apply I4; lia].
        intros k Hk. destruct (Nat.eq_dec k m) as [-> |]; [rewrite P; apply I4; lia|apply I3; lia]. }
  destruct (X n) as (X1 & _ & X3 & _). split; [exact X1|exact X3].
Qed.
Lemma pbox_loop : forall m (corr : nat -> option R) (g : vec) min2 max2 p0 q0, (forall k, (k < m)%nat -> corr k = Some (g k)) ->
  exists pmin pmax, loopk m (fun k (acc : res (vec * vec)) =>
        let! (pmin, pmax) := acc in
        match corr k with
        | None => UB
        | Some x => Ok (vset pmin k (min2 k + x), vset pmax k (max2 k + x))
        end) (Ok (p0, q0)) = Ok (pmin, pmax) /\
    forall k, (k < m)%nat -> pmin k = min2 k + g k /\ pmax k = max2 k + g k.
Proof.
  clear. induction m; intros.
  - exists p0, q0. split; [reflexivity|]. intros; lia.
  - destruct (IHm corr g min2 max2 p0 q0) as (pm & px & E & K); [intros; apply H; lia|].
    rewrite loopk_S, E. cbn [bind]. rewrite (H m) by lia. do 2 eexists. split; [reflexivity|].
    intros k Hk. unfold vset. destruct (Nat.eqb_spec k m); [subst; auto|]. apply K. lia.
Qed.

Lemma pbo_partial : forall min1 max1 min2 max2, (1 <= n)%nat ->
  (forall k, (k < n)%nat -> min1 k <= max1 k) -> (forall k, (k < n)%nat -> min2 k <= max2 k) ->
  (forall k, (k < n)%nat -> Rabs (1/2 * ((max2 k + min2 k) - (max1 k + min1 k))) <= 3 * dhalf b k) ->
  (forall k, (k < n)%nat -> periodic_dir b k) \/ (forall k, (k < n)%nat -> ~ periodic_dir b k) ->
  exists r, PeriodicBoxOverlap n f min1 max1 min2 max2 = Ok r /\ (r = true <-> images_meet n b min1 max1 min2 max2).
Proof.
  intros min1 max1 min2 max2 Hn1 H1 H2 Hd Hall.
  destruct (mk_finder_ok n b f Hf) as (Ed & Ep & Ek & Ea).
  set (d := fun k => 1/2 * ((max2 k + min2 k) - (max1 k + min1 k))) in *.
  destruct (gf_npv' d) as (E1 & E2 & E3).
  unfold PeriodicBoxOverlap. destruct Hall as [Hall|Hall].
  - assert (f_anyper f = true) as Hany. { apply Ea. exists 0%nat. split; [lia|]. apply perb_true, Hall. lia. }
    rewrite Hany. cbn [negb]. fold d. destruct (pdc d) as (P1 & P2).
    destruct (PeriodicDistanceCorrection n f d) as [bd corr]. cbn [fst snd] in P1, P2.
    set (g := fun k => near1 true (dsize b k) (dhalf b k) (d k)).
    assert (Q2 : forall k, (k < n)%nat -> corr k = Some (g k)).
    { intros k Hk. rewrite P2, Hany, Ek by easy. rewrite (proj2 (perb_true b k)) by now apply Hall. rewrite Ed. reflexivity. }
    assert (EQ : forall k, (k < n)%nat -> near1 (perb b k) (dsize b k) (dhalf b k) (d k) = g k).
    { intros k Hk. unfold g. now rewrite (proj2 (perb_true b k)) by now apply Hall. }
    assert (KEY : forall pm px, (forall k, (k < n)%nat -> pm k = min2 k + g k /\ px k = max2 k + g k) ->
       (BoxOverlap n min1 max1 pm px = true <-> images_meet n b min1 max1 min2 max2)).
    { intros pm px Hpm. rewrite BoxOverlap_correct; [|lia|easy|].
      2:{ intros k Hk. destruct (Hpm k Hk) as (-> & -> ). specialize (H2 k Hk). lra. }
      split.
      - intros (x & Hx1 & Hx2). exists x, (fun k => x k - g k). split; [exact Hx1|]. split.
        + intros k Hk. specialize (Hx2 k Hk). destruct (Hpm k Hk) as (Ea1 & Ea2). rewrite Ea1, Ea2 in Hx2. lra.
        + intros k Hk. left. split; [now apply Hall|].
          destruct (near1_int true (dsize b k) (dhalf b k) (d k)) as (z & Ez). exists (-z)%Z. unfold g. rewrite Ez, opp_IZR. lra.
      - intros (x & x' & Hx & Hx' & Him).
        (* the corrected centre distance is the smallest *)
        exists (fun k => Rmax (min1 k) (pm k)).
        assert (AX : forall k, (k < n)%nat -> min1 k <= px k /\ pm k <= max1 k).
        { intros k Hk. destruct (Hpm k Hk) as (Ea1 & Ea2). rewrite Ea1, Ea2.
          specialize (Hx k Hk). specialize (Hx' k Hk). specialize (H1 k Hk). specialize (H2 k Hk).
          destruct (Him k Hk) as [(_ & z & Ez)|(C & _)]; [|exfalso; now apply C, Hall].
          destruct (near1_int true (dsize b k) (dhalf b k) (d k)) as (z' & Ez').
          assert (N1 : Rabs (d k + g k) <= dhalf b k).
          { unfold g. apply near1_spec; [| |now apply Hd]; cbn; [specialize (Hbox k Hk); lra|lra]. }
          assert (N2 : Rabs (d k + g k) <= Rabs (d k + - IZR z * dsize b k)).
          { replace (d k + - IZR z * dsize b k) with (d k + g k + IZR (- z - z') * dsize b k).
            - apply (half_nearest _ (dhalf b k)); [| |exact N1]; cbn; [specialize (Hbox k Hk); lra|lra].
            - unfold g. rewrite Ez', minus_IZR, opp_IZR. lra. }
          assert (N3 : Rabs (d k + - IZR z * dsize b k) <= 1/2 * (max1 k - min1 k) + 1/2 * (max2 k - min2 k)).
          { unfold d. rewrite Ez in Hx'. replace (- IZR z * dsize b k) with (- (IZR z * dsize b k)) by lra.
            generalize dependent (IZR z * dsize b k). intros. unfold Rabs. destruct Rcase_abs; lra. }
          assert (N4 : Rabs (d k + g k) <= 1/2 * (max1 k - min1 k) + 1/2 * (max2 k - min2 k)) by lra.
          unfold d in N4 at 1. clear - N4. unfold Rabs in N4. destruct Rcase_abs; lra. }
        split; intros k Hk; destruct (AX k Hk); destruct (Hpm k Hk) as (Ea1 & Ea2); specialize (H1 k Hk); specialize (H2 k Hk);
          unfold Rmax; destruct Rle_dec; lra. }
    rewrite P1. destruct (is_periodic (fst (GF_NearestPeriodicVector n f d))) eqn:IP.
    + destruct (pbox_loop n corr g min2 max2 (fun _ => 0) (fun _ => 0) Q2) as (pm & px & EL & K).
      match goal with |- context [loopk n ?g0 ?s0] => replace (loopk n g0 s0) with (Ok (pm, px)) by (symmetry; exact EL) end.
      cbn [bind]. eexists. split; [reflexivity|]. now apply KEY.
    + eexists. split; [reflexivity|]. apply KEY. intros k Hk.
      assert (g k = 0) as ->; [|lra].
      destruct (Req_dec (g k) 0) as [|Hne]; [easy|]. exfalso.
      assert (is_periodic (fst (GF_NearestPeriodicVector n f d)) = true); [|congruence].
      apply (any_flag _ E3). unfold g, near1 in Hne.
      destruct (rltb (dhalf b k) (d k)) eqn:U1.
      * exists (N.of_nat (7 + 3 * 1 + k)). rewrite E2 by lia. rewrite (proj2 (Nat.ltb_lt k n)) by easy.
        rewrite (proj2 (perb_true b k)) by now apply Hall. unfold sgn1. cbn [Nat.eqb]. now rewrite U1.
      * destruct (rltb (d k) (- dhalf b k)) eqn:U2; [|lra].
        exists (N.of_nat (7 + 3 * 0 + k)). rewrite E2 by lia. rewrite (proj2 (Nat.ltb_lt k n)) by easy.
        rewrite (proj2 (perb_true b k)) by now apply Hall. unfold sgn1. cbn [Nat.eqb]. now rewrite U1, U2.
  - assert (f_anyper f = false) as Hany.
    { destruct (f_anyper f); [|easy]. destruct (proj1 Ea eq_refl) as (k & Hk & P). apply perb_true in P. now apply Hall in P. }
    rewrite Hany. cbn [negb]. eexists. split; [reflexivity|].
    rewrite BoxOverlap_correct by (auto; lia). split.
    + intros (x & A & B). exists x, x. split; [easy|]. split; [easy|]. intros k Hk. right. split; [now apply Hall|reflexivity].
    + intros (x & x' & A & B & C). exists x. split; [easy|]. intros k Hk. destruct (C k Hk) as [(P & _)|(_ & E)].
      * now apply Hall in P.
      * rewrite <- E. now apply B.
Qed.
End NEAREST.

(** Mixed boundaries: the correction of a non-periodic direction is read uninitialised. *)
Theorem pbo_refuted : exists lo hi bl br' f min1 max1 min2 max2,
  (forall k, (k < 2)%nat -> lo k < hi k) /\ two_sided 2 (mkbox lo hi bl br') /\
  mk_finder 2 (mkbox lo hi bl br') = Ok f /\
  (forall k, (k < 2)%nat -> lo k <= min1 k <= max1 k /\ max1 k <= hi k) /\
  (forall k, (k < 2)%nat -> lo k <= min2 k <= max2 k /\ max2 k <= hi k) /\
  PeriodicBoxOverlap 2 f min1 max1 min2 max2 = UB.
Proof.
  pose (bd := fun k : nat => match k with 0%nat => periodicB | _ => openB end).
  exists (fun _ => 0), (fun _ => 10), bd, bd.
  eexists. exists (fun _ => 0), (fun _ => 1), (fun _ => 9), (fun _ => 10).
  split; [intros; lra|]. split; [intros k Hk; unfold mkbox; cbn; tauto|]. split; [reflexivity|].
  split; [intros; lra|]. split; [intros; lra|].
  unfold PeriodicBoxOverlap. cbn [f_anyper]. change (negb _) with false. cbn [negb].
  unfold PeriodicDistanceCorrection. match goal with |- context [if f_anyper ?c then _ else _] => change (f_anyper c) with true end. cbn match.
  unfold loopk at 1. cbn [seq fold_left f_per f_dom blhs mkbox bd beq dhalf dsize].
  assert (rltb (1 / 2 * (10 - 0)) (1 / 2 * (10 + 9 - (1 + 0))) = true) as -> by (apply rltb_true; lra).
  change (is_periodic _) with true. cbn match. reflexivity.
Qed.

(** ** CheckBoundaries *)
Lemma loopk_inv : forall S (P : nat -> S -> Prop) n body s, P 0%nat s ->
  (forall k s, (k < n)%nat -> P k s -> P (Datatypes.S k) (body k s)) -> P n (loopk n body s).
Proof.
  induction n; intros body s H0 H; [exact H0|]. rewrite loopk_S. apply H; [lia|]. apply IHn; [exact H0|].
  intros. apply H; [lia|easy].
Qed.
Lemma check_dir_other : forall b k p j, j <> k -> same_dir j p (check_dir b k p).
Proof.
  intros b k p j Hj. unfold check_dir.
  assert (A : forall q x, same_dir j p q -> same_dir j p (shiftk k x q)).
  { intros q x H. unfold same_dir, shiftk in *. cbn. rewrite !vset_ne by easy. exact H. }
  assert (B : forall q x, same_dir j p q -> same_dir j p (reflk k x q)).
  { intros q x H. unfold same_dir, reflk in *. cbn. rewrite !vset_ne by easy. exact H. }
  assert (C : same_dir j p p) by (unfold same_dir; tauto).
  assert (D : same_dir j p (check_lhs b k p)).
  { unfold check_lhs. destruct (rltb (br p k) (dmin b k)); [|exact C].
    destruct (beq (blhs b k) periodicB); destruct (_ || _); auto. }
  unfold check_rhs. destruct (rltb (dmax b k) (br (check_lhs b k p) k)); [|exact D].
  destruct (beq (brhs b k) periodicB); destruct (_ || _); auto.
Qed.
Lemma same_dir_trans : forall k p q r, same_dir k p q -> same_dir k q r -> same_dir k p r.
Proof. unfold same_dir. intuition congruence. Qed.

Lemma check_dir_spec : forall lo hi bl br' k p, lo k < hi k ->
  dir_spec (lo k) (hi k) (bl k) (br' k) k p (check_dir (mkbox lo hi bl br') k p).
Proof.
  intros lo hi bl br' k p Hb. unfold check_dir, check_rhs, check_lhs. cbn [dmin dmax blhs brhs dsize mkbox].
  assert (N : forall x y, ~ (x < y) -> rltb x y = false) by (intros; apply rltb_false; lra).
  assert (Y : forall x y, x < y -> rltb x y = true) by (intros; now apply rltb_true).
  assert (SD : same_dir k p p) by (unfold same_dir; tauto).
  unfold dir_spec, reflecting.
  split; [|split; [|split; [|split; [|split; [|split]]]]].
  - intros H. rewrite (N (br p k) (lo k)) by lra. rewrite (N (hi k) (br p k)) by lra. exact SD.
  - intros H ->. rewrite (Y (br p k) (lo k)) by lra. cbn [beq orb]. rewrite (N (hi k) (br p k)) by lra. exact SD.
  - intros H ->. rewrite (N (br p k) (lo k)) by lra. rewrite (Y (hi k) (br p k)) by lra. exact SD.
  - intros H ->. rewrite (Y (br p k) (lo k)) by lra. cbn [beq orb]. rewrite (N (hi k)) by (unfold shiftk; cbn [br]; rewrite vset_eq; lra).
    unfold moved_dir, shiftk; cbn [br br0 bv bv0 ba ba0]; rewrite !vset_eq.
    repeat split; lra.
  - intros H ->. rewrite (N (br p k) (lo k)) by lra. rewrite (Y (hi k) (br p k)) by lra. cbn [beq orb].
    unfold moved_dir, shiftk; cbn [br br0 bv bv0 ba ba0]; rewrite !vset_eq.
    repeat split; lra.
  - intros H HR. rewrite (Y (br p k) (lo k)) by lra.
    assert ((beq (bl k) mirrorB || beq (bl k) wallB) = true /\ beq (bl k) periodicB = false) as (E1 & E2)
      by (destruct HR as [-> | -> ]; split; reflexivity).
    rewrite E1, E2. rewrite (N (hi k)) by (unfold reflk; cbn [br]; rewrite vset_eq; lra).
    unfold mirrored_dir, reflk; cbn [br br0 bv bv0 ba ba0]; rewrite !vset_eq. repeat split; lra.
  - intros H HR. rewrite (N (br p k) (lo k)) by lra. rewrite (Y (hi k) (br p k)) by lra.
    assert ((beq (br' k) mirrorB || beq (br' k) wallB) = true /\ beq (br' k) periodicB = false) as (E1 & E2)
      by (destruct HR as [-> | -> ]; split; reflexivity).
    rewrite E1, E2. unfold mirrored_dir, reflk; cbn [br br0 bv bv0 ba ba0]; rewrite !vset_eq. repeat split; lra.
Qed.
Lemma dir_spec_ext : forall lo hi bl br' k p p' q q', same_dir k p p' -> same_dir k q q' ->
  dir_spec lo hi bl br' k p q -> dir_spec lo hi bl br' k p' q'.
Proof.
  unfold dir_spec, moved_dir, mirrored_dir, same_dir.
  intros lo hi bl br' k p p' q q' (A1 & A2 & A3 & A4 & A5 & A6) (B1 & B2 & B3 & B4 & B5 & B6).
  rewrite A1, A2, A3, A4, A5, A6, B1, B2, B3, B4, B5, B6. tauto.
Qed.
Theorem check_particle : forall n lo hi bl br' p, (forall k, (k < n)%nat -> lo k < hi k) ->
  let q := loopk n (check_dir (mkbox lo hi bl br')) p in
  (forall k, (k < n)%nat -> dir_spec (lo k) (hi k) (bl k) (br' k) k p q) /\
  (forall k, (n <= k)%nat -> same_dir k p q).
Proof.
  intros n lo hi bl br' p Hb. cbv zeta.
  apply (loopk_inv bpart (fun m q => (forall k, (k < m)%nat -> dir_spec (lo k) (hi k) (bl k) (br' k) k p q) /\
                                    (forall k, (m <= k)%nat -> same_dir k p q))).
  - split; intros; [lia|]. unfold same_dir; tauto.
  - intros m q Hm (I1 & I2). split.
    + intros k Hk. destruct (Nat.eq_dec k m) as [-> |Hne].
      * assert (S1 := I2 m (le_n m)). apply (dir_spec_ext _ _ _ _ _ q p (check_dir (mkbox lo hi bl br') m q) _).
        -- unfold same_dir in *. intuition congruence.
        -- unfold same_dir. tauto.
        -- apply check_dir_spec. now apply Hb.
      * apply (dir_spec_ext _ _ _ _ _ p p q _); [unfold same_dir; tauto|now apply check_dir_other|]. apply I1. lia.
    + intros k Hk. apply (same_dir_trans k p q); [apply I2; lia|]. apply check_dir_other. lia.
Qed.
Lemma dir_spec_open : forall lo hi k p, lo < hi -> dir_spec lo hi openB openB k p p.
Proof.
  intros lo hi k p Hb. assert (SD : same_dir k p p) by (unfold same_dir; tauto).
  unfold dir_spec, reflecting. split; [easy|]. split; [easy|]. split; [easy|]. split; [easy|]. split; [easy|].
  split; intros _ [H|H]; discriminate.
Qed.
Theorem CheckBoundaries_spec : forall n lo hi bl br' ps, (n <= 3)%nat -> (forall k, (k < n)%nat -> lo k < hi k) ->
  length (CheckBoundaries n (mkbox lo hi bl br') ps) = length ps /\
  forall i p, nth_error ps i = Some p ->
    exists q, nth_error (CheckBoundaries n (mkbox lo hi bl br') ps) i = Some q /\
      (forall k, (k < n)%nat -> dir_spec (lo k) (hi k) (bl k) (br' k) k p q) /\
      (forall k, (n <= k)%nat -> same_dir k p q).
Proof.
  intros n lo hi bl br' ps Hn Hb. unfold CheckBoundaries. destruct (all_open (mkbox lo hi bl br')) eqn:E.
  - split; [reflexivity|]. intros i p Hi. exists p. split; [easy|].
    unfold all_open in E. cbn [blhs brhs mkbox] in E. rewrite !andb_true_iff, !beq_true in E.
    destruct E as (((((E0 & E1) & E2) & E3) & E4) & E5).
    split; [|intros; unfold same_dir; tauto]. intros k Hk.
    assert (bl k = openB /\ br' k = openB) as (-> & -> ).
    { assert (k = 0 \/ k = 1 \/ k = 2)%nat as X by lia. destruct X as [-> |[-> | -> ]]; auto. }
    apply dir_spec_open. now apply Hb.
  - split; [apply map_length|]. intros i p Hi. eexists. split; [apply map_nth_error; exact Hi|].
    now apply check_particle.
Qed.
