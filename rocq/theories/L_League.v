(** The calendar is a round robin; the exchange does not deadlock. *)
From Verif Require Import Prelude L_Prelude S_Tree L_Tree M_League S_League.
Local Open Scope Z_scope.
(** Here lia need not look into divisions (set back at the end of the file). *)
Ltac Zify.zify_post_hook ::= idtac.

(** Entry of a matrix. *)
Definition at2 (cal : list (list Z)) (a t : Z) : Z := nth (Z.to_nat t) (nth (Z.to_nat a) cal []) (-1).
Definition shape (n k : Z) (cal : list (list Z)) : Prop := zlen cal = n /\ forall a row, aget cal a = Ok row -> zlen row = k.

Lemma aget_nth : forall A (l : list A) i d, 0 <= i < zlen l -> aget l i = Ok (nth (Z.to_nat i) l d).
Proof.
  intros A l i d H. unfold aget. destruct (Z.ltb_spec i 0); [lia|]. unfold zlen in H. rewrite (nth_error_nth' l d) by lia. reflexivity.
Qed.
Lemma aget_nth_inv : forall A (l : list A) i d x, aget l i = Ok x -> nth (Z.to_nat i) l d = x.
Proof. intros A l i d x H. apply aget_Ok_inv in H as [_ H]. now apply nth_error_nth. Qed.

Lemma meets_at2 : forall n k cal a t b, shape n k cal -> 0 <= a < n -> 0 <= t < k -> meets cal a t b <-> at2 cal a t = b.
Proof.
  intros n k cal a t b [S1 S2] Ha Ht. unfold meets, at2. assert (E : aget cal a = Ok (nth (Z.to_nat a) cal [])) by (apply aget_nth; lia).
  assert (L : zlen (nth (Z.to_nat a) cal []) = k) by (apply (S2 a); exact E). split.
  - intros (row & E1 & E2). rewrite E in E1. injection E1 as <-. now apply aget_nth_inv.
  - intros <-. exists (nth (Z.to_nat a) cal []). split; [exact E|]. apply aget_nth. lia.
Qed.

Lemma set2_ok : forall n k cal i j x, shape n k cal -> 0 <= i < n -> 0 <= j < k ->
  exists cal', set2 cal i j x = Ok cal' /\ shape n k cal' /\
    forall a t, 0 <= a -> 0 <= t -> at2 cal' a t = if (a =? i) && (t =? j) then x else at2 cal a t.
Proof.
  intros n k cal i j x [S1 S2] Hi Hj. destruct (aget_in cal i) as [row E]; [lia|]. pose proof (S2 _ _ E) as L.
  unfold set2. rewrite E. cbn [bind]. rewrite aset_in by lia. cbn [bind]. rewrite aset_in by lia. eexists. split; [reflexivity|].
  assert (EN : nth (Z.to_nat i) cal [] = row) by now apply aget_nth_inv.
  assert (N1 : forall A (l : list A) d i y a, 0 <= i < zlen l -> 0 <= a -> nth (Z.to_nat a) (upd l (Z.to_nat i) y) d = if a =? i then y else nth (Z.to_nat a) l d).
  { intros A l d i0 y a Hi0 Ha. destruct (Z.eqb_spec a i0) as [->|Hne].
    - apply aget_nth_inv with (1 := aget_upd_eq l i0 y Hi0).
    - destruct (Z.ltb_spec a (zlen l)) as [Hl|Hl].
      + apply aget_nth_inv. rewrite aget_upd_ne by lia. apply aget_nth. lia.
      + unfold zlen in Hl. rewrite !nth_overflow; [reflexivity|lia|rewrite length_upd; lia]. }
  split.
  - split; [rewrite zlen_upd; exact S1|]. intros a r Ea. destruct (Z.eq_dec a i) as [->|Hne].
    + rewrite aget_upd_eq in Ea by lia. injection Ea as <-. rewrite zlen_upd. exact L.
    + rewrite aget_upd_ne in Ea; [now apply (S2 a)|lia|congruence].
  - intros a t Ha Ht. unfold at2. rewrite N1 by lia. destruct (Z.eqb_spec a i) as [->|Hne]; cbn [andb]; [|reflexivity].
    rewrite N1 by lia. rewrite EN. reflexivity.
Qed.

Lemma pairs_len : forall n t, 1 <= n -> zlen (pairs_turn n t) = n.
Proof. intros n t H. unfold pairs_turn, zlen. cbn [length]. rewrite map_length, zseq_length. lia. Qed.
Lemma zseq_nth : forall m a i d, (i < m)%nat -> nth i (zseq a m) d = a + Z.of_nat i.
Proof. induction m; intros a i d H; [lia|]. destruct i; cbn [zseq nth]; [lia|]. rewrite IHm by lia. lia. Qed.
Definition team (n t i : Z) : Z := if i =? 0 then n - 1 else (i + t) mod (n - 1).
Lemma pairs_get : forall n t i, 2 <= n -> 0 <= i < n -> aget (pairs_turn n t) i = Ok (team n t i).
Proof.
  intros n t i Hn Hi. rewrite (aget_nth _ _ _ 0) by (rewrite pairs_len; lia). f_equal. unfold pairs_turn, team.
  destruct (Z.eqb_spec i 0) as [->|Hne]; [reflexivity|].
  replace (Z.to_nat i) with (S (Z.to_nat (i - 1))) by lia. cbn [nth].
  rewrite (nth_indep _ 0 ((fun i0 => (i0 + t) mod (n - 1)) 0)) by (rewrite map_length, zseq_length; lia).
  rewrite (map_nth (fun i0 => (i0 + t) mod (n - 1))). rewrite zseq_nth by lia. f_equal. lia.
Qed.
Lemma team_range : forall n t i, 2 <= n -> 0 <= team n t i < n.
Proof. intros n t i H. unfold team. destruct (i =? 0); [lia|]. pose proof (Z.mod_pos_bound (i + t) (n - 1)). lia. Qed.
(** Every team has one place in a turn. *)
Definition place (n t a : Z) : Z := if a =? n - 1 then 0 else (a - t - 1) mod (n - 1) + 1.
Lemma place_range : forall n t a, 2 <= n -> 0 <= place n t a < n.
Proof. intros n t a H. unfold place. destruct (a =? n - 1); [lia|]. pose proof (Z.mod_pos_bound (a - t - 1) (n - 1)). lia. Qed.
Lemma team_place : forall n t a, 2 <= n -> 0 <= a < n -> team n t (place n t a) = a.
Proof.
  intros n t a Hn Ha. unfold team, place. destruct (Z.eqb_spec a (n - 1)) as [->|Hne]; [reflexivity|].
  pose proof (Z.mod_pos_bound (a - t - 1) (n - 1)) as B. destruct (Z.eqb_spec ((a - t - 1) mod (n - 1) + 1) 0); [lia|].
  rewrite <- Z.add_assoc, Zplus_mod_idemp_l. replace (a - t - 1 + (1 + t)) with a by lia. apply Z.mod_small. lia.
Qed.
Lemma place_team : forall n t i, 2 <= n -> 0 <= i < n -> place n t (team n t i) = i.
Proof.
  intros n t i Hn Hi. unfold team, place. destruct (Z.eqb_spec i 0) as [->|Hne]; [now rewrite Z.eqb_refl|].
  pose proof (Z.mod_pos_bound (i + t) (n - 1)) as B. destruct (Z.eqb_spec ((i + t) mod (n - 1)) (n - 1)); [lia|].
  replace ((i + t) mod (n - 1) - t - 1) with ((i + t) mod (n - 1) + (- t - 1)) by lia. rewrite Zplus_mod_idemp_l.
  replace (i + t + (- t - 1)) with (i - 1) by lia. rewrite Z.mod_small; lia.
Qed.

Lemma fill_turn_ok : forall n t, 2 <= n -> n mod 2 = 0 -> 0 <= t < n - 1 -> forall m s cal, shape n (n - 1) cal -> 0 <= s -> s + Z.of_nat m = n / 2 ->
  (forall a, 0 <= a < n -> place n t a < s \/ n - 1 - place n t a < s -> at2 cal a t = team n t (n - 1 - place n t a)) ->
  exists cal', fill_turn m s t (pairs_turn n t) cal = Ok cal' /\ shape n (n - 1) cal' /\
    (forall a, 0 <= a < n -> at2 cal' a t = team n t (n - 1 - place n t a)) /\
    (forall a u, 0 <= a -> 0 <= u -> u <> t -> at2 cal' a u = at2 cal a u).
Proof.
  intros n t Hn He Ht. induction m as [|m IH]; intros s cal SH Hs Hm HI.
  - exists cal. split; [reflexivity|]. split; [exact SH|]. split; [|reflexivity]. intros a Ha. apply HI; [exact Ha|].
    pose proof (place_range n t a Hn). lia.
  - cbn [fill_turn]. rewrite pairs_get by lia. cbn [bind]. rewrite pairs_len by lia. rewrite pairs_get by lia. cbn [bind].
    pose proof (team_range n t s Hn) as R1. pose proof (team_range n t (n - 1 - s) Hn) as R2.
    destruct (set2_ok n (n - 1) cal (team n t s) t (team n t (n - 1 - s)) SH R1 Ht) as (c1 & E1 & S1 & A1). rewrite E1. cbn [bind].
    destruct (set2_ok n (n - 1) c1 (team n t (n - 1 - s)) t (team n t s) S1 R2 Ht) as (c2 & E2 & S2 & A2). rewrite E2. cbn [bind].
    destruct (IH (s + 1) c2) as (c3 & E3 & S3 & A3 & B3); auto; try lia.
    { intros a Ha HP. rewrite A2 by lia. destruct (Z.eqb_spec a (team n t (n - 1 - s))) as [->|Hne].
      - rewrite Z.eqb_refl. cbn [andb]. rewrite place_team by lia. f_equal. lia.
      - cbn [andb]. rewrite A1 by lia. destruct (Z.eqb_spec a (team n t s)) as [->|Hne'].
        + rewrite Z.eqb_refl. cbn [andb]. now rewrite place_team by lia.
        + cbn [andb]. apply HI; [exact Ha|].
          assert (place n t a <> s) by (intros X; apply Hne'; rewrite <- X; symmetry; now apply team_place).
          assert (place n t a <> n - 1 - s) by (intros X; apply Hne; rewrite <- X; symmetry; now apply team_place). lia. }
    exists c3. split; [exact E3|]. split; [exact S3|]. split; [exact A3|]. intros a u Ha Hu Hne. rewrite B3, A2, A1 by lia.
    destruct (Z.eqb_spec u t); [lia|]. now rewrite !andb_false_r.
Qed.

Definition opponent (n a t : Z) : Z := team n t (n - 1 - place n t a).
Lemma fill_turns_ok : forall n, 2 <= n -> n mod 2 = 0 -> forall m t cal, shape n (n - 1) cal -> 0 <= t -> t + Z.of_nat m = n - 1 ->
  (forall a u, 0 <= a < n -> 0 <= u < t -> at2 cal a u = opponent n a u) ->
  exists cal', fill_turns m t n cal = Ok cal' /\ shape n (n - 1) cal' /\
    (forall a u, 0 <= a < n -> 0 <= u < n - 1 -> at2 cal' a u = opponent n a u).
Proof.
  intros n Hn He. induction m as [|m IH]; intros t cal SH Ht Hm HI.
  - exists cal. split; [reflexivity|]. split; [exact SH|]. intros a u Ha Hu. apply HI; lia.
  - cbn [fill_turns]. destruct (fill_turn_ok n t Hn He ltac:(lia) (Z.to_nat (n / 2)) 0 cal SH) as (c1 & E1 & S1 & A1 & B1); try lia.
    { intros a Ha HP. pose proof (place_range n t a Hn). lia. }
    rewrite E1. cbn [bind]. apply IH; auto; try lia. intros a u Ha Hu. destruct (Z.eq_dec u t) as [->|Hne]; [now apply A1|].
    rewrite B1 by lia. apply HI; lia.
Qed.

Lemma mul_small : forall k q x, 0 < k -> x = k * q -> - k < x < k -> x = 0 /\ q = 0.
Proof. intros k q x Hk -> B. assert (q = 0 \/ q >= 1 \/ q <= -1) as [->|[H|H]] by lia; [lia| |]; nia. Qed.
(** The opponents: a and b <> n-1 meet in the turn t with a + b = 2t modulo n - 1; a and n-1 in turn a. *)
Lemma opponent_eq : forall n a t, 2 <= n -> n mod 2 = 0 -> 0 <= a < n -> 0 <= t < n - 1 ->
  opponent n a t = if a =? n - 1 then t else if a =? t then n - 1 else (2 * t - a) mod (n - 1).
Proof.
  intros n a t Hn He Ha Ht. unfold opponent, place. destruct (Z.eqb_spec a (n - 1)) as [->|Hne].
  - unfold team. destruct (Z.eqb_spec (n - 1 - 0) 0); [lia|]. rewrite Z.sub_0_r. replace (n - 1 + t) with (t + 1 * (n - 1)) by lia. rewrite Z_mod_plus_full. apply Z.mod_small. lia.
  - unfold team. destruct (Z.eqb_spec a t) as [->|Hat].
    + replace (t - t - 1) with (n - 2 + (-1) * (n - 1)) by lia. rewrite Z_mod_plus_full, Z.mod_small by lia.
      destruct (Z.eqb_spec (n - 1 - (n - 2 + 1)) 0); [reflexivity|lia].
    + pose proof (Z.mod_pos_bound (a - t - 1) (n - 1)) as B.
      assert (X : (a - t - 1) mod (n - 1) <> n - 2).
      { intros E. pose proof (Z.div_mod (a - t - 1) (n - 1)) as D. rewrite E in D. assert (a - t - 1 = (n - 1) * ((a - t - 1) / (n - 1)) + (n - 2)) by (apply D; lia).
        set (q := (a - t - 1) / (n - 1)) in *. destruct (mul_small (n - 1) (q + 1) (a - t)); lia. }
      destruct (Z.eqb_spec (n - 1 - ((a - t - 1) mod (n - 1) + 1)) 0); [lia|].
      replace (n - 1 - ((a - t - 1) mod (n - 1) + 1) + t) with ((t - 1) - (a - t - 1) mod (n - 1) + 1 * (n - 1)) by lia. rewrite Z_mod_plus_full.
      rewrite Zminus_mod_idemp_r. f_equal. lia.
Qed.
Lemma opponent_range : forall n a t, 2 <= n -> 0 <= opponent n a t < n.
Proof. intros. unfold opponent. now apply team_range. Qed.
Lemma opponent_invol : forall n a t, 2 <= n -> 0 <= a < n -> opponent n (opponent n a t) t = a.
Proof.
  intros n a t Hn Ha. unfold opponent. pose proof (place_range n t a Hn). rewrite place_team by lia.
  replace (n - 1 - (n - 1 - place n t a)) with (place n t a) by lia. now apply team_place.
Qed.
Lemma opponent_ne : forall n a t, 2 <= n -> n mod 2 = 0 -> 0 <= a < n -> opponent n a t <> a.
Proof.
  intros n a t Hn He Ha E. apply (f_equal (place n t)) in E. unfold opponent in E. pose proof (place_range n t a Hn). rewrite place_team in E by lia. lia.
Qed.
(** The turn in which two teams meet: k odd, (k+1)/2 is the inverse of 2. *)
Lemma mod_diff : forall k x y, 0 < k -> x mod k = y mod k -> exists q, x = y + k * q.
Proof. intros k x y H E. exists (x / k - y / k). pose proof (Z.div_mod x k ltac:(lia)). pose proof (Z.div_mod y k ltac:(lia)). lia. Qed.
Lemma once_turn : forall k a b t u, k mod 2 = 1 -> 0 <= t < k -> 0 <= u < k -> (2 * t) mod k = (a + b) mod k -> (2 * u - a) mod k = b mod k -> t = u.
Proof.
  intros k a b t u Hk Ht Hu T E. assert (K0 : 0 < k) by lia. destruct (mod_diff k _ _ K0 T) as (q & Q). destruct (mod_diff k _ _ K0 E) as (w & W). clear T E.
  assert (X : 2 * (t - u) = k * (q - w)) by lia. set (z := q - w) in *. clearbody z. clear Q W.
  assert (Y : z mod 2 = 0).
  { assert (P : (k * z) mod 2 = 0) by (rewrite <- X, Z.mul_comm; apply Z_mod_mult). rewrite Z.mul_mod, Hk, Z.mul_1_l, Z.mod_mod in P by discriminate. exact P. }
  assert (W : z = 2 * (z / 2)) by (pose proof (Z.div_mod z 2); lia). set (y := z / 2) in *. clearbody y. destruct (mul_small k y (t - u)); lia.
Qed.
Lemma opponent_once : forall n a b, 2 <= n -> n mod 2 = 0 -> 0 <= a < n -> 0 <= b < n -> a <> b ->
  exists t, 0 <= t < n - 1 /\ opponent n a t = b /\ forall u, 0 <= u < n - 1 -> opponent n a u = b -> t = u.
Proof.
  intros n a b Hn He Ha Hb Hab. destruct (Z.eq_dec a (n - 1)) as [->|Na].
  { exists b. split; [lia|]. rewrite opponent_eq by lia. rewrite Z.eqb_refl. split; [reflexivity|]. intros u Hu E. rewrite opponent_eq, Z.eqb_refl in E by lia. auto. }
  destruct (Z.eq_dec b (n - 1)) as [->|Nb].
  { exists a. split; [lia|]. rewrite opponent_eq by lia. destruct (Z.eqb_spec a (n - 1)); [lia|]. rewrite Z.eqb_refl. split; [reflexivity|].
    intros u Hu E. rewrite opponent_eq in E by lia. destruct (Z.eqb_spec a (n - 1)); [lia|]. destruct (Z.eqb_spec a u); [auto|].
    pose proof (Z.mod_pos_bound (2 * u - a) (n - 1)). lia. }
  set (k := n - 1) in *. assert (Hk : k mod 2 = 1) by (unfold k; Z.div_mod_to_equations; lia).
  exists (((k + 1) / 2 * (a + b)) mod k). pose proof (Z.mod_pos_bound ((k + 1) / 2 * (a + b)) k ltac:(lia)) as B.
  set (t := ((k + 1) / 2 * (a + b)) mod k) in *. split; [lia|].
  assert (T2 : (2 * t) mod k = (a + b) mod k).
  { unfold t. rewrite Zmult_mod_idemp_r. replace (2 * ((k + 1) / 2 * (a + b))) with ((a + b) + (a + b) * k); [apply Z_mod_plus_full|].
    assert (H2 : k + 1 = 2 * ((k + 1) / 2)) by (clear - Hk; Z.div_mod_to_equations; lia). set (h := (k + 1) / 2) in *. clear - H2. nia. }
  clearbody t. assert (NT : a <> t).
  { intros E. rewrite <- E in T2. destruct (mod_diff k _ _ ltac:(lia) T2) as (q & Q). destruct (mul_small k q (a - b)); lia. }
  assert (OT : opponent n a t = b).
  { rewrite opponent_eq by lia. fold k. destruct (Z.eqb_spec a k); [lia|]. destruct (Z.eqb_spec a t); [lia|].
    destruct (mod_diff k _ _ ltac:(lia) T2) as (q & Q). replace (2 * t - a) with (b + q * k) by lia. rewrite Z_mod_plus_full. apply Z.mod_small. lia. }
  split; [exact OT|]. intros u Hu E. rewrite opponent_eq in E by lia. fold k in E. destruct (Z.eqb_spec a k); [lia|]. destruct (Z.eqb_spec a u) as [->|Hau]; [lia|].
  apply (once_turn k a b t u Hk B Hu T2). rewrite E. symmetry. apply Z.mod_small. clear - Hb Nb k. subst k. lia.
Qed.

Theorem calendar_round_robin : forall n, 2 <= n -> n mod 2 = 0 -> exists cal, CreateLeagueCalendar n = Ok cal /\ round_robin n cal.
Proof.
  intros n Hn He. unfold CreateLeagueCalendar.
  assert (SH : shape n (n - 1) (repeat (repeat 0 (Z.to_nat (n - 1))) (Z.to_nat n))).
  { split; [unfold zlen; rewrite repeat_length; lia|]. intros a row E. apply aget_Ok_inv in E as [_ E]. apply nth_error_In, repeat_spec in E as ->. unfold zlen. rewrite repeat_length. lia. }
  destruct (fill_turns_ok n Hn He (Z.to_nat (n - 1)) 0 _ SH) as (cal & E & S & A); try lia.
  exists cal. split; [exact E|]. constructor.
  - exact S.
  - intros a t Ha Ht. exists (opponent n a t). pose proof (opponent_range n a t Hn). split; [lia|]. split; [now apply opponent_ne|].
    rewrite !(meets_at2 n (n - 1)) by (auto; lia). split; [now apply A|]. rewrite A by lia. now apply opponent_invol.
  - intros a b Ha Hb Hab. destruct (opponent_once n a b Hn He Ha Hb Hab) as (t & Ht & O & U). exists t. split.
    + split; [exact Ht|]. rewrite (meets_at2 n (n - 1)) by auto. rewrite A by auto. exact O.
    + intros u [Hu Mu]. rewrite (meets_at2 n (n - 1)) in Mu by auto. rewrite A in Mu by auto. now apply U.
Qed.

Ltac Zify.zify_post_hook ::= Z.div_mod_to_equations.
