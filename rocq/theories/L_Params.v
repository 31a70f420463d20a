(** Proofs about parameter files: text, integers, parsing of lines. *)
From Coq Require Import Ascii String Reals.
From Verif Require Import Prelude M_Params S_Params.
Local Open Scope Z_scope.

Lemma ceq_refl : forall c, ceq c c = true.
Proof. intros c. unfold ceq. now destruct ascii_dec. Qed.
Lemma ceq_neq : forall a b, a <> b -> ceq a b = false.
Proof. intros a b H. unfold ceq. now destruct ascii_dec. Qed.
Lemma ceq_eq : forall a b, ceq a b = true -> a = b.
Proof. intros a b. unfold ceq. now destruct ascii_dec. Qed.
Lemma teq_refl : forall s, teq s s = true.
Proof. intros s. unfold teq. now destruct list_eq_dec. Qed.
Lemma teq_eq : forall a b, teq a b = true -> a = b.
Proof. intros a b. unfold teq. now destruct list_eq_dec. Qed.
Lemma teq_neq : forall a b, a <> b -> teq a b = false.
Proof. intros a b H. unfold teq. now destruct list_eq_dec. Qed.

Lemma trim_noblank : forall s, TrimWhiteSpace s = noblank s.
Proof.
  induction s as [|c s IH]; [reflexivity|]. unfold TrimWhiteSpace, noblank, ceq in *. cbn [filter remove].
  destruct (ascii_dec c " ") as [->|N]; cbn [negb].
  - destruct (ascii_dec " " " "); [exact IH|congruence].
  - destruct (ascii_dec " " c); [congruence|now rewrite IH].
Qed.
Lemma noblank_app : forall a b, noblank (a ++ b) = noblank a ++ noblank b.
Proof. intros a b. unfold noblank. apply remove_app. Qed.
Lemma noblank_in : forall c s, In c (noblank s) -> In c s.
Proof. intros c s H. now apply in_remove in H. Qed.
Lemma noblank_id : forall s, ~ In " "%char s -> noblank s = s.
Proof. intros s H. now apply notin_remove. Qed.

Lemma find_from_notin : forall c s i, ~ In c s -> find_from c s i = -1.
Proof.
  induction s as [|x s IH]; intros i H; [reflexivity|]. cbn [find_from].
  rewrite ceq_neq by (intros ->; apply H; now left). apply IH. intros K; apply H; now right.
Qed.
Lemma find_from_at : forall c a b i, ~ In c a -> find_from c (a ++ c :: b) i = i + zlen a.
Proof.
  induction a as [|x a IH]; intros b i H; cbn [app find_from].
  - rewrite ceq_refl. unfold zlen. cbn. lia.
  - rewrite ceq_neq by (intros ->; apply H; now left). rewrite IH by (intros K; apply H; now right).
    unfold zlen. cbn [Datatypes.length]. lia.
Qed.
Lemma find_notin : forall c s, ~ In c s -> find c s = -1.
Proof. intros. now apply find_from_notin. Qed.
Lemma find_at : forall c a b, ~ In c a -> find c (a ++ c :: b) = zlen a.
Proof. intros. unfold find. now rewrite find_from_at. Qed.
Lemma find_hd : forall c s, hd_error s <> Some c -> find c s <> 0.
Proof.
  intros c [|x s] H; [cbn; lia|]. unfold find. cbn [find_from]. cbn in H. rewrite ceq_neq by congruence.
  intros K. destruct (in_dec ascii_dec c s) as [I|I].
  - apply in_split in I. destruct I as (a & b & ->).
    assert (forall a b i, 0 < i -> 0 < find_from c (a ++ c :: b) i) as P.
    { clear. induction a as [|y a IH]; intros b i Hi; cbn [app find_from]; [now rewrite ceq_refl|].
      destruct (ceq y c); [lia|]. apply IH. lia. }
    specialize (P a b (0 + 1)). lia.
  - rewrite find_from_notin in K by exact I. lia.
Qed.
Lemma find_hd0 : forall c s, hd_error s = Some c -> find c s = 0.
Proof. intros c [|x s] H; cbn in H; [discriminate|]. injection H as ->. unfold find. cbn [find_from]. now rewrite ceq_refl. Qed.

Lemma zlen_app : forall A (a b : list A), zlen (a ++ b) = zlen a + zlen b.
Proof. intros. unfold zlen. rewrite app_length. lia. Qed.
Lemma zlen_cons : forall A x (a : list A), zlen (x :: a) = 1 + zlen a.
Proof. intros. unfold zlen. cbn [Datatypes.length]. lia. Qed.
Lemma zlen_nonneg : forall A (a : list A), 0 <= zlen a.
Proof. intros. unfold zlen. lia. Qed.
Lemma substr_mid : forall a k r, substr (a ++ k ++ r) (zlen a) (zlen k) = Ok k.
Proof.
  intros a k r. unfold substr. rewrite !zlen_app. pose proof (zlen_nonneg _ a). pose proof (zlen_nonneg _ k). pose proof (zlen_nonneg _ r).
  replace (_ || _)%bool with false by lia. replace (zlen k <? 0) with false by lia. unfold zlen. rewrite !Nat2Z.id.
  rewrite skipn_app, skipn_all, Nat.sub_diag. cbn [skipn app]. rewrite firstn_app, firstn_all, Nat.sub_diag. cbn [firstn]. now rewrite app_nil_r.
Qed.
Lemma substr_end : forall a r, substr (a ++ r) (zlen a) (zlen r) = Ok r.
Proof. intros a r. rewrite <- (app_nil_r r) at 1. apply substr_mid. Qed.

(** ** Lines *)
Lemma ParseLine_plain : forall line t k v, noblank line = k ++ "="%char :: v ->
  ~ In "="%char k -> ~ In ":"%char k -> ~ In ":"%char v -> hd_error (noblank line) <> Some "#"%char ->
  ParseLine line t = Ok (SetParameter k v t).
Proof.
  intros line t k v E H1 H2 H3 H4. unfold ParseLine. rewrite trim_noblank.
  pose proof (find_hd _ _ H4). set (s := noblank line) in *. rewrite E in *.
  assert (F1 : find ":" (k ++ "="%char :: v) = -1).
  { apply find_notin. rewrite in_app_iff. cbn. intros [K|[K|K]]; [auto|discriminate|auto]. }
  assert (F2 : find "=" (k ++ "="%char :: v) = zlen k) by now apply find_at.
  rewrite F1, F2, zlen_app, zlen_cons. pose proof (zlen_nonneg _ k). pose proof (zlen_nonneg _ v).
  replace (_ || _)%bool with false by lia. cbv iota. replace (_ || _)%bool with false by lia. cbv iota.
  change (-1 + 1) with (zlen (@nil ascii)). replace (zlen k - -1 - 1) with (zlen k) by lia.
  pose proof (substr_mid [] k ("="%char :: v)) as S1. cbn [app] in S1. rewrite S1. cbn [bind].
  replace (k ++ "="%char :: v) with ((k ++ ["="%char]) ++ v) by now rewrite <- app_assoc.
  replace (zlen k + 1) with (zlen (k ++ ["="%char])) by (rewrite zlen_app; reflexivity).
  replace (zlen k + (1 + zlen v) - zlen k - 1) with (zlen v) by lia. rewrite substr_end. reflexivity.
Qed.
Lemma ParseLine_comment : forall line t c k v, noblank line = c ++ ":"%char :: k ++ "="%char :: v ->
  ~ In "="%char c -> ~ In ":"%char c -> ~ In "="%char k -> hd_error (noblank line) <> Some "#"%char ->
  ParseLine line t = Ok (SetParameter k v t).
Proof.
  intros line t c k v E H0 H0' H1 H4. unfold ParseLine. rewrite trim_noblank.
  pose proof (find_hd _ _ H4). set (s := noblank line) in *. rewrite E in *.
  assert (F1 : find ":" (c ++ ":"%char :: k ++ "="%char :: v) = zlen c) by now apply find_at.
  assert (F2 : find "=" (c ++ ":"%char :: k ++ "="%char :: v) = zlen c + 1 + zlen k).
  { replace (c ++ ":"%char :: k ++ "="%char :: v) with ((c ++ ":"%char :: k) ++ "="%char :: v) by now rewrite <- app_assoc.
    rewrite find_at; [rewrite zlen_app, zlen_cons; lia|]. rewrite in_app_iff. cbn. intros [K|[K|K]]; [auto|discriminate|auto]. }
  rewrite F1, F2, zlen_app, zlen_cons, zlen_app, zlen_cons. pose proof (zlen_nonneg _ c). pose proof (zlen_nonneg _ k). pose proof (zlen_nonneg _ v).
  replace (_ || _)%bool with false by lia. cbv iota. replace (_ || _)%bool with false by lia. cbv iota.
  replace (zlen c + 1 + zlen k - zlen c - 1) with (zlen k) by lia.
  replace (c ++ ":"%char :: k ++ "="%char :: v) with ((c ++ [":"%char]) ++ k ++ "="%char :: v) by now rewrite <- app_assoc.
  replace (zlen c + 1) with (zlen (c ++ [":"%char])) by (rewrite zlen_app; reflexivity). rewrite substr_mid. cbn [bind].
  replace ((c ++ [":"%char]) ++ k ++ "="%char :: v) with ((c ++ ":"%char :: k ++ ["="%char]) ++ v) by (rewrite <- !app_assoc; cbn [app]; now rewrite <- !app_assoc).
  replace (zlen (c ++ [":"%char]) + zlen k + 1) with (zlen (c ++ ":"%char :: k ++ ["="%char])) by (rewrite !zlen_app, !zlen_cons, zlen_app; reflexivity || (unfold zlen; cbn [Datatypes.length]; lia)).
  replace (zlen c + (1 + (zlen k + (1 + zlen v))) - (zlen (c ++ [":"%char]) + zlen k) - 1) with (zlen v) by (rewrite zlen_app; unfold zlen; cbn [Datatypes.length]; lia).
  rewrite substr_end. reflexivity.
Qed.
Lemma ParseLine_empty : forall line t, noblank line = [] -> ParseLine line t = Ok t.
Proof. intros line t E. unfold ParseLine. rewrite trim_noblank, E. reflexivity. Qed.
Lemma ParseLine_hash : forall line t, hd_error (noblank line) = Some "#"%char -> ParseLine line t = Ok t.
Proof. intros line t E. unfold ParseLine. rewrite trim_noblank, (find_hd0 _ _ E). reflexivity. Qed.
Lemma find_range : forall c s, -1 <= find c s < zlen s \/ find c s = -1 /\ s = [].
Proof.
  intros c s. destruct (in_dec ascii_dec c s) as [I|I].
  - left. unfold find. assert (forall i, 0 <= i -> i <= find_from c s i < i + zlen s) as P.
    { induction s as [|x s IH]; [destruct I|]. intros i Hi. cbn [find_from]. rewrite zlen_cons. pose proof (zlen_nonneg _ s).
      destruct (ceq x c) eqn:E; [lia|]. destruct I as [->|I]; [rewrite ceq_refl in E; discriminate|]. specialize (IH I (i + 1)). lia. }
    specialize (P 0). lia.
  - rewrite find_notin by exact I. destruct s; [now right|left]. rewrite zlen_cons. pose proof (zlen_nonneg _ s). lia.
Qed.
(** A colon behind the equals sign, or without one. *)
Lemma ParseLine_colon : forall line t a b, noblank line = a ++ ":"%char :: b ->
  (~ In ":"%char a -> In "="%char a \/ ~ In "="%char b /\ ~ In "="%char a) -> ~ In ":"%char a -> ParseLine line t = Ok t.
Proof.
  intros line t a b E H N. specialize (H N). unfold ParseLine. rewrite trim_noblank, E.
  assert (F1 : find ":" (a ++ ":"%char :: b) = zlen a) by now apply find_at.
  rewrite F1, zlen_app, zlen_cons. destruct (_ || _)%bool; [reflexivity|].
  assert (find "=" (a ++ ":"%char :: b) < zlen a) as F2.
  { destruct H as [H|(H & H')].
    - unfold find. clear - H. assert (forall i, find_from "=" (a ++ ":"%char :: b) i < i + zlen a) as P; [|apply (P 0)].
      induction a as [|x a IH]; [destruct H|]. intros i. cbn [app find_from]. rewrite zlen_cons. pose proof (zlen_nonneg _ a).
      destruct (ceq x "=") eqn:E; [lia|]. destruct H as [->|H]; [rewrite ceq_refl in E; discriminate|]. specialize (IH H (i + 1)). lia.
    - rewrite find_notin; [pose proof (zlen_nonneg _ a); lia|]. rewrite in_app_iff. cbn. intros [K|[K|K]]; [auto|discriminate|auto]. }
  pose proof (zlen_nonneg _ b). replace (_ || _)%bool with true by lia. reflexivity.
Qed.
(** Neither: the whole line is the name and the value. *)
Lemma ParseLine_bare : forall line t, noblank line <> [] -> hd_error (noblank line) <> Some "#"%char ->
  ~ In "="%char (noblank line) -> ~ In ":"%char (noblank line) ->
  ParseLine line t = Ok (SetParameter (noblank line) (noblank line) t).
Proof.
  intros line t N H H1 H2. unfold ParseLine. rewrite trim_noblank. pose proof (find_hd _ _ H). set (s := noblank line) in *.
  rewrite (find_notin ":" s), (find_notin "=" s) by auto.
  assert (0 < zlen s) by (destruct s; [congruence|rewrite zlen_cons; pose proof (zlen_nonneg _ s); lia]).
  replace (_ || _)%bool with false by lia. cbv iota. replace (_ || _)%bool with false by lia. cbv iota.
  change (-1 + 1) with 0. change (-1 - -1 - 1) with (-1). replace (zlen s - -1 - 1) with (zlen s) by lia.
  unfold substr. replace (_ || _)%bool with false by lia. change (-1 <? 0) with true. cbv iota. cbn [Z.to_nat skipn bind].
  replace (zlen s <? 0) with false by lia. unfold zlen. rewrite Nat2Z.id, firstn_all. reflexivity.
Qed.

Lemma lines_app : forall l r, ~ In newline l -> lines (l ++ newline :: r) = l :: lines r.
Proof.
  induction l as [|c l IH]; intros r H; cbn [app lines].
  - now rewrite ceq_refl.
  - rewrite ceq_neq by (intros ->; apply H; now left). rewrite IH by (intros K; apply H; now right). reflexivity.
Qed.

(** ** Tables *)
Lemma has_get : forall A k (m : list (text * A)), has k m = match get k m with Some _ => true | None => false end.
Proof.
  intros A k m. unfold has, get. induction m as [|x m IH]; [reflexivity|]. cbn [existsb List.find].
  destruct (teq (fst x) k); [reflexivity|exact IH].
Qed.
Lemma get_put_same : forall A k v (m : list (text * A)), has k m = true -> get k (put k v m) = Some v.
Proof.
  intros A k v m. unfold has, get, put. induction m as [|x m IH]; [discriminate|]. cbn [existsb map List.find].
  destruct (teq (fst x) k) eqn:E; cbn [fst]; rewrite ?E; [reflexivity|exact IH].
Qed.
Lemma get_put_other : forall A k k' v (m : list (text * A)), k' <> k -> get k' (put k v m) = get k' m.
Proof.
  intros A k k' v m N. unfold get, put. induction m as [|x m IH]; [reflexivity|]. cbn [map List.find].
  destruct (teq (fst x) k) eqn:E; cbn [fst].
  - apply teq_eq in E. rewrite E, teq_neq by congruence. exact IH.
  - destruct (teq (fst x) k'); [reflexivity|exact IH].
Qed.
Lemma put_keys : forall A k v (m : list (text * A)), map fst (put k v m) = map fst m.
Proof. intros A k v m. unfold put. rewrite map_map. apply map_ext. intros x. destruct teq; reflexivity. Qed.
Lemma SetParameter_other : forall key v t k, k <> key -> value_of (SetParameter key v t) k = value_of t k.
Proof.
  intros key v t k N. unfold SetParameter. destruct (has key (ints t)); [|destruct (has key (floats t)); [|destruct (has key (strs t))]].
  - destruct read_int; [|reflexivity]. unfold value_of. cbn [ints floats strs]. now rewrite get_put_other.
  - destruct read_float; [|reflexivity]. unfold value_of. cbn [ints floats strs]. now rewrite get_put_other.
  - unfold value_of. cbn [ints floats strs]. now rewrite get_put_other.
  - reflexivity.
Qed.
Lemma SetParameter_unknown : forall key v t, value_of t key = None -> SetParameter key v t = t.
Proof.
  intros key v t. unfold value_of, SetParameter. rewrite !has_get.
  destruct (get key (ints t)), (get key (floats t)), (get key (strs t)); discriminate || reflexivity.
Qed.

(** ** Digits *)
Lemma numeral_iff : forall d c, numeral d c <-> digit c = Some d.
Proof.
  intros d c. split.
  - intros (H & E). assert (d < 10). { assert (Z.to_nat d < 10)%nat; [|lia]. change 10%nat with (Datatypes.length (lit "0123456789")). apply nth_error_Some. congruence. }
    assert (d = 0 \/ d = 1 \/ d = 2 \/ d = 3 \/ d = 4 \/ d = 5 \/ d = 6 \/ d = 7 \/ d = 8 \/ d = 9) as C by lia.
    destruct C as [ -> |[ -> |[ -> |[ -> |[ -> |[ -> |[ -> |[ -> |[ -> | -> ]]]]]]]]]; cbn in E; injection E as <-; reflexivity.
  - unfold digit. intros E. destruct ((48 <=? _) && _)%bool eqn:B; [|discriminate]. injection E as E.
    assert (Z.of_N (N_of_ascii c) = d + 48) as E' by lia.
    assert (d = 0 \/ d = 1 \/ d = 2 \/ d = 3 \/ d = 4 \/ d = 5 \/ d = 6 \/ d = 7 \/ d = 8 \/ d = 9) as C by lia.
    rewrite <- (ascii_N_embedding c). assert (N_of_ascii c = Z.to_N (d + 48)) as -> by lia. split; [lia|].
    destruct C as [ -> |[ -> |[ -> |[ -> |[ -> |[ -> |[ -> |[ -> |[ -> | -> ]]]]]]]]]; reflexivity.
Qed.
Definition ten_digits (l : list Z) : Prop := Forall (fun d => 0 <= d < 10) l.
Lemma digit_char : forall d, 0 <= d < 10 -> digit (char_of_digit d) = Some d.
Proof.
  intros d H. assert (d = 0 \/ d = 1 \/ d = 2 \/ d = 3 \/ d = 4 \/ d = 5 \/ d = 6 \/ d = 7 \/ d = 8 \/ d = 9) as C by lia.
  destruct C as [ -> |[ -> |[ -> |[ -> |[ -> |[ -> |[ -> |[ -> |[ -> | -> ]]]]]]]]]; reflexivity.
Qed.
Lemma digit_range : forall c d, digit c = Some d -> 0 <= d < 10 /\ char_of_digit d = c.
Proof.
  intros c d. unfold digit, char_of_digit. intros E. destruct ((48 <=? _) && _)%bool eqn:B; [|discriminate]. injection E as E. split; [lia|].
  replace (d + 48) with (Z.of_N (N_of_ascii c)) by lia. rewrite N2Z.id. apply ascii_N_embedding.
Qed.
Definition nodigit (s : text) : Prop := match s with [] => True | c :: _ => digit c = None end.
Lemma digits_show : forall l r, ten_digits l -> nodigit r -> digits (show_digits l ++ r) = (l, r).
Proof.
  induction l as [|d l IH]; intros r H N; cbn [show_digits map app].
  - destruct r as [|c r]; [reflexivity|]. cbn [digits]. cbn in N. now rewrite N.
  - inversion H; subst. cbn [digits]. rewrite digit_char by assumption. fold (show_digits l). now rewrite IH.
Qed.
Lemma horner_snoc : forall l d, horner (l ++ [d]) = 10 * horner l + d.
Proof. intros l d. unfold horner. now rewrite fold_left_app. Qed.
Lemma horner_cons0 : forall l n, fold_left (fun n d => 10 * n + d) l n = n * 10 ^ zlen l + horner l.
Proof.
  intros l n. unfold horner. revert n. induction l as [|d l IH]; intros n; cbn [fold_left]; [unfold zlen; cbn; lia|].
  rewrite IH. rewrite (IH (10 * 0 + d)). rewrite zlen_cons. rewrite Z.pow_add_r by (pose proof (zlen_nonneg _ l); lia). change (10 ^ 1) with 10. ring.
Qed.
Lemma horner_app : forall a b, horner (a ++ b) = horner a * 10 ^ zlen b + horner b.
Proof. intros a b. unfold horner at 1. rewrite fold_left_app. fold (horner a). apply horner_cons0. Qed.
Lemma dec_nat_show : forall s n, dec_nat s n <-> exists l, l <> [] /\ ten_digits l /\ s = show_digits l /\ horner l = n.
Proof.
  intros s n. split.
  - induction 1 as [d c H|s n d c H IH K].
    + apply numeral_iff, digit_range in H. exists [d]. destruct H as (H & <-). split; [discriminate|]. split; [now repeat constructor|]. split; [reflexivity|cbn; lia].
    + destruct IH as (l & N & T & -> & <-). apply numeral_iff, digit_range in K. destruct K as (K & <-). exists (l ++ [d]).
      split; [destruct l; discriminate|]. split; [apply Forall_app; split; [exact T|now repeat constructor]|].
      split; [unfold show_digits; now rewrite map_app|apply horner_snoc].
  - intros (l & N & T & -> & <-). induction l as [|d l IH] using rev_ind; [congruence|].
    apply Forall_app in T. destruct T as (T & Td). inversion Td; subst. pose proof (digit_char _ H1) as D. apply numeral_iff in D.
    destruct l as [|d' l].
    + cbn. replace (horner [d]) with d by (cbn; lia). now constructor.
    + unfold show_digits. rewrite map_app. cbn [map]. rewrite horner_snoc. constructor; [|exact D]. apply IH; [discriminate|exact T].
Qed.
Lemma dec_digits_spec : forall f n acc, 0 <= n < 10 ^ Z.of_nat f -> (0 < f)%nat -> ten_digits acc ->
  ten_digits (dec_digits f n acc) /\ dec_digits f n acc <> [] /\ horner (dec_digits f n acc) = n * 10 ^ zlen acc + horner acc.
Proof.
  induction f as [|f IH]; intros n acc H F T; [lia|]. cbn [dec_digits]. destruct (n <? 10) eqn:E.
  - split; [constructor; [lia|exact T]|]. split; [discriminate|]. unfold horner at 1. cbn [fold_left]. rewrite horner_cons0. f_equal.
  - destruct f as [|f]; [cbn in H; lia|].
    assert (0 <= n / 10 < 10 ^ Z.of_nat (S f)).
    { split; [apply Z.div_pos; lia|]. apply Z.div_lt_upper_bound; [lia|]. rewrite <- Z.pow_succ_r by lia. replace (Z.succ (Z.of_nat (S f))) with (Z.of_nat (S (S f))) by lia. lia. }
    destruct (IH (n / 10) (n mod 10 :: acc)) as (A & B & C); [assumption|lia|constructor; [apply Z.mod_pos_bound; lia|exact T]|].
    split; [exact A|]. split; [exact B|]. rewrite C, zlen_cons, Z.pow_add_r by (pose proof (zlen_nonneg _ acc); lia).
    unfold horner at 1. cbn [fold_left]. rewrite horner_cons0. change (10 ^ 1) with 10. rewrite (Z.div_mod n 10) at 3 by lia. ring.
Qed.
Lemma digits_of_spec : forall n, 0 <= n -> ten_digits (digits_of n) /\ digits_of n <> [] /\ horner (digits_of n) = n.
Proof.
  intros n H. unfold digits_of.
  destruct (dec_digits_spec (S (Z.to_nat (Z.log2 n))) n []) as (A & B & C); [|lia|constructor|].
  - split; [exact H|]. pose proof (Z.log2_nonneg n). replace (Z.of_nat (S (Z.to_nat (Z.log2 n)))) with (Z.succ (Z.log2 n)) by lia.
    destruct (Z.eq_dec n 0) as [->|N]; [reflexivity|]. pose proof (Z.log2_spec n ltac:(lia)).
    eapply Z.lt_le_trans; [apply H1|]. apply Z.pow_le_mono_l. lia.
  - split; [exact A|]. split; [exact B|]. rewrite C. unfold zlen, horner. cbn. lia.
Qed.
Lemma show_digits_nonspace : forall l c r, ten_digits l -> show_digits l = c :: r ->
  is_space c = false /\ ceq c "-" = false /\ ceq c "+" = false /\ c <> " "%char /\ c <> ":"%char /\ c <> newline.
Proof.
  intros [|d l] c r T E; [discriminate|]. cbn in E. injection E as <- _. inversion T; subst.
  assert (d = 0 \/ d = 1 \/ d = 2 \/ d = 3 \/ d = 4 \/ d = 5 \/ d = 6 \/ d = 7 \/ d = 8 \/ d = 9) as C by lia.
  destruct C as [ -> |[ -> |[ -> |[ -> |[ -> |[ -> |[ -> |[ -> |[ -> | -> ]]]]]]]]]; cbn; repeat split; discriminate.
Qed.
Lemma sign_digits : forall l r, ten_digits l -> l <> [] -> sign (show_digits l ++ r) = (false, show_digits l ++ r).
Proof.
  intros l r T N. destruct (show_digits l) as [|c s] eqn:E; [destruct l; [congruence|discriminate]|].
  destruct (show_digits_nonspace _ _ _ T E) as (_ & A & B & _). cbn [app sign]. now rewrite A, B.
Qed.
Lemma skip_digits : forall l r, ten_digits l -> l <> [] -> skip_ws (show_digits l ++ r) = show_digits l ++ r.
Proof.
  intros l r T N. destruct (show_digits l) as [|c s] eqn:E; [destruct l; [congruence|discriminate]|].
  destruct (show_digits_nonspace _ _ _ T E) as (A & _). cbn [app skip_ws]. now rewrite A.
Qed.
Lemma skip_sign : forall c s, ceq c "-" = true \/ ceq c "+" = true -> skip_ws (c :: s) = c :: s.
Proof. intros c s [H|H]; apply ceq_eq in H; subst; reflexivity. Qed.

Definition clampi (n : Z) : Z := Z.max INT_MIN (Z.min INT_MAX n).
Lemma read_int_dec : forall s n r, dec_int s n -> nodigit r -> read_int (s ++ r) = Some (clampi n).
Proof.
  intros s n r H N. unfold read_int, clampi. destruct H as [H|[(s' & -> & H)|(s' & -> & H)]]; apply dec_nat_show in H; destruct H as (l & L & T & -> & E).
  - rewrite skip_digits by assumption. destruct (show_digits l ++ r) as [|c q] eqn:Q; [destruct l; [congruence|discriminate]|]. rewrite <- Q.
    rewrite sign_digits, digits_show by assumption. cbn [fst]. now rewrite E.
  - cbn [app]. rewrite skip_sign by (right; reflexivity). cbn [sign]. change (ceq "+" "-") with false. change (ceq "+" "+") with true. cbv iota.
    rewrite digits_show by assumption. cbn [fst]. now rewrite E.
  - cbn [app]. rewrite skip_sign by (left; reflexivity). cbn [sign]. change (ceq "-" "-") with true. cbv iota.
    rewrite digits_show by assumption. cbn [fst]. rewrite E. f_equal. f_equal. f_equal. lia.
Qed.
Lemma show_int_dec : forall n, dec_int (show_int n) n.
Proof.
  intros n. unfold show_int. destruct (n <? 0) eqn:E.
  - right. right. eexists. split; [reflexivity|]. apply dec_nat_show. destruct (digits_of_spec (- n)) as (A & B & C); [lia|]. eauto 6.
  - left. apply dec_nat_show. destruct (digits_of_spec n) as (A & B & C); [lia|]. eauto 6.
Qed.
Lemma read_show_int : forall n, INT_MIN <= n <= INT_MAX -> read_int (show_int n) = Some n.
Proof.
  intros n H. rewrite <- (app_nil_r (show_int n)). rewrite (read_int_dec _ n); [|apply show_int_dec|exact I]. unfold clampi. f_equal. lia.
Qed.

(** Characters that numbers do not contain. *)
Definition numchar (c : ascii) : Prop := c <> " "%char /\ c <> ":"%char /\ c <> newline.
Lemma show_digits_chars : forall l, ten_digits l -> Forall numchar (show_digits l).
Proof.
  intros l T. apply Forall_forall. intros c H. apply in_map_iff in H. destruct H as (d & <- & I).
  unfold ten_digits in T. rewrite Forall_forall in T. specialize (T d I).
  destruct (show_digits_nonspace [d] (char_of_digit d) []) as (_ & _ & _ & A); [now repeat constructor|reflexivity|exact A].
Qed.
Lemma show_int_chars : forall n, Forall numchar (show_int n).
Proof.
  intros n. unfold show_int. destruct (n <? 0) eqn:E.
  - constructor; [repeat apply conj; discriminate|]. apply show_digits_chars, digits_of_spec. lia.
  - apply show_digits_chars, digits_of_spec. lia.
Qed.
