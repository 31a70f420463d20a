(** Proofs about parameter files: round trips. *)
From Coq Require Import Ascii String Reals Lra Psatz.
From Flocq Require Import Core Relative.
From Verif Require Import Prelude M_Params S_Params L_Params L_Params2.
Local Open Scope Z_scope.

(** ** Assignment *)
Lemma SetParameter_assigned : forall key v t b, value_of t key = Some b ->
  exists a, value_of (SetParameter key v t) key = Some a /\ assigned v b a.
Proof.
  intros key v t b. unfold value_of, SetParameter. rewrite !has_get.
  destruct (get key (ints t)) as [n0|] eqn:E1; [|destruct (get key (floats t)) as [x0|] eqn:E2; [|destruct (get key (strs t)) as [s0|] eqn:E3; [|discriminate]]].
  - intros H. injection H as <-. destruct (read_int v) as [n|] eqn:R.
    + cbn [ints floats strs]. rewrite get_put_same by (rewrite has_get; now rewrite E1). exists (PInt n). split; [reflexivity|].
      intros n' B D. pose proof (read_int_dec v n' [] D I) as K. rewrite app_nil_r, R in K. injection K as ->. f_equal. unfold clampi. lia.
    + rewrite E1. exists (PInt n0). split; [reflexivity|]. intros n' B D. pose proof (read_int_dec v n' [] D I) as K. rewrite app_nil_r, R in K. discriminate.
  - intros H. injection H as <-. destruct (read_float v) as [x|] eqn:R.
    + cbn [ints floats strs]. rewrite E1, get_put_same by (rewrite has_get; now rewrite E2). exists (PFloat x). split; [reflexivity|].
      intros w B D. pose proof (read_float_dec v w D) as K. rewrite R in K. injection K as ->. exists (to_double w).
      split; [now rewrite clamp_id|apply to_double_spec].
    + rewrite E1, E2. exists (PFloat x0). split; [reflexivity|]. intros w B D. pose proof (read_float_dec v w D) as K. rewrite R in K. discriminate.
  - intros H. injection H as <-. cbn [ints floats strs]. rewrite E1, E2, get_put_same by (rewrite has_get; now rewrite E3). exists (PText v). now split.
Qed.
Lemma noblank_cons : forall c s, c <> " "%char -> noblank (c :: s) = c :: noblank s.
Proof. intros c s N. unfold noblank. cbn [remove]. destruct (ascii_dec " " c); [congruence|reflexivity]. Qed.
Lemma noblank_notin : forall c s, ~ In c s -> ~ In c (noblank s).
Proof. intros c s N K. now apply noblank_in in K. Qed.

Lemma assign_line : forall line pre key value t,
  (line = key ++ "="%char :: value /\ ~ In ":"%char value \/ line = pre ++ ":"%char :: key ++ "="%char :: value) ->
  ~ In "="%char pre -> ~ In ":"%char pre -> ~ In "="%char key -> ~ In ":"%char key ->
  hd_error (noblank line) <> Some "#"%char ->
  exists t', ParseLine line t = Ok t' /\
    (forall k, k <> noblank key -> value_of t' k = value_of t k) /\
    (value_of t (noblank key) = None -> t' = t) /\
    (forall b, value_of t (noblank key) = Some b -> exists a, value_of t' (noblank key) = Some a /\ assigned (noblank value) b a).
Proof.
  intros line pre key value t L H1 H2 H3 H4 H5. exists (SetParameter (noblank key) (noblank value) t). split.
  - destruct L as [(-> & Hv)| ->].
    + apply ParseLine_plain; try (now apply noblank_notin); [|exact H5]. now rewrite noblank_app, noblank_cons.
    + apply ParseLine_comment with (noblank pre); try (now apply noblank_notin); [|exact H5].
      now rewrite noblank_app, noblank_cons, noblank_app, noblank_cons.
  - split; [intros k N; now apply SetParameter_other|]. split; [apply SetParameter_unknown|]. apply SetParameter_assigned.
Qed.
Lemma no_equals_line : forall line t, ~ In "="%char line -> value_of t (noblank line) = None -> ParseLine line t = Ok t.
Proof.
  intros line t N V. pose proof (noblank_notin _ _ N) as N'. destruct (noblank line) as [|c s] eqn:E; [now apply ParseLine_empty|]. rewrite <- E in *.
  destruct (ascii_dec c "#") as [->|Nc]; [apply ParseLine_hash; now rewrite E|].
  destruct (in_dec ascii_dec ":"%char (noblank line)) as [I|I].
  - apply in_split in I. 
    assert (forall l, In ":"%char l -> exists a b, l = a ++ ":"%char :: b /\ ~ In ":"%char a) as P.
    { clear. induction l as [|x l IH]; [intros []|]. intros H. destruct (ascii_dec x ":") as [->|N]; [now exists [], l|].
      destruct H as [->|H]; [congruence|]. destruct (IH H) as (a & b & -> & Ha). exists (x :: a), b. split; [reflexivity|]. intros [K|K]; congruence || auto. }
    destruct I as (a0 & b0 & E0). destruct (P (noblank line)) as (a & b & E1 & Ha); [rewrite E0; apply in_or_app; right; now left|].
    apply (ParseLine_colon line t a b E1); [|exact Ha]. intros _. right. rewrite E1 in N'. split; intros K; apply N'; apply in_or_app; [right; now right|now left].
  - rewrite ParseLine_bare; try assumption; [|rewrite E; discriminate|rewrite E; cbn; congruence]. now rewrite SetParameter_unknown.
Qed.

(** ** Recording and reading back *)
Lemma has_keys : forall A B k (m : list (text * A)) (m' : list (text * B)), map fst m = map fst m' -> has k m = has k m'.
Proof.
  intros A B k m m' E. assert (forall C (l : list (text * C)), has k l = existsb (fun x => teq x k) (map fst l)) as P.
  { clear. intros C l. unfold has. induction l; [reflexivity|]. cbn. now rewrite IHl. }
  now rewrite !P, E.
Qed.
Lemma has_in : forall A k (m : list (text * A)), has k m = true <-> In k (map fst m).
Proof.
  intros A k m. unfold has. rewrite existsb_exists. rewrite in_map_iff. split; intros (x & H1 & H2); exists x.
  - apply teq_eq in H2. now split.
  - subst. split; [exact H2|apply teq_refl].
Qed.
Lemma has_notin : forall A k (m : list (text * A)), ~ In k (map fst m) -> has k m = false.
Proof. intros A k m H. destruct (has k m) eqn:E; [|reflexivity]. apply has_in in E. now destruct H. Qed.
Lemma put_app_other : forall A k v (m : list (text * A)), ~ In k (map fst m) -> put k v m = m.
Proof.
  intros A k v m H. unfold put. rewrite <- (map_id m) at 2. apply map_ext_in. intros x I. rewrite teq_neq; [reflexivity|].
  intros <-. apply H. now apply in_map.
Qed.
Lemma fold_put : forall A (m2 m1 d2 : list (text * A)), map fst d2 = map fst m2 -> NoDup (map fst (m1 ++ m2)) ->
  fold_left (fun d x => put (fst x) (snd x) d) m2 (m1 ++ d2) = m1 ++ m2.
Proof.
  induction m2 as [|(k, v) m2 IH]; intros m1 d2 E N.
  - destruct d2; [reflexivity|discriminate].
  - destruct d2 as [|(k', v') d2]; [discriminate|]. cbn in E. injection E as -> E. cbn [fold_left fst snd].
    rewrite map_app in N. cbn [map fst] in N. pose proof (NoDup_remove_2 _ _ _ N) as N2. rewrite in_app_iff in N2.
    assert (put k v (m1 ++ (k, v') :: d2) = (m1 ++ [(k, v)]) ++ d2) as ->.
    { unfold put. rewrite map_app. cbn [map fst]. rewrite teq_refl. fold (put k v m1) (put k v d2).
      rewrite !put_app_other; [now rewrite <- app_assoc| |]; [rewrite E; tauto|tauto]. }
    rewrite IH; [now rewrite <- app_assoc|exact E|]. rewrite <- app_assoc. now rewrite map_app.
Qed.

Definition entries (t : params) : list (text * text) :=
  map (fun x => (fst x, show_int (snd x))) (ints t) ++ map (fun x => (fst x, show_float (snd x))) (floats t) ++ strs t.
Definition entry_line (x : text * text) : text := fst x ++ lit " = " ++ snd x.
Lemma record_entries : forall t, RecordParametersToFile t = flat_map (fun x => entry_line x ++ [newline]) (entries t).
Proof.
  intros t. unfold RecordParametersToFile, entries, record_lines. rewrite !flat_map_app.
  assert (forall A (show : A -> text) m, flat_map (fun x => fst x ++ lit " = " ++ show (snd x) ++ [newline]) m =
    flat_map (fun x => entry_line x ++ [newline]) (map (fun x => (fst x, show (snd x))) m)) as P.
  { intros A show m. induction m as [|x m IH]; [reflexivity|]. cbn [flat_map map]. rewrite IH. f_equal. unfold entry_line. cbn [fst snd]. now rewrite <- !app_assoc. }
  rewrite (P Z show_int), (P R show_float). do 2 f_equal. rewrite (P text (fun s => s)). apply f_equal. 
  transitivity (map (fun x : text * text => x) (strs t)); [|apply map_id]. apply map_ext. now intros [].
Qed.
Definition good_entry (x : text * text) : Prop := good_key (fst x) /\ ~ In ":"%char (snd x) /\ ~ In newline (snd x).
Lemma lines_record : forall l, Forall good_entry l -> lines (flat_map (fun x => entry_line x ++ [newline]) l) = map entry_line l ++ [[]].
Proof.
  induction 1 as [|x l H HL IH]; [reflexivity|]. cbn [flat_map map app]. rewrite <- app_assoc. cbn [app]. rewrite lines_app.
  - now rewrite IH.
  - destruct H as ((_ & _ & _ & K & _) & _ & V). unfold entry_line. rewrite !in_app_iff. intros [A|[A|A]]; [auto| |auto].
    cbn in A. destruct A as [A|[A|[A|[]]]]; discriminate.
Qed.
Lemma parse_entry : forall x t, good_entry x -> ParseLine (entry_line x) t = Ok (SetParameter (fst x) (noblank (snd x)) t).
Proof.
  intros (k, v) t ((K1 & K2 & K3 & K4 & K5) & V1 & V2). cbn [fst snd] in *. unfold entry_line. cbn [fst snd].
  assert (E : noblank (k ++ lit " = " ++ v) = k ++ "="%char :: noblank v).
  { rewrite noblank_app, (noblank_id k) by exact K1. f_equal. }
  apply ParseLine_plain; try assumption; [now apply noblank_notin|]. rewrite E. destruct k; [cbn; discriminate|exact K5].
Qed.
Lemma parse_entries : forall l t, Forall good_entry l ->
  ParseLines (map entry_line l ++ [[]]) t = Ok (fold_left (fun t x => SetParameter (fst x) (noblank (snd x)) t) l t).
Proof.
  induction l as [|x l IH]; intros t H.
  - reflexivity.
  - inversion H; subst. cbn [map app ParseLines]. rewrite parse_entry by assumption. cbn [bind fold_left]. now apply IH.
Qed.

Lemma numchar_noblank : forall s, Forall numchar s -> noblank s = s /\ ~ In ":"%char s /\ ~ In newline s.
Proof.
  intros s H. rewrite Forall_forall in H. split; [apply noblank_id|split]; intros K; apply H in K; destruct K as (A & B & C); congruence.
Qed.

Definition reread_float (x : R) : R := clamp_double (to_double (six x)).
Definition reread (t : params) : params :=
  mkP (ints t) (map (fun x => (fst x, reread_float (snd x))) (floats t)) (map (fun x => (fst x, noblank (snd x))) (strs t)).
Lemma fold_ints : forall l I F S, (forall x, In x l -> has (fst x) I = true /\ INT_MIN <= snd x <= INT_MAX) ->
  fold_left (fun t x => SetParameter (fst x) (noblank (snd x)) t) (map (fun x => (fst x, show_int (snd x))) l) (mkP I F S) =
  mkP (fold_left (fun d x => put (fst x) (snd x) d) l I) F S.
Proof.
  induction l as [|(k, n) l IH]; intros I F S H; [reflexivity|]. cbn [map fold_left fst snd].
  destruct (H (k, n) (or_introl eq_refl)) as (K & B). cbn [fst snd] in *. destruct (numchar_noblank _ (show_int_chars n)) as (-> & _).
  unfold SetParameter at 2. cbn [ints floats strs]. rewrite K, read_show_int by exact B. apply IH. intros x Hx. destruct (H x (or_intror Hx)) as (A & A'). split; [|exact A'].
  etransitivity; [|exact A]. apply has_keys. apply put_keys.
Qed.
Lemma fold_floats : forall l I F S, (forall x, In x l -> has (fst x) I = false /\ has (fst x) F = true) ->
  fold_left (fun t x => SetParameter (fst x) (noblank (snd x)) t) (map (fun x => (fst x, show_float (snd x))) l) (mkP I F S) =
  mkP I (fold_left (fun d x => put (fst x) (snd x) d) (map (fun x => (fst x, reread_float (snd x))) l) F) S.
Proof.
  induction l as [|(k, n) l IH]; intros I F S H; [reflexivity|]. cbn [map fold_left fst snd].
  destruct (H (k, n) (or_introl eq_refl)) as (K & B). cbn [fst snd] in *. destruct (numchar_noblank _ (show_float_chars n)) as (-> & _).
  unfold SetParameter at 2. cbn [ints floats strs]. rewrite K, B, read_show_float. fold (reread_float n). apply IH. intros x Hx. destruct (H x (or_intror Hx)) as (A & A'). split; [exact A|].
  etransitivity; [|exact A']. apply has_keys. apply put_keys.
Qed.
Lemma fold_strs : forall l I F S, (forall x, In x l -> has (fst x) I = false /\ has (fst x) F = false /\ has (fst x) S = true) ->
  fold_left (fun t x => SetParameter (fst x) (noblank (snd x)) t) l (mkP I F S) =
  mkP I F (fold_left (fun d x => put (fst x) (snd x) d) (map (fun x => (fst x, noblank (snd x))) l) S).
Proof.
  induction l as [|(k, n) l IH]; intros I F S H; [reflexivity|]. cbn [map fold_left fst snd].
  destruct (H (k, n) (or_introl eq_refl)) as (K & B & C). cbn [fst snd] in *.
  unfold SetParameter at 2. cbn [ints floats strs]. rewrite K, B, C. apply IH. intros x Hx. destruct (H x (or_intror Hx)) as (A & A' & A''). split; [exact A|]. split; [exact A'|].
  etransitivity; [|exact A'']. apply has_keys. apply put_keys.
Qed.
Lemma map_fst_map : forall A B (f : A -> B) (m : list (text * A)), map fst (map (fun x => (fst x, f (snd x))) m) = map fst m.
Proof. intros. rewrite map_map. now apply map_ext. Qed.

Theorem read_record : forall d t, good_keys t -> same_keys d t ->
  (forall k n, In (k, n) (ints t) -> INT_MIN <= n <= INT_MAX) ->
  (forall k s, In (k, s) (strs t) -> ~ In ":"%char s /\ ~ In newline s) ->
  ParseLines (lines (RecordParametersToFile t)) d = Ok (reread t).
Proof.
  intros d t (ND & GK) (S1 & S2 & S3) HI HS. rewrite record_entries.
  assert (GE : Forall good_entry (entries t)).
  { apply Forall_forall. intros (k, v) H. unfold entries in H. rewrite !in_app_iff in H. destruct H as [H|[H|H]].
    - apply in_map_iff in H. destruct H as ((k', n) & E & H). injection E as <- <-. split; cbn [fst snd].
      + apply GK. rewrite !in_app_iff. left. now apply (in_map fst) in H.
      + now destruct (numchar_noblank _ (show_int_chars n)).
    - apply in_map_iff in H. destruct H as ((k', n) & E & H). injection E as <- <-. split; cbn [fst snd].
      + apply GK. rewrite !in_app_iff. right. left. now apply (in_map fst) in H.
      + now destruct (numchar_noblank _ (show_float_chars n)).
    - split; cbn [fst snd]; [|now apply (HS k)]. apply GK. rewrite !in_app_iff. right. right. now apply (in_map fst) in H. }
  rewrite lines_record, parse_entries by exact GE. f_equal. unfold entries. rewrite !fold_left_app.
  destruct d as [I F S]. cbn [ints floats strs] in *.
  assert (DJ : forall k, In k (map fst (ints t)) -> ~ In k (map fst (floats t)) /\ ~ In k (map fst (strs t))).
  { intros k H. split; intros K; revert ND; apply in_split in H; destruct H as (a & b & ->); rewrite <- app_assoc; cbn [app];
    intros ND; apply NoDup_remove_2 in ND; apply ND; rewrite !in_app_iff; tauto. }
  assert (DJ2 : forall k, In k (map fst (floats t)) -> ~ In k (map fst (strs t))).
  { intros k H K. assert (ND' : NoDup (map fst (floats t) ++ map fst (strs t))).
    { clear - ND. revert ND. induction (map fst (ints t)); [easy|]. cbn. intros ND. inversion ND; auto. }
    apply in_split in H. destruct H as (a & b & H). rewrite H in ND'. rewrite <- app_assoc in ND'. cbn [app] in ND'.
    apply NoDup_remove_2 in ND'. apply ND'. rewrite !in_app_iff. tauto. }
  assert (N1 : NoDup (map fst (ints t))) by (clear - ND; induction (map fst (ints t)); [constructor|]; cbn in ND; inversion ND; constructor; [rewrite in_app_iff in *; tauto|auto]).
  assert (ND' : NoDup (map fst (floats t) ++ map fst (strs t))).
  { clear - ND. revert ND. induction (map fst (ints t)); [easy|]. cbn. intros ND. inversion ND; auto. }
  assert (N2 : NoDup (map fst (floats t))) by (clear - ND'; induction (map fst (floats t)); [constructor|]; cbn in ND'; inversion ND'; constructor; [rewrite in_app_iff in *; tauto|auto]).
  assert (N3 : NoDup (map fst (strs t))).
  { clear - ND'. revert ND'. induction (map fst (floats t)); [easy|]. cbn. intros ND. inversion ND; auto. }
  rewrite fold_ints.
  2: { intros (k, n) H. split; [|now apply (HI k)]. cbn [fst snd]. apply has_in. rewrite S1. now apply (in_map fst) in H. }
  assert (FP1 := fold_put _ (ints t) [] I S1 N1). cbn [app] in FP1. rewrite FP1.
  rewrite fold_floats.
  2: { intros (k, n) H. cbn [fst snd]. apply (in_map fst) in H. cbn in H. split.
       - apply has_notin. intros K. apply DJ in K. tauto.
       - apply has_in. now rewrite S2. }
  assert (FP2 := fold_put _ (map (fun x => (fst x, reread_float (snd x))) (floats t)) [] F). cbn [app] in FP2.
  rewrite FP2; [|rewrite map_fst_map; exact S2|rewrite map_fst_map; exact N2].
  rewrite fold_strs.
  2: { intros (k, n) H. cbn [fst snd]. apply (in_map fst) in H. cbn in H. split.
       - apply has_notin. intros K. apply DJ in K. tauto.
       - split.
         + apply has_notin. rewrite map_fst_map. intros K. now apply DJ2 in K.
         + apply has_in. now rewrite S3. }
  assert (FP3 := fold_put _ (map (fun x => (fst x, noblank (snd x))) (strs t)) [] S). cbn [app] in FP3.
  rewrite FP3; [reflexivity|rewrite map_fst_map; exact S3|rewrite map_fst_map; exact N3].
Qed.

(** ** Six digits survive *)
Local Open Scope R_scope.
Lemma six_of_double : forall m e, (Z.abs m < 10 ^ 6)%Z -> (m <> 0)%Z -> (-300 <= e <= 300)%Z ->
  let D := IZR m * bpow ten e in six (to_double D) = D.
Proof.
  intros m e Bm Nm He D.
  assert (Nz : D <> 0). { unfold D. intros K. apply Rmult_integral in K. destruct K as [K|K]; [apply eq_IZR in K; congruence|]. pose proof (bpow_gt_0 ten e). lra. }
  assert (M1 : 1 <= Rabs (IZR m)) by (rewrite <- abs_IZR; apply IZR_le; lia).
  assert (AD : Rabs D = Rabs (IZR m) * bpow ten e) by (unfold D; rewrite Rabs_mult, (Rabs_pos_eq (bpow ten e)); [reflexivity|apply bpow_ge_0]).
  assert (L : bpow ten (-300) <= Rabs D).
  { rewrite AD. apply Rle_trans with (bpow ten e); [apply bpow_le; lia|]. pose proof (bpow_gt_0 ten e). nra. }
  assert (FD : generic_format ten (FLX_exp 6) D).
  { apply generic_format_FLX. exists (Float ten m e); [reflexivity|exact Bm]. }
  set (x := to_double D). pose proof (double_rel D L) as RX. fold x in RX.
  assert (V6 : Valid_exp (FLX_exp 6)) by (apply FLX_exp_valid; red; lia).
  set (f := six x).
  assert (Ff : generic_format ten (FLX_exp 6) f) by (apply generic_format_round; [exact V6|apply valid_rnd_N]).
  assert (NX : Rabs (f - x) <= Rabs (D - x)).
  { destruct (round_N_pt ten (FLX_exp 6) (fun z => negb (Z.even z)) x) as (_ & P). apply P. exact FD. }
  assert (C : Rabs (f - D) <= 2 * (bpow radix2 (-53) * Rabs D)).
  { replace (f - D) with ((f - x) + (x - D)) by ring. eapply Rle_trans; [apply Rabs_triang|]. rewrite (Rabs_minus_sym D x) in NX. lra. }
  set (E := mag_val ten D (mag ten D)). assert (HE : bpow ten (E - 1) <= Rabs D < bpow ten E) by (unfold E; destruct (mag ten D) as (e0 & He0); exact (He0 Nz)).
  assert (T : 2 * (bpow radix2 (-53)) < bpow ten (-10)).
  { replace (bpow ten (-10)) with (/ IZR (Zpower ten 10)) by reflexivity. replace (bpow radix2 (-53)) with (/ IZR (Zpower radix2 53)) by reflexivity.
    change (Zpower ten 10) with 10000000000%Z. change (Zpower radix2 53) with 9007199254740992%Z. lra. }
  assert (C2 : Rabs (f - D) < bpow ten (E - 10)).
  { eapply Rle_lt_trans; [exact C|]. replace (E - 10)%Z with (-10 + E)%Z by lia. rewrite bpow_plus. pose proof (bpow_gt_0 ten (-10)). pose proof (bpow_gt_0 radix2 (-53)). pose proof (Rabs_pos D).
    rewrite <- Rmult_assoc. apply Rle_lt_trans with (bpow ten (-10) * Rabs D); [apply Rmult_le_compat_r; lra|]. apply Rmult_lt_compat_l; lra. }
  assert (mgf : (E - 1 <= mag ten f)%Z).
  { apply mag_ge_bpow. replace (E - 1 - 1)%Z with (E - 2)%Z by lia.
    assert (Rabs D - Rabs (f - D) <= Rabs f). { replace D with (f + - (f - D)) at 1 by ring. pose proof (Rabs_triang f (- (f - D))) as K. rewrite Rabs_Ropp in K. lra. }
    assert (bpow ten (E - 2) + bpow ten (E - 10) <= bpow ten (E - 1)).
    { replace (bpow ten (E - 1)) with (10 * bpow ten (E - 2)) by (replace (E - 1)%Z with (1 + (E - 2))%Z by lia; rewrite bpow_plus; reflexivity).
      assert (bpow ten (E - 10) <= bpow ten (E - 2)) by (apply bpow_le; lia). pose proof (bpow_gt_0 ten (E - 2)). lra. }
    lra. }
  assert (ID : exists a, D = IZR a * bpow ten (E - 7)).
  { exists (Ztrunc (scaled_mantissa ten (FLX_exp 6) D) * 10)%Z. rewrite FD at 1. unfold F2R, cexp. fold E. cbn [Fnum Fexp]. unfold FLX_exp at 2.
    rewrite mult_IZR, Rmult_assoc. f_equal. replace (E - 6)%Z with (1 + (E - 7))%Z by lia. now rewrite bpow_plus. }
  assert (IF : exists b, f = IZR b * bpow ten (E - 7)).
  { set (g := mag_val ten f (mag ten f)) in *. exists (Ztrunc (scaled_mantissa ten (FLX_exp 6) f) * Zpower ten (g - E + 1))%Z. rewrite Ff at 1. unfold F2R, cexp. cbn [Fnum Fexp]. unfold FLX_exp at 2.
    fold g. rewrite mult_IZR, Rmult_assoc. f_equal. rewrite IZR_Zpower by lia. rewrite <- bpow_plus. f_equal. lia. }
  destruct ID as (a & Ea). destruct IF as (b & Eb). rewrite Ea, Eb in C2. rewrite Eb, Ea.
  replace (IZR b * bpow ten (E - 7) - IZR a * bpow ten (E - 7)) with ((IZR (b - a)) * bpow ten (E - 7)) in C2 by (rewrite minus_IZR; ring).
  rewrite Rabs_mult, (Rabs_pos_eq (bpow _ _)) in C2 by apply bpow_ge_0. replace (E - 10)%Z with (-3 + (E - 7))%Z in C2 by lia. rewrite bpow_plus in C2.
  apply Rmult_lt_reg_r in C2; [|apply bpow_gt_0]. rewrite <- abs_IZR in C2.
  assert (IZR (Z.abs (b - a)) < 1). { eapply Rlt_trans; [exact C2|]. change 1 with (bpow ten 0). apply bpow_lt. lia. }
  apply lt_IZR in H. f_equal. f_equal. lia.
Qed.
Lemma reread_six : forall x, six_digits x -> reread_float x = x.
Proof.
  intros x (m & e & Bm & He & Hx). apply is_double_unique in Hx. rewrite <- bpow10 in Hx. unfold reread_float.
  assert (BD : Rabs (IZR m * bpow ten e) <= bpow radix2 1023).
  { eapply Rle_trans; [|exact pow_10_big]. rewrite Rabs_mult, (Rabs_pos_eq (bpow ten e)) by apply bpow_ge_0. replace 307%Z with (7 + 300)%Z by lia. rewrite bpow_plus.
    apply Rmult_le_compat; [apply Rabs_pos|apply bpow_ge_0| |apply bpow_le; lia]. rewrite <- abs_IZR. rewrite <- IZR_Zpower by lia. apply IZR_le. change (Zpower ten 7) with 10000000%Z. lia. }
  destruct (Z.eq_dec m 0) as [->|Nm].
  - rewrite Rmult_0_l in Hx. unfold to_double in Hx. rewrite round_0 in Hx by apply valid_rnd_N. subst x. unfold six. rewrite round_0 by apply valid_rnd_N. rewrite clamp_id.
    + unfold to_double. apply round_0. apply valid_rnd_N.
    + rewrite Rabs_R0. apply bpow_ge_0.
  - rewrite Hx at 1. rewrite six_of_double by assumption. rewrite clamp_id by exact BD. now symmetry.
Qed.
Lemma reread_close : forall x, x = 0 \/ bpow ten (-299) <= Rabs x <= bpow ten 306 -> Rabs (reread_float x - x) <= / 100000 * Rabs x.
Proof.
  intros x [->|(H1 & H2)].
  - unfold reread_float, six. rewrite round_0 by apply valid_rnd_N. rewrite clamp_id by (rewrite Rabs_R0; apply bpow_ge_0). unfold to_double. rewrite round_0 by apply valid_rnd_N.
    rewrite Rminus_0_r, Rabs_R0. lra.
  - unfold reread_float. rewrite clamp_id by now apply six_bound.
    assert (S1 : Rabs (six x - x) <= / 2 * bpow ten (-5) * Rabs x).
    { pose proof (relative_error_N_FLX ten 6 (eq_refl : Prec_gt_0 6) (fun z => negb (Z.even z)) x) as P. exact P. }
    assert (B5 : bpow ten (-5) = / 100000) by reflexivity. rewrite B5 in S1.
    assert (S2 : Rabs (six x) <= 2 * Rabs x).
    { replace (six x) with ((six x - x) + x) by ring. eapply Rle_trans; [apply Rabs_triang|]. pose proof (Rabs_pos x). lra. }
    assert (S3 : bpow ten (-300) <= Rabs (six x)).
    { unfold six. apply abs_round_ge_generic; [apply FLX_exp_valid; red; lia|apply valid_rnd_N|apply generic_format_bpow; unfold FLX_exp; lia|].
      eapply Rle_trans; [|exact H1]. apply bpow_le. lia. }
    pose proof (double_rel _ S3) as D. 
    assert (T : bpow radix2 (-53) <= / 10000000).
    { replace (bpow radix2 (-53)) with (/ IZR (Zpower radix2 53)) by reflexivity. change (Zpower radix2 53) with 9007199254740992%Z. lra. }
    replace (to_double (six x) - x) with ((to_double (six x) - six x) + (six x - x)) by ring. eapply Rle_trans; [apply Rabs_triang|].
    pose proof (Rabs_pos x). pose proof (Rabs_pos (six x)). pose proof (bpow_gt_0 radix2 (-53)).
    assert (bpow radix2 (-53) * Rabs (six x) <= / 10000000 * (2 * Rabs x)) by (apply Rmult_le_compat; lra). lra.
Qed.
