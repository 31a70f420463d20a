(** Proofs about parameter files: floating point numbers. *)
From Coq Require Import Ascii String Reals Lra Psatz.
From Flocq Require Import Core Relative.
From Verif Require Import Prelude M_Params S_Params L_Params.
Local Open Scope Z_scope.

Lemma bpow10 : forall e, bpow ten e = powerRZ 10 e.
Proof. intros e. now rewrite bpow_powerRZ. Qed.

(** ** Reading *)
Lemma show_digits_split : forall l a b, show_digits l = a ++ b -> exists l1 l2, l = l1 ++ l2 /\ a = show_digits l1 /\ b = show_digits l2.
Proof.
  intros l a. revert l. induction a as [|c a IH]; intros l b E.
  - exists [], l. now split.
  - destruct l as [|d l]; [discriminate|]. cbn in E. injection E as <- E. apply IH in E. destruct E as (l1 & l2 & -> & -> & ->).
    exists (d :: l1), l2. now split.
Qed.
Definition startchar (s : text) : Prop :=
  match s with [] => False | c :: _ => is_space c = false /\ ceq c "-" = false /\ ceq c "+" = false end.
Lemma read_start : forall sg neg s, (sg = [] /\ neg = false \/ sg = ["+"%char] /\ neg = false \/ sg = ["-"%char] /\ neg = true) ->
  startchar s -> skip_ws (sg ++ s) = sg ++ s /\ sign (sg ++ s) = (neg, s) /\ sg ++ s <> [].
Proof.
  intros sg neg [|c s] H S; [destruct S|]. destruct S as (S1 & S2 & S3).
  destruct H as [(-> & ->)|[(-> & ->)|(-> & ->)]]; cbn [app skip_ws sign]; rewrite ?S1, ?S2, ?S3; repeat split; discriminate.
Qed.
Lemma read_float_eq : forall sg neg a b frac ex m e, (sg = [] /\ neg = false \/ sg = ["+"%char] /\ neg = false \/ sg = ["-"%char] /\ neg = true) ->
  a ++ b <> [] -> ten_digits (a ++ b) -> horner (a ++ b) = m ->
  (frac = [] /\ b = [] \/ frac = "."%char :: show_digits b) ->
  (ex = [] /\ e = 0 \/ exists s', (ex = "e"%char :: s' \/ ex = "E"%char :: s') /\ dec_int s' e) ->
  read_float (sg ++ show_digits a ++ frac ++ ex) = Some (clamp_double (to_double ((if neg then - IZR m else IZR m) * powerRZ 10 (e - zlen b)))).
Proof.
  intros sg neg a b frac ex m e Hs N T Hm Hf He.
  assert (NX : nodigit ex). { destruct He as [(-> & _)|(s' & [-> | ->] & _)]; exact I || reflexivity. }
  assert (NF : nodigit (frac ++ ex)). { destruct Hf as [(-> & _)| ->]; [exact NX|reflexivity]. }
  apply Forall_app in T. destruct T as (Ta & Tb).
  assert (ST : startchar (show_digits a ++ frac ++ ex)).
  { destruct a as [|d a].
    - destruct Hf as [(-> & ->)| ->]; [now destruct N|]. cbn. repeat split.
    - destruct (show_digits_nonspace (d :: a) (char_of_digit d) (show_digits a) Ta eq_refl) as (A & B & C & _). cbn. now repeat split. }
  destruct (read_start sg neg _ Hs ST) as (R1 & R2 & R3). unfold read_float. rewrite R1.
  destruct (sg ++ show_digits a ++ frac ++ ex) as [|c0 q0] eqn:Q; [congruence|]. rewrite <- Q in *. clear Q R1 R3. rewrite R2. cbv beta iota.
  rewrite digits_show by assumption. cbv beta iota.
  assert (F : (match frac ++ ex with [] => ([], []) | c :: s' => if ceq c "." then digits s' else ([], frac ++ ex) end) = (b, ex)).
  { destruct Hf as [(-> & ->)| ->].
    - cbn [app]. destruct He as [(-> & _)|(s' & [-> | ->] & _)]; reflexivity.
    - cbn [app]. change (ceq "." ".") with true. cbv iota. now apply digits_show. }
  lazymatch goal with |- (match ?M with (_, _) => _ end) = _ => replace M with (b, ex) by exact (eq_sym F) end. cbv beta iota.
  destruct (a ++ b) as [|d0 l0] eqn:L; [congruence|]. rewrite <- L in *. f_equal.
  assert (V : IZR (if neg then - horner (a ++ b) else horner (a ++ b)) = (if neg then - IZR m else IZR m)%R).
  { rewrite Hm. destruct neg; [apply opp_IZR|reflexivity]. }
  rewrite V. rewrite !bpow10. destruct He as [(-> & ->)|(s' & [-> | ->] & He)]; [reflexivity| |].
  all: change (ceq "e" "e" || ceq "e" "E")%bool with true; change (ceq "E" "e" || ceq "E" "E")%bool with true; cbv iota.
  all: destruct He as [H|[(s2 & -> & H)|(s2 & -> & H)]]; apply dec_nat_show in H; destruct H as (l & Ll & Tl & -> & El).
  all: rewrite <- (app_nil_r (show_digits l)).
  all: try (rewrite sign_digits by assumption).
  all: cbn [sign app]; try change (ceq "+" "-") with false; try change (ceq "+" "+") with true; try change (ceq "-" "-") with true; cbv iota.
  all: rewrite digits_show by (assumption || exact I).
  all: destruct l as [|d1 l1]; [congruence|].
  all: rewrite El, ?bpow10; do 3 f_equal; f_equal; lia.
Qed.
Lemma read_float_dec : forall s v, dec_real s v -> read_float s = Some (clamp_double (to_double v)).
Proof.
  intros s v (sg & neg & ip & fp & frac & ex & e & m & -> & Hs & Hd & Hf & He & ->).
  apply dec_nat_show in Hd. destruct Hd as (l & N & T & E & Hm). symmetry in E. apply show_digits_split in E.
  destruct E as (a & b & -> & -> & ->). replace (zlen (show_digits b)) with (zlen b) by (unfold zlen, show_digits; now rewrite map_length).
  apply read_float_eq; try assumption. destruct Hf as [(-> & Hb)| ->]; [left|now right]. split; [reflexivity|]. destruct b; [reflexivity|discriminate].
Qed.

(** ** Writing *)
Lemma strip_spec : forall l, exists k, l = strip l ++ repeat 0 k.
Proof.
  intros l. assert (forall r, exists k, r = repeat 0 k ++ lead0 r) as P.
  { induction r as [|d r (k & IH)]; [now exists 0%nat|]. cbn [lead0]. destruct (d =? 0) eqn:E.
    - exists (S k). cbn [repeat app]. rewrite <- IH. f_equal. lia.
    - now exists 0%nat. }
  destruct (P (rev l)) as (k & E). exists k. unfold strip. rewrite <- (rev_involutive l) at 1. rewrite E at 1. rewrite rev_app_distr. f_equal.
  clear. induction k as [|k IH]; [reflexivity|]. cbn [repeat rev]. rewrite IH. clear. induction k; [reflexivity|]. cbn [repeat app]. now rewrite IHk.
Qed.
Lemma horner_zeros : forall a k, horner (a ++ repeat 0 k) = horner a * 10 ^ Z.of_nat k.
Proof.
  intros a k. rewrite horner_app. unfold zlen. rewrite repeat_length. assert (horner (repeat 0 k) = 0) as ->; [|lia].
  clear. unfold horner. induction k as [|k IH]; [reflexivity|exact IH].
Qed.
Lemma strip_len : forall l, exists k, zlen l = zlen (strip l) + Z.of_nat k /\ forall a, horner (a ++ l) = horner (a ++ strip l) * 10 ^ Z.of_nat k.
Proof.
  intros l. destruct (strip_spec l) as (k & E). exists k. split.
  - rewrite E at 1. rewrite zlen_app. unfold zlen. now rewrite repeat_length.
  - intros a. rewrite E at 1. rewrite app_assoc. apply horner_zeros.
Qed.
Lemma strip_digits : forall l, ten_digits l -> ten_digits (strip l).
Proof. intros l T. destruct (strip_spec l) as (k & E). unfold ten_digits in T. rewrite E in T. now apply Forall_app in T. Qed.

Lemma horner_bounds : forall l, ten_digits l -> 0 <= horner l < 10 ^ zlen l.
Proof.
  intros l T. induction l as [|d l IH] using rev_ind; [cbn; lia|]. apply Forall_app in T. destruct T as (T & Td). inversion Td; subst.
  rewrite horner_snoc, zlen_app. specialize (IH T). change (zlen [d]) with 1. rewrite Z.pow_add_r by (pose proof (zlen_nonneg _ l); lia). change (10 ^ 1) with 10. lia.
Qed.
Lemma dec_digits_hd : forall f n acc, 0 < n < 10 ^ Z.of_nat f -> (0 < f)%nat -> exists d r, dec_digits f n acc = d :: r /\ 0 < d.
Proof.
  induction f as [|f IH]; intros n acc H F; [lia|]. cbn [dec_digits]. destruct (n <? 10) eqn:E.
  - exists n, acc. split; [reflexivity|lia].
  - destruct f as [|f]; [cbn in H; lia|]. apply IH; [|lia]. split; [apply Z.div_str_pos; lia|].
    apply Z.div_lt_upper_bound; [lia|]. rewrite <- Z.pow_succ_r by lia. replace (Z.succ (Z.of_nat (S f))) with (Z.of_nat (S (S f))) by lia. lia.
Qed.
Lemma digits_of_len : forall n k, 10 ^ k <= n < 10 ^ (k + 1) -> 0 <= k -> zlen (digits_of n) = k + 1.
Proof.
  intros n k H K. assert (0 < n) by (pose proof (Z.pow_pos_nonneg 10 k ltac:(lia) K); lia).
  destruct (digits_of_spec n) as (T & N & E); [lia|].
  assert (exists d r, digits_of n = d :: r /\ 0 < d) as (d & r & D & Dp).
  { apply dec_digits_hd; [|lia]. split; [lia|]. pose proof (Z.log2_nonneg n). replace (Z.of_nat (S (Z.to_nat (Z.log2 n)))) with (Z.succ (Z.log2 n)) by lia.
    eapply Z.lt_le_trans; [apply Z.log2_spec; lia|]. apply Z.pow_le_mono_l. lia. }
  pose proof (horner_bounds _ T) as B. rewrite E in B. rewrite D in *. change (d :: r) with ([d] ++ r) in E. rewrite horner_app in E.
  pose proof (horner_bounds _ (Forall_inv_tail T)) as B'. replace (horner [d]) with d in E by (cbn; lia). rewrite zlen_cons in *. pose proof (zlen_nonneg _ r).
  assert (zlen r < k + 1) by (apply (Z.pow_lt_mono_r_iff 10); [lia|lia|]; nia).
  assert (k < 1 + zlen r) by (apply (Z.pow_lt_mono_r_iff 10); lia). lia.
Qed.

Lemma six_pos : forall v, (0 < v)%R -> (0 < six v)%R.
Proof.
  intros v H. unfold six. destruct (mag ten v) as (e & He). specialize (He (Rgt_not_eq _ _ H)). rewrite Rabs_pos_eq in He by lra.
  apply Rlt_le_trans with (bpow ten (e - 1)); [apply bpow_gt_0|]. apply round_ge_generic; [apply FLX_exp_valid; red; lia|apply valid_rnd_N| |apply He].
  apply generic_format_bpow. unfold FLX_exp. lia.
Qed.
Lemma six_opp : forall v, six (- v) = (- six v)%R.
Proof. intros v. unfold six. apply round_NE_opp. Qed.
(** The six digits. *)
Lemma six_digits_of : forall y, (0 < y)%R -> generic_format ten (FLX_exp 6) y ->
  let x := mag_val ten y (mag ten y) - 1 in
  exists m, Zfloor (y * bpow ten (5 - x)) = m /\ 10 ^ 5 <= m < 10 ^ 6 /\ y = (IZR m * bpow ten (x - 5))%R.
Proof.
  intros y Hy Hf x. set (e := mag_val ten y (mag ten y)) in *.
  assert (He : (bpow ten (e - 1) <= y < bpow ten e)%R).
  { unfold e. clear - Hy. destruct (mag ten y) as (e0 & H0). cbn [mag_val]. specialize (H0 (Rgt_not_eq _ _ Hy)). rewrite Rabs_pos_eq in H0 by lra. exact H0. }
  unfold generic_format, scaled_mantissa, cexp in Hf. fold e in Hf. unfold FLX_exp in Hf. unfold F2R in Hf. cbn [Fnum Fexp] in Hf.
  set (m := Ztrunc (y * bpow ten (- (e - 6)))) in Hf. exists m. subst x.
  assert (E : (y * bpow ten (5 - (e - 1)))%R = IZR m).
  { rewrite Hf. rewrite Rmult_assoc, <- bpow_plus. replace (e - 6 + (5 - (e - 1))) with 0 by lia. cbn [bpow]. ring. }
  rewrite E, Zfloor_IZR. split; [reflexivity|]. replace (e - 1 - 5) with (e - 6) by lia. split; [|exact Hf].
  rewrite Hf in He. replace (e - 1) with (5 + (e - 6)) in He by lia. rewrite bpow_plus in He.
  replace e with (6 + (e - 6)) in He at 4 by lia. rewrite bpow_plus in He. pose proof (bpow_gt_0 ten (e - 6)) as P.
  split.
  - apply le_IZR. change (10 ^ 5) with (Zpower ten 5). rewrite IZR_Zpower by lia. apply Rmult_le_reg_r with (1 := P). apply He.
  - apply lt_IZR. change (10 ^ 6) with (Zpower ten 6). rewrite IZR_Zpower by lia. apply Rmult_lt_reg_r with (1 := P). apply He.
Qed.

Lemma dec_real_build : forall (neg : bool) a b ex e m, a ++ b <> [] -> ten_digits (a ++ b) -> horner (a ++ b) = m ->
  (ex = [] /\ e = 0 \/ exists s', (ex = "e"%char :: s' \/ ex = "E"%char :: s') /\ dec_int s' e) ->
  dec_real ((if neg then ["-"%char] else []) ++ show_digits a ++ point b ++ ex) ((if neg then - IZR m else IZR m) * powerRZ 10 (e - zlen b)).
Proof.
  intros neg a b ex e m N T Hm He. exists (if neg then ["-"%char] else []), neg, (show_digits a), (show_digits b), (point b), ex, e, m.
  split; [reflexivity|]. split; [destruct neg; tauto|]. split.
  { apply dec_nat_show. exists (a ++ b). unfold show_digits. rewrite map_app. now repeat split. }
  split; [destruct b; [now left|now right]|]. split; [exact He|]. unfold zlen, show_digits. now rewrite map_length.
Qed.
Lemma show_exp_dec : forall x, exists s', show_exp x = "e"%char :: s' /\ dec_int s' x.
Proof.
  intros x. eexists. split; [reflexivity|]. destruct (digits_of_spec (Z.abs x)) as (T & N & E); [lia|].
  assert (D : dec_nat ((if Z.abs x <? 10 then ["0"%char] else []) ++ show_digits (digits_of (Z.abs x))) (Z.abs x)).
  { apply dec_nat_show. exists ((if Z.abs x <? 10 then [0] else []) ++ digits_of (Z.abs x)). split; [destruct (Z.abs x <? 10); [discriminate|exact N]|].
    split; [apply Forall_app; split; [destruct (Z.abs x <? 10); repeat constructor; lia|exact T]|].
    split; [unfold show_digits; rewrite map_app; f_equal; now destruct (Z.abs x <? 10)|].
    rewrite horner_app, E. destruct (Z.abs x <? 10); cbn; lia. }
  destruct (x <? 0) eqn:B.
  - right. right. eexists. split; [reflexivity|]. replace (- x) with (Z.abs x) by lia. exact D.
  - right. left. eexists. split; [reflexivity|]. replace x with (Z.abs x) at 3 by lia. exact D.
Qed.
Lemma powerRZ_scale : forall k e, 0 <= k -> (IZR (10 ^ k) * powerRZ 10 e = powerRZ 10 (k + e))%R.
Proof.
  intros k e H. rewrite powerRZ_add by lra. f_equal. rewrite <- bpow10. change (10 ^ k) with (Zpower ten k). now rewrite IZR_Zpower.
Qed.
(** The text written for a double is a numeral of its value rounded to six digits. *)
Lemma show_float_dec : forall v, v <> 0%R -> dec_real (show_float v) (six v).
Proof.
  intros v Hv. unfold show_float. rewrite Req_bool_false by exact Hv.
  assert (P : (0 < Rabs v)%R) by now apply Rabs_pos_lt. set (y := six (Rabs v)). assert (Py : (0 < y)%R) by now apply six_pos.
  assert (Fy : generic_format ten (FLX_exp 6) y) by (apply generic_format_round; [apply FLX_exp_valid; red; lia|apply valid_rnd_N]).
  destruct (six_digits_of y Py Fy) as (m & Em & Bm & Ey). cbv zeta. set (x := mag_val ten y (mag ten y) - 1) in *. rewrite Em. clear Em.
  assert (V : six v = (if Rlt_bool v 0 then - y else y)%R).
  { unfold y. destruct (Rlt_bool_spec v 0) as [L|L].
    - rewrite Rabs_left by exact L. rewrite six_opp. ring.
    - now rewrite Rabs_pos_eq. }
  rewrite V. clear V. destruct (digits_of_spec m) as (T & N & H); [lia|].
  pose proof (digits_of_len m 5 ltac:(lia) ltac:(lia)) as L. change (5 + 1) with 6 in L. set (ds := digits_of m) in *.
  rewrite bpow10 in Ey. set (neg := Rlt_bool v 0). clearbody neg.
  assert (Y : forall (n : Z) e, (IZR n * powerRZ 10 e = y)%R -> (if neg then - y else y)%R = ((if neg then - IZR n else IZR n) * powerRZ 10 e)%R).
  { intros n e <-. destruct neg; ring. }
  assert (SPL : forall k, (k <= 6)%nat -> exists j, zlen (skipn k ds) = 6 - Z.of_nat k /\ zlen (strip (skipn k ds)) = 6 - Z.of_nat k - Z.of_nat j /\
            m = horner (firstn k ds ++ strip (skipn k ds)) * 10 ^ Z.of_nat j /\ ten_digits (firstn k ds ++ strip (skipn k ds))).
  { intros k Hk. destruct (strip_len (skipn k ds)) as (j & L1 & L2). exists j.
    assert (zlen (skipn k ds) = 6 - Z.of_nat k) as L3 by (unfold zlen in *; rewrite skipn_length; lia).
    split; [exact L3|]. split; [lia|]. split; [rewrite <- (L2 (firstn k ds)), firstn_skipn; now symmetry|].
    rewrite <- (firstn_skipn k ds) in T. apply Forall_app in T. apply Forall_app. split; [apply T|]. now apply strip_digits. }
  destruct ((x <? -4) || (6 <=? x))%bool eqn:B1.
  - destruct (SPL 1%nat ltac:(lia)) as (j & L1 & L2 & M & TT).
    replace ((if neg then - y else y)%R) with ((if neg then - IZR (horner (firstn 1 ds ++ strip (skipn 1 ds))) else IZR (horner (firstn 1 ds ++ strip (skipn 1 ds)))) * powerRZ 10 (x - zlen (strip (skipn 1 ds))))%R.
    + destruct (show_exp_dec x) as (s' & E1 & E2).
      apply dec_real_build; [|exact TT|reflexivity|right; exists s'; split; [now left|exact E2]].
      destruct ds; [unfold zlen in L; cbn in L; lia|discriminate].
    + symmetry. apply Y. rewrite Ey, M, mult_IZR, Rmult_assoc. rewrite powerRZ_scale by lia. f_equal. f_equal. lia.
  - destruct (0 <=? x) eqn:B2.
    + destruct (SPL (S (Z.to_nat x)) ltac:(lia)) as (j & L1 & L2 & M & TT). set (k := S (Z.to_nat x)) in *.
      rewrite <- (app_nil_r (point _)).
      replace ((if neg then - y else y)%R) with ((if neg then - IZR (horner (firstn k ds ++ strip (skipn k ds))) else IZR (horner (firstn k ds ++ strip (skipn k ds)))) * powerRZ 10 (0 - zlen (strip (skipn k ds))))%R.
      * apply dec_real_build; [|exact TT|reflexivity|now left].
        destruct ds; [unfold zlen in L; cbn in L; lia|discriminate].
      * symmetry. apply Y. rewrite Ey, M, mult_IZR, Rmult_assoc. rewrite powerRZ_scale by lia. f_equal. f_equal. lia.
    + destruct (SPL 0%nat ltac:(lia)) as (j & L1 & L2 & M & TT). cbn [skipn firstn app] in *.
      set (z := Z.to_nat (- x - 1)). change ("0"%char :: point (repeat 0 z ++ strip ds)) with (show_digits [0] ++ point (repeat 0 z ++ strip ds)).
      rewrite <- (app_nil_r (point _)).
      assert (HZ : horner ([0] ++ repeat 0 z ++ strip ds) = horner (strip ds)).
      { rewrite app_assoc, horner_app. change ([0] ++ repeat 0 z) with (repeat 0 (S z)). pose proof (horner_zeros [] (S z)) as HH. cbn [app] in HH. rewrite HH. cbn. lia. }
      replace ((if neg then - y else y)%R) with ((if neg then - IZR (horner (strip ds)) else IZR (horner (strip ds))) * powerRZ 10 (0 - zlen (repeat 0%Z z ++ strip ds)))%R.
      * apply dec_real_build; [discriminate| |exact HZ|now left].
        constructor; [lia|]. apply Forall_app. split; [|exact TT]. apply Forall_forall. intros d Hd. apply repeat_spec in Hd. lia.
      * symmetry. apply Y. rewrite Ey, M, mult_IZR, Rmult_assoc. rewrite powerRZ_scale by lia. f_equal. f_equal.
        rewrite zlen_app, L2. unfold zlen at 1. rewrite repeat_length. lia.
Qed.
Lemma show_zero : read_float (show_float 0) = Some (clamp_double (to_double (six 0))).
Proof.
  unfold show_float. rewrite Req_bool_true by reflexivity. unfold six. rewrite round_0 by apply valid_rnd_N.
  rewrite (read_float_dec ["0"%char] 0); [reflexivity|].
  pose proof (dec_real_build false [0] [] [] 0 0) as H. cbn in H. rewrite Rmult_0_l in H. apply H; try reflexivity; [discriminate| |now left].
  repeat constructor; lia.
Qed.
Lemma read_show_float : forall v, read_float (show_float v) = Some (clamp_double (to_double (six v))).
Proof. intros v. destruct (Req_dec v 0) as [->|N]; [apply show_zero|]. now apply read_float_dec, show_float_dec. Qed.

Lemma dec_nat_chars : forall s n, dec_nat s n -> Forall numchar s.
Proof. intros s n H. apply dec_nat_show in H. destruct H as (l & _ & T & -> & _). now apply show_digits_chars. Qed.
Lemma dec_int_chars : forall s n, dec_int s n -> Forall numchar s.
Proof.
  intros s n [H|[(s' & -> & H)|(s' & -> & H)]]; [now apply dec_nat_chars in H| |].
  all: constructor; [repeat apply conj; discriminate|now apply dec_nat_chars in H].
Qed.
Lemma dec_real_chars : forall s v, dec_real s v -> Forall numchar s.
Proof.
  intros s v (sg & neg & ip & fp & frac & ex & e & m & -> & Hs & Hd & Hf & He & ->).
  apply dec_nat_chars in Hd. apply Forall_app in Hd. destruct Hd as (H1 & H2).
  apply Forall_app. split. { destruct Hs as [(-> & _)|[(-> & _)|(-> & _)]]; repeat constructor; discriminate. }
  apply Forall_app. split; [exact H1|]. apply Forall_app. split.
  - destruct Hf as [(-> & _)| ->]; [constructor|]. constructor; [repeat apply conj; discriminate|exact H2].
  - destruct He as [(-> & _)|(s' & [-> | ->] & He)]; [constructor| |]; (constructor; [repeat apply conj; discriminate|now apply dec_int_chars in He]).
Qed.
Lemma show_float_chars : forall v, Forall numchar (show_float v).
Proof.
  intros v. destruct (Req_dec v 0) as [->|N].
  - unfold show_float. rewrite Req_bool_true by reflexivity. repeat constructor; discriminate.
  - exact (dec_real_chars _ _ (show_float_dec v N)).
Qed.

(** ** Rounding *)
Local Open Scope R_scope.
Lemma to_double_spec : forall v, is_double_of v (to_double v).
Proof. intros v. apply round_NE_pt; [apply FLT_exp_valid; red; lia|apply exists_NE_FLT; right; lia]. Qed.
Lemma is_double_unique : forall v x, is_double_of v x -> x = to_double v.
Proof.
  intros v x H. apply (round_unique (Rnd_NE_pt radix2 (FLT_exp (-1074) 53))) with v; [|exact H|apply to_double_spec].
  apply Rnd_NE_pt_monotone; [apply FLT_exp_valid; red; lia|apply exists_NE_FLT; right; lia].
Qed.
Lemma max_double_ge : bpow radix2 1023 <= max_double.
Proof.
  unfold max_double. replace (bpow radix2 1024) with (2 * bpow radix2 1023).
  - assert (bpow radix2 971 <= bpow radix2 1023) by (apply bpow_le; lia). lra.
  - change 1024%Z with (1 + 1023)%Z. rewrite bpow_plus. cbn [bpow]. f_equal; cbn; lra.
Qed.
Lemma to_double_bound : forall v, Rabs v <= bpow radix2 1023 -> Rabs (to_double v) <= bpow radix2 1023.
Proof.
  intros v H. unfold to_double. apply abs_round_le_generic; [apply FLT_exp_valid; red; lia|apply valid_rnd_N| |exact H].
  apply generic_format_bpow. unfold FLT_exp. lia.
Qed.
Lemma clamp_id : forall v, Rabs v <= bpow radix2 1023 -> clamp_double (to_double v) = to_double v.
Proof.
  intros v H. apply to_double_bound in H. pose proof max_double_ge as M. apply Rabs_le_inv in H. unfold clamp_double.
  rewrite (Rmin_right max_double) by lra. rewrite Rmax_right by lra. reflexivity.
Qed.
Lemma ten_le_two : forall e, (0 <= e)%Z -> bpow ten e <= bpow radix2 (4 * e).
Proof.
  intros e H. rewrite <- !IZR_Zpower by lia. apply IZR_le. change (Zpower ten e) with (10 ^ e)%Z. change (Zpower radix2 (4 * e)) with (2 ^ (4 * e))%Z.
  rewrite Z.pow_mul_r by lia. apply Z.pow_le_mono_l. lia.
Qed.
Lemma pow_10_big : bpow ten 307 <= bpow radix2 1023.
Proof. rewrite <- !IZR_Zpower by lia. apply IZR_le. vm_compute. discriminate. Qed.
Lemma pow_10_small : bpow radix2 (-1022) <= bpow ten (-300).
Proof.
  change (-1022)%Z with (- (1022))%Z. change (-300)%Z with (- (300))%Z. rewrite !bpow_opp. apply Rinv_le; [apply bpow_gt_0|].
  rewrite <- !IZR_Zpower by lia. apply IZR_le. vm_compute. discriminate.
Qed.
Lemma six_bound : forall v, Rabs v <= bpow ten 306 -> Rabs (six v) <= bpow radix2 1023.
Proof.
  intros v H. apply Rle_trans with (bpow ten 306).
  - unfold six. apply abs_round_le_generic; [apply FLX_exp_valid; red; lia|apply valid_rnd_N| |exact H]. apply generic_format_bpow. unfold FLX_exp. lia.
  - eapply Rle_trans; [|exact pow_10_big]. apply bpow_le. lia.
Qed.
Lemma double_rel : forall D, bpow ten (-300) <= Rabs D -> Rabs (to_double D - D) <= bpow radix2 (-53) * Rabs D.
Proof.
  intros D H. unfold to_double.
  pose proof (relative_error_N_FLT radix2 (-1074) 53 ltac:(reflexivity) (fun x => negb (Z.even x)) D) as P.
  replace (bpow radix2 (-53)) with (/ 2 * bpow radix2 (-53 + 1)).
  - apply P. eapply Rle_trans; [|exact H]. exact pow_10_small.
  - change (-53 + 1)%Z with (1 + -53)%Z. rewrite bpow_plus. cbn [bpow]. change (Z.pow_pos radix2 1) with 2%Z. field. apply Rgt_not_eq. pose proof (bpow_gt_0 radix2 (-53)) as K. cbn in K. 
    apply IZR_lt. reflexivity.
Qed.
