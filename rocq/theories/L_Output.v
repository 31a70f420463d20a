(** Names of the files of a run, and files on disk. *)
From Coq Require Import Ascii String Reals.
From Verif Require Import Prelude M_Params S_Params L_Params L_Params2 M_Output S_Output.
Local Open Scope Z_scope.

(** ** Numbers *)
Lemma horner_inj : forall a b, ten_digits a -> ten_digits b -> length a = length b -> horner a = horner b -> a = b.
Proof.
  intros a. induction a as [|x a IH] using rev_ind; intros b Ha Hb L E.
  - destruct b; [reflexivity | discriminate L].
  - destruct b as [|y b _] using rev_ind; [rewrite app_length in L; cbn in L; lia|].
    rewrite !app_length in L. cbn in L. unfold ten_digits in *. apply Forall_app in Ha, Hb.
    destruct Ha as [Ha X], Hb as [Hb Y]. apply Forall_inv in X, Y. rewrite !horner_snoc in E.
    assert (x = y /\ horner a = horner b) as [-> E'] by lia.
    now rewrite (IH b Ha Hb ltac:(lia) E').
Qed.
Lemma char_of_digit_inj : forall x y, 0 <= x < 10 -> 0 <= y < 10 -> char_of_digit x = char_of_digit y -> x = y.
Proof. intros x y X Y E. pose proof (digit_char x X) as A. rewrite E, digit_char in A by exact Y. congruence. Qed.
Lemma horner_low : forall l d r, ten_digits l -> l = d :: r -> 0 < d -> 10 ^ (zlen l - 1) <= horner l.
Proof.
  intros l d r H -> P. change (d :: r) with ([d] ++ r). rewrite horner_app, zlen_app. cbn [horner fold_left]. unfold ten_digits in H.
  pose proof (horner_bounds r (Forall_inv_tail H)) as B. change (zlen [d]) with 1.
  replace (1 + zlen r - 1) with (zlen r) by lia. change (horner [d]) with (10 * 0 + d). nia.
Qed.
Lemma numbered_digits : forall n s, numbered n s -> exists l, ten_digits l /\ s = show_digits l /\ horner l = n /\ (5 <= length l)%nat /\
  ((5 < length l)%nat -> 10 ^ (zlen l - 1) <= n).
Proof.
  intros n s (D & L & H). apply dec_nat_show in D as (l & Hl & T & -> & E). exists l. unfold show_digits in *.
  rewrite map_length in L, H. repeat split; try assumption. intros X. specialize (H X). destruct l as [|d r]; [contradiction|].
  rewrite <- E. apply horner_low with d r; auto. cbn in H. unfold ten_digits in T. apply Forall_inv in T.
  destruct (Z.eq_dec d 0) as [-> | ]; [|lia]. exfalso. now apply H.
Qed.
Lemma numbered_fun : forall n m s, numbered n s -> numbered m s -> n = m.
Proof.
  intros n m s A B. apply numbered_digits in A as (a & Ta & -> & Ea & _). apply numbered_digits in B as (b & Tb & Eb & Eb' & _).
  assert (a = b); [|congruence]. clear - Ta Tb Eb. unfold ten_digits, show_digits in *. revert b Tb Eb. induction a as [|x a IH]; intros [|y b] Tb Eb;
    try discriminate; [reflexivity|]. cbn in Eb. injection Eb as E1 E2. apply char_of_digit_inj in E1; [|exact (Forall_inv Ta) | exact (Forall_inv Tb)].
  f_equal; [exact E1 | exact (IH (Forall_inv_tail Ta) b (Forall_inv_tail Tb) E2)].
Qed.
Lemma numbered_inj : forall n s s', numbered n s -> numbered n s' -> s = s'.
Proof.
  intros n s s' A B. apply numbered_digits in A as (a & Ta & -> & Ea & La & Ga). apply numbered_digits in B as (b & Tb & -> & Eb & Lb & Gb).
  f_equal. assert (length a = length b).
  { pose proof (horner_bounds a Ta) as [_ Ba]. pose proof (horner_bounds b Tb) as [_ Bb]. rewrite Ea in Ba. rewrite Eb in Bb. unfold zlen in *.
    destruct (Nat.lt_total (length a) (length b)) as [X | [X | X]]; [|exact X|]; exfalso.
    - specialize (Gb ltac:(lia)). assert (10 ^ Z.of_nat (length a) <= 10 ^ (Z.of_nat (length b) - 1)) by (apply Z.pow_le_mono_r; lia). lia.
    - specialize (Ga ltac:(lia)). assert (10 ^ Z.of_nat (length b) <= 10 ^ (Z.of_nat (length a) - 1)) by (apply Z.pow_le_mono_r; lia). lia. }
  apply horner_inj; congruence.
Qed.
Lemma dec_nat_nonneg : forall s n, dec_nat s n -> 0 <= n.
Proof. induction 1 as [d c [H _] | s n d c _ IH [H _]]; lia. Qed.
Lemma zeros_digits : forall k l, repeat "0"%char k ++ show_digits l = show_digits (repeat 0 k ++ l).
Proof. intros. unfold show_digits. rewrite map_app. f_equal. induction k; cbn; [reflexivity | now f_equal]. Qed.
Lemma horner_zeros_l : forall k l, horner (repeat 0 k ++ l) = horner l.
Proof. intros. rewrite horner_app. assert (E : horner (repeat 0 k) = 0); [|rewrite E; lia]. induction k; [reflexivity|].
  cbn [repeat]. change (0 :: repeat 0 k) with ([0] ++ repeat 0 k). rewrite horner_app, IHk. reflexivity. Qed.
Lemma digits_of_hd : forall n, 0 < n -> exists d r, digits_of n = d :: r /\ 0 < d.
Proof.
  intros n P. unfold digits_of. apply dec_digits_hd; [|lia]. split; [lia|]. rewrite Nat2Z.inj_succ, Z2Nat.id by apply Z.log2_nonneg.
  pose proof (Z.log2_spec n ltac:(lia)) as [_ U]. eapply Z.lt_le_trans; [exact U|]. apply Z.pow_le_mono_l. pose proof (Z.log2_nonneg n). lia.
Qed.
Lemma show5_numbered : forall n, 0 <= n -> numbered n (show5 n).
Proof.
  intros n P. unfold show5, show_int. destruct (Z.ltb_spec n 0); [lia|]. destruct (digits_of_spec n P) as (T & NN & E).
  rewrite zeros_digits. repeat split.
  - apply dec_nat_show. exists (repeat 0 (5 - length (show_digits (digits_of n))) ++ digits_of n). repeat split.
    + intros X. apply app_eq_nil in X as [_ X]. contradiction.
    + unfold ten_digits in *. apply Forall_app. split; [apply Forall_forall; intros x X; apply repeat_spec in X; lia | exact T].
    + now rewrite horner_zeros_l.
  - unfold show_digits. rewrite !map_length, app_length, repeat_length. lia.
  - intros X. unfold show_digits in *. rewrite !map_length, app_length, repeat_length in X.
    replace (5 - length (map char_of_digit (digits_of n)))%nat with 0%nat by (rewrite map_length; lia). cbn [repeat app].
    assert (0 < n) as N. { destruct (Z.eq_dec n 0) as [-> | ]; [|lia]. cbv in X. lia. }
    destruct (digits_of_hd n N) as (d & r & E' & D). rewrite E' in *. unfold ten_digits in T. apply Forall_inv in T.
    cbn. intros Y. injection Y as Y. apply (char_of_digit_inj d 0) in Y; lia.
Qed.

(** ** Names *)
Lemma snapshot_name_iff : forall p k f, snapshot_name p k f <-> 0 <= k /\ f = snap_name p k.
Proof.
  intros p k f. unfold snapshot_name, snap_name. split.
  - intros (s & N & ->). assert (K : 0 <= k) by (destruct N as [D _]; exact (dec_nat_nonneg _ _ D)). split; [exact K|].
    rewrite (numbered_inj k s (show5 k) N (show5_numbered k K)). reflexivity.
  - intros [K ->]. exists (show5 k). split; [now apply show5_numbered | reflexivity].
Qed.
Lemma snap_name_inj : forall p j k, 0 <= j -> 0 <= k -> snap_name p j = snap_name p k -> j = k.
Proof.
  intros p j k J K E. unfold snap_name in E. apply app_inv_head in E. injection E as E. apply app_inv_head in E. injection E as E.
  pose proof (show5_numbered j J) as A. rewrite E in A. exact (numbered_fun _ _ _ A (show5_numbered k K)).
Qed.
Lemma show5_hd : forall n, 0 <= n -> exists c r, show5 n = c :: r /\ exists d, 0 <= d < 10 /\ c = char_of_digit d.
Proof.
  intros n P. pose proof (show5_numbered n P) as A. apply numbered_digits in A as (l & T & -> & _ & L & _).
  destruct l as [|d r]; [cbn in L; lia|]. unfold ten_digits in T. apply Forall_inv in T. exists (char_of_digit d), (show_digits r). split; [reflexivity|]. exists d. auto.
Qed.
Ltac forms H := cbn [In map] in H; repeat (destruct H as [H | H]; [|]); [..|contradiction].
Lemma snap_not_tmp : forall p n, 0 <= n -> snap_name p n <> tmp_name p.
Proof.
  intros p n P E. unfold snap_name, tmp_name in E. apply app_inv_head in E. injection E as E. apply app_inv_head in E. injection E as E.
  destruct (show5_hd n P) as (c & r & S & d & D & ->). rewrite S in E. cbn in E. injection E as E _.
  pose proof (digit_char d D) as A. rewrite E in A. discriminate A.
Qed.
Section Names.
Variable p : pars.
Hypothesis G : good_pars p.
Lemma snap_not_restart : forall n, snap_name p n <> restart_name p.
Proof.
  intros n E. destruct G as [F _]. unfold snap_name, restart_name in E. apply app_inv_head in E. forms F; rewrite <- F in E; discriminate E.
Qed.
Lemma tmp_not_restart : tmp_name p <> restart_name p.
Proof.
  intros E. destruct G as [F _]. unfold tmp_name, restart_name in E. apply app_inv_head in E. forms F; rewrite <- F in E; discriminate E.
Qed.
Lemma lite_not_restart : forall n, lite_name p n <> restart_name p.
Proof. intros n E. unfold lite_name, restart_name in E. apply app_inv_head in E. discriminate E. Qed.
Lemma lite_not_snap : forall n m, lite_name p n <> snap_name p m.
Proof.
  intros n m E. destruct G as [F _]. unfold lite_name, snap_name in E. apply app_inv_head in E. forms F; rewrite <- F in E; discriminate E.
Qed.
Lemma lite_not_tmp : forall n, lite_name p n <> tmp_name p.
Proof.
  intros n E. destruct G as [F _]. unfold lite_name, tmp_name in E. apply app_inv_head in E. forms F; rewrite <- F in E; discriminate E.
Qed.
Lemma good_format : exists k, format_of (out_file_form p) k /\ read_format (out_file_form p) = Some k /\ write_format (out_file_form p) = Some k.
Proof.
  destruct G as [F _]. forms F; rewrite <- F; [exists Column | exists SerenForm | exists SerenForm | exists SerenUnform | exists SerenUnform];
    (split; [cbn; auto | split; reflexivity]).
Qed.
Lemma format_unique : forall k k', format_of (out_file_form p) k -> format_of (out_file_form p) k' -> k = k'.
Proof. intros [| | |] [| | |] A B; cbn in *; try tauto; exfalso; repeat destruct A as [A|A]; repeat destruct B as [B|B]; rewrite A in B; discriminate B. Qed.
End Names.

(** ** Disks *)
Lemma apply_app : forall d a b, apply d (a ++ b) = apply (apply d a) b.
Proof. intros. apply fold_left_app. Qed.
Lemma apply_other : forall l d f, (forall o, In o l -> target o <> f) -> apply d l f = d f.
Proof.
  intros l. induction l as [|o l IH]; intros d f H; [reflexivity|]. cbn [apply fold_left]. fold (apply (apply1 d o) l). rewrite IH by (intros; apply H; now right).
  specialize (H o (or_introl eq_refl)). destruct o; cbn in *; rewrite teq_neq; congruence.
Qed.
Lemma apply_apps : forall f l d c, d f = Some c -> apply d (map (App f) l) f = Some (c ++ l).
Proof.
  intros f l. induction l as [|i l IH]; intros d c H; [now rewrite app_nil_r|]. cbn [map apply fold_left]. fold (apply (apply1 d (App f i)) (map (App f) l)).
  rewrite IH with (c := c ++ [i]); [now rewrite <- app_assoc|]. cbn. now rewrite teq_refl, H.
Qed.
Lemma apply_write : forall f l d, apply d (write f l) f = Some l.
Proof. intros. cbn [write apply fold_left]. fold (apply (apply1 d (Trunc f)) (map (App f) l)). rewrite apply_apps with (c := []); [reflexivity|]. cbn. now rewrite teq_refl. Qed.
Lemma write_target : forall f l o, In o (write f l) -> target o = f.
Proof. intros f l o [<- | H]; [reflexivity|]. apply in_map_iff in H as (i & <- & _). reflexivity. Qed.
Lemma apply_write_other : forall f l d g, g <> f -> apply d (write f l) g = d g.
Proof. intros. apply apply_other. intros o O. rewrite (write_target _ _ _ O). congruence. Qed.
(** The points at which the writing of a file can be interrupted. *)
Lemma write_prefix : forall f l o1 o2, write f l = o1 ++ o2 -> o1 = [] \/ exists l1 l2, l = l1 ++ l2 /\ o1 = write f l1 /\ o2 = map (App f) l2.
Proof.
  intros f l [|o o1] o2 H; [now left|]. right. cbn in H. injection H as <- H. clear - H. revert l H.
  induction o1 as [|x o1 IH]; intros l H.
  - cbn in H. subst. exists [], l. now split.
  - destruct l as [|i l]; [discriminate|]. cbn in H. injection H as <- H. destruct (IH l H) as (l1 & l2 & -> & E & ->).
    exists (i :: l1), l2. split; [reflexivity|]. split; [|reflexivity]. unfold write in *. cbn. injection E as ->. reflexivity.
Qed.
Lemma crash_nil : forall d d', crash d [] d' -> d' = d.
Proof. intros d d' (a & b & E & ->). symmetry in E. apply app_eq_nil in E as [-> _]. reflexivity. Qed.
Lemma crash_app : forall d a b d', crash d (a ++ b) d' -> crash d a d' \/ crash (apply d a) b d'.
Proof.
  intros d a b d' (l1 & l2 & E & ->). revert l1 E. revert d. induction a as [|x a IH]; intros d l1 E.
  - right. exists l1, l2. auto.
  - destruct l1 as [|y l1]; [left; exists [], (x :: a); auto|]. cbn in E. injection E as -> E.
    destruct (IH (apply1 d y) l1 E) as [(u & v & -> & U) | (u & v & -> & U)].
    + left. exists (y :: u), v. split; [reflexivity|]. exact U.
    + right. exists u, v. split; [reflexivity | exact U].
Qed.
Lemma crash_write : forall d f l d', crash d (write f l) d' -> d' = d \/ exists l1 l2, l = l1 ++ l2 /\ d' = apply d (write f l1).
Proof. intros d f l d' (a & b & E & ->). apply write_prefix in E as [-> | (l1 & l2 & -> & -> & _)]; [now left|]. right. exists l1, l2. auto. Qed.
