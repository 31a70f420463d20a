(** Lemmas for the tabulated gas: nearest entry, reading, inverse of the pressure. *)
From Verif Require Import Prelude Vec M_Box L_Box M_Eos M_Dust S_Dust L_Dust S_Diag M_Radws S_Radws.
From Coq Require Import Reals Lra Lia Psatz List.
Import ListNotations.
Local Open Scope R_scope.

Lemma lower_bound_ok f v : forall n, rises n f -> forall fuel first len, (len <= fuel)%nat -> (first + len <= n)%nat ->
  (forall k, (k < first)%nat -> f k < v) -> (forall k, (first + len <= k < n)%nat -> v <= f k) ->
  let r := lower_bound fuel f v first len in
  (r <= n)%nat /\ (forall k, (k < r)%nat -> f k < v) /\ (forall k, (r <= k < n)%nat -> v <= f k).
Proof.
  intros n INC. induction fuel as [|fuel IH]; intros first len LE LN LO HI.
  - assert (len = 0%nat) by lia. subst len. cbn [lower_bound]. rewrite Nat.add_0_r in HI. repeat split; [lia|apply LO|apply HI].
  - cbn [lower_bound]. destruct (Nat.eqb_spec len 0) as [->|NZ].
    { rewrite Nat.add_0_r in HI. repeat split; [lia|apply LO|apply HI]. }
    assert (HL : (Nat.div2 len < len)%nat) by (apply Nat.lt_div2; lia).
    set (h := Nat.div2 len) in *.
    destruct (rltb (f (first + h)%nat) v) eqn:E.
    + apply rltb_true in E. apply IH; [lia|lia| |].
      * intros k K. destruct (Nat.eq_dec k (first + h)) as [->|NE]; [exact E|].
        assert (f k < f (first + h)%nat) by (apply INC; lia). lra.
      * intros k K. apply HI. lia.
    + apply rltb_false in E. apply IH; [lia|lia|exact LO|].
      intros k K. destruct (Nat.eq_dec k (first + h)) as [->|NE]; [exact E|].
      assert (f (first + h)%nat < f k) by (apply INC; lia). lra.
Qed.

Lemma closest_ok n f v : (0 < n)%nat -> rises n f -> nearest n f v (getClosestIndex n f v).
Proof.
  intros N INC.
  destruct (lower_bound_ok f v n INC n 0 n (le_n _) (le_n _)) as (RN & LO & HI); [intros k K; lia|intros k K; lia|].
  unfold getClosestIndex. set (r := lower_bound n f v 0 n) in *.
  assert (MON : forall i j, (i <= j < n)%nat -> f i <= f j).
  { intros i j IJ. destruct (Nat.eq_dec i j) as [->|NE]; [lra|]. left. apply INC. lia. }
  destruct (Nat.eqb_spec r 0) as [R0|R0].
  { split; [exact N|split].
    - intros j J. assert (v <= f 0%nat) by (apply HI; lia). assert (f 0%nat <= f j) by (apply MON; lia).
      rewrite !Rabs_right by lra. lra.
    - intros j J. lia. }
  destruct (Nat.eqb_spec r n) as [RE|RE].
  { split; [lia|split].
    - intros j J. pose proof (MON j (n - 1)%nat). pose proof (LO (n - 1)%nat). pose proof (LO j).
      rewrite !Rabs_left; try lra; [|assert (f j < v) by (apply LO; lia); lra|assert (f (n - 1)%nat < v) by (apply LO; lia); lra].
      assert (f j <= f (n - 1)%nat) by (apply MON; lia). lra.
    - intros j J. assert (f j < f (n - 1)%nat) by (apply INC; lia). assert (f (n - 1)%nat < v) by (apply LO; lia).
      rewrite !Rabs_left; lra. }
  assert (A : v <= f r) by (apply HI; lia). assert (B : f (r - 1)%nat < v) by (apply LO; lia).
  assert (BELOW : forall j, (j < r)%nat -> v - f (r - 1)%nat <= v - f j /\ f j < v).
  { intros j J. split; [|apply LO; exact J]. pose proof (MON j (r - 1)%nat). lra || (assert (f j <= f (r - 1)%nat) by (apply MON; lia); lra). }
  assert (ABOVE : forall j, (r <= j < n)%nat -> f r - v <= f j - v).
  { intros j J. assert (f r <= f j) by (apply MON; lia). lra. }
  destruct (rltb (f r - v) (v - f (r - 1)%nat)) eqn:E.
  - apply rltb_true in E. split; [lia|split].
    + intros j J. rewrite (Rabs_right (f r - v)) by lra. destruct (Nat.ltb_spec j r) as [JR|JR].
      * destruct (BELOW j JR). rewrite Rabs_left by lra. lra.
      * pose proof (ABOVE j (conj JR J)). rewrite Rabs_right by lra. lra.
    + intros j J. destruct (BELOW j J). rewrite (Rabs_right (f r - v)) by lra. rewrite Rabs_left by lra. lra.
  - apply rltb_false in E. split; [lia|split].
    + intros j J. rewrite (Rabs_left (f (r - 1)%nat - v)) by lra. destruct (Nat.ltb_spec j r) as [JR|JR].
      * destruct (BELOW j JR). rewrite Rabs_left by lra. lra.
      * pose proof (ABOVE j (conj JR J)). rewrite Rabs_right by lra. lra.
    + intros j J. assert (f j < f (r - 1)%nat) by (apply INC; lia). rewrite !Rabs_left by lra. lra.
Qed.

Lemma nearest_unique n f v i j : nearest n f v i -> nearest n f v j -> i = j.
Proof.
  intros (I & IA & IF) (J & JA & JF). destruct (Nat.lt_trichotomy i j) as [L|[E|L]]; [|exact E|].
  - pose proof (JF i L). pose proof (IA j J). lra.
  - pose proof (IF j L). pose proof (JA i I). lra.
Qed.

(** Below every entry the first, above every entry the last. *)
Lemma closest_top n f v : (0 < n)%nat -> rises n f -> (forall k, (k < n)%nat -> f k <= v) -> getClosestIndex n f v = (n - 1)%nat.
Proof.
  intros N INC H. apply (nearest_unique n f v); [apply closest_ok; assumption|]. split; [lia|]. split.
  - intros j J. pose proof (H j J). pose proof (H (n - 1)%nat ltac:(lia)).
    assert (f j <= f (n - 1)%nat) by (destruct (Nat.eq_dec j (n - 1)) as [->|]; [lra|left; apply INC; lia]).
    rewrite !Rabs_left1 by lra. lra.
  - intros j J. assert (f j < f (n - 1)%nat) by (apply INC; lia). pose proof (H (n - 1)%nat ltac:(lia)). rewrite !Rabs_left1 by lra. lra.
Qed.
Lemma closest_entry n f i : rises n f -> (i < n)%nat -> getClosestIndex n f (f i) = i.
Proof.
  intros INC L. apply (nearest_unique n f (f i)); [apply closest_ok; [lia|exact INC]|]. split; [exact L|].
  replace (f i - f i) with 0 by lra. rewrite Rabs_R0. split.
  - intros j J. apply Rabs_pos.
  - intros j J. apply Rabs_pos_lt. assert (f j < f i) by (apply INC; lia). lra.
Qed.

(** ** The halving loop on the pressure *)
Lemma pbisect_ok p P : forall fuel l u, (u - l <= fuel)%nat -> (l < u)%nat -> p l <= P -> P <= p u ->
  let r := pbisect fuel p P l u in (l <= r)%nat /\ (r + 1 <= u)%nat /\ p r <= P <= p (r + 1)%nat.
Proof.
  induction fuel as [|fuel IH]; intros l u F LU PL PU; cbn [pbisect]; [lia|].
  destruct (Nat.ltb_spec (l + 1) u) as [L|L].
  - assert (C : (l < Nat.div2 (l + u) < u)%nat).
    { rewrite Nat.div2_div. split; [apply Nat.div_le_lower_bound; lia|apply Nat.div_lt_upper_bound; lia]. }
    set (c := Nat.div2 (l + u)) in *. destruct (rltb P (p c)) eqn:E.
    + apply rltb_true in E. destruct (IH l c) as (A & B & D); [lia|lia|exact PL|lra|]. repeat split; try lia; apply D.
    + apply rltb_false in E. destruct (IH c u) as (A & B & D); [lia|lia|lra|exact PU|]. repeat split; try lia; apply D.
  - assert (u = (l + 1)%nat) by lia. subst u. repeat split; lia || lra.
Qed.

(** ** Fourth roots, sums, relaxation *)
Lemma quarter_pow4 x : 0 <= x -> quarter x ^ 4 = x.
Proof.
  intros X. unfold quarter. destruct (Req_EM_T x 0) as [->|NE]; [ring|].
  rewrite <- (Rpower_pow 4) by apply exp_pos. rewrite Rpower_mult. replace (1 / 4 * INR 4) with 1 by (cbn [INR]; lra). apply Rpower_1. lra.
Qed.
Lemma fold_sum A (f : A -> R) l : forall a, fold_left (fun a s => a + f s) l a = a + lsum f l.
Proof.
  induction l as [|x l IH]; intros a; cbn [fold_left]; [unfold lsum; cbn; lra|]. rewrite IH. unfold lsum. cbn. lra.
Qed.
Lemma lsum_nonneg A (f : A -> R) l : (forall x, In x l -> 0 <= f x) -> 0 <= lsum f l.
Proof.
  induction l as [|x l IH]; intros H; [unfold lsum; cbn; lra|]. pose proof (H x (or_introl eq_refl)).
  assert (0 <= lsum f l) by (apply IH; intros; apply H; now right). unfold lsum in *. cbn in *. lra.
Qed.
Lemma exp_le_mono x y : x <= y -> exp x <= exp y.
Proof. intros [H | ->]; [left; now apply exp_increasing|lra]. Qed.
Lemma relaxes_unique ueq tau y : tau <> 0 -> relaxes ueq tau y -> forall s, y s = ueq + (y 0 - ueq) * exp (- (s / tau)).
Proof.
  intros T Y s. rewrite (damped_unique tau (ueq / tau) y T).
  - replace (ueq / tau * tau) with ueq by (field; exact T). reflexivity.
  - intros z. pose proof (Y z) as H. replace ((ueq - y z) / tau) with (- (y z) / tau + ueq / tau) in H by (field; exact T). exact H.
Qed.
Lemma relaxes_exp u0 ueq tau : tau <> 0 -> relaxes ueq tau (fun s => ueq + (u0 - ueq) * exp (- (s / tau))).
Proof.
  intros T s.
  assert (D : derivable_pt_lim (fun s => ueq + (u0 - ueq) * exp (- (s / tau))) s (0 + (u0 - ueq) * (exp (- (s / tau)) * (- / tau)))).
  { apply (derivable_pt_lim_plus (fun _ => ueq)); [apply derivable_pt_lim_const|].
    apply (derivable_pt_lim_scal (fun s => exp (- (s / tau)))).
    apply (derivable_pt_lim_comp (fun s => - (s / tau)) exp); [|apply derivable_pt_lim_exp].
    pose proof (derivable_pt_lim_scal id (- / tau) s 1 (derivable_pt_lim_id s)) as H. rewrite Rmult_1_r in H.
    intros eps E. destruct (H eps E) as [d Hd]. exists d. intros h H0 H1. specialize (Hd h H0 H1).
    unfold mult_real_fct, id in Hd. replace (- ((s + h) / tau) - - (s / tau)) with (- / tau * (s + h) - - / tau * s) by (field; exact T). exact Hd. }
  replace ((ueq - (ueq + (u0 - ueq) * exp (- (s / tau)))) / tau) with (0 + (u0 - ueq) * (exp (- (s / tau)) * (- / tau))) by (field; exact T).
  exact D.
Qed.
