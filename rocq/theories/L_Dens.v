(** Proofs about the iteration for the smoothing length. *)
From Verif Require Import Prelude Vec M_Box L_Box M_Force M_Dens S_Dens S_Stock L_Stock M_Kernel S_Kernel.
From Coq Require Import Reals Lra Lia Psatz.
Local Open Scope R_scope.

Lemma add_up_lsum : forall f l x, add_up f l x = x + lsum f l.
Proof. induction l as [|q l IH]; intros x; cbn; [lra|]. rewrite IH. lra. Qed.

Lemma rltb_t : forall x y, rltb x y = true -> x < y.
Proof. intros x y. unfold rltb. destruct (Rlt_dec x y); [auto | discriminate]. Qed.
Lemma rltb_f : forall x y, rltb x y = false -> y <= x.
Proof. intros x y. unfold rltb. destruct (Rlt_dec x y); [discriminate | lra]. Qed.

Section D.
Variables (n : nat) (w : R -> R).
Hypothesis N1 : (1 <= n)%nat.

Lemma ssqd_far : forall r h q, 0 < h -> sqrt (ssqd n r h q) = far n r q / h.
Proof.
  intros r h q H. unfold ssqd, far, norm.
  set (D := dot n (vsub (nb_r q) r) (vsub (nb_r q) r)).
  assert (D0 : 0 <= D) by apply dot_nonneg.
  replace (1 / h * (1 / h) * D) with (D * (/ h * / h)) by (field; lra).
  rewrite sqrt_mult_alt by lra. rewrite sqrt_square; [unfold Rdiv; ring|].
  left. apply Rinv_0_lt_compat; lra.
Qed.

Lemma lsum_div : forall {A} (f : A -> R) c l, lsum f l * c = lsum (fun x => f x * c) l.
Proof. intros A f c l. induction l as [|x l IH]; cbn; [lra|]. rewrite <- IH. lra. Qed.

Lemma rho_sum_dens : forall r l h, 0 < h -> rho_sum n (fun s => w (sqrt s)) r l h = dens n w r l h.
Proof.
  intros r l h H. unfold rho_sum, dens. rewrite add_up_lsum, Rplus_0_l, lsum_div.
  apply lsum_ext. intros q _. rewrite ssqd_far by exact H.
  unfold Rdiv. rewrite Rmult_1_l, pow_inv. ring.
Qed.

Lemma ndens_sum_numb : forall r l h, 0 < h -> ndens_sum n (fun s => w (sqrt s)) r l h = numb n w r l h.
Proof.
  intros r l h H. unfold ndens_sum, numb. rewrite add_up_lsum, Rplus_0_l, lsum_div.
  apply lsum_ext. intros q _. unfold mssqd, far, norm.
  rewrite sqrt_sqrt by apply dot_nonneg.
  set (D := dot n (vsub (nb_r q) r) (vsub (nb_r q) r) + small_number).
  assert (D0 : 0 <= D). { unfold D. pose proof (dot_nonneg n (vsub (nb_r q) r)). unfold small_number. lra. }
  replace (1 / h * (1 / h)) with (/ h * / h) by (field; lra).
  rewrite sqrt_mult_alt by exact D0. rewrite sqrt_square; [|left; apply Rinv_0_lt_compat; lra].
  unfold Rdiv. rewrite Rmult_1_l, pow_inv. ring.
Qed.

Lemma lsum_pos_ge : forall {A} (f : A -> R) l x, (forall y, In y l -> 0 <= f y) -> In x l -> f x <= lsum f l.
Proof.
  intros A f l x. induction l as [|y l IH]; intros P Hx; [destruct Hx|]. cbn.
  assert (0 <= lsum f l).
  { clear IH Hx. induction l as [|z l IH]; cbn; [lra|].
    assert (0 <= f z) by (apply P; right; left; reflexivity).
    enough (0 <= lsum f l) by lra. apply IH. intros v [->|Hv]; apply P; [left|right; right]; auto. }
  destruct Hx as [->|Hx].
  - lra.
  - assert (f x <= lsum f l) by (apply IH; [intros; apply P; right|]; auto).
    assert (0 <= f y) by (apply P; left; reflexivity). lra.
Qed.

(** ** The power *)
Lemma root_pow : forall x, 0 < x -> 0 < root n x /\ (root n x) ^ n = x.
Proof using N1. clear w.
  intros x Hx. unfold root. split; [apply exp_pos|].
  rewrite <- Rpower_pow by apply exp_pos. rewrite Rpower_mult. unfold invndim.
  replace (1 / INR n * INR n) with 1; [apply Rpower_1; exact Hx|].
  field. apply not_0_INR. lia.
Qed.
Lemma pow_inj : forall a b, 0 < a -> 0 < b -> a ^ n = b ^ n -> a = b.
Proof using N1. clear w.
  intros a b Ha Hb E. rewrite <- !Rpower_pow in E by assumption.
  assert (E2 : Rpower (Rpower a (INR n)) (/ INR n) = Rpower (Rpower b (INR n)) (/ INR n)) by (rewrite E; reflexivity).
  rewrite !Rpower_mult in E2. rewrite Rinv_r in E2 by (apply not_0_INR; lia).
  rewrite !Rpower_1 in E2 by assumption. exact E2.
Qed.
Lemma pow_lt_iff : forall a b, 0 <= a -> 0 <= b -> (a ^ n < b ^ n <-> a < b).
Proof using N1. clear w.
  intros a b Ha Hb. split; intros H.
  - destruct (Rlt_le_dec a b) as [|C]; [assumption|].
    pose proof (pow_incr b a n (conj Hb C)). lra.
  - revert N1. destruct n as [|m]; [lia|]. intros _.
    induction m as [|m IH]; [cbn; lra|].
    change (a * a ^ S m < b * b ^ S m).
    assert (0 <= a ^ S m) by (apply pow_le; lra).
    destruct (Rle_lt_or_eq_dec 0 a Ha) as [Pa|E].
    + apply Rmult_le_0_lt_compat; auto.
    + subst a. rewrite Rmult_0_l. apply Rmult_lt_0_compat; [lra | apply pow_lt; lra].
Qed.

Variables (h_fac : R).
Hypothesis HF : 0 < h_fac.
Lemma func_belongs : forall m rho, 0 < m -> 0 < rho -> belongs n h_fac m (h_rho_func n h_fac m rho) rho.
Proof using N1 HF. clear w.
  intros m rho Hm Hr. unfold belongs, h_rho_func.
  destruct (root_pow (m / rho)) as (P & E); [apply Rdiv_lt_0_compat; lra|].
  split; [apply Rmult_lt_0_compat; lra|]. rewrite Rpow_mult_distr, E. field. lra.
Qed.
Lemma belongs_unique : forall m h h' rho, 0 < rho -> belongs n h_fac m h rho -> belongs n h_fac m h' rho -> h = h'.
Proof using N1. clear w.
  intros m h h' rho Hr (P & E) (P' & E'). apply pow_inj; auto.
  apply Rmult_eq_reg_r with rho; [lra|lra].
Qed.

(** ** The loop *)
Variables (h_converge : R) (rnd : R -> R).
Notation s2 := (fun s => w (sqrt s)).
Notation func := (h_rho_func n h_fac).

(** Ways to leave the loop for the end of the routine with sums made for [h0]. *)
Definition left_ok (m : R) (r : vec) (l : list dneib) (lower hmax h0 lo : R) : Prop :=
  let rho := dens n w r l h0 in
  (0 < rho /\ lo < h0 /\ Rabs (h0 - func m rho) < h_converge * h0) \/
  (func m rho <= lower /\ lo = lower) \/
  (func m rho = hmax /\ lo = lower) \/
  (exists a b, lower <= a /\ a < b /\ b <= hmax /\ (rnd (1 / 2 * (a + b)) <= a \/ b <= rnd (1 / 2 * (a + b))) /\ lo = a /\
    ((a = lower /\ b = hmax) \/ h0 = a \/ h0 = b)).

Lemma abs_div : forall x h c, 0 < h -> Rabs x * (1 / h) < c <-> Rabs x < c * h.
Proof.
  intros x h c H. split; intros A.
  - apply Rmult_lt_compat_r with (r := h) in A; [|lra].
    replace (Rabs x * (1 / h) * h) with (Rabs x) in A by (field; lra). lra.
  - apply Rmult_lt_reg_r with h; [lra|]. replace (Rabs x * (1 / h) * h) with (Rabs x) by (field; lra). lra.
Qed.

Lemma hloop_left : forall m r l hmax lower, 0 < m -> 0 <= lower ->
  (forall h, 0 < h -> 0 < dens n w r l h) ->
  forall k it h lo hi h0 lo', (0 <= it)%Z -> (k + Z.to_nat it = 150)%nat -> 0 < h <= hmax ->
  ((it < 30)%Z -> lo = lower /\ hi = hmax) ->
  ((1 <= it)%Z -> lower <= lo < h /\ h < hi <= hmax) ->
  hloop n s2 h_fac h_converge rnd k m r l hmax it h lo hi = Left h0 lo' ->
  0 < h0 <= hmax /\ lower <= lo' /\ left_ok m r l lower hmax h0 lo'.
Proof.
  intros m r l hmax lower Hm Hl0 HD. induction k as [|k IH]; intros it h lo hi h0 lo' Hit Hk Hh H30 H1 E; [discriminate|].
  cbn [hloop] in E. rewrite rho_sum_dens in E by lra.
  set (rho := dens n w r l h) in *. set (hn := func m rho) in *.
  assert (Hr : 0 < rho) by (apply HD; lra).
  assert (Hn : 0 < hn). { destruct (func_belongs m rho Hm Hr) as (P & _). exact P. }
  assert (Hlo : lower <= lo).
  { destruct (Z_lt_le_dec it 30) as [C|C]; [destruct (H30 C); lra | destruct (H1 ltac:(lia)); lra]. }
  destruct (rltb 0 rho && rltb lo h && rltb (Rabs (h - hn) * (1 / h)) h_converge) eqn:B.
  { apply andb_true_iff in B. destruct B as (B & B3). apply andb_true_iff in B. destruct B as (B1 & B2).
    apply rltb_t in B2. apply rltb_t in B3. apply abs_div in B3; [|lra].
    injection E as <- <-. split; [lra|]. split; [exact Hlo|]. left. fold rho hn. repeat split; auto. }
  clear B.
  destruct ((it + 1 <? 30)%Z) eqn:C1.
  { apply Z.ltb_lt in C1. destruct (H30 ltac:(lia)) as (-> & ->).
    destruct (rltb hmax hn) eqn:T; [discriminate|]. apply rltb_f in T.
    destruct (rltb lower hn && rltb hn hmax) eqn:W.
    - apply andb_true_iff in W. destruct W as (W1 & W2). apply rltb_t in W1. apply rltb_t in W2.
      eapply IH; [| | | | |exact E]; [lia | lia | lra | auto | intros _; lra].
    - injection E as <- <-. split; [lra|]. split; [lra|]. right. fold rho hn.
      apply andb_false_iff in W. destruct W as [W|W]; apply rltb_f in W.
      + left. auto.
      + right. left. split; [lra|auto]. }
  apply Z.ltb_ge in C1. specialize (H1 ltac:(lia)).
  assert (HX : forall a b, lower <= a -> a < b -> b <= hmax -> ((a = lower /\ b = hmax) \/ h = a \/ h = b) ->
     (if rltb hmax (rnd (1 / 2 * (a + b))) then TooBig (rnd (1 / 2 * (a + b)))
      else if rltb a (rnd (1 / 2 * (a + b))) && rltb (rnd (1 / 2 * (a + b))) b
           then hloop n s2 h_fac h_converge rnd k m r l hmax (it + 1) (rnd (1 / 2 * (a + b))) a b else Left h a) = Left h0 lo' ->
     (29 <= it)%Z ->
     0 < h0 <= hmax /\ lower <= lo' /\ left_ok m r l lower hmax h0 lo').
  { intros a b Ha Hab Hb Hc E' Hi. set (hm := rnd (1 / 2 * (a + b))) in *.
    destruct (rltb hmax hm) eqn:T; [discriminate|]. apply rltb_f in T.
    destruct (rltb a hm && rltb hm b) eqn:W.
    - apply andb_true_iff in W. destruct W as (W1 & W2). apply rltb_t in W1. apply rltb_t in W2.
      eapply IH; [| | | | |exact E']; [lia | lia | lra | intros; lia | intros _; lra].
    - injection E' as <- <-. split; [lra|]. split; [lra|]. right. right. right. exists a, b.
      split; [exact Ha|]. split; [exact Hab|]. split; [exact Hb|].
      split; [|auto]. apply andb_false_iff in W. fold hm. destruct W as [W|W]; apply rltb_f in W; [left|right]; exact W. }
  destruct ((it + 1 =? 30)%Z) eqn:C2.
  { apply Z.eqb_eq in C2. destruct (H30 ltac:(lia)) as (-> & ->). apply (HX lower hmax); auto; try lra; try lia. }
  destruct ((it + 1 <? 150)%Z) eqn:C3; [|discriminate].
  apply Z.eqb_neq in C2. apply Z.ltb_lt in C3.
  destruct (rltb rho small_number || rltb hn h); [apply (HX lo h) | apply (HX h hi)]; auto; try lra; try lia.
Qed.
End D.
