(** Vectors of real numbers with a fixed number of used components. *)
From Coq Require Export Reals Lra Lia Psatz.
From Coq Require Import Arith List.
Local Open Scope R_scope.

Definition vec := nat -> R.

(** Sum of [f 0 .. f (n-1)]: the loop [for (k=0; k<n; k++) s += f(k)]. *)
Fixpoint sumf (n : nat) (f : nat -> R) : R :=
  match n with O => 0 | S m => sumf m f + f m end.

(** DotProduct, src/Headers/InlineFuncs.h:45-54. *)
Definition dot (n : nat) (a b : vec) : R := sumf n (fun k => a k * b k).
Definition vsub (a b : vec) : vec := fun k => a k - b k.
Definition vadd (a b : vec) : vec := fun k => a k + b k.
Definition vscal (c : R) (a : vec) : vec := fun k => c * a k.
Definition norm (n : nat) (a : vec) : R := sqrt (dot n a a).

Lemma sumf_ext : forall n f g, (forall k, (k < n)%nat -> f k = g k) -> sumf n f = sumf n g.
Proof. induction n; intros; simpl; [reflexivity|]. rewrite (IHn f g), H; auto. Qed.
Lemma sumf_plus : forall n f g, sumf n (fun k => f k + g k) = sumf n f + sumf n g.
Proof. induction n; intros; simpl; [lra|]. rewrite IHn. lra. Qed.
Lemma sumf_minus : forall n f g, sumf n (fun k => f k - g k) = sumf n f - sumf n g.
Proof. induction n; intros; simpl; [lra|]. rewrite IHn. lra. Qed.
Lemma sumf_scal : forall n c f, sumf n (fun k => c * f k) = c * sumf n f.
Proof. induction n; intros; simpl; [lra|]. rewrite IHn. lra. Qed.
Lemma sumf_nonneg : forall n f, (forall k, (k < n)%nat -> 0 <= f k) -> 0 <= sumf n f.
Proof. induction n; intros; simpl; [lra|]. specialize (IHn f ltac:(auto)). specialize (H n ltac:(auto)). lra. Qed.
Lemma sumf_le : forall n f g, (forall k, (k < n)%nat -> f k <= g k) -> sumf n f <= sumf n g.
Proof. induction n; intros; simpl; [lra|]. specialize (IHn f g ltac:(auto)). specialize (H n ltac:(auto)). lra. Qed.
Lemma sumf_zero : forall n, sumf n (fun _ => 0) = 0.
Proof. induction n; simpl; lra. Qed.
Lemma sumf_term_le : forall n f k, (forall j, (j < n)%nat -> 0 <= f j) -> (k < n)%nat -> f k <= sumf n f.
Proof.
  induction n; intros f k H Hk; [inversion Hk|]. simpl.
  assert (0 <= sumf n f) by (apply sumf_nonneg; auto).
  assert (0 <= f n) by auto.
  destruct (Nat.eq_dec k n) as [->|]; [lra|].
  specialize (IHn f k ltac:(auto)). assert (Hkn : (k < n)%nat) by lia.
  specialize (IHn Hkn). lra.
Qed.

Lemma dot_nonneg : forall n a, 0 <= dot n a a.
Proof. intros. apply sumf_nonneg. intros. nra. Qed.
Lemma dot_sym : forall n a b, dot n a b = dot n b a.
Proof. intros. apply sumf_ext. intros. lra. Qed.
Lemma dot_add_l : forall n a b c, dot n (vadd a b) c = dot n a c + dot n b c.
Proof. intros. unfold dot, vadd. rewrite <- sumf_plus. apply sumf_ext. intros. lra. Qed.
Lemma dot_sub_l : forall n a b c, dot n (vsub a b) c = dot n a c - dot n b c.
Proof. intros. unfold dot, vsub. rewrite <- sumf_minus. apply sumf_ext. intros. lra. Qed.
Lemma dot_scal_l : forall n c a b, dot n (vscal c a) b = c * dot n a b.
Proof. intros. unfold dot, vscal. rewrite <- sumf_scal. apply sumf_ext. intros. lra. Qed.
Lemma dot_add_r : forall n a b c, dot n c (vadd a b) = dot n c a + dot n c b.
Proof. intros. rewrite dot_sym, dot_add_l, (dot_sym n a), (dot_sym n b). reflexivity. Qed.
Lemma dot_sub_r : forall n a b c, dot n c (vsub a b) = dot n c a - dot n c b.
Proof. intros. rewrite dot_sym, dot_sub_l, (dot_sym n a), (dot_sym n b). reflexivity. Qed.
Lemma dot_scal_r : forall n c a b, dot n a (vscal c b) = c * dot n a b.
Proof. intros. rewrite dot_sym, dot_scal_l, dot_sym. reflexivity. Qed.
Lemma dot_ext : forall n a a' b b', (forall k, (k < n)%nat -> a k = a' k) -> (forall k, (k < n)%nat -> b k = b' k) ->
  dot n a b = dot n a' b'.
Proof. intros. apply sumf_ext. intros. now rewrite H, H0. Qed.

Lemma cauchy_schwarz : forall n a b, dot n a b * dot n a b <= dot n a a * dot n b b.
Proof.
  intros.
  assert (Q : forall t, 0 <= dot n a a + 2 * t * dot n a b + t * t * dot n b b).
  { intros t. pose proof (dot_nonneg n (vadd a (vscal t b))) as H.
    rewrite dot_add_l, !dot_add_r, !dot_scal_l, !dot_scal_r in H.
    rewrite (dot_sym n b a) in H. nra. }
  destruct (Req_dec (dot n b b) 0) as [E|E].
  - rewrite E in *. destruct (Req_dec (dot n a b) 0) as [E2|E2]; [rewrite E2; lra|].
    exfalso. specialize (Q (- (dot n a a + 1) / (2 * dot n a b))).
    replace (2 * (- (dot n a a + 1) / (2 * dot n a b)) * dot n a b) with (- (dot n a a + 1)) in Q by (field; auto).
    lra.
  - pose proof (dot_nonneg n b).
    specialize (Q (- dot n a b / dot n b b)).
    assert (P : 0 < dot n b b) by lra.
    replace (dot n a a + 2 * (- dot n a b / dot n b b) * dot n a b +
      - dot n a b / dot n b b * (- dot n a b / dot n b b) * dot n b b)
      with ((dot n a a * dot n b b - dot n a b * dot n a b) / dot n b b) in Q by (field; auto).
    assert (0 <= (dot n a a * dot n b b - dot n a b * dot n a b) / dot n b b * dot n b b) by (apply Rmult_le_pos; lra).
    replace ((dot n a a * dot n b b - dot n a b * dot n a b) / dot n b b * dot n b b)
      with (dot n a a * dot n b b - dot n a b * dot n a b) in H0 by (field; auto).
    lra.
Qed.

Lemma norm_nonneg : forall n a, 0 <= norm n a.
Proof. intros; apply sqrt_pos. Qed.
Lemma norm_sqr : forall n a, norm n a * norm n a = dot n a a.
Proof. intros. unfold norm. apply sqrt_sqrt, dot_nonneg. Qed.
Lemma dot_le_norm : forall n a b, dot n a b <= norm n a * norm n b.
Proof.
  intros. pose proof (cauchy_schwarz n a b). pose proof (norm_nonneg n a). pose proof (norm_nonneg n b).
  rewrite <- !norm_sqr in H.
  destruct (Rle_lt_dec (dot n a b) (norm n a * norm n b)); [easy|].
  assert (0 <= norm n a * norm n b) by nra. nra.
Qed.
Lemma norm_triangle : forall n a b, norm n (vadd a b) <= norm n a + norm n b.
Proof.
  intros. pose proof (dot_le_norm n a b) as H. pose proof (norm_nonneg n a). pose proof (norm_nonneg n b).
  pose proof (norm_nonneg n (vadd a b)).
  pose proof (norm_sqr n (vadd a b)) as E. rewrite dot_add_l, !dot_add_r in E.
  rewrite (dot_sym n b a), <- !norm_sqr in E. nra.
Qed.
Lemma norm_ext : forall n a b, (forall k, (k < n)%nat -> a k = b k) -> norm n a = norm n b.
Proof. intros. unfold norm. f_equal. now apply dot_ext. Qed.
Lemma norm_triangle_sub : forall n a b c, norm n (vsub a c) <= norm n (vsub a b) + norm n (vsub b c).
Proof.
  intros. rewrite (norm_ext n (vsub a c) (vadd (vsub a b) (vsub b c))).
  - apply norm_triangle.
  - intros. unfold vadd, vsub. lra.
Qed.
Lemma norm_sub_sym : forall n a b, norm n (vsub a b) = norm n (vsub b a).
Proof.
  intros. unfold norm. f_equal. apply sumf_ext. intros. unfold vsub. lra.
Qed.
Lemma norm_le_sqr : forall n a x, 0 <= x -> dot n a a <= x * x -> norm n a <= x.
Proof.
  intros. pose proof (norm_nonneg n a). rewrite <- norm_sqr in H0. nra.
Qed.
Lemma norm_lt_sqr : forall n a x, 0 <= x -> (dot n a a < x * x <-> norm n a < x).
Proof.
  intros. pose proof (norm_nonneg n a). rewrite <- norm_sqr. split; intros; nra.
Qed.
