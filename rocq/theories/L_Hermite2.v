(** Time derivatives of the attraction along a motion. *)
From Verif Require Import Prelude Vec M_Box M_Periodic L_Box L_Periodic M_Hermite S_Hermite L_Hermite S_Kernel.
From Coq Require Import Reals.
From Coquelicot Require Import Coquelicot.
Local Open Scope R_scope.

Lemma der_val : forall (f : R -> R) x l l', is_derive f x l -> l = l' -> is_derive f x l'.
Proof. intros. subst. exact H. Qed.

Lemma der_sumf : forall n (f : nat -> R -> R) (g : nat -> R) t,
  (forall k, (k < n)%nat -> is_derive (f k) t (g k)) -> is_derive (fun u => sumf n (fun k => f k u)) t (sumf n g).
Proof.
  induction n; intros; cbn [sumf]; [apply (is_derive_const (0:R) t)|].
  apply (is_derive_plus (fun u => sumf n (fun k => f k u)) (f n)); [apply IHn; intros; apply H; lia|apply H; lia].
Qed.
Lemma der_others : forall N i (f : nat -> R -> R) (g : nat -> R) t,
  (forall j, (j < N)%nat -> j <> i -> is_derive (f j) t (g j)) ->
  is_derive (fun u => others N i (fun j => f j u)) t (others N i g).
Proof.
  intros. unfold others. apply der_sumf. intros j Hj.
  destruct (Nat.eqb_spec i j); [apply (is_derive_const (0:R) t)|]. apply H; auto.
Qed.
Lemma der_dot : forall n (A B A' B' : R -> vec) t,
  (forall k, (k < n)%nat -> is_derive (fun u => A u k) t (A' t k)) ->
  (forall k, (k < n)%nat -> is_derive (fun u => B u k) t (B' t k)) ->
  is_derive (fun u => dot n (A u) (B u)) t (dot n (A' t) (B t) + dot n (A t) (B' t)).
Proof.
  intros. unfold dot. rewrite <- sumf_plus.
  apply (der_sumf n (fun k u => A u k * B u k)). intros k Hk.
  specialize (H k Hk). specialize (H0 k Hk).
  apply (is_derive_mult (fun u => A u k) (fun u => B u k)); [exact H|exact H0|].
  intros. unfold mult. cbn. ring.
Qed.

Ltac eqR := match goal with |- @eq _ ?a ?b => change (@eq R a b) end.
Ltac nz := repeat apply Rmult_integral_contrapositive_currified; lra.
(** ** One component of one pair *)
Section scalar.
Variables r P Q d d1 d2 : R -> R.
Variables (T D3 t m : R).
Hypothesis Hr : 0 < r t.
Hypothesis dr : is_derive r t (P t / r t).
Hypothesis dd : is_derive d t (d1 t).
Definition acc0 (u : R) : R := m * d u / r u ^ 3.
Definition acc1 (u : R) : R := m / r u ^ 3 * (d1 u - 3 * (P u / r u ^ 2) * d u).
Definition bf (u : R) : R := Q u / r u ^ 2 + (P u / r u ^ 2) * (P u / r u ^ 2).
Definition acc2 (u : R) : R := m * d2 u / r u ^ 3 - 6 * (P u / r u ^ 2) * acc1 u - 3 * bf u * acc0 u.
Definition cf (u : R) : R := T / r u ^ 2 + P u / r u ^ 2 * (3 * bf u - 4 * (P u / r u ^ 2) * (P u / r u ^ 2)).
Definition acc3 (u : R) : R := m * D3 / r u ^ 3 - 9 * (P u / r u ^ 2) * acc2 u - 9 * bf u * acc1 u - 3 * cf u * acc0 u.
Lemma der_acc0 : is_derive acc0 t (acc1 t).
Proof.
  unfold acc0, acc1. auto_derive.
  - repeat split; try (eexists; eassumption); nz.
  - rewrite (is_derive_unique _ _ _ dr : Derive (fun x : R => r x) t = _), (is_derive_unique _ _ _ dd : Derive (fun x : R => d x) t = _). field. lra.
Qed.
Hypothesis dP : is_derive P t (Q t).
Hypothesis dd1 : is_derive d1 t (d2 t).
Lemma der_acc1 : is_derive acc1 t (acc2 t).
Proof.
  unfold acc1, acc2, acc0, acc1, bf. auto_derive.
  - repeat split; try (eexists; eassumption); nz.
  - rewrite (is_derive_unique _ _ _ dr : Derive (fun x : R => r x) t = _), (is_derive_unique _ _ _ dd : Derive (fun x : R => d x) t = _),
      (is_derive_unique _ _ _ dP : Derive (fun x : R => P x) t = _), (is_derive_unique _ _ _ dd1 : Derive (fun x : R => d1 x) t = _). field. lra.
Qed.
Hypothesis dQ : is_derive Q t T.
Hypothesis dd2 : is_derive d2 t D3.
Lemma der_acc2 : is_derive acc2 t (acc3 t).
Proof.
  unfold acc3, cf, acc2, acc1, acc0, bf. auto_derive.
  - repeat split; try (eexists; eassumption); nz.
  - rewrite (is_derive_unique _ _ _ dr : Derive (fun x : R => r x) t = _), (is_derive_unique _ _ _ dd : Derive (fun x : R => d x) t = _),
      (is_derive_unique _ _ _ dP : Derive (fun x : R => P x) t = _), (is_derive_unique _ _ _ dd1 : Derive (fun x : R => d1 x) t = _),
      (is_derive_unique _ _ _ dQ : Derive (fun x : R => Q x) t = _), (is_derive_unique _ _ _ dd2 : Derive (fun x : R => d2 x) t = _). field. lra.
Qed.
End scalar.

(** ** Moving pairs *)
Section motion.
Variables (n : nat) (e : R) (x y : R -> vec) (vx vy ax ay jx jy : R -> vec).
(** x, y positions of the bodies; the relative quantities are x - y *)
Definition rel (p q : R -> vec) : R -> vec := fun u => vsub (p u) (q u).
Definition rr (u : R) : R := separation n e (x u) (y u).
Definition PP (u : R) : R := dot n (rel vx vy u) (rel x y u).
Definition QQ (u : R) : R := dot n (rel vx vy u) (rel vx vy u) + dot n (rel ax ay u) (rel x y u).
Definition TT (u : R) : R := 3 * dot n (rel vx vy u) (rel ax ay u) + dot n (rel x y u) (rel jx jy u).
Hypothesis dx : forall u k, is_derive (fun s => x s k) u (vx u k).
Hypothesis dy : forall u k, is_derive (fun s => y s k) u (vy u k).
Lemma der_rel : forall (p q p' q' : R -> vec),
  (forall u k, is_derive (fun s => p s k) u (p' u k)) -> (forall u k, is_derive (fun s => q s k) u (q' u k)) ->
  forall u k, is_derive (fun s => rel p q s k) u (rel p' q' u k).
Proof. intros. unfold rel, vsub. apply (is_derive_minus (fun s => p s k) (fun s => q s k)); auto. Qed.
Lemma der_rr : forall u, 0 < rr u -> is_derive rr u (PP u / rr u).
Proof.
  intros u Hr. unfold rr, separation in *.
  set (W := fun s => dot n (rel x y s) (rel x y s) + e).
  assert (HW : 0 < W u).
  { apply sqrt_lt_0_alt. rewrite sqrt_0. exact Hr. }
  assert (dW : is_derive W u (2 * PP u)).
  { unfold W. eapply der_val.
    - apply (is_derive_plus (fun s => dot n (rel x y s) (rel x y s)) (fun _ => e)).
      + apply der_dot; intros; apply der_rel; auto.
      + apply (is_derive_const e u).
    - unfold plus, zero. cbn. unfold PP. rewrite (dot_sym n (rel x y u) (rel vx vy u)). ring. }
  change (is_derive (fun s => sqrt (W s)) u (PP u / sqrt (W u))).
  eapply der_val; [apply (is_derive_sqrt W u _ dW HW)|].
  eqR. field. apply Rgt_not_eq, sqrt_lt_R0, HW.
Qed.
Hypothesis dvx : forall u k, is_derive (fun s => vx s k) u (ax u k).
Hypothesis dvy : forall u k, is_derive (fun s => vy s k) u (ay u k).
Lemma der_PP : forall u, is_derive PP u (QQ u).
Proof.
  intros. unfold PP, QQ. eapply der_val; [apply der_dot; intros; apply der_rel; eauto|].
  eqR. ring.
Qed.
Hypothesis dax : forall u k, is_derive (fun s => ax s k) u (jx u k).
Hypothesis day : forall u k, is_derive (fun s => ay s k) u (jy u k).
Lemma der_QQ : forall u, is_derive QQ u (TT u).
Proof.
  intros. unfold QQ, TT. eapply der_val.
  - apply (is_derive_plus (fun s => dot n (rel vx vy s) (rel vx vy s)) (fun s => dot n (rel ax ay s) (rel x y s)));
      apply der_dot; intros; apply der_rel; eauto.
  - unfold plus. cbn. rewrite (dot_sym n (rel ax ay u) (rel vx vy u)), (dot_sym n (rel jx jy u) (rel x y u)). eqR. ring.
Qed.
End motion.

(** Two and three derivatives. *)
Lemma der2 : forall (f f1 f2 : R -> R), (forall t, is_derive f t (f1 t)) -> (forall t, is_derive f1 t (f2 t)) ->
  forall t, is_derive_n f 2 t (f2 t).
Proof.
  intros f f1 f2 H1 H2 t. simpl. eapply is_derive_ext; [|apply H2].
  intros s. symmetry. apply is_derive_unique, H1.
Qed.
Lemma der3 : forall (f f1 f2 f3 : R -> R), (forall t, is_derive f t (f1 t)) -> (forall t, is_derive f1 t (f2 t)) ->
  (forall t, is_derive f2 t (f3 t)) -> forall t, is_derive_n f 3 t (f3 t).
Proof.
  intros f f1 f2 f3 H1 H2 H3 t. simpl. eapply is_derive_ext; [|apply H3].
  intros s. symmetry. apply is_derive_unique. eapply is_derive_ext; [|apply H2].
  intros s'. symmetry. apply is_derive_unique, H1.
Qed.
