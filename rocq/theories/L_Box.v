From Verif Require Import Prelude Vec M_Box S_Box.
From Coq Require Import Reals Lra.
Local Open Scope R_scope.

Lemma rltb_true : forall a b, rltb a b = true <-> a < b.
Proof. intros. unfold rltb. destruct (Rlt_dec a b); split; auto; try discriminate; lra. Qed.
Lemma rltb_false : forall a b, rltb a b = false <-> b <= a.
Proof. intros. unfold rltb. destruct (Rlt_dec a b); split; auto; try discriminate; lra. Qed.
Lemma rleb_true : forall a b, rleb a b = true <-> a <= b.
Proof. intros. unfold rleb. destruct (Rle_dec a b); split; auto; try discriminate; lra. Qed.
Lemma rleb_false : forall a b, rleb a b = false <-> b < a.
Proof. intros. unfold rleb. destruct (Rle_dec a b); split; auto; try discriminate; lra. Qed.

(** The overlap test per axis. *)
Lemma BoxOverlap_axes : forall n a b c d, (1 <= n <= 3)%nat ->
  (BoxOverlap n a b c d = true <-> forall k, (k < n)%nat -> a k <= d k /\ c k <= b k).
Proof.
  intros n a b c d Hn.
  assert (T : forall k, (if rltb (d k) (a k) then false else if rltb (b k) (c k) then false else true) = true
                        <-> a k <= d k /\ c k <= b k).
  { intros k. destruct (rltb (d k) (a k)) eqn:E1; [apply rltb_true in E1|apply rltb_false in E1].
    - split; [discriminate|lra].
    - destruct (rltb (b k) (c k)) eqn:E2; [apply rltb_true in E2|apply rltb_false in E2]; split; auto; try discriminate; lra. }
  assert (n = 1 \/ n = 2 \/ n = 3)%nat as X by lia.
  destruct X as [ -> |X]; [|destruct X as [ -> | -> ]]; unfold BoxOverlap.
  - rewrite T. split; [intros H k Hk; assert (k = 0)%nat as -> by lia; exact H|auto].
  - assert (T0 := T 0%nat). assert (T1 := T 1%nat).
    destruct (if rltb (d 0%nat) (a 0%nat) then false else if rltb (b 0%nat) (c 0%nat) then false else true).
    + rewrite T1. split.
      * intros H k Hk. assert (k = 0 \/ k = 1)%nat as Y by lia. destruct Y as [ -> | ->]; [now apply T0|exact H].
      * intros H. apply H. lia.
    + split; [discriminate|]. intros H. assert (X := proj2 T0 (H 0%nat ltac:(lia))). discriminate.
  - assert (T0 := T 0%nat). assert (T1 := T 1%nat). assert (T2 := T 2%nat).
    destruct (if rltb (d 0%nat) (a 0%nat) then false else if rltb (b 0%nat) (c 0%nat) then false else true).
    + destruct (if rltb (d 1%nat) (a 1%nat) then false else if rltb (b 1%nat) (c 1%nat) then false else true).
      * rewrite T2. split.
        -- intros H k Hk. assert (k = 0 \/ k = 1 \/ k = 2)%nat as Y by lia.
           destruct Y as [ -> |Y]; [now apply T0|destruct Y as [ -> | ->]; [now apply T1|exact H]].
        -- intros H. apply H. lia.
      * split; [discriminate|]. intros H. assert (X := proj2 T1 (H 1%nat ltac:(lia))). discriminate.
    + split; [discriminate|]. intros H. assert (X := proj2 T0 (H 0%nat ltac:(lia))). discriminate.
Qed.

(** Closed boxes: the test says whether they have a common point. *)
Lemma BoxOverlap_point : forall n a b c d x, (1 <= n <= 3)%nat -> in_box n a b x -> in_box n c d x ->
  BoxOverlap n a b c d = true.
Proof.
  intros n a b c d x Hn H1 H2. apply BoxOverlap_axes; [easy|]. intros k Hk.
  specialize (H1 k Hk). specialize (H2 k Hk). lra.
Qed.
Theorem BoxOverlap_correct : forall n a b c d, (1 <= n <= 3)%nat ->
  (forall k, (k < n)%nat -> a k <= b k) -> (forall k, (k < n)%nat -> c k <= d k) ->
  (BoxOverlap n a b c d = true <-> exists x, in_box n a b x /\ in_box n c d x).
Proof.
  intros n a b c d Hn Hab Hcd. split.
  - intros H. rewrite BoxOverlap_axes in H by easy. exists (fun k => Rmax (a k) (c k)).
    split; intros k Hk; specialize (H k Hk); specialize (Hab k Hk); specialize (Hcd k Hk);
      unfold Rmax; destruct (Rle_dec (a k) (c k)); lra.
  - intros (x & H1 & H2). now apply (BoxOverlap_point n a b c d x).
Qed.
Theorem BoxesOverlap_correct : forall n a b c d,
  (forall k, (k < n)%nat -> a k <= b k) -> (forall k, (k < n)%nat -> c k <= d k) ->
  (BoxesOverlap n a b c d = true <-> exists x, in_box n a b x /\ in_box n c d x).
Proof.
  intros n a b c d Hab Hcd.
  assert (G : BoxesOverlap n a b c d = true <-> forall k, (k < n)%nat -> a k <= d k /\ c k <= b k).
  { induction n; cbn [BoxesOverlap]; [split; auto; intros; lia|].
    rewrite Bool.andb_true_iff, Bool.orb_true_iff. unfold valueInRange. rewrite !Bool.andb_true_iff, !rleb_true.
    rewrite IHn by (intros; auto). split.
    - intros [A B] k Hk. assert (k = n \/ k < n)%nat as [ -> |X] by lia; [|auto].
      specialize (Hab n ltac:(lia)). specialize (Hcd n ltac:(lia)). lra.
    - intros H. split; [auto|]. specialize (H n ltac:(lia)). lra. }
  rewrite G. split.
  - intros H. exists (fun k => Rmax (a k) (c k)).
    split; intros k Hk; specialize (H k Hk); specialize (Hab k Hk); specialize (Hcd k Hk);
      unfold Rmax; destruct (Rle_dec (a k) (c k)); lra.
  - intros (x & H1 & H2) k Hk. specialize (H1 k Hk). specialize (H2 k Hk). lra.
Qed.

Theorem ParticleInBox_correct : forall n r lo hi, ParticleInBox n r lo hi = true <-> in_hbox n lo hi r.
Proof.
  unfold in_hbox. induction n; intros; cbn [ParticleInBox]; [split; auto; intros; lia|].
  rewrite Bool.andb_true_iff, IHn, Bool.negb_true_iff, Bool.orb_false_iff, rltb_false, rleb_false. split.
  - intros [A B] k Hk. assert (k = n \/ k < n)%nat as [ -> |X] by lia; [lra|auto].
  - intros H. split; [auto|]. apply H. lia.
Qed.
(** Cutting a box by a plane: each particle of the box is in exactly one part. *)
Theorem ParticleInBox_split : forall n r lo hi j x, (j < n)%nat -> lo j <= x <= hi j ->
  let hi1 := fun k => if Nat.eqb k j then x else hi k in
  let lo2 := fun k => if Nat.eqb k j then x else lo k in
  (ParticleInBox n r lo hi = xorb (ParticleInBox n r lo hi1) (ParticleInBox n r lo2 hi)) /\
  ParticleInBox n r lo hi1 && ParticleInBox n r lo2 hi = false.
Proof.
  intros n r lo hi j x Hj Hx hi1 lo2.
  assert (E1 : ParticleInBox n r lo hi1 = ParticleInBox n r lo hi && rltb (r j) x).
  { apply Bool.eq_iff_eq_true. rewrite Bool.andb_true_iff, !ParticleInBox_correct, rltb_true. unfold in_hbox, hi1. split.
    - intros H. split.
      + intros k Hk. specialize (H k Hk). destruct (Nat.eqb_spec k j); [subst; lra|lra].
      + specialize (H j Hj). rewrite Nat.eqb_refl in H. lra.
    - intros [H1 H2] k Hk. specialize (H1 k Hk). destruct (Nat.eqb_spec k j); [subst; lra|lra]. }
  assert (E2 : ParticleInBox n r lo2 hi = ParticleInBox n r lo hi && rleb x (r j)).
  { apply Bool.eq_iff_eq_true. rewrite Bool.andb_true_iff, !ParticleInBox_correct, rleb_true. unfold in_hbox, lo2. split.
    - intros H. split.
      + intros k Hk. specialize (H k Hk). destruct (Nat.eqb_spec k j); [subst; lra|lra].
      + specialize (H j Hj). rewrite Nat.eqb_refl in H. lra.
    - intros [H1 H2] k Hk. specialize (H1 k Hk). destruct (Nat.eqb_spec k j); [subst; lra|lra]. }
  rewrite E1, E2. destruct (rltb (r j) x) eqn:A; [apply rltb_true in A|apply rltb_false in A].
  - replace (rleb x (r j)) with false by (symmetry; apply rleb_false; lra).
    destruct (ParticleInBox n r lo hi); auto.
  - replace (rleb x (r j)) with true by (symmetry; apply rleb_true; lra).
    destruct (ParticleInBox n r lo hi); auto.
Qed.

(** FractionalBoxOverlap away from coinciding edges. *)
Definition generic_pos (n : nat) (min2 max2 min1 max1 : vec) : Prop :=
  forall k, (k < n)%nat -> min1 k <> min2 k /\ max1 k <> max2 k.
Lemma frac_loop_spec : forall n min2 max2 min1 max1,
  (forall k, (k < n)%nat -> min1 k <= max1 k) -> (forall k, (k < n)%nat -> min2 k <= max2 k) ->
  generic_pos n min2 max2 min1 max1 ->
  frac_loop n min2 max2 min1 max1 =
    (prodf n (fun k => max1 k - min1 k), prodf n (fun k => common (min1 k) (max1 k) (min2 k) (max2 k))).
Proof.
  induction n; intros min2 max2 min1 max1 H1 H2 HG; cbn [frac_loop prodf]; [reflexivity|].
  rewrite IHn by (try (intros k Hk; apply H1 || apply H2 || apply HG); lia || intros k Hk; apply HG; lia).
  f_equal. specialize (H1 n ltac:(lia)). specialize (H2 n ltac:(lia)). destruct (HG n ltac:(lia)) as [G1 G2].
  set (P := prodf n _). unfold common.
  destruct (rleb (max1 n) (min2 n)) eqn:A; [apply rleb_true in A|apply rleb_false in A]; cbn [orb];
  [|destruct (rleb (max2 n) (min1 n)) eqn:B; [apply rleb_true in B|apply rleb_false in B]; cbn [orb]].
  - f_equal. unfold Rmin, Rmax. repeat destruct (Rle_dec _ _); lra.
  - f_equal. unfold Rmin, Rmax. repeat destruct (Rle_dec _ _); lra.
  - unfold rltb. repeat (destruct (Rlt_dec _ _); cbn [andb]); f_equal; unfold Rmin, Rmax;
      repeat destruct (Rle_dec _ _); try lra.
Qed.
Lemma prodf_pos : forall n f, (forall k, (k < n)%nat -> 0 < f k) -> 0 < prodf n f.
Proof. induction n; intros f H; cbn; [lra|]. apply Rmult_lt_0_compat; auto. Qed.
Theorem FractionalBoxOverlap_generic : forall n min2 max2 min1 max1,
  (forall k, (k < n)%nat -> min1 k < max1 k) -> (forall k, (k < n)%nat -> min2 k <= max2 k) ->
  generic_pos n min2 max2 min1 max1 ->
  FractionalBoxOverlap n min2 max2 min1 max1 =
    prodf n (fun k => common (min1 k) (max1 k) (min2 k) (max2 k)) / prodf n (fun k => max1 k - min1 k).
Proof.
  intros n min2 max2 min1 max1 H1 H2 HG. unfold FractionalBoxOverlap.
  rewrite frac_loop_spec; auto; [|intros k Hk; specialize (H1 k Hk); lra].
  replace (rltb 0 _) with true; [reflexivity|]. symmetry. apply rltb_true. apply prodf_pos. intros k Hk. specialize (H1 k Hk). lra.
Qed.
(** With equal boxes the fraction is wrong: box [0,2] on itself gives one half. *)
Theorem FractionalBoxOverlap_wrong :
  FractionalBoxOverlap 1 (fun _ => 0) (fun _ => 2) (fun _ => 0) (fun _ => 2) = 1 / 2 /\
  FractionalBoxOverlap 1 (fun _ => 0) (fun _ => 1/2) (fun _ => 0) (fun _ => 1/2) = 2.
Proof.
  unfold FractionalBoxOverlap; cbn. unfold rleb, rltb.
  split; repeat (destruct (Rle_dec _ _); try lra; cbn [orb andb]); repeat (destruct (Rlt_dec _ _); try lra; cbn [orb andb]);
    field.
Qed.
Theorem BoxOverlap_sym : forall n a b c d, (1 <= n <= 3)%nat -> BoxOverlap n a b c d = BoxOverlap n c d a b.
Proof.
  intros. apply Bool.eq_iff_eq_true. rewrite !BoxOverlap_axes by easy.
  split; intros X k Hk; specialize (X k Hk); lra.
Qed.
Theorem FractionalBoxOverlap_refuted :
  exists (n : nat) (lo hi lo' hi' : vec),
    (forall k, (k < n)%nat -> lo k < hi k) /\ (forall k, (k < n)%nat -> lo' k < hi' k) /\
    FractionalBoxOverlap n lo hi lo hi <>
      prodf n (fun k => common (lo k) (hi k) (lo k) (hi k)) / prodf n (fun k => hi k - lo k) /\
    FractionalBoxOverlap n lo' hi' lo' hi' > 1.
Proof.
  exists 1%nat, (fun _ => 0), (fun _ => 2), (fun _ => 0), (fun _ => 1/2).
  destruct FractionalBoxOverlap_wrong as [E1 E2]. rewrite E1, E2.
  repeat split; intros; try lra.
  cbn. unfold common, Rmax, Rmin. repeat destruct (Rle_dec _ _); lra.
Qed.
