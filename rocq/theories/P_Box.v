(** C09: box overlap tests. *)
From Verif Require Import Prelude Vec M_Box S_Box L_Box.
From Coq Require Import Reals Lra.
Local Open Scope R_scope.

Theorem C09_BoxOverlap : forall n a b c d, (1 <= n <= 3)%nat ->
  (forall k, (k < n)%nat -> a k <= b k) -> (forall k, (k < n)%nat -> c k <= d k) ->
  (BoxOverlap n a b c d = true <-> exists x, in_box n a b x /\ in_box n c d x).
Proof. exact BoxOverlap_correct. Qed.
Print Assumptions C09_BoxOverlap.

(** No particle in both boxes is ever missed, even for inverted boxes. *)
Theorem C09_BoxOverlap_point : forall n a b c d x, (1 <= n <= 3)%nat ->
  in_box n a b x -> in_box n c d x -> BoxOverlap n a b c d = true.
Proof. exact BoxOverlap_point. Qed.
Print Assumptions C09_BoxOverlap_point.

Theorem C09_BoxOverlap_sym : forall n a b c d, (1 <= n <= 3)%nat ->
  BoxOverlap n a b c d = BoxOverlap n c d a b.
Proof. exact BoxOverlap_sym. Qed.
Print Assumptions C09_BoxOverlap_sym.

Theorem C09_BoxesOverlap : forall n a b c d,
  (forall k, (k < n)%nat -> a k <= b k) -> (forall k, (k < n)%nat -> c k <= d k) ->
  (BoxesOverlap n a b c d = true <-> exists x, in_box n a b x /\ in_box n c d x).
Proof. exact BoxesOverlap_correct. Qed.
Print Assumptions C09_BoxesOverlap.

Theorem C09_ParticleInBox : forall n r lo hi, ParticleInBox n r lo hi = true <-> in_hbox n lo hi r.
Proof. exact ParticleInBox_correct. Qed.
Print Assumptions C09_ParticleInBox.

(** Cutting a box in two: every particle of the box is in exactly one part. *)
Theorem C09_ParticleInBox_split : forall n r lo hi j x, (j < n)%nat -> lo j <= x <= hi j ->
  let hi1 := fun k => if Nat.eqb k j then x else hi k in
  let lo2 := fun k => if Nat.eqb k j then x else lo k in
  (ParticleInBox n r lo hi = xorb (ParticleInBox n r lo hi1) (ParticleInBox n r lo2 hi)) /\
  ParticleInBox n r lo hi1 && ParticleInBox n r lo2 hi = false.
Proof. exact ParticleInBox_split. Qed.
Print Assumptions C09_ParticleInBox_split.

(** FractionalBoxOverlap is the volume fraction when no two edges coincide; missing: boxes
    that share an edge coordinate, for which it is false (next theorem). *)
Theorem C09_FractionalBoxOverlap_partial : forall n min2 max2 min1 max1,
  (forall k, (k < n)%nat -> min1 k < max1 k) -> (forall k, (k < n)%nat -> min2 k <= max2 k) ->
  (forall k, (k < n)%nat -> min1 k <> min2 k /\ max1 k <> max2 k) ->
  FractionalBoxOverlap n min2 max2 min1 max1 =
    prodf n (fun k => common (min1 k) (max1 k) (min2 k) (max2 k)) / prodf n (fun k => max1 k - min1 k).
Proof. exact FractionalBoxOverlap_generic. Qed.
Print Assumptions C09_FractionalBoxOverlap_partial.

(** The full claim (fraction of the volume, between 0 and 1) is false when edges coincide:
    the box [0,2] covers itself to one half, [0,1/2] covers itself twice. *)
Theorem C09_FractionalBoxOverlap_refuted :
  exists (n : nat) (lo hi lo' hi' : vec),
    (forall k, (k < n)%nat -> lo k < hi k) /\ (forall k, (k < n)%nat -> lo' k < hi' k) /\
    FractionalBoxOverlap n lo hi lo hi <>
      prodf n (fun k => common (lo k) (hi k) (lo k) (hi k)) / prodf n (fun k => hi k - lo k) /\
    FractionalBoxOverlap n lo' hi' lo' hi' > 1.
Proof. exact FractionalBoxOverlap_refuted. Qed.
Print Assumptions C09_FractionalBoxOverlap_refuted.

(** Touching boxes overlap, separated ones do not. *)
Example C09_touching : BoxOverlap 2 (fun _ => 0) (fun _ => 1) (fun _ => 1) (fun _ => 2) = true.
Proof. apply C09_BoxOverlap_point with (x := fun _ => 1); [lia| |]; intros k _; lra. Qed.
Example C09_separated :
  BoxOverlap 3 (fun _ => 0) (fun _ => 1) (fun k => if Nat.eqb k 2 then 2 else 0) (fun k => if Nat.eqb k 2 then 3 else 1) = false.
Proof.
  destruct (BoxOverlap 3 _ _ _ _) eqn:E; [|reflexivity]. exfalso.
  apply C09_BoxOverlap in E; [|lia|intros; lra|intros k _; destruct (Nat.eqb k 2); lra].
  destruct E as (x & H1 & H2). specialize (H1 2%nat ltac:(lia)). specialize (H2 2%nat ltac:(lia)). cbn in H2. lra.
Qed.
Example C09_half : FractionalBoxOverlap 1 (fun _ => 0) (fun _ => 2) (fun _ => 1) (fun _ => 3) = 1 / 2.
Proof.
  rewrite C09_FractionalBoxOverlap_partial; try (intros k _; lra).
  cbn. unfold common, Rmax, Rmin. repeat destruct (Rle_dec _ _); lra.
Qed.
