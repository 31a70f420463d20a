From Verif Require Import Prelude L_Prelude Vec M_Matrix.
From Coq Require Import Reals Lra.
Local Open Scope R_scope.

(** Specification: product and identity. *)
Definition mmul (n : nat) (A B : mat) : mat := fun i j => sumf n (fun k => A i k * B k j).
Definition is_id (n : nat) (A : mat) : Prop :=
  forall i j, (i < n)%nat -> (j < n)%nat -> A i j = if Nat.eqb i j then 1 else 0.

Ltac lt3 i := destruct i as [|[|[|i]]]; try lia.
Definition det2 (A : mat) := A 0%nat 0%nat * A 1%nat 1%nat - A 0%nat 1%nat * A 1%nat 0%nat.
Definition det3 (A : mat) :=
  A 0%nat 0%nat * (A 1%nat 1%nat * A 2%nat 2%nat - A 2%nat 1%nat * A 1%nat 2%nat) -
  A 0%nat 1%nat * (A 1%nat 0%nat * A 2%nat 2%nat - A 1%nat 2%nat * A 2%nat 0%nat) +
  A 0%nat 2%nat * (A 1%nat 0%nat * A 2%nat 1%nat - A 1%nat 1%nat * A 2%nat 0%nat).

Lemma det2_mul : forall A B, det2 (mmul 2 A B) = det2 A * det2 B.
Proof. intros. unfold det2, mmul. cbn. ring. Qed.
Lemma det3_mul : forall A B, det3 (mmul 3 A B) = det3 A * det3 B.
Proof. intros. unfold det3, mmul. cbn. ring. Qed.

Theorem InvertMatrix_correct : forall n A, (1 <= n <= 3)%nat ->
  (exists B, is_id n (mmul n A B)) ->
  is_id n (mmul n A (InvertMatrix n A)) /\ is_id n (mmul n (InvertMatrix n A) A).
Proof.
  intros n A Hn [B HB]. assert (C : n = 1%nat \/ n = 2%nat \/ n = 3%nat) by lia.
  destruct C as [ -> |[ -> | -> ]].
  - assert (D : A 0%nat 0%nat <> 0).
    { specialize (HB 0%nat 0%nat ltac:(lia) ltac:(lia)). unfold mmul in HB. cbn in HB. intros E. rewrite E in HB. lra. }
    split; intros i j Hi Hj; lt3 i; lt3 j; unfold mmul; cbn; field; exact D.
  - assert (D : det2 A <> 0).
    { assert (E : det2 (mmul 2 A B) = 1) by (unfold det2; rewrite !HB by lia; cbn; lra).
      rewrite det2_mul in E. intros Z. rewrite Z in E. lra. }
    unfold det2 in D. split; intros i j Hi Hj; lt3 i; lt3 j; unfold mmul; cbn; field; exact D.
  - assert (D : det3 A <> 0).
    { assert (E : det3 (mmul 3 A B) = 1) by (unfold det3; rewrite !HB by lia; cbn; lra).
      rewrite det3_mul in E. intros Z. rewrite Z in E. lra. }
    unfold det3 in D. split; intros i j Hi Hj; lt3 i; lt3 j; unfold mmul; cbn; field; exact D.
Qed.

Lemma rot_dot_aux : forall cp sp ct st cq sq v0 v1 v2 w0 w1 w2,
  cp * cp + sp * sp = 1 -> ct * ct + st * st = 1 -> cq * cq + sq * sq = 1 ->
  let a0 v0 v1 v2 := ct * cq * v0 + (cp * sq + sp * st * cq) * v1 + (sp * sq - cp * st * cq) * v2 in
  let a1 v0 v1 v2 := - ct * sq * v0 + (cp * cq - sp * st * sq) * v1 + (sp * cq + cp * st * sq) * v2 in
  let a2 v0 v1 v2 := st * v0 + - sp * ct * v1 + cp * ct * v2 in
  a0 v0 v1 v2 * a0 w0 w1 w2 + a1 v0 v1 v2 * a1 w0 w1 w2 + a2 v0 v1 v2 * a2 w0 w1 w2 = v0 * w0 + v1 * w1 + v2 * w2.
Proof.
  intros cp sp ct st cq sq v0 v1 v2 w0 w1 w2 P T Q. cbv zeta.
  assert (Ep : cp * cp = 1 - sp * sp) by lra. assert (Et : ct * ct = 1 - st * st) by lra. assert (Eq' : cq * cq = 1 - sq * sq) by lra.
  ring_simplify.
  replace (cp ^ 2) with (1 - sp ^ 2) by (simpl; lra). replace (ct ^ 2) with (1 - st ^ 2) by (simpl; lra).
  replace (cq ^ 2) with (1 - sq ^ 2) by (simpl; lra). ring.
Qed.
Lemma sc : forall x, cos x * cos x + sin x * sin x = 1.
Proof. intros. pose proof (sin2_cos2 x). unfold Rsqr in *. lra. Qed.

Theorem Euler_dot : forall phi theta psi v w,
  dot 3 (EulerAngleRotation phi theta psi v) (EulerAngleRotation phi theta psi w) = dot 3 v w.
Proof.
  intros. unfold dot. cbn. unfold EulerAngleRotation, apply_rot. cbn.
  rewrite !Rplus_0_l. apply (rot_dot_aux (cos phi) (sin phi) (cos theta) (sin theta) (cos psi) (sin psi)); apply sc.
Qed.
Theorem Euler_norm : forall phi theta psi v, norm 3 (EulerAngleRotation phi theta psi v) = norm 3 v.
Proof. intros. unfold norm. now rewrite Euler_dot. Qed.
Theorem Euler_det : forall phi theta psi, det3 (EulerAngleMatrix phi theta psi) = 1.
Proof.
  intros. unfold det3. cbn.
  assert (P := sc phi). assert (T := sc theta). assert (Q := sc psi).
  set (cp := cos phi) in *. set (sp := sin phi) in *. set (ct := cos theta) in *. set (st := sin theta) in *.
  set (cq := cos psi) in *. set (sq := sin psi) in *.
  replace 1 with ((cp * cp + sp * sp) * ((ct * ct + st * st) * (cq * cq + sq * sq)) ) by (rewrite P, T, Q; ring).
  assert (Et : ct * ct = 1 - st * st) by lra. 
  ring_simplify. replace (ct ^ 2) with (1 - st ^ 2) by (simpl; lra). ring.
Qed.
(** Cross products are kept too: the rotation is proper. *)
Definition cross (a b : vec) : vec := fun k => match k with
  | 0%nat => a 1%nat * b 2%nat - a 2%nat * b 1%nat
  | 1%nat => a 2%nat * b 0%nat - a 0%nat * b 2%nat
  | _ => a 0%nat * b 1%nat - a 1%nat * b 0%nat end.

(** Array version. *)
Lemma rot_one_spec : forall A i v, (0 <= i)%Z -> (3 * i + 3 <= zlen v)%Z ->
  exists v', rot_one A i v = Ok v' /\ zlen v' = zlen v /\
   (forall j, (j < 3 * i \/ 3 * i + 3 <= j)%Z -> aget v' j = aget v j) /\
   (forall x y z, aget v (3 * i) = Ok x -> aget v (3 * i + 1) = Ok y -> aget v (3 * i + 2) = Ok z ->
     forall k, (k < 3)%nat -> aget v' (3 * i + Z.of_nat k) =
       Ok (apply_rot A (fun k => match k with 0%nat => x | 1%nat => y | _ => z end) k)).
Proof.
  intros A i v Hi HL. unfold rot_one.
  destruct (aget_in v (3 * i)) as [x Hx]; [lia|]. destruct (aget_in v (3 * i + 1)) as [y Hy]; [lia|].
  destruct (aget_in v (3 * i + 2)) as [z Hz]; [lia|]. rewrite Hx, Hy, Hz. cbn [bind].
  set (w := apply_rot A _).
  destruct (aset_spec v (3 * i) (w 0%nat)) as (v1 & E1 & L1 & G1 & O1); [lia|]. rewrite E1. cbn [bind].
  destruct (aset_spec v1 (3 * i + 1) (w 1%nat)) as (v2 & E2 & L2 & G2 & O2); [lia|]. rewrite E2. cbn [bind].
  destruct (aset_spec v2 (3 * i + 2) (w 2%nat)) as (v3 & E3 & L3 & G3 & O3); [lia|]. rewrite E3.
  exists v3. split; [reflexivity|]. split; [lia|]. split.
  - intros j Hj. rewrite O3, O2, O1 by lia. reflexivity.
  - intros x' y' z' X Y Z'. injection X as <-. injection Y as <-. injection Z' as <-. intros k Hk. lt3 k.
    + replace (3 * i + Z.of_nat 0)%Z with (3 * i)%Z by lia. rewrite O3, O2 by lia. exact G1.
    + replace (3 * i + Z.of_nat 1)%Z with (3 * i + 1)%Z by lia. rewrite O3 by lia. exact G2.
    + exact G3.
Qed.
Lemma rot_loop_spec : forall n i A v, (0 <= i)%Z -> (3 * (i + Z.of_nat n) <= zlen v)%Z ->
  exists v', rot_loop n i A v = Ok v' /\ zlen v' = zlen v /\
   (forall j, (j < 3 * i \/ 3 * (i + Z.of_nat n) <= j)%Z -> aget v' j = aget v j) /\
   (forall m x y z, (i <= m < i + Z.of_nat n)%Z ->
     aget v (3 * m) = Ok x -> aget v (3 * m + 1) = Ok y -> aget v (3 * m + 2) = Ok z ->
     forall k, (k < 3)%nat -> aget v' (3 * m + Z.of_nat k) =
       Ok (apply_rot A (fun k => match k with 0%nat => x | 1%nat => y | _ => z end) k)).
Proof.
  induction n; intros i A v Hi HL.
  - exists v. split; [reflexivity|]. split; [reflexivity|]. split; [auto|]. intros; lia.
  - cbn [rot_loop]. destruct (rot_one_spec A i v) as (v1 & E1 & L1 & O1 & G1); [lia|lia|]. rewrite E1. cbn [bind].
    destruct (IHn (i + 1)%Z A v1) as (v2 & E2 & L2 & O2 & G2); [lia|lia|]. exists v2. split; [exact E2|]. split; [lia|]. split.
    + intros j Hj. rewrite O2, O1 by lia. reflexivity.
    + intros m x y z Hm X Y Z' k Hk. destruct (Z.eq_dec m i) as [ -> |D].
      * rewrite O2 by lia. apply G1; auto.
      * apply G2; [lia| | | |exact Hk]; rewrite O1 by lia; assumption.
Qed.
Theorem EulerArray_correct : forall N phi theta psi v, (3 * Z.of_nat N <= zlen v)%Z ->
  exists v', EulerAngleArrayRotation N phi theta psi v = Ok v' /\ zlen v' = zlen v /\
   (forall j, (3 * Z.of_nat N <= j)%Z -> aget v' j = aget v j) /\
   (forall m a, (0 <= m < Z.of_nat N)%Z ->
     (forall k, (k < 3)%nat -> aget v (3 * m + Z.of_nat k) = Ok (a k)) ->
     forall k, (k < 3)%nat -> aget v' (3 * m + Z.of_nat k) = Ok (EulerAngleRotation phi theta psi a k)).
Proof.
  intros N phi theta psi v HL. unfold EulerAngleArrayRotation.
  destruct (rot_loop_spec N 0 (EulerAngleMatrix phi theta psi) v) as (v' & E & L & O & G); [lia|lia|].
  exists v'. split; [exact E|]. split; [exact L|]. split; [intros; apply O; lia|].
  intros m a Hm Ha k Hk.
  rewrite (G m (a 0%nat) (a 1%nat) (a 2%nat)); [|lia|exact (eq_trans (f_equal _ (eq_sym (Z.add_0_r (3*m)))) (Ha 0%nat ltac:(lia)))|exact (Ha 1%nat ltac:(lia))|exact (Ha 2%nat ltac:(lia))|exact Hk].
  f_equal.
Qed.
