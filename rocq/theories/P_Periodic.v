(** C10, C11, C12: periodic images, boundary treatment, periodic overlap. *)
From Verif Require Import Prelude Vec M_Box S_Box L_Box M_Util M_Periodic S_Periodic L_Periodic L_Periodic2.
From Coq Require Import Reals Lra NArith.
Local Open Scope R_scope.

(** * C10 *)
(** The separation of two points in the box after the correction of DomainBox.h: an image
    of the original one, no component longer than half the box in a periodic direction,
    no image shorter, and dr_corr is the applied shift whatever it held before. *)
Theorem C10_NearestPeriodicVector : forall n lo hi bl br, (forall k, (k < n)%nat -> lo k < hi k) ->
  forall x y junk, in_box n lo hi x -> in_box n lo hi y ->
  let b := mkbox lo hi bl br in
  let d := vsub y x in
  let '(d', c) := NearestPeriodicVector n b d junk in
  image_of n b d d' /\
  (forall k, (k < n)%nat -> periodic_dir b k -> Rabs (d' k) <= dhalf b k) /\
  (forall d'', image_of n b d d'' -> norm n d' <= norm n d'') /\
  (forall k, (k < n)%nat -> c k = d' k - d k).
Proof. exact npv_nearest. Qed.
Print Assumptions C10_NearestPeriodicVector.

(** The ghost finder accepts every box whose periodic directions are periodic on both
    sides; its version of the correction has the same properties, and the flags returned
    say exactly which directions were shifted and which way. *)
Theorem C10_finder_accepts : forall n b, two_sided n b -> exists f, mk_finder n b = Ok f.
Proof. exact mk_finder_two_sided. Qed.
Print Assumptions C10_finder_accepts.

Theorem C10_GhostFinder_NearestPeriodicVector : forall n lo hi bl br, (forall k, (k < n)%nat -> lo k < hi k) ->
  (n <= 3)%nat -> forall f, mk_finder n (mkbox lo hi bl br) = Ok f ->
  forall x y, in_box n lo hi x -> in_box n lo hi y ->
  let b := mkbox lo hi bl br in
  let d := vsub y x in
  let '(bd, d') := GF_NearestPeriodicVector n f d in
  image_of n b d d' /\
  (forall k, (k < n)%nat -> periodic_dir b k -> Rabs (d' k) <= dhalf b k) /\
  (forall d'', image_of n b d d'' -> norm n d' <= norm n d'') /\
  (forall k, (k < n)%nat -> N.testbit bd (N.of_nat (7 + k)) = true <-> d' k = d k + dsize b k) /\
  (forall k, (k < n)%nat -> N.testbit bd (N.of_nat (10 + k)) = true <-> d' k = d k - dsize b k) /\
  (is_periodic bd = true <-> exists k, (k < n)%nat /\ d' k <> d k).
Proof. exact gf_nearest. Qed.
Print Assumptions C10_GhostFinder_NearestPeriodicVector.

(** ApplyPeriodicDistanceCorrection: same separation and flags, and the position moves by
    the same amount as the separation. *)
Theorem C10_ApplyPeriodicDistanceCorrection : forall n f r dr,
  let '(bd, r', dr') := ApplyPeriodicDistanceCorrection n f r dr in
  bd = fst (GF_NearestPeriodicVector n f dr) /\
  (forall k, dr' k = snd (GF_NearestPeriodicVector n f dr) k) /\
  (forall k, r' k - r k = dr' k - dr k).
Proof. exact apdc. Qed.
Print Assumptions C10_ApplyPeriodicDistanceCorrection.

(** Box [0,10]^2, first direction periodic: points at x = 1 and 9 are 2 apart, not 8. *)
Definition ex_bd (k : nat) : boundary := match k with 0%nat => periodicB | _ => openB end.
Example C10_ex :
  let b := mkbox (fun _ => 0) (fun _ => 10) ex_bd ex_bd in
  let d := vsub (fun _ => 9) (fun _ => 1) in
  fst (NearestPeriodicVector 2 b d d) 0%nat = -2 /\ fst (NearestPeriodicVector 2 b d d) 1%nat = 8.
Proof.
  cbv zeta. rewrite !npv_dr. cbn [Nat.ltb Nat.leb]. unfold near1, perb, vsub. cbn [mkbox blhs brhs dhalf dsize ex_bd beq andb].
  assert (rltb (1 / 2 * (10 - 0)) (9 - 1) = true) as -> by (apply rltb_true; lra). split; lra.
Qed.

(** * C11 *)
(** CheckBoundaries: every particle stays at its place in the array and each of its
    directions is treated as [dir_spec] demands. *)
Theorem C11_CheckBoundaries : forall n lo hi bl br' ps, (n <= 3)%nat -> (forall k, (k < n)%nat -> lo k < hi k) ->
  length (CheckBoundaries n (mkbox lo hi bl br') ps) = length ps /\
  forall i p, nth_error ps i = Some p ->
    exists q, nth_error (CheckBoundaries n (mkbox lo hi bl br') ps) i = Some q /\
      (forall k, (k < n)%nat -> dir_spec (lo k) (hi k) (bl k) (br' k) k p q) /\
      (forall k, (n <= k)%nat -> same_dir k p q).
Proof. exact CheckBoundaries_spec. Qed.
Print Assumptions C11_CheckBoundaries.

(** Consequence: with closed (not open) boundaries on all sides, every particle that left
    by at most one box length is inside afterwards. *)
Theorem C11_inside : forall n lo hi bl br' ps, (n <= 3)%nat -> (forall k, (k < n)%nat -> lo k < hi k) ->
  (forall k, (k < n)%nat -> bl k <> openB /\ br' k <> openB) ->
  (forall p, In p ps -> forall k, (k < n)%nat -> lo k - (hi k - lo k) <= br p k <= hi k + (hi k - lo k)) ->
  forall q, In q (CheckBoundaries n (mkbox lo hi bl br') ps) -> in_box n lo hi (br q).
Proof.
  intros n lo hi bl br' ps Hn Hb Hc Hp q Hq. destruct (CheckBoundaries_spec n lo hi bl br' ps Hn Hb) as (L & H).
  destruct (In_nth_error _ _ Hq) as (i & Hi).
  assert (exists p, nth_error ps i = Some p) as (p & Hpi).
  { destruct (nth_error ps i) eqn:E; [eauto|]. apply nth_error_None in E. rewrite <- L in E. apply nth_error_None in E. congruence. }
  destruct (H i p Hpi) as (q' & Hq' & D & _). rewrite Hi in Hq'. injection Hq' as <-.
  intros k Hk. specialize (D k Hk). specialize (Hp p (nth_error_In _ _ Hpi) k Hk). destruct (Hc k Hk) as (Hl & Hr).
  destruct D as (D1 & _ & _ & D4 & D5 & D6 & D7).
  destruct (Rlt_dec (br p k) (lo k)) as [U|U].
  - destruct (bl k) eqn:E; [easy|apply D4; [lra|easy]|apply D6; [lra|now left]|apply D6; [lra|now right]].
  - destruct (Rlt_dec (hi k) (br p k)) as [V|V].
    + destruct (br' k) eqn:E; [easy|apply D5; [lra|easy]|apply D7; [lra|now left]|apply D7; [lra|now right]].
    + destruct (D1 ltac:(lra)) as (-> & _). lra.
Qed.
Print Assumptions C11_inside.

(** A particle at x = 11 in [0,10]: periodic in x, mirror in y. *)
Definition ex_bd2 (k : nat) : boundary := match k with 0%nat => periodicB | _ => mirrorB end.
Definition ex_bp : bpart :=
  {| br := fun k => match k with 0%nat => 11 | _ => -3 end; br0 := fun k => match k with 0%nat => 9 | _ => 1 end;
     bv := fun _ => 2; bv0 := fun _ => 3; ba := fun _ => 4; ba0 := fun _ => 5 |}.
Example C11_ex : exists q, CheckBoundaries 2 (mkbox (fun _ => 0) (fun _ => 10) ex_bd2 ex_bd2) [ex_bp] = [q] /\
  br q 0%nat = 1 /\ br0 q 0%nat = -1 /\ bv q 0%nat = 2 /\ br q 1%nat = 3 /\ br0 q 1%nat = -1 /\ bv q 1%nat = -2 /\ bv0 q 1%nat = -3.
Proof.
  destruct (C11_CheckBoundaries 2 (fun _ => 0) (fun _ => 10) ex_bd2 ex_bd2 [ex_bp] ltac:(lia) ltac:(intros; lra)) as (L & H).
  destruct (H 0%nat ex_bp eq_refl) as (q & Hq & D & _). exists q. split.
  { destruct (CheckBoundaries _ _ _) as [|q' [|]]; cbn in L; try discriminate. injection Hq as <-. reflexivity. }
  destruct (D 0%nat ltac:(lia)) as (_ & _ & _ & _ & D5 & _).
  destruct (D 1%nat ltac:(lia)) as (_ & _ & _ & _ & _ & D6 & _).
  destruct (D5 ltac:(cbn; lra) eq_refl) as ((A1 & A2 & A3 & _) & _).
  destruct (D6 ltac:(cbn; lra) ltac:(now left)) as ((B1 & B2 & B3 & B4 & _) & _).
  cbn in *. repeat split; lra.
Qed.

(** * C12 *)
(** If all directions are periodic or none is, the test is exact.  Missing: mixtures of
    periodic and other directions, for which it reads uninitialised values (next theorem). *)
Theorem C12_PeriodicBoxOverlap_partial : forall n lo hi bl br, (forall k, (k < n)%nat -> lo k < hi k) ->
  (n <= 3)%nat -> let b := mkbox lo hi bl br in
  forall f, mk_finder n b = Ok f ->
  forall min1 max1 min2 max2, (1 <= n)%nat ->
  (forall k, (k < n)%nat -> min1 k <= max1 k) -> (forall k, (k < n)%nat -> min2 k <= max2 k) ->
  (forall k, (k < n)%nat -> Rabs (1/2 * ((max2 k + min2 k) - (max1 k + min1 k))) <= 3 * dhalf b k) ->
  (forall k, (k < n)%nat -> periodic_dir b k) \/ (forall k, (k < n)%nat -> ~ periodic_dir b k) ->
  exists r, PeriodicBoxOverlap n f min1 max1 min2 max2 = Ok r /\ (r = true <-> images_meet n b min1 max1 min2 max2).
Proof. exact pbo_partial. Qed.
Print Assumptions C12_PeriodicBoxOverlap_partial.

Theorem C12_PeriodicBoxOverlap_refuted : exists lo hi bl br' f min1 max1 min2 max2,
  (forall k, (k < 2)%nat -> lo k < hi k) /\ two_sided 2 (mkbox lo hi bl br') /\
  mk_finder 2 (mkbox lo hi bl br') = Ok f /\
  (forall k, (k < 2)%nat -> lo k <= min1 k <= max1 k /\ max1 k <= hi k) /\
  (forall k, (k < 2)%nat -> lo k <= min2 k <= max2 k /\ max2 k <= hi k) /\
  PeriodicBoxOverlap 2 f min1 max1 min2 max2 = UB.
Proof. exact pbo_refuted. Qed.
Print Assumptions C12_PeriodicBoxOverlap_refuted.

(** Boxes [0,1] and [9.5,10] of a periodic [0,10] touch through the boundary. *)
Example C12_ex : exists f, mk_finder 1 (mkbox (fun _ => 0) (fun _ => 10) ex_bd ex_bd) = Ok f /\
  PeriodicBoxOverlap 1 f (fun _ => 0) (fun _ => 1) (fun _ => 19/2) (fun _ => 10) = Ok true.
Proof.
  destruct (C10_finder_accepts 1 (mkbox (fun _ => 0) (fun _ => 10) ex_bd ex_bd)) as (f & Hf); [intros k _; tauto|].
  exists f. split; [exact Hf|].
  destruct (C12_PeriodicBoxOverlap_partial 1 (fun _ => 0) (fun _ => 10) ex_bd ex_bd ltac:(intros; lra) ltac:(lia) f Hf
    (fun _ => 0) (fun _ => 1) (fun _ => 19/2) (fun _ => 10)) as (r & -> & Hr); try (intros; lra); try lia.
  - intros k _. cbn. unfold Rabs. destruct Rcase_abs; lra.
  - left. intros k Hk. assert (k = 0)%nat as -> by lia. split; reflexivity.
  - f_equal. apply Hr. exists (fun _ => 0), (fun _ => 10). split; [intros k _; lra|]. split; [intros k _; lra|].
    intros k Hk. assert (k = 0)%nat as -> by lia. left. split; [split; reflexivity|]. exists 1%Z. cbn. lra.
Qed.
