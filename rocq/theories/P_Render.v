(** C83: images show the smoothed quantity at the place of each pixel. *)
From Coq Require Import Reals Lra Psatz Permutation.
From Coquelicot Require Import Coquelicot.
From Verif Require Import Prelude L_Prelude M_Box L_Box M_Kernel L_Kernel M_Render S_Render L_Render L_Render2.
Import ListNotations.
Local Open Scope R_scope.

Lemma slice_w_eq ndim w xmin ymin zs dx dy p ii jj : 0 < r_h p ->
  slice_weight ndim w xmin ymin zs dx dy p ii jj = kernel_at ndim w (xmin + dx * IZR ii) (ymin + dy * IZR jj) zs p.
Proof.
  intros H. unfold slice_weight, kernel_at. cbv zeta.
  replace ((xmin + dx * IZR ii - r_x p) ^ 2 + (ymin + dy * IZR jj - r_y p) ^ 2 + (zs - r_z p) ^ 2)
    with ((xmin + dx * IZR ii - r_x p) * (xmin + dx * IZR ii - r_x p) + (ymin + dy * IZR jj - r_y p) * (ymin + dy * IZR jj - r_y p) + (zs - r_z p) * (zs - r_z p)) by ring.
  set (d := sqrt _). replace (d * (1 / r_h p)) with (d / r_h p) by (field; lra).
  replace ((1 / r_h p) ^ ndim) with (/ r_h p ^ ndim) by (unfold Rdiv; rewrite Rmult_1_l, pow_inv; reflexivity). unfold Rdiv. ring.
Qed.
Lemma column_w_eq w0 los xmin ymin dx dy p ii jj : 0 < r_h p ->
  column_weight 3 w0 los xmin ymin dx dy p ii jj = los_at los (xmin + dx * IZR ii) (ymin + dy * IZR jj) p / r_h p /\
  column_weight 2 w0 los xmin ymin dx dy p ii jj = kernel2_at w0 (xmin + dx * IZR ii) (ymin + dy * IZR jj) p.
Proof.
  intros H. unfold column_weight, los_at, kernel2_at. cbv zeta.
  replace ((xmin + dx * IZR ii - r_x p) ^ 2 + (ymin + dy * IZR jj - r_y p) ^ 2)
    with ((xmin + dx * IZR ii - r_x p) * (xmin + dx * IZR ii - r_x p) + (ymin + dy * IZR jj - r_y p) * (ymin + dy * IZR jj - r_y p)) by ring.
  set (d := sqrt _). replace (d * (1 / r_h p)) with (d / r_h p) by (field; lra).
  unfold Rdiv. rewrite Rmult_1_l. split.
  - replace ((/ r_h p) ^ 3) with (/ r_h p ^ 2 * / r_h p) by (field; lra). ring.
  - replace ((/ r_h p) ^ 2) with (/ r_h p ^ 2) by (field; lra). ring.
Qed.
Lemma far_zero (w : R -> R) kr d h : 0 < h -> (forall s, kr <= s -> w s = 0) -> kr * h <= d -> w (d / h) = 0.
Proof. intros Hh Hw H. apply Hw. apply Rmult_le_reg_r with h; [lra|]. unfold Rdiv. rewrite Rmult_assoc, Rinv_l by lra. lra. Qed.
Lemma far3 a b c r : r <= Rabs a \/ r <= Rabs b \/ r <= Rabs c -> r <= sqrt (a ^ 2 + b ^ 2 + c ^ 2).
Proof.
  pose proof (pow2_ge_0 a). pose proof (pow2_ge_0 b). pose proof (pow2_ge_0 c).
  intros [K|[K|K]]; (eapply Rle_trans; [exact K|]); rewrite <- sqrt_Rsqr_abs; apply sqrt_le_1_alt; rewrite Rsqr_pow2; lra.
Qed.
Lemma far2 a b r : r <= Rabs a \/ r <= Rabs b -> r <= sqrt (a ^ 2 + b ^ 2).
Proof.
  pose proof (pow2_ge_0 a). pose proof (pow2_ge_0 b).
  intros [K|K]; (eapply Rle_trans; [exact K|]); rewrite <- sqrt_Rsqr_abs; apply sqrt_le_1_alt; rewrite Rsqr_pow2; lra.
Qed.

(** A kernel of finite range, positive smoothing lengths and a proper grid. *)
Definition proper (kr : R) (w : R -> R) (ix iy : Z) (xmin xmax ymin ymax : R) (N : nat) (ps : list rpart) : Prop :=
  (forall s, kr <= s -> w s = 0) /\ (0 < ix)%Z /\ (0 < iy)%Z /\ xmin < xmax /\ ymin < ymax /\ Z.of_nat N = (ix * iy)%Z /\ (forall p, In p ps -> 0 < r_h p).
(** Lower left corner of a pixel. *)
Definition corner (n : Z) (a b : R) (i : Z) : R := a + (b - a) / IZR n * IZR i.

(** Slices: every pixel is the smoothed average of all particles at its lower left corner, if the
    weights there exceed 1e-10, and the plain weighted sum otherwise. *)
Lemma slice_image ndim kr w ix iy xmin xmax ymin ymax zs N ps : proper kr w ix iy xmin xmax ymin ymax N ps ->
  exists image, CreateSliceRenderingGrid ndim kr w ix iy xmin xmax ymin ymax zs N ps = Ok image /\ length image = N /\
    forall ii jj, (0 <= ii < ix)%Z -> (0 <= jj < iy)%Z ->
      let W := kernel_at ndim w (corner ix xmin xmax ii) (corner iy ymin ymax jj) zs in
      pixel ix iy image ii jj = normalise (sum_over ps (fun p => W p * r_f p)) (sum_over ps W).
Proof.
  intros (Hw & Hx & Hy & Hxx & Hyy & HN & Hh). unfold CreateSliceRenderingGrid. cbv zeta.
  assert (VAN : forall p ii jj, In p ps -> kr * r_h p <= Rabs (xmin + (xmax - xmin) / IZR ix * IZR ii - r_x p) \/ kr * r_h p <= Rabs (ymin + (ymax - ymin) / IZR iy * IZR jj - r_y p) \/ kr * r_h p <= Rabs (zs - r_z p) ->
     slice_weight ndim w xmin ymin zs ((xmax - xmin) / IZR ix) ((ymax - ymin) / IZR iy) p ii jj = 0).
  { intros p ii jj Hp K. rewrite slice_w_eq by auto. unfold kernel_at. rewrite (far_zero w kr); [unfold Rdiv; ring|auto|assumption|]. apply far3. exact K. }
  destruct (image_ok ix iy kr xmin xmax ymin ymax (fun p => outside kr xmin xmax ymin ymax p || off_slice kr zs p)%bool
     (slice_weight ndim w xmin ymin zs ((xmax - xmin) / IZR ix) ((ymax - ymin) / IZR iy)) ps N Hx Hy Hxx Hyy HN) as (s & A & B & C).
  - intros p Hp ii jj Hi Hj K. apply VAN; [assumption|]. tauto.
  - intros p ii jj Hp K Hi Hj. apply VAN; [assumption|]. apply orb_true_iff in K as [K|K].
    + pose proof (outside_far kr xmin xmax ymin ymax p ix iy ii jj Hxx Hyy Hi Hj K). tauto.
    + right; right. unfold off_slice in K. apply orb_true_iff in K as [K|K]; apply rltb_true in K; unfold Rabs; destruct (Rcase_abs _); lra.
  - rewrite A. cbn [bind]. exists (finish s). split; [reflexivity|]. split; [exact B|]. intros ii jj Hi Hj. cbv zeta. rewrite (C ii jj Hi Hj).
    f_equal; apply sum_over_ext; intros p Hp; rewrite slice_w_eq by auto; reflexivity.
Qed.
Theorem C83_slice ndim kr w ix iy xmin xmax ymin ymax zs N ps : proper kr w ix iy xmin xmax ymin ymax N ps ->
  exists image, CreateSliceRenderingGrid ndim kr w ix iy xmin xmax ymin ymax zs N ps = Ok image /\ length image = N /\
    forall ii jj, (0 <= ii < ix)%Z -> (0 <= jj < iy)%Z ->
      let W := kernel_at ndim w (corner ix xmin xmax ii) (corner iy ymin ymax jj) zs in
      (/ 10 ^ 10 < sum_over ps W -> pixel ix iy image ii jj = average W ps) /\
      (sum_over ps W <= / 10 ^ 10 -> pixel ix iy image ii jj = sum_over ps (fun p => W p * r_f p)).
Proof.
  intros H. destruct (slice_image ndim _ _ _ _ _ _ _ _ zs _ _ H) as (im & A & B & C). exists im. split; [exact A|]. split; [exact B|].
  intros ii jj Hi Hj W. specialize (C ii jj Hi Hj). cbv zeta in C. fold W in C. rewrite C. unfold normalise, threshold. split; intros K.
  - rewrite (proj2 (rltb_true _ _) K). reflexivity.
  - rewrite (proj2 (rltb_false _ _) K). reflexivity.
Qed.

(** Columns. *)
Lemma column_image ndim kr w0 los ix iy xmin xmax ymin ymax N ps : (ndim = 2 \/ ndim = 3)%nat -> proper kr (if (ndim =? 3)%nat then los else w0) ix iy xmin xmax ymin ymax N ps ->
  exists image, CreateColumnRenderingGrid ndim kr w0 los ix iy xmin xmax ymin ymax N ps = Ok image /\ length image = N /\
    forall ii jj, (0 <= ii < ix)%Z -> (0 <= jj < iy)%Z ->
      let X := corner ix xmin xmax ii in let Y := corner iy ymin ymax jj in
      let W := fun p => if (ndim =? 3)%nat then los_at los X Y p / r_h p else kernel2_at w0 X Y p in
      pixel ix iy image ii jj = normalise (sum_over ps (fun p => W p * r_f p)) (sum_over ps W).
Proof.
  intros Hd (Hw & Hx & Hy & Hxx & Hyy & HN & Hh). unfold CreateColumnRenderingGrid. cbv zeta.
  assert (EQ : forall p ii jj, In p ps -> column_weight ndim w0 los xmin ymin ((xmax - xmin) / IZR ix) ((ymax - ymin) / IZR iy) p ii jj =
     if (ndim =? 3)%nat then los_at los (corner ix xmin xmax ii) (corner iy ymin ymax jj) p / r_h p else kernel2_at w0 (corner ix xmin xmax ii) (corner iy ymin ymax jj) p).
  { intros p ii jj Hp. destruct (column_w_eq w0 los xmin ymin ((xmax - xmin) / IZR ix) ((ymax - ymin) / IZR iy) p ii jj (Hh p Hp)) as [E3 E2].
    destruct Hd as [-> | ->]; cbn [Nat.eqb]; assumption. }
  assert (VAN : forall p ii jj, In p ps -> kr * r_h p <= Rabs (xmin + (xmax - xmin) / IZR ix * IZR ii - r_x p) \/ kr * r_h p <= Rabs (ymin + (ymax - ymin) / IZR iy * IZR jj - r_y p) ->
     column_weight ndim w0 los xmin ymin ((xmax - xmin) / IZR ix) ((ymax - ymin) / IZR iy) p ii jj = 0).
  { intros p ii jj Hp K. rewrite EQ by assumption. apply far2 in K. unfold corner, los_at, kernel2_at. pose proof (Hh p Hp).
    destruct (ndim =? 3)%nat; rewrite (far_zero _ kr _ (r_h p)) by auto; unfold Rdiv; ring. }
  destruct (image_ok ix iy kr xmin xmax ymin ymax (outside kr xmin xmax ymin ymax)
     (column_weight ndim w0 los xmin ymin ((xmax - xmin) / IZR ix) ((ymax - ymin) / IZR iy)) ps N Hx Hy Hxx Hyy HN) as (s & A & B & C).
  - intros p Hp ii jj Hi Hj K. now apply VAN.
  - intros p ii jj Hp K Hi Hj. apply VAN; [assumption|]. exact (outside_far kr xmin xmax ymin ymax p ix iy ii jj Hxx Hyy Hi Hj K).
  - rewrite A. cbn [bind]. exists (finish s). split; [reflexivity|]. split; [exact B|]. intros ii jj Hi Hj. cbv zeta. rewrite (C ii jj Hi Hj).
    f_equal; apply sum_over_ext; intros p Hp; rewrite EQ by auto; reflexivity.
Qed.
(** In three dimensions, for equal smoothing lengths: the average along the line of sight. *)
Theorem C83_column kr w0 los ix iy xmin xmax ymin ymax N ps H : proper kr los ix iy xmin xmax ymin ymax N ps ->
  (forall p, In p ps -> r_h p = H) -> 0 < H ->
  exists image, CreateColumnRenderingGrid 3 kr w0 los ix iy xmin xmax ymin ymax N ps = Ok image /\ length image = N /\
    forall ii jj, (0 <= ii < ix)%Z -> (0 <= jj < iy)%Z ->
      let W := los_at los (corner ix xmin xmax ii) (corner iy ymin ymax jj) in
      / 10 ^ 10 * H < sum_over ps W -> pixel ix iy image ii jj = average W ps.
Proof.
  intros HP HH H0. destruct (column_image 3 kr w0 los _ _ _ _ _ _ _ _ (or_intror eq_refl) HP) as (im & A & B & C). exists im. split; [exact A|]. split; [exact B|].
  intros ii jj Hi Hj W K. specialize (C ii jj Hi Hj). cbv zeta in C. cbn [Nat.eqb] in C. fold W in C. rewrite C.
  rewrite (sum_over_ext ps (fun p => W p / r_h p) (fun p => / H * W p)) by (intros p Hp; rewrite (HH p Hp); unfold Rdiv; ring).
  rewrite (sum_over_ext ps (fun p => W p / r_h p * r_f p) (fun p => / H * (W p * r_f p))) by (intros p Hp; rewrite (HH p Hp); unfold Rdiv; ring).
  rewrite !sum_over_scal. unfold normalise, threshold. rewrite (proj2 (rltb_true _ _)).
  - unfold average. field. split; [|lra]. assert (0 < / 10 ^ 10) by (apply Rinv_0_lt_compat, pow_lt; lra). nra.
  - apply Rmult_lt_reg_l with H; [lra|]. rewrite <- Rmult_assoc, Rinv_r by lra. lra.
Qed.
(** In two dimensions: the smoothed average in the plane. *)
Theorem C83_plane kr w0 los ix iy xmin xmax ymin ymax N ps : proper kr w0 ix iy xmin xmax ymin ymax N ps ->
  exists image, CreateColumnRenderingGrid 2 kr w0 los ix iy xmin xmax ymin ymax N ps = Ok image /\ length image = N /\
    forall ii jj, (0 <= ii < ix)%Z -> (0 <= jj < iy)%Z ->
      let W := kernel2_at w0 (corner ix xmin xmax ii) (corner iy ymin ymax jj) in
      (/ 10 ^ 10 < sum_over ps W -> pixel ix iy image ii jj = average W ps) /\
      (sum_over ps W <= / 10 ^ 10 -> pixel ix iy image ii jj = sum_over ps (fun p => W p * r_f p)).
Proof.
  intros H. destruct (column_image 2 kr w0 los _ _ _ _ _ _ _ _ (or_introl eq_refl) H) as (im & A & B & C). exists im. split; [exact A|]. split; [exact B|].
  intros ii jj Hi Hj W. specialize (C ii jj Hi Hj). change (pixel ix iy im ii jj = normalise (sum_over ps (fun p => W p * r_f p)) (sum_over ps W)) in C. rewrite C. unfold normalise, threshold. split; intros K.
  - rewrite (proj2 (rltb_true _ _) K). reflexivity.
  - rewrite (proj2 (rltb_false _ _) K). reflexivity.
Qed.

(** No pixel lies outside the range of the values. *)
Lemma mean_bounds (W : rpart -> R) ps lo hi : (forall p, In p ps -> 0 <= W p /\ lo <= r_f p <= hi) -> 0 < sum_over ps W ->
  lo <= sum_over ps (fun p => W p * r_f p) / sum_over ps W <= hi.
Proof.
  intros H S. assert (A : lo * sum_over ps W <= sum_over ps (fun p => W p * r_f p)).
  { rewrite <- sum_over_scal. apply sum_over_le. intros p Hp. destruct (H p Hp). nra. }
  assert (B : sum_over ps (fun p => W p * r_f p) <= hi * sum_over ps W).
  { rewrite <- sum_over_scal. apply sum_over_le. intros p Hp. destruct (H p Hp). nra. }
  split; apply Rmult_le_reg_r with (sum_over ps W); auto; unfold Rdiv; rewrite Rmult_assoc, Rinv_l by lra; lra.
Qed.
Theorem C83_bounds kr w los ix iy xmin xmax ymin ymax zs N ps lo hi image :
  proper kr w ix iy xmin xmax ymin ymax N ps -> proper kr los ix iy xmin xmax ymin ymax N ps -> (forall s, 0 <= s -> 0 <= w s) -> (forall s, 0 <= s -> 0 <= los s) ->
  (forall p, In p ps -> 0 < r_m p /\ 0 < r_rho p /\ lo <= r_f p <= hi) -> lo <= 0 <= hi ->
  (CreateSliceRenderingGrid 3 kr w ix iy xmin xmax ymin ymax zs N ps = Ok image \/ CreateColumnRenderingGrid 3 kr w los ix iy xmin xmax ymin ymax N ps = Ok image) ->
  forall ii jj, (0 <= ii < ix)%Z -> (0 <= jj < iy)%Z -> lo <= pixel ix iy image ii jj <= hi.
Proof.
  intros Pw Pl Hw Hl Hp H0 Him ii jj Hi Hj.
  assert (KEY : forall W : rpart -> R, (forall p, In p ps -> 0 <= W p) -> lo <= normalise (sum_over ps (fun p => W p * r_f p)) (sum_over ps W) <= hi).
  { intros W HW. unfold normalise. assert (T : 0 < threshold < 1) by (unfold threshold; split; [apply Rinv_0_lt_compat, pow_lt; lra|]; apply Rmult_lt_reg_r with (10 ^ 10); [apply pow_lt; lra|]; rewrite Rinv_l; [lra|apply pow_nonzero; lra]).
    destruct (rltb threshold (sum_over ps W)) eqn:E.
    - apply rltb_true in E. apply mean_bounds; [|lra]. intros p Hq. split; [auto|]. apply Hp; assumption.
    - apply rltb_false in E.
      assert (A : lo * sum_over ps W <= sum_over ps (fun p => W p * r_f p)) by (rewrite <- sum_over_scal; apply sum_over_le; intros p Hq; pose proof (HW p Hq); destruct (Hp p Hq) as (_ & _ & ?); nra).
      assert (B : sum_over ps (fun p => W p * r_f p) <= hi * sum_over ps W) by (rewrite <- sum_over_scal; apply sum_over_le; intros p Hq; pose proof (HW p Hq); destruct (Hp p Hq) as (_ & _ & ?); nra).
      assert (C : 0 <= sum_over ps W) by (rewrite <- (Rmult_0_l (sum_over ps W)), <- sum_over_scal; apply sum_over_le; intros p Hq; pose proof (HW p Hq); lra).
      nra. }
  assert (POS : forall p (v : R) n, In p ps -> 0 <= v -> 0 <= r_m p / r_rho p * (v / r_h p ^ n)).
  { intros p v n Hq Hv. destruct (Hp p Hq) as (M & D & _). assert (0 < r_h p) by (apply Pw; assumption).
    apply Rmult_le_pos; [apply Rmult_le_pos; [lra|apply Rlt_le, Rinv_0_lt_compat; lra]|]. apply Rmult_le_pos; [lra|]. apply Rlt_le, Rinv_0_lt_compat, pow_lt; lra. }
  destruct Him as [Him|Him].
  - destruct (slice_image 3 _ _ _ _ _ _ _ _ zs _ _ Pw) as (im & A & _ & C). rewrite A in Him. injection Him as <-. specialize (C ii jj Hi Hj). cbv zeta in C. rewrite C. apply KEY.
    intros p Hq. unfold kernel_at. apply POS; [assumption|]. apply Hw. apply Rmult_le_pos; [apply sqrt_pos|]. apply Rlt_le, Rinv_0_lt_compat. apply Pw; assumption.
  - destruct (column_image 3 kr w los _ _ _ _ _ _ _ _ (or_intror eq_refl) Pl) as (im & A & _ & C). rewrite A in Him. injection Him as <-. specialize (C ii jj Hi Hj). cbv zeta in C. cbn [Nat.eqb] in C. rewrite C. apply KEY.
    intros p Hq. assert (0 < r_h p) by (apply Pw; assumption). apply Rmult_le_pos; [unfold los_at; apply POS; [assumption|]; apply Hl; apply Rmult_le_pos; [apply sqrt_pos|]; apply Rlt_le, Rinv_0_lt_compat; assumption|]. apply Rlt_le, Rinv_0_lt_compat; lra.
Qed.

(** The order of the particles does not matter (the loop runs in parallel). *)
Lemma image_ext ix iy (a b : list R) : (0 < ix)%Z -> (0 < iy)%Z -> Z.of_nat (length a) = (ix * iy)%Z -> length b = length a ->
  (forall ii jj, (0 <= ii < ix)%Z -> (0 <= jj < iy)%Z -> pixel ix iy a ii jj = pixel ix iy b ii jj) -> a = b.
Proof.
  intros Hx Hy La Lb H. apply nth_ext with 0 0; [auto|]. intros n Hn.
  assert (E : (Z.of_nat n = ix * (Z.of_nat n / ix) + Z.of_nat n mod ix)%Z) by (apply Z.div_mod; lia).
  pose proof (Z.mod_pos_bound (Z.of_nat n) ix Hx). assert (0 <= Z.of_nat n / ix)%Z by (apply Z.div_pos; lia).
  assert (Z.of_nat n / ix < iy)%Z by (apply Z.div_lt_upper_bound; lia).
  specialize (H (Z.of_nat n mod ix)%Z (iy - 1 - Z.of_nat n / ix)%Z H0). unfold pixel in H.
  replace (Z.to_nat ((iy - 1 - (iy - 1 - Z.of_nat n / ix)) * ix + Z.of_nat n mod ix)) with n in H by nia. apply H. lia.
Qed.
Theorem C83_order ndim kr w ix iy xmin xmax ymin ymax zs N ps ps' : proper kr w ix iy xmin xmax ymin ymax N ps -> Permutation ps ps' ->
  CreateSliceRenderingGrid ndim kr w ix iy xmin xmax ymin ymax zs N ps = CreateSliceRenderingGrid ndim kr w ix iy xmin xmax ymin ymax zs N ps'.
Proof.
  intros HP P. assert (HP' : proper kr w ix iy xmin xmax ymin ymax N ps').
  { destruct HP as (A & B & C & D & E & F & G). repeat split; auto. intros p Hq. apply G. eapply Permutation_in; [apply Permutation_sym; exact P|exact Hq]. }
  destruct (slice_image ndim _ _ _ _ _ _ _ _ zs _ _ HP) as (im & A & B & C). destruct (slice_image ndim _ _ _ _ _ _ _ _ zs _ _ HP') as (im' & A' & B' & C').
  rewrite A, A'. f_equal. destruct HP as (_ & Hx & Hy & _ & _ & HN & _). apply (image_ext ix iy); auto; try congruence.
  intros ii jj Hi Hj. rewrite (C ii jj Hi Hj), (C' ii jj Hi Hj). cbv zeta. f_equal; apply sum_over_perm; assumption.
Qed.

(** The pixel shows its lower left corner, not its centre: a particle in the middle of the only
    pixel does not appear in the image. *)
Definition lone : rpart := mkrp 1 1 0 1 1 1 (1 / 4).
Lemma lone_proper w : (forall s, 2 <= s -> w s = 0) -> proper 2 w 1 1 0 2 0 2 1 [lone].
Proof. intros H. repeat split; try lia; try lra; auto. intros p [<-|[]]. cbn. lra. Qed.
Theorem C83_centre_refuted w : (forall s, 2 <= s -> w s = 0) -> 1 / 10 < w 0 ->
  exists image, CreateSliceRenderingGrid 3 2 w 1 1 0 2 0 2 0 1 [lone] = Ok image /\ pixel 1 1 image 0 0 = 0 /\ average (kernel_at 3 w 1 1 0) [lone] = 1.
Proof.
  intros Hw H0. destruct (C83_slice 3 2 w 1 1 0 2 0 2 0 1 [lone] (lone_proper w Hw)) as (im & A & _ & C). exists im. split; [exact A|].
  destruct (C 0%Z 0%Z) as [_ C2]; [lia|lia|]. unfold corner in C2.
  assert (Z0 : kernel_at 3 w (0 + (2 - 0) / 1 * 0) (0 + (2 - 0) / 1 * 0) 0 lone = 0).
  { unfold kernel_at, lone. cbn [r_x r_y r_z r_m r_rho r_h]. rewrite (far_zero w 2); [unfold Rdiv; ring|lra|assumption|]. apply far3. left. unfold Rabs. destruct (Rcase_abs _); lra. }
  split.
  - rewrite C2.
    + cbn [sum_over]. rewrite Z0. ring.
    + cbn [sum_over]. rewrite Z0. rewrite Rplus_0_l. apply Rlt_le, Rinv_0_lt_compat, pow_lt. lra.
  - unfold average. cbn [sum_over]. unfold kernel_at, lone. cbn [r_x r_y r_z r_m r_rho r_h r_f].
    replace ((1 - 1) ^ 2 + (1 - 1) ^ 2 + (0 - 0) ^ 2) with 0 by ring. rewrite sqrt_0. replace (0 / (1 / 4)) with 0 by field. field. lra.
Qed.
(** Columns in three dimensions weight each particle by one over its smoothing length too often. *)
Definition two : list rpart := [mkrp 0 0 0 0 1 1 1; mkrp 0 0 0 1 1 1 2].
Theorem C83_column_refuted w0 los : (forall s, 2 <= s -> los s = 0) -> 1 / 10 < los 0 ->
  exists image, CreateColumnRenderingGrid 3 2 w0 los 1 1 0 2 0 2 1 two = Ok image /\ pixel 1 1 image 0 0 = 1 / 9 /\ average (los_at los 0 0) two = 1 / 5.
Proof.
  intros Hw H0. assert (P : proper 2 los 1 1 0 2 0 2 1 two). { repeat split; try lia; try lra; auto. intros p [<-|[<-|[]]]; cbn; lra. }
  destruct (column_image 3 2 w0 los _ _ _ _ _ _ _ _ (or_intror eq_refl) P) as (im & A & _ & C). exists im. split; [exact A|].
  specialize (C 0%Z 0%Z). cbv zeta in C. cbn [Nat.eqb] in C.
  assert (L : forall h f, 0 < h -> los_at los 0 0 (mkrp 0 0 0 f 1 1 h) = los 0 / h ^ 2).
  { intros h f Hh. unfold los_at. cbn [r_x r_y r_m r_rho r_h]. replace ((0 - 0) ^ 2 + (0 - 0) ^ 2) with 0 by ring. rewrite sqrt_0. replace (0 / h) with 0 by (field; lra). field. lra. }
  split.
  - rewrite C by lia. replace (corner 1 0 2 0) with 0 by (unfold corner; field). unfold two. cbn [sum_over r_h r_f]. rewrite !L by lra.
    unfold normalise. rewrite (proj2 (rltb_true _ _)); [field; lra|]. unfold threshold.
    assert (T : / 10 ^ 10 < 1 / 10) by (apply Rmult_lt_reg_r with (10 ^ 10); [apply pow_lt; lra|]; rewrite Rinv_l; [lra|apply pow_nonzero; lra]). lra.
  - unfold average, two. cbn [sum_over r_f]. rewrite !L by lra. field. lra.
Qed.
(** Faint pixels are not averaged: where the weight is 1e-11 a quantity equal to one everywhere
    shows as 1e-11. *)
Theorem C83_faint_refuted w : (forall s, 2 <= s -> w s = 0) -> w 0 = / 10 ^ 11 ->
  exists image, CreateSliceRenderingGrid 3 2 w 1 1 0 2 0 2 0 1 [mkrp 0 0 0 1 1 1 1] = Ok image /\ pixel 1 1 image 0 0 = / 10 ^ 11.
Proof.
  intros Hw H0. assert (P : proper 2 w 1 1 0 2 0 2 1 [mkrp 0 0 0 1 1 1 1]). { repeat split; try lia; try lra; auto. intros p [<-|[]]; cbn; lra. }
  destruct (C83_slice 3 2 w 1 1 0 2 0 2 0 1 _ P) as (im & A & _ & C). exists im. split; [exact A|].
  destruct (C 0%Z 0%Z) as [_ C2]; [lia|lia|].
  assert (K : kernel_at 3 w (corner 1 0 2 0) (corner 1 0 2 0) 0 (mkrp 0 0 0 1 1 1 1) = / 10 ^ 11).
  { unfold kernel_at. cbn [r_x r_y r_z r_m r_rho r_h]. replace ((corner 1 0 2 0 - 0) ^ 2 + (corner 1 0 2 0 - 0) ^ 2 + (0 - 0) ^ 2) with 0 by (unfold corner; field). rewrite sqrt_0. replace (0 / 1) with 0 by field. rewrite H0. field. }
  rewrite C2; cbn [sum_over r_f]; rewrite K; [ring|]. rewrite Rplus_0_r. apply Rinv_le_contravar; [apply pow_lt; lra|]. apply Rle_pow; [lra|lia].
Qed.
(** Images of one-dimensional runs are blank. *)
Theorem C83_line_refuted kr w0 los ix iy xmin xmax ymin ymax N ps : (0 < ix)%Z -> (0 < iy)%Z -> xmin < xmax -> ymin < ymax -> Z.of_nat N = (ix * iy)%Z ->
  exists image, CreateColumnRenderingGrid 1 kr w0 los ix iy xmin xmax ymin ymax N ps = Ok image /\
    forall ii jj, (0 <= ii < ix)%Z -> (0 <= jj < iy)%Z -> pixel ix iy image ii jj = 0.
Proof.
  intros Hx Hy Hxx Hyy HN. unfold CreateColumnRenderingGrid. cbv zeta.
  assert (Z0 : forall p ii jj, column_weight 1 w0 los xmin ymin ((xmax - xmin) / IZR ix) ((ymax - ymin) / IZR iy) p ii jj = 0) by (intros; unfold column_weight; ring).
  assert (S0 : forall (f : rpart -> R) l, (forall p, f p = 0) -> sum_over l f = 0) by (intros f l Hf; induction l as [|p l IH]; cbn [sum_over]; [reflexivity|]; rewrite Hf, IH; ring).
  destruct (image_ok ix iy kr xmin xmax ymin ymax (outside kr xmin xmax ymin ymax) (column_weight 1 w0 los xmin ymin ((xmax - xmin) / IZR ix) ((ymax - ymin) / IZR iy)) ps N Hx Hy Hxx Hyy HN) as (s & A & _ & C).
  - intros p _ ii jj _ _ _. apply Z0.
  - intros. apply Z0.
  - rewrite A. cbn [bind]. exists (finish s). split; [reflexivity|]. intros ii jj Hi Hj. rewrite (C ii jj Hi Hj).
    rewrite !S0 by (intros; rewrite ?Z0; ring). unfold normalise. rewrite (proj2 (rltb_false _ _)); [reflexivity|]. apply Rlt_le. unfold threshold. apply Rinv_0_lt_compat, pow_lt. lra.
Qed.

(** The table of the kernel along a line: never below the integral, and above it by at most one
    of the 4000 steps. *)
Theorem C83_table w kr res i : (forall s, continuous w s) -> (forall s t, 0 <= s <= t -> w t <= w s) -> (forall s, 0 <= s -> 0 <= w s) -> 0 < kr -> (i < res)%nat ->
  let b := INR i * (kr / INR res) in let L := sqrt (kr * kr - b ^ 2) in
  let exact := 2 * RInt (fun l => w (sqrt (l * l + b ^ 2))) 0 L in
  exact <= tableLOS w kr res i <= exact + 2 * (L / 4000) * w b.
Proof.
  intros Hc Hm Hp Hk Hi b L exact. unfold tableLOS. cbv zeta. fold b. fold L.
  assert (HL : 0 <= L) by apply sqrt_pos. assert (HI : INR intsteps = 4000) by (unfold intsteps; rewrite INR_IZR_INZ; reflexivity). rewrite HI.
  assert (Hb : 0 <= b). { unfold b. apply Rmult_le_pos; [apply pos_INR|]. apply Rmult_le_pos; [lra|]. apply Rlt_le, Rinv_0_lt_compat. apply lt_0_INR. lia. }
  destruct (los_sum_bounds w (b ^ 2) (L / 4000) intsteps) as [A B]; [lra|apply pow2_ge_0|apply comp_cont; [apply pow2_ge_0|exact Hc]|exact Hm|].
  rewrite HI in A, B. replace (L / 4000 * 4000) with L in A, B by field.
  replace (sqrt (0 * 0 + b ^ 2)) with b in B by (replace (0 * 0 + b ^ 2) with (b * b) by ring; rewrite sqrt_square; auto).
  pose proof (Hp (sqrt (L * L + b ^ 2)) (sqrt_pos _)). fold exact in A |- *. unfold exact. split; [lra|]. 
  assert (0 <= L / 4000 * w (sqrt (L * L + b ^ 2))) by (apply Rmult_le_pos; lra). lra.
Qed.
(** Looking up the table: zero beyond the range, otherwise the entry of the interval, inside the table. *)
Theorem C83_lookup table kr s : 0 < kr -> (0 < length table)%nat ->
  (kr <= s -> tableLookup table kr s = 0) /\
  (0 <= s < kr -> exists i : nat, (i < length table)%nat /\ tableLookup table kr s = nth i table 0 /\
     INR i * (kr / INR (length table)) <= s < (INR i + 1) * (kr / INR (length table))).
Proof.
  intros Hk Hl. assert (HL : 0 < INR (length table)) by (apply lt_0_INR; exact Hl). unfold tableLookup. split.
  - intros H. now rewrite (proj2 (rleb_true _ _) H).
  - intros [H1 H2]. rewrite (proj2 (rleb_false _ _) H2). set (n := INR (length table)) in *.
    assert (Q : 0 <= s * (n / kr) < n).
    { split; [apply Rmult_le_pos; [lra|]; apply Rmult_le_pos; [lra|]; apply Rlt_le, Rinv_0_lt_compat; lra|].
      replace n with (kr * (n / kr)) at 2 by (field; lra). apply Rmult_lt_compat_r; [|lra]. apply Rmult_lt_0_compat; [lra|]. apply Rinv_0_lt_compat; lra. }
    set (x := s * (n / kr)) in *. assert (X : s = x * (kr / n)) by (unfold x; field; lra).
    unfold trunc. rewrite (proj2 (rltb_false x 0)) by lra. destruct (base_Int_part x) as [A B].
    assert (I0 : (0 <= Int_part x)%Z). { assert (-1 < IZR (Int_part x)) by lra. apply lt_IZR in H. lia. }
    exists (Z.to_nat (Int_part x)). rewrite INR_IZR_INZ, Z2Nat.id by assumption.
    assert (D : 0 < kr / n) by (apply Rmult_lt_0_compat; [lra|]; apply Rinv_0_lt_compat; lra).
    split; [|split; [reflexivity|]].
    + apply INR_lt. rewrite INR_IZR_INZ, Z2Nat.id by assumption. fold n. lra.
    + rewrite X. split; [apply Rmult_le_compat_r; lra|apply Rmult_lt_compat_r; lra].
Qed.
(** The kernel of a particle integrated along a line at distance [b] is that table's integral at
    [b/h] over the square of the smoothing length. *)
Theorem C83_line_of_sight (w : R -> R) b h L : 0 < h -> (forall s, continuous w s) ->
  RInt (fun z => w (sqrt (b * b + z * z) / h) / h ^ 3) 0 (h * L) = RInt (fun l => w (sqrt (l * l + b / h * (b / h)))) 0 L / h ^ 2.
Proof. apply los_scale. Qed.

(** *** Examples *)
(** The cubic spline meets the hypotheses. *)
Lemma m4_cont s : continuous (m4_w0 3) s.
Proof. apply (@ex_derive_continuous R_AbsRing R_NormedModule). exists (m4_w1 3 s). apply m4_w_derive. Qed.
Lemma m4_mono s t : 0 <= s <= t -> m4_w0 3 t <= m4_w0 3 s.
Proof.
  intros [H1 H2]. assert (P : 0 < m4_kernnorm 3) by (unfold m4_kernnorm, invpi; apply Rinv_0_lt_compat, PI_RGT_0).
  unfold m4_w0. set (k := m4_kernnorm 3) in *. cbv zeta.
  assert (A : forall a b, 0 <= a <= b -> b <= 1 -> k * (1 - 3 / 2 * b * b + 3 / 4 * b * b * b) <= k * (1 - 3 / 2 * a * a + 3 / 4 * a * a * a)).
  { intros a b Ha Hb. apply Rmult_le_compat_l; [lra|]. assert (0 <= (b - a) * (3 / 2 * (a + b) - 3 / 4 * (a * a + a * b + b * b))) by (apply Rmult_le_pos; [lra|nra]). nra. }
  assert (B : forall a b, a <= b -> b <= 2 -> 1 / 4 * k * (2 - b) ^ 3 <= 1 / 4 * k * (2 - a) ^ 3).
  { intros a b Ha Hb. apply Rmult_le_compat_l; [lra|]. apply pow_incr. lra. }
  destruct (rltb s 1) eqn:E1; destruct (rltb t 1) eqn:E2; rewrite ?rltb_true, ?rltb_false in *; try lra.
  - apply A; lra.
  - pose proof (A s 1 ltac:(lra) ltac:(lra)). destruct (rltb t 2) eqn:E3; rewrite ?rltb_true, ?rltb_false in *.
    + pose proof (B 1 t ltac:(lra) ltac:(lra)). lra.
    + lra.
  - destruct (rltb s 2) eqn:E3; destruct (rltb t 2) eqn:E4; rewrite ?rltb_true, ?rltb_false in *; try lra.
    + apply B; lra.
    + apply Rmult_le_pos; [lra|]. apply pow_le. lra.
Qed.
Lemma m4_zero s : 2 <= s -> m4_w0 3 s = 0.
Proof. intros H. unfold m4_w0. cbv zeta. rewrite (proj2 (rltb_false s 1)), (proj2 (rltb_false s 2)) by lra. reflexivity. Qed.
Lemma m4_pos s : 0 <= s -> 0 <= m4_w0 3 s.
Proof. intros H. destruct (Rle_dec 2 s) as [K|K]; [rewrite m4_zero; lra|]. rewrite <- (m4_zero 2) by lra. apply m4_mono. lra. Qed.
Example C83_m4_example : exists image, CreateSliceRenderingGrid 3 2 (m4_w0 3) 1 1 0 2 0 2 0 1 [lone] = Ok image /\ length image = 1%nat /\
  (forall s, 2 <= s -> m4_w0 3 s = 0) /\ (forall s t, 0 <= s <= t -> m4_w0 3 t <= m4_w0 3 s) /\ (forall s, 0 <= s -> 0 <= m4_w0 3 s) /\
  (forall s, continuous (m4_w0 3) s) /\ 1 / 10 < m4_w0 3 0.
Proof.
  destruct (C83_slice 3 2 (m4_w0 3) 1 1 0 2 0 2 0 1 [lone] (lone_proper _ m4_zero)) as (im & A & B & _). exists im. split; [exact A|]. split; [exact B|].
  split; [exact m4_zero|]. split; [exact m4_mono|]. split; [exact m4_pos|]. split; [exact m4_cont|]. unfold m4_w0, m4_kernnorm, invpi. cbv zeta. rewrite (proj2 (rltb_true 0 1)) by lra.
  pose proof PI_4. pose proof PI_RGT_0. assert (/ 4 <= / PI) by (apply Rinv_le_contravar; lra). lra.
Qed.

Print Assumptions C83_slice.
Print Assumptions C83_column.
Print Assumptions C83_plane.
Print Assumptions C83_bounds.
Print Assumptions C83_order.
Print Assumptions C83_centre_refuted.
Print Assumptions C83_column_refuted.
Print Assumptions C83_faint_refuted.
Print Assumptions C83_line_refuted.
Print Assumptions C83_table.
Print Assumptions C83_lookup.
Print Assumptions C83_line_of_sight.
