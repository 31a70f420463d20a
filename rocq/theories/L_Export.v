From Verif Require Import Prelude L_Prelude Vec S_Tree L_Tree M_Walk S_Box M_Box L_Box M_Periodic S_Periodic L_Periodic M_Prune S_Prune L_Prune L_Prune4 M_Export S_Export.
From Coq Require Import Reals Lra.
Local Open Scope R_scope.

Section Geo.
Variables (ndim : nat) (lo hi : vec) (bl br : nat -> boundary).
Hypothesis Hdom : forall k, (k < ndim)%nat -> lo k < hi k.
Let b := mkbox lo hi bl br.

Lemma nearest_image : forall x y, within ndim b x y ->
  let d := fst (NearestPeriodicVector ndim b (vsub y x) (fun _ => 0)) in
  image_of ndim b (vsub y x) d /\ (forall d', image_of ndim b (vsub y x) d' -> norm ndim d <= norm ndim d').
Proof.
  intros x y W d.
  assert (N : forall j, (j < ndim)%nat -> d j = y j - x j + near1 (perb b j) (dsize b j) (dhalf b j) (y j - x j)).
  { intros j Hj. unfold d. rewrite npv_dr, (proj2 (Nat.ltb_lt j ndim) Hj). reflexivity. }
  clearbody d. split.
  - intros j Hj. specialize (N j Hj). destruct (perb b j) eqn:E.
    + apply perb_true in E. left. split; [exact E|]. destruct (near1_int true (dsize b j) (dhalf b j) (y j - x j)) as (z & Z). exists z. rewrite N, Z. reflexivity.
    + apply perb_false in E. right. split; [exact E|]. rewrite N. unfold near1, vsub. lra.
  - intros d' H. unfold norm. apply sqrt_le_1_alt. apply sumf_le. intros j Hj. apply abs_sq. rewrite (N j Hj). specialize (H j Hj).
    specialize (Hdom j Hj).
    assert (SZ : 0 < dsize b j) by (cbn; lra). assert (SH : dsize b j = 2 * dhalf b j) by (cbn; lra).
    destruct H as [[Hp (z & Ez)]|[Hp Ez]].
    + pose proof (W j Hj Hp) as Wj. apply perb_true in Hp. rewrite Hp.
      pose proof (near1_spec (dsize b j) (dhalf b j) _ SZ SH Wj) as N1.
      destruct (near1_int true (dsize b j) (dhalf b j) (y j - x j)) as (z0 & Ez0).
      pose proof (half_nearest (dsize b j) (dhalf b j) _ (z - z0)%Z SZ SH N1) as HN.
      replace (d' j) with (y j - x j + near1 true (dsize b j) (dhalf b j) (y j - x j) + IZR (z - z0) * dsize b j); [exact HN|].
      rewrite Ez, Ez0, minus_IZR. unfold vsub. lra.
    + apply perb_false in Hp. rewrite Hp, Ez. unfold near1. rewrite Rplus_0_r. unfold vsub. lra.
Qed.

Definition sep (cell k : pcell) : vec := fst (NearestPeriodicVector ndim b (vsub (k_r k) (k_r cell)) (fun _ => 0)).
Lemma pair_sqr : forall cell k, pair_distsqd ndim b cell k = norm ndim (sep cell k) ^ 2.
Proof.
  intros. unfold pair_distsqd, sep. destruct (NearestPeriodicVector _ _ _ _) as [d c]. cbn [fst]. rewrite <- norm_sqr. ring.
Qed.
Lemma sep_shortest : forall cell k, within ndim b (k_r cell) (k_r k) -> shortest ndim b cell k (sep cell k).
Proof. intros. now apply nearest_image. Qed.

Lemma sq_le : forall a c, 0 <= a -> 0 <= c -> (a ^ 2 <= c ^ 2 <-> a <= c).
Proof. intros. split; intros; nra. Qed.

Variables (kernrange : R).
Hypothesis Hk : 0 <= kernrange.
Definition decent (k : pcell) : Prop := 0 <= k_rmax k /\ 0 <= k_hmax k.

Lemma touch_hydro : forall cell k, decent cell -> decent k ->
  (spheres_hydro ndim b kernrange cell k = true <-> may_touch ndim kernrange cell k (sep cell k)).
Proof.
  intros cell k [A1 A2] [B1 B2]. unfold spheres_hydro, may_touch. rewrite pair_sqr, Bool.orb_true_iff, !rleb_true.
  pose proof (norm_nonneg ndim (sep cell k)). assert (0 <= kernrange * k_hmax cell) by (now apply Rmult_le_pos). assert (0 <= kernrange * k_hmax k) by (now apply Rmult_le_pos).
  rewrite !sq_le by lra. unfold Rmax. destruct Rle_dec as [L|L].
  - assert (kernrange * k_hmax cell <= kernrange * k_hmax k) by (now apply Rmult_le_compat_l). lra.
  - assert (kernrange * k_hmax k <= kernrange * k_hmax cell) by (apply Rmult_le_compat_l; lra). lra.
Qed.
Lemma touch_grav : forall cell k, spheres_grav ndim b kernrange cell k = spheres_hydro ndim b kernrange cell k.
Proof. intros. unfold spheres_grav, spheres_hydro. cbv zeta. rewrite <- Rplus_assoc. reflexivity. Qed.

Lemma apart : forall pos hsm pos' hsm' l l' cell k, encloses ndim pos hsm l cell -> encloses ndim pos' hsm' l' k -> within ndim b (k_r cell) (k_r k) ->
  ~ may_touch ndim kernrange cell k (sep cell k) ->
  forall i j, In i l -> In j l' -> out_of_reach ndim b kernrange (pos i) (hsm i) (pos' j) (hsm' j).
Proof.
  intros pos hsm pos' hsm' l l' cell k (A1 & A2 & A3) (B1 & B2 & B3) W T i j Hi Hj rb Hrb.
  specialize (A3 i Hi). specialize (B3 j Hj). destruct A3 as [A3 A4], B3 as [B3 B4].
  destruct (sep_shortest cell k W) as [_ Sh].
  set (c' := fun q => k_r k q + (rb q - pos' j q)).
  assert (I : image_of ndim b (vsub (k_r k) (k_r cell)) (vsub c' (k_r cell))).
  { intros q Hq. destruct (Hrb q Hq) as [[P (z & E)]|[P E]].
    - left. split; [exact P|]. exists z. unfold vsub, c'. rewrite E. ring.
    - right. split; [exact P|]. unfold vsub, c'. rewrite E. ring. }
  apply Sh in I. unfold may_touch in T.
  assert (D : norm ndim (vsub rb c') <= k_rmax k). { rewrite (norm_ext ndim (vsub rb c') (vsub (pos' j) (k_r k))); [exact B3|]. intros q _. unfold vsub, c'. ring. }
  pose proof (norm_triangle_sub ndim c' rb (k_r cell)) as T1. rewrite (norm_sub_sym ndim c' rb) in T1.
  pose proof (norm_triangle_sub ndim rb (pos i) (k_r cell)) as T2.
  assert (kernrange * Rmax (hsm i) (hsm' j) <= kernrange * Rmax (k_hmax cell) (k_hmax k)).
  { apply Rmult_le_compat_l; [exact Hk|]. apply Rmax_lub; eapply Rle_trans; [|apply Rmax_l| |apply Rmax_r]; lra. }
  lra.
Qed.

Lemma coarse : forall mac macerror cm k cell macfactor amin,
  (open_cell_for_gravity mac macerror cm k (pair_distsqd ndim b cell k) macfactor amin = true <->
   too_coarse ndim mac macerror (cm (k_data k)) amin macfactor k (sep cell k)).
Proof.
  intros. unfold open_cell_for_gravity, too_coarse. rewrite pair_sqr. destruct (rltb _ (k_cdistsqd k)) eqn:E; rb; [tauto|].
  destruct mac; rewrite ?rltb_true.
  - split; [discriminate|]. lra.
  - lra.
  - replace (norm ndim (sep cell k) ^ 2 * norm ndim (sep cell k) ^ 2) with (norm ndim (sep cell k) ^ 4) by ring.
    replace (k_rmax k * k_rmax k) with (k_rmax k ^ 2) by ring. lra.
Qed.
End Geo.
