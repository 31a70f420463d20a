From Verif Require Import Prelude L_Prelude S_Tree L_Tree M_Walk Vec M_Box L_Box S_Box M_Util M_Periodic S_Periodic L_Periodic M_Prune S_Prune L_KDBuild L_KDTop L_StockTree L_Oct4 L_Oct5 L_Prune L_Prune2 L_Prune3.
From Coq Require Import Permutation.

Section Cont.
Local Open Scope Z_scope.
Lemma contents_leaves : forall op content t, contents content t -> flat_map content (leaves (prune op t)) = content (root t).
Proof.
  intros op content. induction t as [c ks IH] using rtree_ind2. intros H. inversion H as [? ? H1 H2]; subst. cbn [prune root].
  destruct (op c); [|cbn; now rewrite app_nil_r]. destruct ks as [|k ks]; [cbn; now rewrite app_nil_r|].
  rewrite leaves_node by discriminate. rewrite H1 by discriminate. clear H1 H. revert IH H2. generalize (k :: ks) as l. clear.
  induction l as [|k l IHl]; intros IH H; [reflexivity|]. inversion IH; inversion H; subst. cbn [map flat_map]. rewrite flat_map_app. f_equal; auto.
Qed.
(** Cells at depth [m] or more are not opened: a binary tree of depth [d] keeps at most 2^(m+1)-1 cells. *)
Lemma prune_size : forall op (lev : Z -> Z) m t d l0, perfect d t ->
  (forall c l, depth_of t c l -> lev c = l0 + l) -> (forall c, lev c = m -> op c = false) -> l0 <= m ->
  zlen (preorder (prune op t)) <= 2 ^ (m - l0 + 1) - 1.
Proof.
  intros op lev m. induction t as [c ks IH] using rtree_ind2. intros d l0 P D Hop Hl.
  assert (Lc : lev c = l0) by (rewrite (D c 0); [lia|constructor]).
  assert (P2 : 2 <= 2 ^ (m - l0 + 1)). { replace 2 with (2 ^ 1) at 1 by reflexivity. apply Z.pow_le_mono_r; lia. }
  cbn [prune]. destruct (op c) eqn:EO; [|unfold zlen; cbn; lia].
  assert (l0 <> m). { intros ->. rewrite (Hop c Lc) in EO. discriminate. }
  destruct d as [|d]; cbn [perfect] in P.
  - destruct ks; [|destruct P]. unfold zlen. cbn. lia.
  - destruct ks as [|a [|b [|]]]; try destruct P. inversion IH as [|? ? Ia Ib']; subst. inversion Ib' as [|? ? Ib _]; subst.
    assert (Da : forall x, In x [a; b] -> forall c0 l, depth_of x c0 l -> lev c0 = (lev c + 1) + l).
    { intros x Hx c0 l Dx. rewrite (D c0 (l + 1)); [lia|]. econstructor; eauto. }
    pose proof (Ia d (lev c + 1) H0 (Da a (or_introl eq_refl)) Hop ltac:(lia)) as Za.
    pose proof (Ib d (lev c + 1) H1 (Da b (or_intror (or_introl eq_refl))) Hop ltac:(lia)) as Zb.
    replace (m - lev c + 1) with (Z.succ (m - (lev c + 1) + 1)) by lia. rewrite Z.pow_succ_r by lia.
    cbn [preorder map flat_map]. unfold zlen in *. cbn [length]. rewrite !app_length. cbn [length]. lia.
Qed.
End Cont.

Section Geo.
Local Open Scope R_scope.
Variables (ndim : nat) (lo hi : vec) (bl br : nat -> boundary).
Hypothesis Hdom : forall k, (k < ndim)%nat -> lo k < hi k.
Let b := mkbox lo hi bl br.
Variables (hmn hmx : vec).
Hypothesis Hnode : forall k, (k < ndim)%nat -> hmn k <= hmx k.
Notation rn := (rnode hmn hmx).
Notation rs := (rsize hmn hmx).

Lemma to_edge_abs : forall d s, 0 <= s -> Rabs (to_edge d s) <= Rmax (Rabs d - s) 0.
Proof.
  intros d s Hs. unfold to_edge. destruct (rltb s d) eqn:E1; [|destruct (rltb d (- s)) eqn:E2]; rb;
  unfold Rmax, Rabs; repeat destruct Rcase_abs; destruct Rle_dec; lra.
Qed.

Lemma abs_sq : forall u v, Rabs u <= Rabs v -> u * u <= v * v.
Proof. intros u v H. change (u * u) with (Rsqr u). change (v * v) with (Rsqr v). now apply Rsqr_le_abs_1. Qed.
Lemma node_far : forall (k : pcell) x c',
  (forall j, (j < ndim)%nat -> periodic_dir b j -> Rabs (k_r k j - rn j) <= 3 * dhalf b j) ->
  in_box ndim hmn hmx x -> image_of ndim b (k_r k) c' ->
  node_distsqd ndim b hmn hmx k <= dot ndim (vsub c' x) (vsub c' x).
Proof.
  intros k x c' Hn Hx Hc. unfold node_distsqd.
  pose proof (npv_dr ndim b (vsub (k_r k) rn) (fun _ => 0)) as N. destruct (NearestPeriodicVector _ _ _ _) as [dr cr]. cbn [fst] in N.
  apply sumf_le. intros j Hj. specialize (N j). rewrite (proj2 (Nat.ltb_lt j ndim) Hj) in N.
  specialize (Hx j Hj). specialize (Hc j Hj). specialize (Hn j Hj). specialize (Hdom j Hj). specialize (Hnode j Hj).
  assert (S : 0 <= rs j) by (unfold rsize, rnode; lra).
  pose proof (to_edge_abs (dr j) (rs j) S) as T.
  assert (X : Rabs (x j - rn j) <= rs j). { unfold rsize, rnode. unfold Rabs. destruct Rcase_abs; lra. }
  assert (D : Rabs (dr j) <= Rabs (c' j - rn j)).
  { assert (SZ : 0 < dsize b j) by (cbn; lra). assert (SH : dsize b j = 2 * dhalf b j) by (cbn; lra).
    destruct Hc as [[Hp (z & Ez)]|[Hp Ez]].
    - specialize (Hn Hp). apply perb_true in Hp. rewrite Hp in N.
      pose proof (near1_spec (dsize b j) (dhalf b j) _ SZ SH Hn) as N1.
      destruct (near1_int true (dsize b j) (dhalf b j) (k_r k j - rn j)) as (z0 & Ez0).
      change (vsub (k_r k) rn j) with (k_r k j - rn j) in N. rewrite N.
      pose proof (half_nearest (dsize b j) (dhalf b j) _ (z - z0)%Z SZ SH N1) as HN.
      replace (c' j - rn j) with (k_r k j - rn j + near1 true (dsize b j) (dhalf b j) (k_r k j - rn j) + IZR (z - z0) * dsize b j); [exact HN|].
      rewrite Ez, Ez0, minus_IZR. lra.
    - apply perb_false in Hp. rewrite Hp in N. change (vsub (k_r k) rn j) with (k_r k j - rn j) in N. rewrite N, Ez. unfold near1. rewrite Rplus_0_r. lra. }
  assert (A : Rabs (to_edge (dr j) (rs j)) <= Rabs (vsub c' x j)).
  { unfold vsub. eapply Rle_trans; [exact T|]. apply Rmax_lub; [|apply Rabs_pos].
    assert (Rabs (c' j - rn j) <= Rabs (c' j - x j) + Rabs (x j - rn j)); [|lra].
    replace (c' j - rn j) with ((c' j - x j) + (x j - rn j)) by lra. apply Rabs_triang. }
  apply abs_sq. exact A.
Qed.

(** A cell left closed although it is neither a leaf nor at a level where closing is forced. *)
Lemma closed_far : forall kernrange macfactor localNode lmin lmax (k : pcell),
  opens ndim b kernrange macfactor localNode lmin lmax hmn hmx k = false ->
  ~ (localNode = true /\ k_level k = lmin) -> k_level k <> lmax -> k_copen k <> (-1)%Z ->
  (lmin <= k_level k)%Z /\ near_node ndim b kernrange macfactor hmn hmx k = false.
Proof.
  intros kernrange macfactor localNode lmin lmax k H H1 H2 H3. unfold opens in H.
  destruct (localNode && (k_level k =? lmin)%Z)%bool eqn:E1.
  { exfalso. apply H1. apply andb_prop in E1 as [? E]. apply Z.eqb_eq in E. auto. }
  destruct (Z.eqb_spec (k_level k) lmax); [easy|]. destruct (Z.eqb_spec (k_copen k) (-1)); [easy|]. cbn [orb negb] in H. rewrite Bool.andb_true_r in H.
  destruct (Z.ltb_spec (k_level k) lmin); [discriminate|]. split; [lia|exact H].
Qed.
Lemma image_shift : forall r c r', image_of ndim b r r' -> exists c', image_of ndim b c c' /\ forall j, (j < ndim)%nat -> r' j - c' j = r j - c j.
Proof.
  intros r c r' H. exists (fun j => c j + (r' j - r j)). split.
  - intros j Hj. destruct (H j Hj) as [[Hp (z & E)]|[Hp E]].
    + left. split; [exact Hp|]. exists z. rewrite E. lra.
    + right. split; [exact Hp|]. rewrite E. lra.
  - intros j Hj. lra.
Qed.
Lemma far_cell : forall kernrange macfactor (k : pcell), near_node ndim b kernrange macfactor hmn hmx k = false ->
  0 <= kernrange -> 0 <= k_rmax k -> 0 <= k_hmax k ->
  (forall j, (j < ndim)%nat -> periodic_dir b j -> Rabs (k_r k j - rn j) <= 3 * dhalf b j) ->
  (forall r h, norm ndim (vsub r (k_r k)) <= k_rmax k -> h <= k_hmax k ->
     forall r' x, image_of ndim b r r' -> in_box ndim hmn hmx x -> kernrange * h < norm ndim (vsub r' x) /\ ~ in_box ndim hmn hmx r') /\
  ((0 < k_N k)%Z -> forall c' x, image_of ndim b (k_r k) c' -> in_box ndim hmn hmx x ->
     k_cdistsqd k < dot ndim (vsub c' x) (vsub c' x) /\ k_mac k * macfactor < dot ndim (vsub c' x) (vsub c' x)).
Proof.
  intros kernrange macfactor k Hnear Hk Hr Hh Hn. unfold near_node in Hnear. apply Bool.orb_false_iff in Hnear as [N1 N2]. rb. split.
  - intros r h Hrk Hhk r' x Hi Hx.
    assert (Q : forall y, in_box ndim hmn hmx y -> kernrange * h < norm ndim (vsub r' y)).
    { intros y Hy. destruct (image_shift r (k_r k) r' Hi) as (c' & Hc & Hs).
      pose proof (node_far k y c' Hn Hy Hc) as F.
      assert (S : k_rmax k + kernrange * k_hmax k < norm ndim (vsub c' y)).
      { destruct (Rlt_le_dec (k_rmax k + kernrange * k_hmax k) (norm ndim (vsub c' y))) as [?|G]; [assumption|exfalso].
        pose proof (norm_nonneg ndim (vsub c' y)). pose proof (norm_sqr ndim (vsub c' y)). nra. }
      assert (D : norm ndim (vsub r' c') <= k_rmax k). { rewrite (norm_ext ndim (vsub r' c') (vsub r (k_r k))); [exact Hrk|]. intros j Hj. apply Hs, Hj. }
      pose proof (norm_triangle_sub ndim c' r' y) as T. rewrite (norm_sub_sym ndim c' r') in T. nra. }
    split; [now apply Q|]. intros Hin.
    assert (Q2 : forall y, in_box ndim hmn hmx y -> 0 < norm ndim (vsub r' y)).
    { intros y Hy. destruct (image_shift r (k_r k) r' Hi) as (c' & Hc & Hs). pose proof (node_far k y c' Hn Hy Hc) as F.
      assert (S : k_rmax k < norm ndim (vsub c' y)).
      { destruct (Rlt_le_dec (k_rmax k) (norm ndim (vsub c' y))) as [?|G]; [assumption|exfalso].
        pose proof (norm_nonneg ndim (vsub c' y)). pose proof (norm_sqr ndim (vsub c' y)). assert (0 <= kernrange * k_hmax k) by (now apply Rmult_le_pos). nra. }
      assert (D : norm ndim (vsub r' c') <= k_rmax k). { rewrite (norm_ext ndim (vsub r' c') (vsub r (k_r k))); [exact Hrk|]. intros j Hj. apply Hs, Hj. }
      pose proof (norm_triangle_sub ndim c' r' y) as T. rewrite (norm_sub_sym ndim c' r') in T. lra. }
    specialize (Q2 r' Hin). rewrite (norm_ext ndim (vsub r' r') (fun _ => 0)) in Q2 by (intros; unfold vsub; lra).
    unfold norm, dot in Q2. rewrite (sumf_ext ndim _ (fun _ => 0)) in Q2 by (intros; lra). rewrite sumf_zero, sqrt_0 in Q2. lra.
  - intros HN c' x Hc Hx. pose proof (node_far k x c' Hn Hx Hc) as F. apply Z.ltb_lt in HN. rewrite HN, Bool.andb_true_r in N2.
    apply Bool.negb_false_iff, andb_prop in N2 as [A B]. rb. lra.
Qed.
End Geo.
