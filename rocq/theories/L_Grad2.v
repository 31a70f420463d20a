(** Slope limiters. *)
From Verif Require Import Prelude L_Prelude Vec M_Box L_Box M_Force M_Matrix L_Matrix M_Mfv M_Grad S_Grad S_Mfv S_Stock L_Stock L_Grad.
From Coq Require Import Reals Lra Lia Psatz FunctionalExtensionality.
Local Open Scope R_scope.

Lemma dot_half : forall n g p q, dot n g (halfway p q) = 1 / 2 * dot n g (vsub (g_r q) (g_r p)).
Proof. intros n g p q. unfold dot. rewrite <- sumf_scal. apply sumf_ext. intros k _. unfold halfway, vsub. lra. Qed.
Lemma sqr_half : forall n p q, dot n (halfway p q) (halfway p q) = 1 / 2 * (1 / 2) * dot n (vsub (g_r q) (g_r p)) (vsub (g_r q) (g_r p)).
Proof. intros n p q. unfold dot. rewrite <- sumf_scal. apply sumf_ext. intros k _. unfold halfway, vsub. lra. Qed.

Lemma abs_le_inv : forall x a, Rabs x <= a -> - a <= x <= a.
Proof. intros x a H. unfold Rabs in H. destruct (Rcase_abs x); lra. Qed.

(** The extreme values *)
Lemma wmax_ge : forall var l x, x <= fold_left (fun x q => Rmax x (g_W q var)) l x /\ forall q, In q l -> g_W q var <= fold_left (fun x q => Rmax x (g_W q var)) l x.
Proof.
  intros var l. induction l as [|y l IH]; intros x; cbn [fold_left]; [split; [lra|intros q []]|]. destruct (IH (Rmax x (g_W y var))) as (A & B).
  pose proof (Rmax_l x (g_W y var)). pose proof (Rmax_r x (g_W y var)). split; [lra|]. intros q [->|H1]; [lra|]. apply B, H1.
Qed.
Lemma wmin_le : forall var l x, fold_left (fun x q => Rmin x (g_W q var)) l x <= x /\ forall q, In q l -> fold_left (fun x q => Rmin x (g_W q var)) l x <= g_W q var.
Proof.
  intros var l. induction l as [|y l IH]; intros x; cbn [fold_left]; [split; [lra|intros q []]|]. destruct (IH (Rmin x (g_W y var))) as (A & B).
  pose proof (Rmin_l x (g_W y var)). pose proof (Rmin_r x (g_W y var)). split; [lra|]. intros q [->|H1]; [lra|]. apply B, H1.
Qed.
Lemma wmax_in : forall var l p, exists b, In b (p :: l) /\ wmax p l var = g_W b var.
Proof.
  intros var l. unfold wmax. induction l as [|y l IH]; intros p; cbn [fold_left]; [exists p; split; [left|]; reflexivity|].
  unfold Rmax. destruct (Rle_dec _ _); [destruct (IH y) as (b & Hb & E) | destruct (IH p) as (b & Hb & E)]; exists b; (split; [|exact E]); destruct Hb as [->|Hb]; cbn; tauto.
Qed.
Lemma wmin_in : forall var l p, exists b, In b (p :: l) /\ wmin p l var = g_W b var.
Proof.
  intros var l. unfold wmin. induction l as [|y l IH]; intros p; cbn [fold_left]; [exists p; split; [left|]; reflexivity|].
  unfold Rmin. destruct (Rle_dec _ _); [destruct (IH p) as (b & Hb & E) | destruct (IH y) as (b & Hb & E)]; exists b; (split; [|exact E]); destruct Hb as [->|Hb]; cbn; tauto.
Qed.
Lemma amid_ext : forall var p l x, wmin p l var <= x <= wmax p l var -> amid_all var p l x.
Proof.
  intros var p l x H. destruct (wmin_in var l p) as (a & Ia & Ea). destruct (wmax_in var l p) as (b & Ib & Eb). exists a, b. rewrite <- Ea, <- Eb. tauto.
Qed.
Lemma drmax_ge : forall n p l x, x <= fold_left (fun x q => Rmax x (dot n (vsub (g_r q) (g_r p)) (vsub (g_r q) (g_r p)))) l x /\
  forall q, In q l -> dot n (vsub (g_r q) (g_r p)) (vsub (g_r q) (g_r p)) <= fold_left (fun x q => Rmax x (dot n (vsub (g_r q) (g_r p)) (vsub (g_r q) (g_r p)))) l x.
Proof.
  intros n p l. induction l as [|y l IH]; intros x; cbn [fold_left]; [split; [lra|intros q []]|].
  set (d := dot n (vsub (g_r y) (g_r p)) (vsub (g_r y) (g_r p))). destruct (IH (Rmax x d)) as (A & B).
  pose proof (Rmax_l x d). pose proof (Rmax_r x d). split; [lra|]. intros q [->|H1]; [fold d; lra|]. apply B, H1.
Qed.

Section Limiters.
Variable n : nat.
Definition reach (edge : bool) (x : R) : R := if edge then x * (51 / 100) else x.

(** TVDScalarLimiter *)
Lemma tvd_range : forall edge p var l a, 0 <= a <= 1 -> 0 <= tvd_loop n edge p var l a <= a.
Proof.
  intros edge p var l. induction l as [|q l IH]; intros a Ha; cbn [tvd_loop]; [lra|].
  destruct (Req_EM_T _ 0); [apply IH, Ha|]. set (z := Rmax 0 _). assert (0 <= z) by apply Rmax_l.
  pose proof (Rmin_l a z). assert (0 <= Rmin a z) by (apply Rmin_glb; lra). specialize (IH (Rmin a z)). lra.
Qed.
Lemma tvd_each : forall edge p var l a, 0 <= a <= 1 -> forall q, In q l ->
  let D := reach edge (dot n (g_grad p var) (vsub (g_r q) (g_r p))) in D <> 0 -> tvd_loop n edge p var l a <= Rmax 0 ((g_W q var - g_W p var) / D).
Proof.
  intros edge p var l. induction l as [|y l IH]; intros a Ha q Hq; [destruct Hq|]. cbn [tvd_loop]. cbv zeta. intros HD.
  destruct Hq as [->|Hq].
  - fold (reach edge (dot n (g_grad p var) (vsub (g_r q) (g_r p)))). destruct (Req_EM_T _ 0) as [Z|_]; [contradiction|].
    set (D := reach _ _) in *. set (c := g_W q var - g_W p var). set (z := Rmax 0 (Rmin 1 (c / D))).
    assert (0 <= z) by apply Rmax_l. pose proof (Rmin_r a z). pose proof (Rmin_l a z). assert (0 <= Rmin a z) by (apply Rmin_glb; lra).
    destruct (tvd_range edge p var l (Rmin a z)) as (_ & T); [lra|]. apply Rle_trans with z; [lra|]. unfold z.
    apply Rmax_lub; [apply Rmax_l|]. apply Rle_trans with (c / D); [apply Rmin_r | apply Rmax_r].
  - apply (IH _). 2: exact Hq. 2: exact HD. destruct (Req_EM_T _ 0); [exact Ha|]. set (z := Rmax 0 _). assert (0 <= z) by apply Rmax_l.
    pose proof (Rmin_l a z). assert (0 <= Rmin a z) by (apply Rmin_glb; lra). lra.
Qed.
Lemma reach_zero : forall edge x, reach edge x = 0 -> x = 0.
Proof. intros [] x; unfold reach; lra. Qed.
Lemma tvd_face : forall edge p l q var, In q l -> amid (g_W p var) (g_W q var) (face (Slopes n) (TVDCell n edge p l) q var).
Proof.
  intros edge p l q var Hq. unfold face, Slopes. cbn [TVDCell set_alpha g_W g_alpha g_grad snd].
  change (halfway (TVDCell n edge p l) q) with (halfway p q). rewrite dot_half. change (g_W (TVDCell n edge p l) var) with (g_W p var).
  set (d := dot n (g_grad p var) (vsub (g_r q) (g_r p))). pose proof (tvd_range edge p var l 1 ltac:(lra)) as A. set (alpha := tvd_loop n edge p var l 1) in *.
  destruct (Req_dec d 0) as [->|Nd]; [unfold amid; destruct (Rle_dec (g_W p var) (g_W q var)); [left | right]; lra|].
  assert (ND : reach edge d <> 0) by (intros Z; apply Nd, (reach_zero edge), Z).
  pose proof (tvd_each edge p var l 1 ltac:(lra) q Hq ND) as T. fold d alpha in T. set (c := g_W q var - g_W p var) in *.
  assert (K : (0 <= alpha * reach edge d <= c \/ c <= alpha * reach edge d <= 0)).
  { destruct (Rle_dec (c / reach edge d) 0) as [L|L].
    - rewrite Rmax_left in T by exact L. replace alpha with 0 by lra. destruct (Rle_dec 0 c); [left | right]; lra.
    - rewrite Rmax_right in T by lra. destruct (Rlt_dec 0 (reach edge d)) as [P|P].
      + left. assert (alpha * reach edge d <= c / reach edge d * reach edge d) by (apply Rmult_le_compat_r; lra).
        replace (c / reach edge d * reach edge d) with c in H by (field; exact ND). nra.
      + right. assert (c / reach edge d * reach edge d <= alpha * reach edge d) by (apply Rmult_le_compat_neg_l with (r := reach edge d) in T; lra).
        replace (c / reach edge d * reach edge d) with c in H by (field; exact ND). nra. }
  replace (alpha * (1 / 2 * d)) with ((if edge then 50 / 51 else 1 / 2) * (alpha * reach edge d)) by (destruct edge; unfold reach; lra).
  unfold amid. unfold c in *. clear -K. destruct edge, K; [left | right | left | right]; lra.
Qed.

(** Springel2009Limiter *)
Lemma springel_range : forall edge p var M m l a, 0 <= M -> m <= 0 -> 0 <= a -> 0 <= springel_loop n edge p var M m l a <= a.
Proof.
  intros edge p var M m l. induction l as [|q l IH]; intros a HM Hm Ha; cbn [springel_loop]; [lra|].
  fold (reach edge (dot n (g_grad p var) (vsub (g_r q) (g_r p)))). set (D := reach _ _).
  assert (K : 0 <= (if rltb 0 D then Rmin a (M / D) else if rltb D 0 then Rmin a (m / D) else a) <= a).
  { destruct (rltb 0 D) eqn:E1; [|destruct (rltb D 0) eqn:E2]; [| |lra].
    - apply rltb_true in E1. split; [|apply Rmin_l]. apply Rmin_glb; [lra|]. apply Rmult_le_pos; [exact HM|]. left. apply Rinv_0_lt_compat, E1.
    - apply rltb_true in E2. split; [|apply Rmin_l]. apply Rmin_glb; [lra|]. replace (m / D) with ((- m) / (- D)) by (field; lra). apply Rmult_le_pos; [lra|]. left. apply Rinv_0_lt_compat. lra. }
  specialize (IH _ HM Hm (proj1 K)). lra.
Qed.
Lemma springel_each : forall edge p var M m l a, 0 <= M -> m <= 0 -> 0 <= a -> forall q, In q l ->
  let D := reach edge (dot n (g_grad p var) (vsub (g_r q) (g_r p))) in m <= springel_loop n edge p var M m l a * D <= M.
Proof.
  intros edge p var M m l. induction l as [|y l IH]; intros a HM Hm Ha q Hq; [destruct Hq|]. cbn [springel_loop]. cbv zeta.
  assert (S : forall D, 0 <= (if rltb 0 D then Rmin a (M / D) else if rltb D 0 then Rmin a (m / D) else a)).
  { intros D. destruct (rltb 0 D) eqn:E1; [|destruct (rltb D 0) eqn:E2]; [| |lra].
    - apply rltb_true in E1. apply Rmin_glb; [lra|]. apply Rmult_le_pos; [exact HM|]. left. apply Rinv_0_lt_compat, E1.
    - apply rltb_true in E2. apply Rmin_glb; [lra|]. replace (m / D) with ((- m) / (- D)) by (field; lra). apply Rmult_le_pos; [lra|]. left. apply Rinv_0_lt_compat. lra. }
  destruct Hq as [->|Hq]; [|apply IH; [exact HM | exact Hm | apply S | exact Hq]].
  fold (reach edge (dot n (g_grad p var) (vsub (g_r q) (g_r p)))). set (D := reach _ _).
  pose proof (springel_range edge p var M m l _ HM Hm (S D)) as K.
  destruct (rltb 0 D) eqn:E1; [|destruct (rltb D 0) eqn:E2].
  - apply rltb_true in E1. set (b := springel_loop _ _ _ _ _ _ _ _) in *. pose proof (Rmin_r a (M / D)).
    assert (b * D <= M / D * D) by (apply Rmult_le_compat_r; lra). replace (M / D * D) with M in H0 by (field; lra). nra.
  - apply rltb_true in E2. set (b := springel_loop _ _ _ _ _ _ _ _) in *. pose proof (Rmin_r a (m / D)).
    assert (m / D * D <= b * D) by nra. replace (m / D * D) with m in H0 by (field; lra). nra.
  - apply rltb_false in E1, E2. replace D with 0 by lra. lra.
Qed.
Lemma wmax_self : forall p l var, 0 <= wmax p l var - g_W p var.
Proof. intros p l var. pose proof (proj1 (wmax_ge var l (g_W p var))). unfold wmax. lra. Qed.
Lemma wmin_self : forall p l var, wmin p l var - g_W p var <= 0.
Proof. intros p l var. pose proof (proj1 (wmin_le var l (g_W p var))). unfold wmin. lra. Qed.
Lemma springel_face : forall edge p l q var, In q l -> amid_all var p l (face (Slopes n) (SpringelCell n edge p l) q var).
Proof.
  intros edge p l q var Hq. apply amid_ext. unfold face, Slopes. cbn [SpringelCell set_alpha g_W g_alpha g_grad snd].
  change (halfway (SpringelCell n edge p l) q) with (halfway p q). rewrite dot_half. change (g_W (SpringelCell n edge p l) var) with (g_W p var).
  pose proof (wmax_self p l var) as HM. pose proof (wmin_self p l var) as Hm.
  pose proof (springel_each edge p var _ _ l 1 HM Hm ltac:(lra) q Hq) as T. cbv zeta in T. set (alpha := springel_loop _ _ _ _ _ _ _ _) in *. set (d := dot n (g_grad p var) (vsub (g_r q) (g_r p))) in *.
  replace (alpha * (1 / 2 * d)) with ((if edge then 50 / 51 else 1 / 2) * (alpha * reach edge d)) by (destruct edge; unfold reach; lra).
  destruct edge; lra.
Qed.

(** ScalarLimiter *)
Lemma scalar_face : forall edge p l q var, In q l -> amid_all var p l (face (Slopes n) (ScalarCell n edge p l) q var).
Proof.
  intros edge p l q var Hq. apply amid_ext. unfold face, Slopes. cbn [ScalarCell set_alpha g_W g_alpha g_grad snd].
  change (halfway (ScalarCell n edge p l) q) with (halfway p q). rewrite dot_half. change (g_W (ScalarCell n edge p l) var) with (g_W p var).
  pose proof (wmax_self p l var) as HM. pose proof (wmin_self p l var) as Hm.
  fold (norm n (g_grad p var)). set (g := g_grad p var). set (dr := vsub (g_r q) (g_r p)). set (L := Rmax (sqrt (drmaxsqd n p l)) (2 * g_h p)).
  fold (reach edge L).
  assert (HL : norm n dr <= L).
  { apply Rle_trans with (sqrt (drmaxsqd n p l)); [|apply Rmax_l]. unfold norm. apply sqrt_le_1_alt. exact (proj2 (drmax_ge n p l 0) q Hq). }
  assert (B : Rabs (dot n g dr) <= norm n g * norm n dr).
  { apply Rabs_le. split; [|apply dot_le_norm]. pose proof (dot_le_norm n (vscal (-1) g) dr) as C. rewrite dot_scal_l in C.
    replace (norm n (vscal (-1) g)) with (norm n g) in C; [lra|]. unfold norm. f_equal. rewrite dot_scal_l, dot_scal_r. ring. }
  pose proof (norm_nonneg n g) as G0. pose proof (norm_nonneg n dr) as D0.
  set (M := wmax p l var - g_W p var) in *. set (m := g_W p var - wmin p l var).
  assert (Hm' : 0 <= m) by (unfold m; lra).
  assert (K : Rabs (dot n g dr) * (if edge then 51 / 100 else 1) <= reach edge L * norm n g).
  { apply Rle_trans with (norm n g * norm n dr * (if edge then 51 / 100 else 1)); [apply Rmult_le_compat_r; [destruct edge; lra | exact B]|]. unfold reach. destruct edge; nra. }
  assert (F : Rabs ((if Req_EM_T (reach edge L * norm n g) 0 then 1 else Rmax 0 (Rmin 1 (Rmin (M / (reach edge L * norm n g)) (m / (reach edge L * norm n g))))) * (1 / 2 * dot n g dr)) <= Rmin M m).
  { pose proof (Rabs_pos (dot n g dr)) as AP. destruct (Req_EM_T _ 0) as [Z|NZ].
    - rewrite Z in K. assert (Rabs (dot n g dr) = 0) by (destruct edge; lra). replace (1 * (1 / 2 * dot n g dr)) with (1 / 2 * dot n g dr) by ring.
      rewrite Rabs_mult, H. rewrite Rmult_0_r. apply Rmin_glb; lra.
    - set (X := reach edge L * norm n g) in *. assert (0 < X) by (destruct edge; lra).
      set (a := Rmax 0 _). assert (A0 : 0 <= a) by apply Rmax_l.
      assert (Q : a * X <= Rmin M m).
      { unfold a. destruct (Rle_dec 0 (Rmin 1 (Rmin (M / X) (m / X)))) as [P|P].
        - rewrite Rmax_right by exact P. apply Rle_trans with (Rmin (M / X) (m / X) * X); [apply Rmult_le_compat_r; [lra | apply Rmin_r]|].
          apply Rmin_glb; [apply Rle_trans with (M / X * X); [apply Rmult_le_compat_r; [lra | apply Rmin_l]|] | apply Rle_trans with (m / X * X); [apply Rmult_le_compat_r; [lra | apply Rmin_r]|]]; right; field; exact NZ.
        - rewrite Rmax_left by lra. rewrite Rmult_0_l. apply Rmin_glb; lra. }
      rewrite Rabs_mult, (Rabs_pos_eq a A0). apply Rle_trans with (a * X); [|exact Q]. apply Rmult_le_compat_l; [exact A0|]. rewrite Rabs_mult, (Rabs_pos_eq (1 / 2)) by lra. destruct edge; lra. }
  apply abs_le_inv in F. pose proof (Rmin_l M m). pose proof (Rmin_r M m). unfold M, m in *. lra.
Qed.

(** GizmoLimiter *)
Lemma gizmo_range : forall wi wj x, (wi <= wj -> wi - 1 / 2 * (wj - wi) <= gizmo_mid wi wj x (1 / 2) <= wj) /\ (wj <= wi -> wj <= gizmo_mid wi wj x (1 / 2) <= wi + 1 / 2 * (wi - wj)) /\
  (0 < wi -> 0 < wj -> 0 < gizmo_mid wi wj x (1 / 2)).
Proof.
  intros wi wj x. unfold gizmo_mid. destruct (rltb wi wj) eqn:E1.
  - apply rltb_true in E1. rewrite Rmin_left, (Rabs_left (wi - wj)) by lra. set (d := 1 / 2 * - (wi - wj)). assert (Hd : 0 < d) by (unfold d; lra).
    set (ph := if (sgn (wi - d) =? sgn wi)%Z then wi - d else damp wi d).
    assert (P : wi - d <= ph <= wi /\ (0 < wi -> 0 < ph)).
    { unfold ph. destruct (Z.eqb_spec (sgn (wi - d)) (sgn wi)) as [S|S].
      - split; [lra|]. intros W. unfold sgn in S. unfold rltb in S. repeat destruct Rlt_dec in S; try lra; try discriminate.
      - unfold damp. destruct (Req_EM_T wi 0) as [->|NZ]; [lra|].
        assert (Rabs wi <> 0) by (apply Rabs_no_R0; exact NZ). assert (0 < Rabs wi) by (apply Rabs_pos_lt; exact NZ).
        assert (W : 0 < wi) by (destruct (Rlt_dec 0 wi); [assumption|]; exfalso; apply S; unfold sgn, rltb; repeat destruct Rlt_dec; lra || reflexivity).
        assert (0 < d / wi) by (apply Rmult_lt_0_compat; [lra | apply Rinv_0_lt_compat, W]). rewrite (Rabs_pos_eq wi) by lra.
        assert (0 < / (1 + d / wi) < 1) by (split; [apply Rinv_0_lt_compat; lra|]; rewrite <- Rinv_1 at 2; apply Rinv_lt_contravar; lra).
        assert (wi - d <= 0) by (destruct (Rlt_dec 0 (wi - d)); [|lra]; exfalso; apply S; unfold sgn, rltb; repeat destruct Rlt_dec; lra || reflexivity).
        unfold Rdiv at 1 3 5. split; [|intros _]; nra. }
    set (up := Rmin _ x). assert (U : up <= wj) by (unfold up; eapply Rle_trans; [apply Rmin_l|]; lra).
    pose proof (Rmax_l ph up). repeat split; intros; try lra; try (apply Rmax_lub; lra). unfold d in *; lra.
  - apply rltb_false in E1. destruct (rltb wj wi) eqn:E2.
    + apply rltb_true in E2. rewrite Rmax_left, (Rabs_pos_eq (wi - wj)) by lra. set (d := 1 / 2 * (wi - wj)). assert (Hd : 0 < d) by (unfold d; lra).
      set (ph := if (sgn (wi + d) =? sgn wi)%Z then wi + d else damp wi d).
      assert (P : wi <= ph <= wi + d).
      { unfold ph. destruct (Z.eqb_spec (sgn (wi + d)) (sgn wi)) as [S|S]; [lra|].
        unfold damp. destruct (Req_EM_T wi 0) as [->|NZ]; [lra|].
        assert (W : wi < 0) by (destruct (Rlt_dec wi 0); [assumption|]; exfalso; apply S; unfold sgn, rltb; repeat destruct Rlt_dec; lra || reflexivity).
        assert (0 <= wi + d) by (destruct (Rlt_dec (wi + d) 0); [|lra]; exfalso; apply S; unfold sgn, rltb; repeat destruct Rlt_dec; lra || reflexivity).
        rewrite (Rabs_left wi) by lra.
        assert (0 < d / - wi) by (apply Rmult_lt_0_compat; [lra | apply Rinv_0_lt_compat; lra]).
        assert (0 < / (1 + d / - wi) < 1) by (split; [apply Rinv_0_lt_compat; lra|]; rewrite <- Rinv_1 at 2; apply Rinv_lt_contravar; lra).
        unfold Rdiv at 1 3. nra. }
      set (lo := Rmax _ x). assert (U : wi - 875 / 1000 * (wi - wj) <= lo) by (unfold lo; eapply Rle_trans; [|apply Rmax_l]; lra).
      pose proof (Rmin_l ph lo). repeat split; intros; try lra; try (unfold d in *; lra); [apply Rmin_glb; lra|]. apply Rlt_le_trans with (Rmin wj (wi - 875 / 1000 * (wi - wj))); [apply Rmin_glb_lt; lra|]. apply Rmin_glb; [|]; [pose proof (Rmin_l wj (wi - 875 / 1000 * (wi - wj))) | pose proof (Rmin_r wj (wi - 875 / 1000 * (wi - wj)))]; lra.
    + apply rltb_false in E2. repeat split; intros; lra.
Qed.
Lemma gizmo_ratio : forall p q, dot n (vsub (g_r q) (g_r p)) (vsub (g_r q) (g_r p)) <> 0 ->
  sqrt (dot n (halfway p q) (halfway p q)) / sqrt (dot n (vsub (g_r q) (g_r p)) (vsub (g_r q) (g_r p))) = 1 / 2.
Proof.
  intros p q H. rewrite sqr_half. pose proof (dot_nonneg n (vsub (g_r q) (g_r p))) as P. rewrite sqrt_mult, sqrt_square by lra. field. apply Rgt_not_eq, sqrt_lt_R0. lra.
Qed.
Lemma gizmo_face : forall p q var, dot n (vsub (g_r q) (g_r p)) (vsub (g_r q) (g_r p)) <> 0 ->
  exists x, face (GizmoSlopes n) p q var = gizmo_mid (g_W p var) (g_W q var) x (1 / 2) /\ x = face (Slopes n) p q var.
Proof.
  intros p q var H. eexists. split; [|reflexivity]. unfold face, GizmoSlopes. destruct (Slopes n p q (halfway p q)) as (g, d) eqn:E. cbn [snd].
  rewrite gizmo_ratio by exact H. ring.
Qed.
Lemma gizmo_linear : forall wi wj, gizmo_mid wi wj (wi + 1 / 2 * (wj - wi)) (1 / 2) = wi + 1 / 2 * (wj - wi).
Proof.
  intros wi wj. destruct (gizmo_range wi wj (wi + 1 / 2 * (wj - wi))) as (A & B & _). revert A B. unfold gizmo_mid.
  destruct (rltb wi wj) eqn:E1.
  - apply rltb_true in E1. rewrite Rmin_left, (Rabs_left (wi - wj)) by lra. set (d := 1 / 2 * - (wi - wj)). assert (Hd : 0 < d) by (unfold d; lra).
    set (ph := if (sgn (wi - d) =? sgn wi)%Z then wi - d else damp wi d). intros A _.
    rewrite (Rmin_right _ (wi + 1 / 2 * (wj - wi))) in * by lra.
    assert (P : ph <= wi).
    { unfold ph. destruct (Z.eqb_spec (sgn (wi - d)) (sgn wi)) as [S|S]; [lra|]. unfold damp. destruct (Req_EM_T wi 0) as [->|NZ]; [lra|].
      assert (W : 0 < wi) by (destruct (Rlt_dec 0 wi); [assumption|]; exfalso; apply S; unfold sgn, rltb; repeat destruct Rlt_dec; lra || reflexivity).
      assert (0 < d / wi) by (apply Rmult_lt_0_compat; [lra | apply Rinv_0_lt_compat, W]). rewrite (Rabs_pos_eq wi) by lra.
      assert (0 < / (1 + d / wi) < 1) by (split; [apply Rinv_0_lt_compat; lra|]; rewrite <- Rinv_1 at 2; apply Rinv_lt_contravar; lra). unfold Rdiv at 1. nra. }
    apply Rmax_right. lra.
  - apply rltb_false in E1. destruct (rltb wj wi) eqn:E2; [|apply rltb_false in E2; intros; lra].
    apply rltb_true in E2. rewrite Rmax_left, (Rabs_pos_eq (wi - wj)) by lra. set (d := 1 / 2 * (wi - wj)). assert (Hd : 0 < d) by (unfold d; lra).
    set (ph := if (sgn (wi + d) =? sgn wi)%Z then wi + d else damp wi d). intros _ B.
    rewrite (Rmax_right _ (wi + 1 / 2 * (wj - wi))) in * by lra.
    assert (P : wi <= ph).
    { unfold ph. destruct (Z.eqb_spec (sgn (wi + d)) (sgn wi)) as [S|S]; [lra|]. unfold damp. destruct (Req_EM_T wi 0) as [->|NZ]; [lra|].
      assert (W : wi < 0) by (destruct (Rlt_dec wi 0); [assumption|]; exfalso; apply S; unfold sgn, rltb; repeat destruct Rlt_dec; lra || reflexivity).
      rewrite (Rabs_left wi) by lra. assert (0 < d / - wi) by (apply Rmult_lt_0_compat; [lra | apply Rinv_0_lt_compat; lra]).
      assert (0 < / (1 + d / - wi) < 1) by (split; [apply Rinv_0_lt_compat; lra|]; rewrite <- Rinv_1 at 2; apply Rinv_lt_contravar; lra). unfold Rdiv at 1. nra. }
    apply Rmin_right. lra.
Qed.

(** Linear fields *)
Section Linear.
Variables (p : gpart) (l : list gpart) (var : nat).
Hypothesis lin : linear_in n var (g_grad p var) p l.
Lemma tvd_linear : forall edge, tvd_loop n edge p var l 1 = 1.
Proof.
  intros edge. induction l as [|q m IH]; cbn [tvd_loop]; [reflexivity|].
  rewrite (lin q) by (left; reflexivity). fold (reach edge (dot n (g_grad p var) (vsub (g_r q) (g_r p)))). set (d := dot n (g_grad p var) (vsub (g_r q) (g_r p))).
  destruct (Req_EM_T (reach edge d) 0) as [Z|NZ]; [apply IH; intros u Hu; apply lin; right; exact Hu|].
  assert (K : 1 <= d / reach edge d) by (unfold reach in *; destruct edge; [replace (d / (d * (51 / 100))) with (100 / 51) by (field; intros X; apply NZ; rewrite X; lra); lra | replace (d / d) with 1 by (field; exact NZ); lra]).
  rewrite (Rmin_left 1 (d / reach edge d)) by exact K. rewrite (Rmax_right 0 1) by lra. rewrite (Rmin_left 1 1) by lra. apply IH. intros u Hu; apply lin; right; exact Hu.
Qed.
Lemma springel_linear_aux : forall edge M m k, (forall q, In q k -> m <= dot n (g_grad p var) (vsub (g_r q) (g_r p)) <= M) -> springel_loop n edge p var M m k 1 = 1.
Proof.
  intros edge M m k. induction k as [|q k IH]; intros H; cbn [springel_loop]; [reflexivity|].
  fold (reach edge (dot n (g_grad p var) (vsub (g_r q) (g_r p)))). pose proof (H q (or_introl eq_refl)) as Hq. set (d := dot n (g_grad p var) (vsub (g_r q) (g_r p))) in *.
  assert (H' : forall q, In q k -> m <= dot n (g_grad p var) (vsub (g_r q) (g_r p)) <= M) by (intros; apply H; right; assumption).
  destruct (rltb 0 (reach edge d)) eqn:E1; [|destruct (rltb (reach edge d) 0) eqn:E2]; [| |apply IH, H'].
  - apply rltb_true in E1. rewrite Rmin_left; [apply IH, H'|]. assert (reach edge d <= M) by (unfold reach in *; destruct edge; lra).
    apply Rmult_le_reg_r with (reach edge d); [exact E1|]. unfold Rdiv. rewrite Rmult_assoc, Rinv_l by lra. lra.
  - apply rltb_true in E2. rewrite Rmin_left; [apply IH, H'|]. assert (m <= reach edge d) by (unfold reach in *; destruct edge; lra).
    replace (m / reach edge d) with ((- m) / (- reach edge d)) by (field; lra). apply Rmult_le_reg_r with (- reach edge d); [lra|]. unfold Rdiv. rewrite Rmult_assoc, Rinv_l by lra. lra.
Qed.
Lemma springel_linear : forall edge, springel_loop n edge p var (wmax p l var - g_W p var) (wmin p l var - g_W p var) l 1 = 1.
Proof.
  intros edge. apply springel_linear_aux. intros q Hq. rewrite <- (lin q Hq). pose proof (proj2 (wmax_ge var l (g_W p var)) q Hq). pose proof (proj2 (wmin_le var l (g_W p var)) q Hq).
  unfold wmax, wmin. lra.
Qed.
End Linear.
End Limiters.
