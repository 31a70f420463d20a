(** C69: slope limiters of the meshless scheme.  C70: its gradients. *)
From Verif Require Import Prelude L_Prelude Vec M_Box L_Box M_Force M_Kernel M_Matrix L_Matrix M_Mfv M_Grad S_Grad S_Mfv S_Stock L_Stock S_Kernel L_Kernel L_Grad L_Grad2 L_Grad3.
From Coq Require Import Reals Lra Lia Psatz.
Local Open Scope R_scope.

(** ** C69 *)
Section C69.
Variable n : nat.
(** "tvdscalar": at the face to a neighbour a variable has a value between those of the two particles. *)
Theorem C69_tvd : forall edge p l q var, In q l -> amid (g_W p var) (g_W q var) (face (Slopes n) (TVDCell n edge p l) q var).
Proof. exact (tvd_face n). Qed.
(** "balsara2004", "scalar", "springel2009": a value between the least and greatest of the particle and its neighbours. *)
Theorem C69_scalar : forall edge p l q var, In q l -> amid_all var p l (face (Slopes n) (ScalarCell n edge p l) q var).
Proof. exact (scalar_face n). Qed.
Theorem C69_springel : forall edge p l q var, In q l -> amid_all var p l (face (Slopes n) (SpringelCell n edge p l) q var).
Proof. exact (springel_face n). Qed.
(** "gizmo": a value not beyond that of the neighbour, and beyond that of the particle by at most half of their difference, whatever the gradient. *)
Theorem C69_gizmo : forall p q var, (exists k, (k < n)%nat /\ g_r p k <> g_r q k) ->
  (g_W p var <= g_W q var -> g_W p var - 1 / 2 * (g_W q var - g_W p var) <= face (GizmoSlopes n) p q var <= g_W q var) /\
  (g_W q var <= g_W p var -> g_W q var <= face (GizmoSlopes n) p q var <= g_W p var + 1 / 2 * (g_W p var - g_W q var)).
Proof.
  intros p q var H. assert (D : dot n (vsub (g_r q) (g_r p)) (vsub (g_r q) (g_r p)) <> 0).
  { destruct H as (k & Hk & N). apply Rgt_not_eq, Rlt_gt. apply Rlt_le_trans with ((g_r q k - g_r p k) * (g_r q k - g_r p k)); [nra|].
    exact (sumf_term_le n (fun k => (g_r q k - g_r p k) * (g_r q k - g_r p k)) k (fun j _ => Rle_0_sqr (g_r q j - g_r p j)) Hk). }
  destruct (gizmo_face n p q var D) as (x & -> & _). destruct (gizmo_range (g_W p var) (g_W q var) x) as (A & B & _). split; assumption.
Qed.
(** Positive values (density, pressure) stay positive at the faces. *)
Theorem C69_positive : forall edge p l q var, (forall x, In x (p :: l) -> 0 < g_W x var) -> In q l ->
  0 < face (Slopes n) (TVDCell n edge p l) q var /\ 0 < face (Slopes n) (ScalarCell n edge p l) q var /\ 0 < face (Slopes n) (SpringelCell n edge p l) q var /\
  0 < face ZeroSlopes p q var /\ ((exists k, (k < n)%nat /\ g_r p k <> g_r q k) -> 0 < face (GizmoSlopes n) (ScalarCell n edge p l) q var).
Proof.
  intros edge p l q var P Hq. pose proof (P p (or_introl eq_refl)) as Pp. pose proof (P q (or_intror Hq)) as Pq.
  assert (A : forall x, amid_all var p l x -> 0 < x) by (intros x (a & b & Ia & _ & H); specialize (P a Ia); lra).
  split; [|split; [|split; [|split]]].
  - pose proof (tvd_face n edge p l q var Hq) as [H|H]; lra.
  - apply A, scalar_face, Hq.
  - apply A, springel_face, Hq.
  - unfold face. cbn. lra.
  - intros H. assert (D : dot n (vsub (g_r q) (g_r (ScalarCell n edge p l))) (vsub (g_r q) (g_r (ScalarCell n edge p l))) <> 0).
    { destruct H as (k & Hk & N). apply Rgt_not_eq, Rlt_gt. apply Rlt_le_trans with ((g_r q k - g_r p k) * (g_r q k - g_r p k)); [nra|].
      exact (sumf_term_le n (fun k => (g_r q k - g_r p k) * (g_r q k - g_r p k)) k (fun j _ => Rle_0_sqr (g_r q j - g_r p j)) Hk). }
    destruct (gizmo_face n _ q var D) as (x & -> & _). apply gizmo_range; assumption.
Qed.
(** Linear fields are left alone by the null, tvdscalar and springel2009 limiters, and by the pairwise limiter of gizmo. *)
Theorem C69_linear : forall edge p l q var, linear_in n var (g_grad p var) p l -> In q l ->
  let exact_value := g_W p var + dot n (g_grad p var) (halfway p q) in
  face (Slopes n) (NullCell p l) q var = exact_value /\ face (Slopes n) (TVDCell n edge p l) q var = exact_value /\ face (Slopes n) (SpringelCell n edge p l) q var = exact_value /\
  ((exists k, (k < n)%nat /\ g_r p k <> g_r q k) -> face (GizmoSlopes n) (NullCell p l) q var = exact_value).
Proof.
  intros edge p l q var L Hq. cbv zeta. unfold face at 1 2 3, Slopes. cbn [snd].
  change (g_alpha (NullCell p l) var) with 1. change (g_alpha (TVDCell n edge p l) var) with (tvd_loop n edge p var l 1).
  change (g_alpha (SpringelCell n edge p l) var) with (springel_loop n edge p var (wmax p l var - g_W p var) (wmin p l var - g_W p var) l 1).
  rewrite (tvd_linear n p l var L), (springel_linear n p l var L). rewrite !Rmult_1_l. split; [reflexivity|]. split; [reflexivity|]. split; [reflexivity|]. intros H.
  assert (D : dot n (vsub (g_r q) (g_r (NullCell p l))) (vsub (g_r q) (g_r (NullCell p l))) <> 0).
  { destruct H as (k & Hk & N). apply Rgt_not_eq, Rlt_gt. apply Rlt_le_trans with ((g_r q k - g_r p k) * (g_r q k - g_r p k)); [nra|].
    exact (sumf_term_le n (fun k => (g_r q k - g_r p k) * (g_r q k - g_r p k)) k (fun j _ => Rle_0_sqr (g_r q j - g_r p j)) Hk). }
  destruct (gizmo_face n (NullCell p l) q var D) as (x & -> & ->). unfold face, Slopes. cbn [snd]. change (g_alpha (NullCell p l) var) with 1. rewrite Rmult_1_l.
  change (g_W (NullCell p l) var) with (g_W p var). change (g_grad (NullCell p l) var) with (g_grad p var). change (halfway (NullCell p l) q) with (halfway p q).
  rewrite dot_half. rewrite <- (L q Hq). apply gizmo_linear.
Qed.
(** All limiters but gizmo act the same on a system that moves along, which is what C61 asks of them. *)
Theorem C69_moving : forall V edge p l,
  NullCell (moving n V p) (map (moving n V) l) = moving n V (NullCell p l) /\
  TVDCell n edge (moving n V p) (map (moving n V) l) = moving n V (TVDCell n edge p l) /\
  ScalarCell n edge (moving n V p) (map (moving n V) l) = moving n V (ScalarCell n edge p l) /\
  SpringelCell n edge (moving n V p) (map (moving n V) l) = moving n V (SpringelCell n edge p l) /\
  forall q d, Slopes n (moving n V p) (moving n V q) d = Slopes n p q d /\ ZeroSlopes (moving n V p) (moving n V q) d = ZeroSlopes p q d.
Proof.
  intros V edge p l. split; [reflexivity|]. split; [apply tvd_moving|]. split; [apply scalar_moving|]. split; [apply springel_moving|]. intros q d. split; reflexivity.
Qed.
End C69.
Print Assumptions C69_tvd.
Print Assumptions C69_scalar.
Print Assumptions C69_springel.
Print Assumptions C69_gizmo.
Print Assumptions C69_positive.
Print Assumptions C69_linear.
Print Assumptions C69_moving.

(** A particle on a line. *)
Definition on_line (x W g : R) : gpart := mkgpart (fun _ => x) (fun _ => 0) (fun _ => 0) 1 1 1 1 (fun _ _ => 0) (fun _ => W) (fun _ _ => g) (fun _ => 1) false.
Lemma line_dot : forall a b, dot 1 (fun _ => a) (fun _ => b) = a * b.
Proof. intros. unfold dot. cbn. lra. Qed.
(** The scalar limiter (and so gizmo) diminishes the slope of a linear field: the value at the face is not the exact one. *)
Theorem C69_scalar_linear_refuted : exists p l q var, linear_in 1 var (g_grad p var) p l /\ In q l /\
  face (Slopes 1) (ScalarCell 1 true p l) q var <> g_W p var + dot 1 (g_grad p var) (halfway p q) /\
  face (GizmoSlopes 1) (ScalarCell 1 true p l) q var <> g_W p var + dot 1 (g_grad p var) (halfway p q).
Proof.
  set (p := on_line 0 2 1). set (q := on_line 1 3 1). set (q' := on_line (-1) 1 1). exists p, (q :: q' :: nil), q, O.
  assert (D : face (Slopes 1) (ScalarCell 1 true p (q :: q' :: nil)) q 0 = 2 + 100 / 204).
  { unfold face, Slopes, ScalarCell. cbn [snd set_alpha g_alpha g_W g_grad]. unfold wmax, wmin, drmaxsqd. cbn [fold_left].
    unfold p, q, q'. cbn [on_line g_W g_grad g_r g_h]. unfold halfway, vsub. cbn [g_r set_alpha on_line]. rewrite !line_dot.
    rewrite (Rmax_right 0) by lra. rewrite (Rmax_left ((1 - 0) * (1 - 0))) by lra. replace ((1 - 0) * (1 - 0)) with 1 by ring. replace (1 * 1) with 1 by ring. rewrite sqrt_1.
    rewrite (Rmax_right 1 (2 * 1)) by lra. destruct (Req_EM_T (2 * 1 * (51 / 100) * 1) 0); [lra|].
    rewrite (Rmax_right 2 3), (Rmax_left 3 1), (Rmin_left 2 3), (Rmin_right 2 1) by lra. rewrite (Rmin_left ((3 - 2) / _)) by lra. rewrite Rmin_right by lra. rewrite Rmax_right by lra. lra. }
  assert (X : g_W p O + dot 1 (g_grad p O) (halfway p q) = 2 + 1 / 2) by (unfold p, q, halfway; cbn [on_line g_W g_grad g_r]; rewrite line_dot; lra).
  split; [|split; [left; reflexivity|]].
  - intros u [<-|[<-|[]]]; unfold p, q, q', vsub; cbn [on_line g_W g_grad g_r]; rewrite line_dot; lra.
  - rewrite X. split; [rewrite D; lra|].
    destruct (gizmo_face 1 (ScalarCell 1 true p (q :: q' :: nil)) q O) as (x & -> & Ex).
    { unfold p, q, vsub. cbn. lra. }
    rewrite D in Ex. subst x. change (g_W (ScalarCell 1 true p (q :: q' :: nil)) 0%nat) with 2. change (g_W q 0%nat) with 3. unfold gizmo_mid.
    replace (rltb 2 3) with true by (symmetry; apply rltb_true; lra). rewrite (Rmin_left 2 3), (Rabs_left (2 - 3)) by lra.
    replace (sgn (2 - 1 / 2 * - (2 - 3)) =? sgn 2)%Z with true.
    + rewrite (Rmin_right _ (2 + 100 / 204)) by lra. rewrite Rmax_right by lra. lra.
    + symmetry. apply Z.eqb_eq. unfold sgn, rltb. repeat destruct Rlt_dec; lra || reflexivity.
Qed.
Print Assumptions C69_scalar_linear_refuted.
(** The slopes of gizmo depend on the velocity of the observer: velocities 1 and 3 with a steep gradient of the other sign, and the same in a frame in
    which they are 11 and 13. *)
Theorem C69_gizmo_moving_refuted : exists p q V, snd (GizmoSlopes 1 (moving 1 V p) (moving 1 V q) (halfway p q)) 0%nat <> snd (GizmoSlopes 1 p q (halfway p q)) 0%nat.
Proof.
  set (p := on_line 0 1 (-20)). set (q := on_line 1 3 0). exists p, q, (fun _ => 10).
  assert (A : face (GizmoSlopes 1) p q O = 1 / 2).
  { destruct (gizmo_face 1 p q O) as (x & -> & ->); [unfold p, q, vsub; cbn; lra|].
    replace (face (Slopes 1) p q O) with (-9) by (unfold face, p, q, Slopes, halfway; cbn [snd on_line g_W g_alpha g_grad g_r]; rewrite line_dot; lra).
    change (g_W p 0%nat) with 1. change (g_W q 0%nat) with 3. unfold gizmo_mid.
    replace (rltb 1 3) with true by (symmetry; apply rltb_true; lra). rewrite (Rmin_left 1 3), (Rabs_left (1 - 3)) by lra.
    replace (sgn (1 - 1 / 2 * - (1 - 3)) =? sgn 1)%Z with false.
    - unfold damp. destruct (Req_EM_T 1 0); [lra|]. rewrite (Rabs_pos_eq 1) by lra. replace (1 / (1 + 1 / 2 * - (1 - 3) / 1)) with (1 / 2) by (field; lra). rewrite (Rmin_right _ (-9)) by lra. rewrite Rmax_left by lra. lra.
    - symmetry. apply Z.eqb_neq. unfold sgn, rltb. repeat destruct Rlt_dec; (exfalso; lra) || lia. }
  assert (B : face (GizmoSlopes 1) (moving 1 (fun _ => 10) p) (moving 1 (fun _ => 10) q) O = 10).
  { destruct (gizmo_face 1 (moving 1 (fun _ => 10) p) (moving 1 (fun _ => 10) q) O) as (x & -> & ->); [unfold p, q, vsub; cbn; lra|].
    replace (face (Slopes 1) (moving 1 (fun _ => 10) p) (moving 1 (fun _ => 10) q) O) with 1 by (unfold face, p, q, Slopes, halfway; cbn [snd moving on_line g_W g_alpha g_grad g_r Nat.ltb Nat.leb]; rewrite line_dot; lra).
    change (g_W (moving 1 (fun _ => 10) p) 0%nat) with (1 + 10). change (g_W (moving 1 (fun _ => 10) q) 0%nat) with (3 + 10). unfold gizmo_mid.
    replace (rltb (1 + 10) (3 + 10)) with true by (symmetry; apply rltb_true; lra). rewrite (Rmin_left (1 + 10) (3 + 10)), (Rabs_left (1 + 10 - (3 + 10))) by lra.
    replace (sgn (1 + 10 - 1 / 2 * - (1 + 10 - (3 + 10))) =? sgn (1 + 10))%Z with true.
    - rewrite (Rmin_right _ 1) by lra. rewrite Rmax_left by lra. lra.
    - symmetry. apply Z.eqb_eq. unfold sgn, rltb. repeat destruct Rlt_dec; lra || reflexivity. }
  unfold face in A, B. change (halfway (moving 1 (fun _ => 10) p) (moving 1 (fun _ => 10) q)) with (halfway p q) in B.
  change (g_W (moving 1 (fun _ => 10) p) 0%nat) with (1 + 10) in B. change (g_W p 0%nat) with 1 in A. lra.
Qed.
Print Assumptions C69_gizmo_moving_refuted.

(** ** C70 *)
Section C70.
Variables (n : nat) (w w1 : R -> R) (range : R).
Hypothesis Hn : (1 <= n <= 3)%nat.
Notation ComputeGradients := (ComputeGradients n (fun s2 => w (sqrt s2)) w1).
(** Unless the particle is marked as having bad gradients, the gradient of a variable that depends linearly on position is exact. *)
Theorem C70_linear : forall p l var g, linear_in n var g p l -> g_bad (ComputeGradients p l) = false -> forall k, (k < n)%nat -> g_grad (ComputeGradients p l) var k = g k.
Proof. intros p l var g L B. exact (grad_linear n (fun s2 => w (sqrt s2)) w1 Hn p l var g L B). Qed.
(** A variable that has the same value everywhere has no gradient, bad or not. *)
Theorem C70_uniform : forall p l var, (forall q, In q l -> g_W q var = g_W p var) -> forall k, g_grad (ComputeGradients p l) var k = 0.
Proof. exact (grad_uniform n (fun s2 => w (sqrt s2)) w1). Qed.
Notation near p := (fun q => w (Vec.norm n (vsub (g_r q) (g_r p)) / g_h p)).
Lemma near_weight : forall p q, 0 < g_h p -> weight n (fun s2 => w (sqrt s2)) p q = g_hfactor p / g_ndens p * near p q.
Proof.
  intros p q Hh. unfold weight, Vec.norm. pose proof (dot_nonneg n (vsub (g_r q) (g_r p))) as D. set (d := dot n (vsub (g_r q) (g_r p)) (vsub (g_r q) (g_r p))) in *.
  replace (sqrt (d * (1 / (g_h p * g_h p)))) with (sqrt d / g_h p); [unfold Rdiv; ring|].
  symmetry. rewrite <- (sqrt_square (sqrt d / g_h p)).
  - f_equal. replace (sqrt d / g_h p * (sqrt d / g_h p)) with (sqrt d * sqrt d * (1 / (g_h p * g_h p))) by (field; lra). rewrite sqrt_sqrt by exact D. reflexivity.
  - apply Rmult_le_pos; [apply sqrt_pos | left; apply Rinv_0_lt_compat, Hh].
Qed.
(** If the neighbours within range span all directions, B is the inverse of the matrix of second moments. *)
Theorem C70_inverse : forall om p l, density_kernel n range w w1 om -> 0 < g_h p -> 0 < g_hfactor p -> 0 < g_ndens p -> spanning n (near p) p l ->
  is_id n (mmul n (g_B (ComputeGradients p l)) (fun k kk => g_hfactor p / g_ndens p * lsum (fun q => vsub (g_r q) (g_r p) k * vsub (g_r q) (g_r p) kk * near p q) l)).
Proof.
  intros om p l K Hh Hf Hd S. assert (P : 0 < g_hfactor p / g_ndens p) by (apply Rmult_lt_0_compat; [exact Hf | apply Rinv_0_lt_compat, Hd]).
  assert (D : determinant n (e_loop n (fun s2 => w (sqrt s2)) p l (fun _ _ => 0)) <> 0).
  { apply spanning_det; [exact Hn| |].
    - intros q _. rewrite near_weight by exact Hh. apply Rmult_le_pos; [lra|]. apply (dk_pos _ _ _ _ _ K). apply Rmult_le_pos; [apply norm_nonneg | left; apply Rinv_0_lt_compat, Hh].
    - intros x Hx. destruct (S x Hx) as (q & Iq & Pq & Nq). exists q. split; [exact Iq|]. split; [|exact Nq]. rewrite near_weight by exact Hh. apply Rmult_lt_0_compat; assumption. }
  pose proof (inverse_of n _ Hn D) as I. intros i j Hi Hj. rewrite <- (I i j Hi Hj). unfold mmul.
  replace (g_B (ComputeGradients p l)) with (InvertMatrix n (e_loop n (fun s2 => w (sqrt s2)) p l (fun _ _ => 0))) by (unfold M_Grad.ComputeGradients; destruct (if Req_EM_T _ _ then _ else _); reflexivity).
  apply sumf_ext. intros k _. f_equal. rewrite e_sum, Rplus_0_l, <- lsum_scal. apply lsum_ext. intros q _. rewrite near_weight by exact Hh. ring.
Qed.
(** If some direction is at right angles to the ways to all neighbours within range, the particle is marked. *)
Theorem C70_flat : forall p l x, 0 < g_h p -> (exists k, (k < n)%nat /\ x k <> 0) -> (forall q, In q l -> near p q = 0 \/ dot n x (vsub (g_r q) (g_r p)) = 0) ->
  g_bad (ComputeGradients p l) = true.
Proof.
  intros p l x Hh Hx H. unfold M_Grad.ComputeGradients. destruct (Req_EM_T _ 0) as [_|N]; [reflexivity|]. exfalso. apply N. apply (flat_det n _ Hn p l x Hx).
  intros q Hq. rewrite near_weight by exact Hh. destruct (H q Hq) as [->|E]; [left; ring | right; exact E].
Qed.
(** If the neighbours are spread evenly in all directions, it is not. *)
Theorem C70_even : forall p l lam, 0 < g_h p -> 0 < g_hfactor p -> 0 < g_ndens p -> lam <> 0 ->
  (forall k kk, (k < n)%nat -> (kk < n)%nat -> lsum (fun q => vsub (g_r q) (g_r p) k * vsub (g_r q) (g_r p) kk * near p q) l = if Nat.eqb k kk then lam else 0) ->
  g_bad (ComputeGradients p l) = false.
Proof.
  intros p l lam Hh Hf Hd Hl H. assert (P : 0 < g_hfactor p / g_ndens p) by (apply Rmult_lt_0_compat; [exact Hf | apply Rinv_0_lt_compat, Hd]).
  set (c := g_hfactor p / g_ndens p * lam). assert (Hc : c <> 0) by (unfold c; intros Z; apply Rmult_integral in Z; lra).
  unfold M_Grad.ComputeGradients. set (E := e_loop _ _ _ _ _).
  assert (F : forall k kk, (k < n)%nat -> (kk < n)%nat -> E k kk = if Nat.eqb k kk then c else 0).
  { intros k kk Hk Hkk. unfold E. rewrite e_sum, Rplus_0_l. transitivity (g_hfactor p / g_ndens p * (if Nat.eqb k kk then lam else 0)).
    - rewrite <- (H k kk Hk Hkk), <- lsum_scal. apply lsum_ext. intros q _. rewrite near_weight by exact Hh. ring.
    - destruct (Nat.eqb k kk); unfold c; ring. }
  clearbody E c. clear -F Hc Hn. assert (C : n = 1%nat \/ n = 2%nat \/ n = 3%nat) by lia.
  destruct C as [ -> |[ -> | -> ]]; unfold determinant, sqd_condition_number; cbn [sumf InvertMatrix invert1 invert2 invert3 mat3]; rewrite !F by lia; cbn [Nat.eqb].
  - destruct (Req_EM_T c 0); [contradiction|]. replace (rltb _ 10000) with true; [reflexivity|]. symmetry. apply rltb_true. cbn [INR]. replace (_ / _) with 1 by (field; exact Hc). lra.
  - destruct (Req_EM_T _ 0) as [Z|_]; [exfalso; apply Hc; nra|]. replace (rltb _ 10000) with true; [reflexivity|]. symmetry. apply rltb_true. cbn [INR]. replace (_ / _) with 1 by (field; lra). lra.
  - destruct (Req_EM_T _ 0) as [Z|_]; [exfalso; apply (Rmult_integral_contrapositive_currified c (c * c)); [exact Hc | apply Rmult_integral_contrapositive_currified; exact Hc | lra]|].
    replace (rltb _ 10000) with true; [reflexivity|]. symmetry. apply rltb_true. cbn [INR]. replace (_ / _) with 1 by (field; lra). lra.
Qed.
Theorem C70_moving : forall V p l, ComputeGradients (moving n V p) (map (moving n V) l) = moving n V (ComputeGradients p l).
Proof. intros V p l. apply grad_moving. Qed.
End C70.
Print Assumptions C70_linear.
Print Assumptions C70_uniform.
Print Assumptions C70_inverse.
Print Assumptions C70_flat.
Print Assumptions C70_even.
Print Assumptions C70_moving.

(** Bad gradients are not exact for linear variables: particles 1/2 apart along a line in two dimensions. *)
Definition in_plane (x : R) : gpart :=
  mkgpart (fun k => match k with O => x | _ => 0 end) (fun _ => 0) (fun _ => 0) 1 (m4_w0 2 0 + 2 * m4_w0 2 (1 / 2)) 1 1 (fun _ _ => 0) (fun _ => x) (fun _ _ => 0) (fun _ => 1) false.
Lemma plane_dist : forall x y, Vec.norm 2 (vsub (g_r (in_plane x)) (g_r (in_plane y))) = Rabs (x - y).
Proof. intros x y. unfold Vec.norm, dot, vsub. cbn. rewrite <- sqrt_Rsqr_abs. unfold Rsqr. f_equal. ring. Qed.
Theorem C70_bad_refuted : exists p l g, (forall var, linear_in 2 var g p l) /\
  g_ndens p = lsum (fun q => m4_w0 2 (Vec.norm 2 (vsub (g_r q) (g_r p)))) (p :: l) /\
  let p' := ComputeGradients 2 (fun s2 => m4_w0 2 (sqrt s2)) (m4_w1 2) p l in g_bad p' = true /\ forall var, g_grad p' var 0%nat <> g 0%nat.
Proof.
  set (p := in_plane 0). set (q := in_plane (1 / 2)). set (q' := in_plane (- (1 / 2))). exists p, (q :: q' :: nil), (fun k => match k with O => 1 | _ => 0 end).
  split; [|split].
  - intros var u [<-|[<-|[]]]; unfold p, q, q', dot, vsub; cbn; lra.
  - cbn [lsum]. unfold p, q, q'. rewrite !plane_dist. rewrite Rminus_0_r. replace (1 / 2 - 0) with (1 / 2) by lra. replace (- (1 / 2) - 0) with (- (1 / 2)) by lra.
    rewrite Rabs_Ropp, Rabs_R0, (Rabs_pos_eq (1 / 2)) by lra. cbn [in_plane g_ndens]. ring.
  - cbv zeta. assert (B : g_bad (ComputeGradients 2 (fun s2 => m4_w0 2 (sqrt s2)) (m4_w1 2) p (q :: q' :: nil)) = true).
    { apply (C70_flat 2 (m4_w0 2) (m4_w1 2) ltac:(lia) p (q :: q' :: nil) (fun k => match k with O => 0 | _ => 1 end)); [cbn; lra | exists 1%nat; split; [lia | lra]|].
      intros u [<-|[<-|[]]]; right; unfold p, q, q', dot, vsub; cbn; lra. }
    split; [exact B|]. intros var. revert B. unfold ComputeGradients. destruct (if Req_EM_T _ _ then _ else _); [discriminate|]. intros _. cbn [g_grad set_grad sph_loop].
    fold (Vec.norm 2 (vsub (g_r q) (g_r p))). fold (Vec.norm 2 (vsub (g_r q') (g_r p))). unfold p, q, q'. rewrite !plane_dist.
    replace (1 / 2 - 0) with (1 / 2) by lra. replace (- (1 / 2) - 0) with (- (1 / 2)) by lra. rewrite Rabs_Ropp, (Rabs_pos_eq (1 / 2)) by lra.
    destruct (Req_EM_T (1 / 2) 0); [lra|]. cbn [in_plane g_hfactor g_ndens g_W g_h g_r]. unfold vsub. replace (1 / 2 / 1) with (1 / 2) by lra.
    unfold m4_w0, m4_w1. repeat (replace (rltb _ 1) with true by (symmetry; apply rltb_true; lra)).
    set (c := m4_kernnorm 2). assert (Hc : 0 < c) by (unfold c, m4_kernnorm; pose proof PI_RGT_0; unfold invpi; apply Rmult_lt_0_compat; [|lra]; apply Rinv_0_lt_compat; lra).
    match goal with |- ?x <> 1 => replace x with (5 / 13) by (field; lra) end. lra.
Qed.
Print Assumptions C70_bad_refuted.

(** ** Concrete cases *)
Section Cases.
Let p := on_line 0 2 1.
Let l := on_line 1 3 1 :: on_line (-1) 1 1 :: nil.
Lemma line_near : forall x W g, m4_w0 1 (Vec.norm 1 (vsub (g_r (on_line x W g)) (g_r p)) / g_h p) = m4_w0 1 (Rabs x).
Proof.
  intros x W g. f_equal. unfold Vec.norm, p. cbn [on_line g_r g_h]. unfold dot, vsub. cbn [sumf]. rewrite <- sqrt_Rsqr_abs. unfold Rsqr. unfold Rdiv. rewrite Rinv_1, Rmult_1_r. f_equal. ring.
Qed.
Lemma line_w : m4_w0 1 1 = 1 / 6.
Proof. unfold m4_w0, m4_kernnorm. replace (rltb 1 1) with false by (symmetry; apply rltb_false; lra). replace (rltb 1 2) with true by (symmetry; apply rltb_true; lra). field. Qed.
Lemma line_abs : Rabs (-1) = 1. Proof. rewrite Rabs_left; lra. Qed.
(** Neighbours on both sides: even, spanning, not marked; the gradient of a linear variable is found. *)
Example C70_ex : g_bad (ComputeGradients 1 (fun s2 => m4_w0 1 (sqrt s2)) (m4_w1 1) p l) = false /\ g_grad (ComputeGradients 1 (fun s2 => m4_w0 1 (sqrt s2)) (m4_w1 1) p l) 0%nat 0%nat = 1.
Proof.
  assert (B : g_bad (ComputeGradients 1 (fun s2 => m4_w0 1 (sqrt s2)) (m4_w1 1) p l) = false).
  { apply (C70_even 1 (m4_w0 1) (m4_w1 1) ltac:(lia) p l (1 / 3)); try (cbn; lra). intros k kk Hk Hkk. replace k with O by lia. replace kk with O by lia.
    unfold l. cbn [lsum Nat.eqb]. rewrite !line_near, line_abs, Rabs_R1, line_w. unfold vsub, p. cbn [on_line g_r]. lra. }
  split; [exact B|]. apply (C70_linear 1 (m4_w0 1) (m4_w1 1) ltac:(lia) p l O (fun _ => 1)); [|exact B | lia].
  intros q [<-|[<-|[]]]; unfold p, vsub; cbn [on_line g_W g_r]; rewrite line_dot; lra.
Qed.
Example C70_ex_spanning : spanning 1 (fun q => m4_w0 1 (Vec.norm 1 (vsub (g_r q) (g_r p)) / g_h p)) p l.
Proof.
  intros x (k & Hk & N). replace k with O in N by lia. exists (on_line 1 3 1). split; [left; reflexivity|]. rewrite line_near, Rabs_R1, line_w. split; [lra|].
  unfold dot, vsub, p. cbn. lra.
Qed.
(** A maximum: the gradient (if not zero) is limited to nothing. *)
Example C69_ex : let top := on_line 0 2 1 in let m := on_line 1 1 0 :: on_line (-1) 1 0 :: nil in
  face (Slopes 1) (TVDCell 1 true top m) (on_line 1 1 0) 0%nat = 2 /\ face (Slopes 1) (ScalarCell 1 true top m) (on_line 1 1 0) 0%nat = 2.
Proof.
  cbv zeta. split.
  - unfold face, Slopes, TVDCell. cbn [snd set_alpha g_alpha g_W g_grad tvd_loop on_line]. unfold vsub. cbn [on_line g_r]. rewrite !line_dot.
    destruct (Req_EM_T (1 * (1 - 0) * (51 / 100)) 0); [lra|]. destruct (Req_EM_T (1 * (-1 - 0) * (51 / 100)) 0); [lra|].
    replace ((1 - 2) / (1 * (1 - 0) * (51 / 100))) with (- (100 / 51)) by lra. rewrite (Rmin_right 1 (- (100 / 51))), (Rmax_left 0) by lra. rewrite (Rmin_right 1 0) by lra.
    rewrite Rmin_left by apply Rmax_l. ring.
  - destruct (C69_scalar 1 true (on_line 0 2 1) (on_line 1 1 0 :: on_line (-1) 1 0 :: nil) (on_line 1 1 0) 0%nat (or_introl eq_refl)) as (a & b & _ & Ib & _ & H).
    unfold face, Slopes, ScalarCell. cbn [snd set_alpha g_alpha g_W g_grad on_line]. unfold wmax, wmin. cbn [fold_left on_line g_W].
    rewrite (Rmax_left 2 1), (Rmax_left 2 1) by lra. replace (2 - 2) with 0 by ring.
    match goal with |- context [Req_EM_T ?x 0] => destruct (Req_EM_T x 0) as [Z|NZ]; [exfalso | set (X := x) in *] end.
    + rewrite line_dot in Z. replace (1 * 1) with 1 in Z by ring. rewrite sqrt_1 in Z. change (g_h (on_line 0 2 1)) with 1 in Z. match type of Z with context [Rmax ?a ?b] => pose proof (Rmax_r a b) end. lra.
    + replace (0 / X) with 0 by (field; exact NZ). match goal with |- context [Rmax 0 ?x] => replace (Rmax 0 x) with 0 end; [ring|]. symmetry. apply Rmax_left.
      eapply Rle_trans; [apply Rmin_r|]. apply Rmin_l.
Qed.
End Cases.
