From Verif Require Import Prelude L_Prelude Vec M_KDTree M_Search M_Stock S_Stock.
From Coq Require Import Reals Lra Permutation.
Local Open Scope R_scope.

(** ** Sums over lists *)
Section Sums.
Context {A : Type}.
Implicit Types (f g : A -> R) (l : list A).
Lemma lsum_app : forall f l m, lsum f (l ++ m) = lsum f l + lsum f m.
Proof. induction l; intros; cbn; [lra|rewrite IHl; lra]. Qed.
Lemma lsum_ext : forall f g l, (forall x, In x l -> f x = g x) -> lsum f l = lsum g l.
Proof. induction l; intros H; cbn; [easy|]. rewrite H by now left. rewrite IHl; [easy|]. intros; apply H; now right. Qed.
Lemma lsum_plus : forall f g l, lsum (fun x => f x + g x) l = lsum f l + lsum g l.
Proof. induction l; cbn; [lra|rewrite IHl; lra]. Qed.
Lemma lsum_scal : forall c f l, lsum (fun x => c * f x) l = c * lsum f l.
Proof. induction l; cbn; [lra|rewrite IHl; lra]. Qed.
Lemma lsum_nonneg : forall f l, (forall x, In x l -> 0 <= f x) -> 0 <= lsum f l.
Proof.
  induction l; intros H; cbn; [lra|]. assert (0 <= f a) by (apply H; now left).
  assert (0 <= lsum f l) by (apply IHl; intros; apply H; now right). lra.
Qed.
Lemma lsum_zero_all : forall f l, (forall x, In x l -> 0 <= f x) -> lsum f l <= 0 -> forall x, In x l -> f x = 0.
Proof.
  induction l; intros H Z x Hx; [easy|]. cbn in Z.
  assert (0 <= f a) by (apply H; now left).
  assert (0 <= lsum f l) by (apply lsum_nonneg; intros; apply H; now right).
  destruct Hx as [<-|Hx]; [lra|]. apply IHl; auto; [|lra]. intros; apply H; now right.
Qed.
Lemma lsum_zero : forall f l, (forall x, In x l -> f x = 0) -> lsum f l = 0.
Proof. induction l; intros H; cbn; [easy|]. rewrite H by now left. rewrite IHl; [lra|]. intros; apply H; now right. Qed.
Lemma lsum_perm : forall f l m, Permutation l m -> lsum f l = lsum f m.
Proof. induction 1; cbn; lra. Qed.
Lemma lsum_sumf : forall n (F : A -> nat -> R) l,
  lsum (fun x => sumf n (F x)) l = sumf n (fun k => lsum (fun x => F x k) l).
Proof.
  intros n F. induction l; cbn; [now rewrite sumf_zero|]. rewrite IHl, <- sumf_plus. reflexivity.
Qed.
End Sums.

(** ** Bounds *)
Lemma lower_le : forall lo x, lower lo x <= lo /\ lower lo x <= x /\ (lower lo x = lo \/ lower lo x = x).
Proof. intros. unfold lower. destruct (Rlt_dec x lo); repeat split; try lra; auto. Qed.
Lemma raise_ge : forall hi x, hi <= raise hi x /\ x <= raise hi x /\ (raise hi x = hi \/ raise hi x = x).
Proof. intros. unfold raise. destruct (Rlt_dec hi x); repeat split; try lra; auto. Qed.

(** Running extent: bounds, each either the initial value or attained. *)
Definition runext {A} (lo0 hi0 lo hi : R) (f g : A -> R) (l : list A) : Prop :=
  lo <= lo0 /\ hi0 <= hi /\ bounds lo hi f g l /\
  (lo = lo0 \/ exists x, In x l /\ f x = lo) /\ (hi = hi0 \/ exists x, In x l /\ g x = hi).

Lemma runext_nil : forall A (f g : A -> R) lo hi, runext lo hi lo hi f g [].
Proof. intros. repeat split; try lra; auto; easy. Qed.
Lemma runext_snoc : forall A (f g : A -> R) lo0 hi0 lo hi l a, runext lo0 hi0 lo hi f g l ->
  runext lo0 hi0 (lower lo (f a)) (raise hi (g a)) f g (l ++ [a]).
Proof.
  intros A f g lo0 hi0 lo hi l a (A1 & A2 & A3 & A4 & A5).
  destruct (lower_le lo (f a)) as (B1 & B2 & B3). destruct (raise_ge hi (g a)) as (C1 & C2 & C3).
  split; [lra|]. split; [lra|]. split; [|split].
  - intros x Hx. apply in_app_or in Hx as [Hx|[<-|[]]]; [|lra]. destruct (A3 x Hx). lra.
  - destruct B3 as [->| ->].
    + destruct A4 as [->|(x & ? & ?)]; [now left|]. right. exists x. split; [apply in_or_app; now left|easy].
    + right. exists a. split; [apply in_or_app; right; now left|easy].
  - destruct C3 as [->| ->].
    + destruct A5 as [->|(x & ? & ?)]; [now left|]. right. exists x. split; [apply in_or_app; now left|easy].
    + right. exists a. split; [apply in_or_app; right; now left|easy].
Qed.
Lemma runext_extent : forall A (f g : A -> R) big lo hi l, runext big (- big) lo hi f g l -> extent big lo hi f g l.
Proof.
  intros A f g big lo hi l (A1 & A2 & A3 & A4 & A5). split; [exact A3|].
  intros Hne Hb. destruct l as [|a l]; [easy|].
  destruct (Hb a (or_introl eq_refl)) as [Ha1 Ha2]. destruct (A3 a (or_introl eq_refl)) as [Hc1 Hc2].
  split.
  - destruct A4 as [->|A4]; [|exact A4]. exists a. split; [now left|lra].
  - destruct A5 as [->|A5]; [|exact A5]. exists a. split; [now left|lra].
Qed.
Lemma runext_merge : forall A (f g : A -> R) big lo1 hi1 lo2 hi2 l1 l2,
  runext big (- big) lo1 hi1 f g l1 -> runext big (- big) lo2 hi2 f g l2 ->
  runext big (- big) (Rmin lo2 lo1) (Rmax hi2 hi1) f g (l1 ++ l2).
Proof.
  intros A f g big lo1 hi1 lo2 hi2 l1 l2 (A1 & A2 & A3 & A4 & A5) (B1 & B2 & B3 & B4 & B5).
  assert (M1 := Rmin_l lo2 lo1). assert (M2 := Rmin_r lo2 lo1).
  assert (M3 := Rmax_l hi2 hi1). assert (M4 := Rmax_r hi2 hi1).
  split; [lra|]. split; [lra|]. split; [|split].
  - intros x Hx. apply in_app_or in Hx as [Hx|Hx]; [destruct (A3 x Hx)|destruct (B3 x Hx)]; lra.
  - unfold Rmin. destruct (Rle_dec lo2 lo1).
    + destruct B4 as [->|(x & ? & ?)]; [now left|]. right. exists x. split; [apply in_or_app; now right|easy].
    + destruct A4 as [->|(x & ? & ?)]; [now left|]. right. exists x. split; [apply in_or_app; now left|easy].
  - unfold Rmax. destruct (Rle_dec hi2 hi1).
    + destruct A5 as [->|(x & ? & ?)]; [now left|]. right. exists x. split; [apply in_or_app; now left|easy].
    + destruct B5 as [->|(x & ? & ?)]; [now left|]. right. exists x. split; [apply in_or_app; now right|easy].
Qed.

(** The half diagonal of the box bounds the distance from its middle. *)
Lemma box_sphere : forall n (lo hi x : vec), (forall k, (k < n)%nat -> lo k <= x k <= hi k) ->
  norm n (vsub x (fun k => (1/2) * (lo k + hi k)))
  <= sqrt (dot n (fun k => (1/2) * (hi k - lo k)) (fun k => (1/2) * (hi k - lo k))).
Proof.
  intros. unfold norm. apply sqrt_le_1_alt. unfold dot. apply sumf_le. intros k Hk.
  specialize (H k Hk). unfold vsub. nra.
Qed.

(** ** Moments *)
Section Moments.
Context {A : Type}.
Variables (ndim : nat) (m : A -> R) (r : A -> vec).
Definition S0 l := lsum m l.
Definition S1 i l := lsum (fun x => m x * r x i) l.
Definition S2 i j l := lsum (fun x => m x * (r x i * r x j)) l.

Lemma second_moment_expand : forall c i j l,
  second_moment ndim m r c i j l =
  3 * (S2 i j l - c j * S1 i l - c i * S1 j l + c i * c j * S0 l)
  - kron i j * sumf ndim (fun k => S2 k k l - 2 * c k * S1 k l + c k * c k * S0 l).
Proof.
  intros c i j l. unfold second_moment.
  transitivity (lsum (fun x => 3 * (m x * (r x i * r x j) + - c j * (m x * r x i) + - c i * (m x * r x j) + (c i * c j) * m x)
     + - kron i j * sumf ndim (fun k => m x * (r x k * r x k) + (- (2 * c k)) * (m x * r x k) + (c k * c k) * m x)) l).
  - apply lsum_ext. intros x _.
    assert (E : sumf ndim (fun k => m x * (r x k * r x k) + - (2 * c k) * (m x * r x k) + c k * c k * m x)
              = m x * dot ndim (vsub (r x) c) (vsub (r x) c)).
    { unfold dot. rewrite <- sumf_scal. apply sumf_ext. intros. unfold vsub. ring. }
    rewrite E. ring.
  - rewrite lsum_plus, lsum_scal, lsum_scal.
    rewrite lsum_sumf.
    rewrite !lsum_plus, !lsum_scal.
    fold (S2 i j l) (S1 i l) (S1 j l) (S0 l).
    assert (E : sumf ndim (fun k => lsum (fun x => m x * (r x k * r x k) + - (2 * c k) * (m x * r x k) + c k * c k * m x) l)
              = sumf ndim (fun k => S2 k k l - 2 * c k * S1 k l + c k * c k * S0 l)).
    { apply sumf_ext. intros k _. rewrite !lsum_plus, !lsum_scal. unfold S2, S1, S0. ring. }
    rewrite E. ring.
Qed.

Lemma parallel_axis : forall com c i j l, (forall k, S0 l * com k = S1 k l) ->
  second_moment ndim m r c i j l =
  second_moment ndim m r com i j l
  + S0 l * (3 * (com i - c i) * (com j - c j) - kron i j * dot ndim (vsub com c) (vsub com c)).
Proof.
  intros com c i j l H. rewrite !second_moment_expand.
  assert (E : sumf ndim (fun k => S2 k k l - 2 * c k * S1 k l + c k * c k * S0 l)
            = sumf ndim (fun k => S2 k k l - 2 * com k * S1 k l + com k * com k * S0 l)
              + S0 l * dot ndim (vsub com c) (vsub com c)).
  { unfold dot. rewrite <- sumf_scal, <- sumf_plus. apply sumf_ext. intros k _.
    rewrite <- !H. unfold vsub. ring. }
  rewrite E, <- !H. ring.
Qed.
Lemma second_moment_app : forall c i j l l', second_moment ndim m r c i j (l ++ l') =
  second_moment ndim m r c i j l + second_moment ndim m r c i j l'.
Proof. intros. unfold second_moment. apply lsum_app. Qed.
Lemma second_moment_zero : forall c i j l, (forall x, In x l -> m x = 0) -> second_moment ndim m r c i j l = 0.
Proof. intros. apply lsum_zero. intros x Hx. rewrite H by easy. ring. Qed.
End Moments.

Lemma quad_term_spec : forall ndim M d k i j, (1 <= ndim <= 3)%nat -> q_index ndim k = Some (i, j) ->
  (i < ndim)%nat -> (j < ndim)%nat ->
  quad_term ndim M d k = M * (3 * d i * d j - kron i j * dot ndim d d).
Proof.
  intros ndim M d k i j Hn Hq Hi Hj.
  assert (ndim = 1 \/ ndim = 2 \/ ndim = 3)%nat as X by lia.
  do 5 (destruct k as [|k]; [cbn in Hq; injection Hq as <- <-;
    repeat (destruct X as [X|X]; [subst ndim; try (exfalso; lia); unfold quad_term, kron; cbn [Nat.eqb]; ring|]);
    subst ndim; try (exfalso; lia); unfold quad_term, kron; cbn [Nat.eqb]; ring|]).
  easy.
Qed.

Lemma max_snoc : forall A (f : A -> R) x l a, x = 0 \/ (exists p, In p l /\ f p = x) ->
  Rmax x (f a) = 0 \/ exists p, In p (l ++ [a]) /\ f p = Rmax x (f a).
Proof.
  intros A f x l a H. unfold Rmax. destruct (Rle_dec x (f a)).
  - right. exists a. split; [apply in_or_app; right; now left|reflexivity].
  - destruct H as [->|(p & I & E)]; [now left|]. right. exists p. split; [apply in_or_app; now left|exact E].
Qed.
Lemma max_merge : forall A (f : A -> R) x y l m, x = 0 \/ (exists p, In p l /\ f p = x) -> y = 0 \/ (exists p, In p m /\ f p = y) ->
  Rmax x y = 0 \/ exists p, In p (l ++ m) /\ f p = Rmax x y.
Proof.
  intros A f x y l m H H'. unfold Rmax. destruct (Rle_dec x y).
  - destruct H' as [->|(p & I & E)]; [now left|]. right. exists p. split; [apply in_or_app; now right|exact E].
  - destruct H as [->|(p & I & E)]; [now left|]. right. exists p. split; [apply in_or_app; now left|exact E].
Qed.

(** ** Leaves *)
Section Leaf.
Variables (ndim : nat) (kr th2 : R).

Record leafacc (g : gcell) (ps : list particle) : Prop := {
  a_N : gN g = zlen ps;
  a_Na : gNactive g = zlen (filter p_active ps);
  a_m : gm g = lsum gmass ps;
  a_r : forall k, gr g k = lsum (fun p => gmass p * p_r p k) ps;
  a_v : forall k, gv g k = lsum (fun p => gmass p * p_v p k) ps;
  a_h : forall p, In p ps -> p_h p <= ghmax g;
  a_h0 : 0 <= ghmax g;
  a_s : forall p, In p ps -> p_sound p <= gmaxsound g;
  a_ha : ghmax g = 0 \/ exists p, In p ps /\ p_h p = ghmax g;
  a_sa : gmaxsound g = 0 \/ exists p, In p ps /\ p_sound p = gmaxsound g;
  a_bb : forall k, runext big_number (- big_number) (gbmin g k) (gbmax g k) (fun p => p_r p k) (fun p => p_r p k) ps;
  a_hb : forall k, runext big_number (- big_number) (ghbmin g k) (ghbmax g k)
            (fun p => p_r p k - kr * p_h p) (fun p => p_r p k + kr * p_h p) ps;
  a_vb : forall k, runext big_number (- big_number) (gvmin g k) (gvmax g k) (fun p => p_v p k) (fun p => p_v p k) ps;
  a_rm : grmax g = 0; a_q : forall k, gq g k = 0 }.

Lemma zlen_snoc : forall A (l : list A) a, zlen (l ++ [a]) = (zlen l + 1)%Z.
Proof. intros. unfold zlen. rewrite app_length. cbn [length]. lia. Qed.

Lemma leaf_add_acc : forall g ps p, p_dead p = false -> leafacc g ps -> leafacc (leaf_add kr g p) (ps ++ [p]).
Proof.
  intros g ps p Hd H. destruct H. unfold leaf_add. rewrite Hd.
  assert (Mh := Rmax_l (ghmax g) (p_h p)). assert (Mh' := Rmax_r (ghmax g) (p_h p)).
  assert (Ms := Rmax_l (gmaxsound g) (p_sound p)). assert (Ms' := Rmax_r (gmaxsound g) (p_sound p)).
  constructor; cbn.
  - rewrite zlen_snoc, a_N0. lia.
  - rewrite filter_app. cbn. destruct (p_active p); [rewrite zlen_snoc|rewrite app_nil_r]; lia.
  - rewrite lsum_app. cbn. unfold gmass at 2. destruct (p_grav p); lra.
  - intros k. rewrite lsum_app. cbn. unfold gmass at 2. rewrite <- a_r0.
    destruct (p_grav p); unfold vadd, vscal; lra.
  - intros k. rewrite lsum_app. cbn. unfold gmass at 2. rewrite <- a_v0.
    destruct (p_grav p); unfold vadd, vscal; lra.
  - intros q Hq. apply in_app_or in Hq as [Hq|[<-|[]]]; [|lra]. specialize (a_h1 q Hq). lra.
  - lra.
  - intros q Hq. apply in_app_or in Hq as [Hq|[<-|[]]]; [|lra]. specialize (a_s0 q Hq). lra.
  - now apply max_snoc.
  - now apply max_snoc.
  - intros k. apply (runext_snoc _ (fun p => p_r p k) (fun p => p_r p k)), a_bb0.
  - intros k. apply (runext_snoc _ (fun p => p_r p k - kr * p_h p) (fun p => p_r p k + kr * p_h p)), a_hb0.
  - intros k. apply (runext_snoc _ (fun p => p_v p k) (fun p => p_v p k)), a_vb0.
  - assumption.
  - assumption.
Qed.

Lemma leafacc_init : leafacc g_init [].
Proof. constructor; cbn; try easy; try lra; try (now left); intros; apply runext_nil. Qed.

Lemma leaf_fold_acc : forall ps qs g, (forall p, In p ps -> p_dead p = false) -> leafacc g qs ->
  leafacc (fold_left (leaf_add kr) ps g) (qs ++ ps).
Proof.
  induction ps as [|p ps IH]; intros qs g Hd H; cbn; [now rewrite app_nil_r|].
  replace (qs ++ p :: ps) with ((qs ++ [p]) ++ ps) by now rewrite <- app_assoc.
  apply IH; [intros; apply Hd; now right|]. apply leaf_add_acc; auto. apply Hd; now left.
Qed.

Lemma quad_fold : forall ps c q k, (forall p, In p ps -> p_dead p = false) ->
  fold_left (fun q p => if negb (p_dead p) && p_grav p
                        then vadd q (quad_term ndim (p_m p) (vsub (p_r p) c)) else q) ps q k
  = q k + lsum (fun p => quad_term ndim (gmass p) (vsub (p_r p) c) k) ps.
Proof.
  induction ps as [|p ps IH]; intros c q k Hd; cbn; [lra|].
  rewrite IH by (intros; apply Hd; now right). rewrite (Hd p (or_introl eq_refl)). cbn [negb andb].
  unfold gmass at 2. destruct (p_grav p); [unfold vadd; lra|].
  replace (quad_term ndim 0 (vsub (p_r p) c) k) with 0; [lra|].
  unfold quad_term. destruct ndim as [|[|[|[|]]]]; destruct k as [|[|[|[|[|]]]]]; ring.
Qed.

(** Everything but the sphere and the second moments. *)
Record describes0 (g : gcell) (ps : list particle) : Prop := {
  e_N : gN g = zlen ps;
  e_Na : gNactive g = zlen (filter p_active ps);
  e_m : gm g = lsum gmass ps;
  e_r : forall k, gm g * gr g k = lsum (fun p => gmass p * p_r p k) ps;
  e_v : forall k, gm g * gv g k = lsum (fun p => gmass p * p_v p k) ps;
  e_h : forall p, In p ps -> p_h p <= ghmax g;
  e_h0 : 0 <= ghmax g;
  e_s : forall p, In p ps -> p_sound p <= gmaxsound g;
  e_ha : ghmax g = 0 \/ exists p, In p ps /\ p_h p = ghmax g;
  e_sa : gmaxsound g = 0 \/ exists p, In p ps /\ p_sound p = gmaxsound g;
  e_bb : forall k, runext big_number (- big_number) (gbmin g k) (gbmax g k) (fun p => p_r p k) (fun p => p_r p k) ps;
  e_hb : forall k, runext big_number (- big_number) (ghbmin g k) (ghbmax g k)
            (fun p => p_r p k - kr * p_h p) (fun p => p_r p k + kr * p_h p) ps;
  e_vb : forall k, runext big_number (- big_number) (gvmin g k) (gvmax g k) (fun p => p_v p k) (fun p => p_v p k) ps }.

Lemma gmass_zero : forall (f : particle -> R) ps, (forall p, In p ps -> 0 <= gmass p) -> lsum gmass ps <= 0 ->
  lsum (fun p => gmass p * f p) ps = 0.
Proof.
  intros f ps Hm Hz. apply lsum_zero. intros p Hp. rewrite (lsum_zero_all gmass ps Hm Hz p Hp). ring.
Qed.

Lemma normalise_spec : forall g ps, (forall p, In p ps -> 0 <= gmass p) -> leafacc g ps ->
  describes0 (normalise g) ps /\ (forall k, gq (normalise g) k = 0) /\ 0 <= grmax (normalise g).
Proof.
  intros g ps Hm []. unfold normalise. destruct (Rlt_dec 0 (gm g)) as [P|P]; (split; [constructor|split]); cbn; auto; try lra.
  - intros k. rewrite <- a_r0. field. lra.
  - intros k. rewrite <- a_v0. field. lra.
  - intros k. rewrite gmass_zero by (auto; lra).
    assert (gm g = 0) as ->; [|ring].
    rewrite a_m0 in *. assert (H := lsum_nonneg gmass ps Hm). lra.
  - intros k. rewrite gmass_zero by (auto; lra).
    assert (gm g = 0) as ->; [|ring].
    rewrite a_m0 in *. assert (H := lsum_nonneg gmass ps Hm). lra.
Qed.

Definition sphere_ok g ps :=
  (0 <= grmax g /\ forall p, In p ps -> norm ndim (vsub (p_r p) (grcell g)) <= grmax g) /\
  (ps <> [] -> (forall k, grcell g k = (gbmin g k + gbmax g k) / 2) /\
     4 * grmax g ^ 2 = sumf ndim (fun k => (gbmax g k - gbmin g k) ^ 2) /\
     (th2 <> 0 -> gcdistsqd g * th2 = Rmax (grmax g ^ 2) (ghmax g ^ 2))).
Lemma set_sphere_spec : forall g ps, describes0 g ps -> 0 <= grmax g ->
  sphere_ok (set_sphere ndim th2 g) ps.
Proof.
  intros g ps [] e_rm0. unfold set_sphere. rewrite e_N0. destruct (Z.ltb_spec 0 (zlen ps)).
  - split; [split; cbn; [apply sqrt_pos|]; intros p Hp; apply box_sphere; intros k _;
      destruct (e_bb0 k) as (_ & _ & B & _); destruct (B p Hp); lra|].
    intros _. cbn [grcell gbmin gbmax grmax gcdistsqd ghmax]. rewrite pow2_sqrt by apply dot_nonneg.
    split; [intros k; lra|]. split.
    + unfold dot. rewrite <- sumf_scal. apply sumf_ext. intros k _. field.
    + intros Ht. replace (ghmax g ^ 2) with (ghmax g * ghmax g) by ring. field. exact Ht.
  - split; [|intros K; destruct ps; [now destruct K|unfold zlen in H; cbn [length] in H; lia]]. split; [lra|]. destruct ps; [easy|]. unfold zlen in H. cbn [length] in H. lia.
Qed.

(** Complete description used for the induction. *)
Definition quad_ok (quad : bool) (q c : vec) (ps : list particle) : Prop :=
  quad = true -> (1 <= ndim <= 3)%nat -> forall k i j, q_index ndim k = Some (i, j) ->
  (i < ndim)%nat -> (j < ndim)%nat -> q k = second_moment ndim gmass p_r c i j ps.
Definition full (quad : bool) (g : gcell) (ps : list particle) : Prop :=
  describes0 g ps /\ sphere_ok g ps /\ quad_ok quad (gq g) (gr g) ps.

Lemma full_describes : forall quad g ps, full quad g ps -> describes ndim kr th2 quad g ps.
Proof.
  intros quad g ps ([] & [[R1 R2] R3] & Q). constructor; auto; try (intros; apply runext_extent; now auto); intros Ne; destruct (R3 Ne) as (A & B & C); auto.
Qed.
Lemma describes0_sphere : forall g ps, describes0 g ps -> describes0 (set_sphere ndim th2 g) ps.
Proof. intros g ps []. unfold set_sphere. destruct (0 <? gN g)%Z; constructor; cbn; auto. Qed.
Lemma describes0_q : forall q g ps, describes0 g ps -> describes0 (set_q q g) ps.
Proof. intros q g ps []. constructor; cbn; auto. Qed.
Lemma set_sphere_q : forall g, gq (set_sphere ndim th2 g) = gq g.
Proof. intros. unfold set_sphere. destruct (0 <? gN g)%Z; reflexivity. Qed.
Lemma set_sphere_r : forall g, gr (set_sphere ndim th2 g) = gr g.
Proof. intros. unfold set_sphere. destruct (0 <? gN g)%Z; reflexivity. Qed.

Lemma leaf_geo_full : forall quad ps,
  (forall p, In p ps -> p_dead p = false) -> (forall p, In p ps -> 0 <= gmass p) ->
  full quad (leaf_geo ndim kr th2 quad ps) ps.
Proof.
  intros quad ps Hd Hm. unfold leaf_geo. set (g0 := fold_left (leaf_add kr) ps g_init).
  assert (H0 : leafacc g0 ps) by (apply (leaf_fold_acc ps [] g_init Hd leafacc_init)).
  destruct (normalise_spec g0 ps Hm H0) as (H1 & H2 & H3).
  assert (H4 := set_sphere_spec _ _ H1 H3). assert (H5 := describes0_sphere _ _ H1).
  destruct quad.
  - split; [now apply describes0_q|]. split; [exact H4|].
    intros _ Hn k i j Hk Hi Hj. cbn [gq set_q]. rewrite quad_fold by easy.
    rewrite set_sphere_q, H2, Rplus_0_l. unfold second_moment. apply lsum_ext. intros p Hp.
    cbn [gr set_q]. rewrite (quad_term_spec ndim _ _ k i j); auto.
  - split; [exact H5|]. split; [exact H4|]. intros X; discriminate.
Qed.

(** ** Inner cells *)
Definition boxes (g : gcell) (ps : list particle) : Prop :=
  (forall k, runext big_number (- big_number) (gbmin g k) (gbmax g k) (fun p => p_r p k) (fun p => p_r p k) ps) /\
  (forall k, runext big_number (- big_number) (ghbmin g k) (ghbmax g k)
            (fun p => p_r p k - kr * p_h p) (fun p => p_r p k + kr * p_h p) ps) /\
  (forall k, runext big_number (- big_number) (gvmin g k) (gvmax g k) (fun p => p_v p k) (fun p => p_v p k) ps) /\
  (forall p, In p ps -> p_h p <= ghmax g) /\ 0 <= ghmax g /\
  (forall p, In p ps -> p_sound p <= gmaxsound g) /\
  ((ghmax g = 0 \/ exists p, In p ps /\ p_h p = ghmax g) /\ (gmaxsound g = 0 \/ exists p, In p ps /\ p_sound p = gmaxsound g)) /\ 0 <= grmax g /\ (forall k, gq g k = 0) /\
  (forall k, gr g k = 0) /\ (forall k, gv g k = 0).

Lemma merge_child_spec : forall g l a ps, boxes g l -> describes0 a ps -> boxes (merge_child g a) (l ++ ps).
Proof.
  intros g l a ps (B1 & B2 & B3 & B4 & B5 & B6 & [BH BS] & B7 & B8 & B9 & B10) []. unfold merge_child. rewrite e_N0.
  destruct (Z.ltb_spec 0 (zlen ps)) as [P|P].
  - assert (Mh := Rmax_l (ghmax g) (ghmax a)). assert (Mh' := Rmax_r (ghmax g) (ghmax a)).
    assert (Ms := Rmax_l (gmaxsound g) (gmaxsound a)). assert (Ms' := Rmax_r (gmaxsound g) (gmaxsound a)).
    unfold boxes; cbn.
    do 3 (split; [intros k; apply runext_merge; auto|]).
    split; [|split; [lra|split; [|split; [split; now apply max_merge|split; [auto|auto]]]]].
    + intros p Hp. apply in_app_or in Hp as [Hp|Hp]; [specialize (B4 p Hp)|specialize (e_h1 p Hp)]; lra.
    + intros p Hp. apply in_app_or in Hp as [Hp|Hp]; [specialize (B6 p Hp)|specialize (e_s0 p Hp)]; lra.
  - destruct ps; [|unfold zlen in P; cbn [length] in P; lia]. rewrite app_nil_r. unfold boxes. auto 14.
Qed.
Lemma boxes_init : boxes g_init [].
Proof. unfold boxes; cbn. do 3 (split; [intros; apply runext_nil|]). repeat split; try easy; try lra; now left. Qed.

Lemma describes0_masses : forall g ps, describes0 g ps -> (forall p, In p ps -> 0 <= gmass p) -> 0 <= gm g.
Proof. intros g ps [] H. rewrite e_m0. now apply lsum_nonneg. Qed.

Lemma node_geo_full : forall quad a b la lb,
  (forall p, In p (la ++ lb) -> 0 <= gmass p) ->
  full quad a la -> full quad b lb -> full quad (node_geo ndim th2 quad a b) (la ++ lb).
Proof.
  intros quad a b la lb Hm (Da & Sa & Qa) (Db & Sb & Qb). unfold node_geo.
  set (g1 := merge_child (merge_child g_init a) b).
  assert (HB : boxes g1 (la ++ lb)).
  { apply merge_child_spec; auto. apply (merge_child_spec g_init []); auto. apply boxes_init. }
  assert (Pa : 0 <= gm a) by (eapply describes0_masses; eauto; intros; apply Hm, in_or_app; now left).
  assert (Pb : 0 <= gm b) by (eapply describes0_masses; eauto; intros; apply Hm, in_or_app; now right).
  set (g2 := sum_children g1 a b).
  assert (HD : describes0 g2 (la ++ lb) /\ 0 <= grmax g2 /\ (forall k, gq g2 k = 0)).
  { destruct HB as (B1 & B2 & B3 & B4 & B5 & B6 & [BH BS] & B7 & B8 & B9 & B10). destruct Da, Db.
    unfold g2, sum_children. destruct (Rlt_dec 0 (gm a + gm b)) as [P|P].
    - split; [constructor|split]; cbn; auto.
      + rewrite e_N0, e_N1. unfold zlen. rewrite app_length. lia.
      + rewrite e_Na0, e_Na1, filter_app. unfold zlen. rewrite app_length. lia.
      + rewrite lsum_app. lra.
      + intros k. rewrite lsum_app, <- e_r0, <- e_r1. field. lra.
      + intros k. rewrite lsum_app, <- e_v0, <- e_v1. field. lra.
    - assert (gm a = 0 /\ gm b = 0) as [Za Zb] by lra. split; [constructor|split]; cbn; auto.
      + rewrite e_N0, e_N1. unfold zlen. rewrite app_length. lia.
      + rewrite e_Na0, e_Na1, filter_app. unfold zlen. rewrite app_length. lia.
      + rewrite lsum_app. lra.
      + intros k. rewrite lsum_app, <- e_r0, <- e_r1. rewrite Za, Zb. ring.
      + intros k. rewrite lsum_app, <- e_v0, <- e_v1. rewrite Za, Zb. ring. }
  destruct HD as (HD & HR & HQ).
  set (g3 := set_sphere ndim th2 g2).
  assert (D3 : describes0 g3 (la ++ lb)) by now apply describes0_sphere.
  assert (S3 : sphere_ok g3 (la ++ lb)) by now apply set_sphere_spec.
  assert (Q3 : forall k, gq g3 k = 0) by (intros; unfold g3; rewrite set_sphere_q; apply HQ).
  assert (AQ : forall g c, gr (add_quad ndim quad g c) = gr g).
  { intros. unfold add_quad. destruct quad; [destruct (Rlt_dec 0 (gm c))|]; reflexivity. }
  assert (AD : forall g c l, describes0 g l -> describes0 (add_quad ndim quad g c) l).
  { intros. unfold add_quad. destruct quad; [destruct (Rlt_dec 0 (gm c))|]; auto. now apply describes0_q. }
  assert (AS : forall g c l, sphere_ok g l -> sphere_ok (add_quad ndim quad g c) l).
  { intros. unfold add_quad. destruct quad; [destruct (Rlt_dec 0 (gm c))|]; auto. }
  split; [now apply AD, AD|]. split; [now apply AS, AS|].
  intros Eq Hn k i j Hk Hi Hj. rewrite !AQ. rewrite second_moment_app.
  assert (Step : forall g c l, describes0 c l -> 0 <= gm c -> (forall p, In p l -> 0 <= gmass p) -> quad_ok quad (gq c) (gr c) l ->
    gq (add_quad ndim quad g c) k = gq g k + second_moment ndim gmass p_r (gr g) i j l).
  { intros g c l Dc Pc Hml Qc. unfold add_quad. rewrite Eq. destruct (Rlt_dec 0 (gm c)) as [P|P].
    - cbn [gq set_q]. unfold vadd at 1 2. rewrite (Qc Eq Hn k i j Hk Hi Hj).
      rewrite (quad_term_spec ndim _ _ k i j) by auto.
      destruct Dc. rewrite (parallel_axis ndim gmass p_r (gr c) (gr g)); [|intros; unfold S0, S1; rewrite <- e_m0; apply e_r0].
      unfold S0. rewrite <- e_m0. unfold vsub. lra.
    - rewrite second_moment_zero; [lra|]. destruct Dc. apply lsum_zero_all; auto. lra. }
  rewrite (Step _ b lb), AQ, (Step _ a la); auto; [rewrite Q3; lra| |];
    intros; apply Hm, in_or_app; auto.
Qed.
End Leaf.
