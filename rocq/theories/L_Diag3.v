(** External potentials and the energy that is reported. *)
From Verif Require Import Prelude Vec M_Box M_Periodic L_Box L_Periodic S_Periodic M_Hermite S_Hermite L_Hermite L_Hermite2 L_Hermite3 L_Hermite4 L_Hermite5 P_Hermite S_Kernel M_Diag S_Diag L_Diag.
From Coq Require Import Reals.
From Coquelicot Require Import Coquelicot.
Local Open Scope R_scope.

Lemma rpower_m1 : forall x c, 0 < x -> Rpower x (c - 1) = Rpower x c / x.
Proof. intros x c Hx. unfold Rminus. rewrite Rpower_plus, Rpower_Ropp, Rpower_1 by assumption. reflexivity. Qed.
Lemma der_rpower : forall W u l c, 0 < W u -> is_derive W u l -> is_derive (fun t => Rpower (W t) c) u (c * l * Rpower (W u) (c - 1)).
Proof.
  intros W u l c HW D. rewrite rpower_m1 by assumption. unfold Rpower. auto_derive; [split; [eexists; exact D|split; [exact HW|exact I]]|].
  rewrite (is_derive_unique _ _ _ D : Derive (fun x : R => W x) _ = _). field. lra.
Qed.
Lemma der_square : forall n e (X V : R -> vec) t, (forall k, (k < n)%nat -> is_derive (fun u => X u k) t (V t k)) ->
  is_derive (fun u => dot n (X u) (X u) + e) t (2 * dot n (X t) (V t)).
Proof.
  intros n e X V t H. eapply der_val.
  - apply (is_derive_plus (fun s => dot n (X s) (X s)) (fun _ => e)); [apply (der_dot n X X V V); auto|apply (is_derive_const e t)].
  - unfold plus, zero. cbn. rewrite (dot_sym n (V t)). eqR. ring.
Qed.
(** Nothing is divided by zero: the body is not at the centre of a point mass. *)
Definition regular (n : nat) (x : extpot) (r : vec) : Prop := match x with PlummerPot _ rp => 0 < dot n r r + rp * rp | _ => True end.
Lemma ext_rate : forall n x (X V : R -> vec) t, (match x with VerticalPot _ _ _ => False | _ => True end) -> regular n x (X t) ->
  (forall k, (k < n)%nat -> is_derive (fun u => X u k) t (V t k)) ->
  is_derive (fun u => ext_pot n x (X u) / 2) t (dot n (V t) (ext_a n x (X t))).
Proof.
  intros n x X V t Hx Hr H. destruct x as [|kg av rz|m rp]; [|contradiction|]; unfold ext_a, ext_pot, regular in *.
  - eapply der_val; [apply (is_derive_const (0 / 2) t)|]. unfold zero; cbn. eqR. unfold dot. rewrite (sumf_ext n _ (fun _ => 0)); [symmetry; apply sumf_zero|intros; ring].
  - pose proof (der_rpower _ _ _ (- (1 / 2)) Hr (der_square n (rp * rp) X V t H)) as D.
    apply (is_derive_scal _ _ m) in D. eapply is_derive_ext; [|eapply der_val; [exact D|]]; [intros u; cbn; field|].
    eqR. cbn. replace (- (1 / 2) - 1) with (- (3 / 2)) by field. set (w := Rpower _ _).
    replace (dot n (V t) (fun k => - (m * X t k * w))) with (- (m * w) * dot n (X t) (V t)).
    + unfold scal, mult; cbn. unfold mult; cbn. field.
    + unfold dot. rewrite <- sumf_scal. apply sumf_ext. intros; ring.
Qed.
Lemma dot_unit : forall n (a b : vec) k, (k < n)%nat -> (forall l, b l = if Nat.eqb l k then 1 else 0) -> dot n a b = a k.
Proof.
  intros n a b k Hk Hb. unfold dot. induction n; [lia|]. cbn [sumf]. rewrite Hb. destruct (Nat.eqb_spec n k).
  - subst. rewrite (sumf_ext k _ (fun _ => 0)); [rewrite sumf_zero; ring|]. intros j Hj. rewrite Hb. destruct (Nat.eqb_spec j k); [lia|ring].
  - rewrite IHn by lia. ring.
Qed.
Lemma with_comp_same : forall (r : vec) k l, with_comp r k (r k) l = r l.
Proof. intros. unfold with_comp. destruct (Nat.eqb_spec l k); congruence. Qed.
Lemma ext_gradient : forall n x r k, (match x with VerticalPot _ _ _ => False | _ => True end) -> (k < n)%nat -> regular n x r ->
  is_derive (fun u => ext_pot n x (with_comp r k u) / 2) (r k) (ext_a n x r k).
Proof.
  intros n x r k Hx Hk Hr.
  assert (ED : dot n (with_comp r k (r k)) (with_comp r k (r k)) = dot n r r) by (apply dot_ext; intros; apply with_comp_same).
  eapply der_val; [apply (ext_rate n x (fun u => with_comp r k u) (fun _ l => if Nat.eqb l k then 1 else 0))|].
  - exact Hx.
  - destruct x; cbn in *; auto. rewrite ED. exact Hr.
  - intros l _. unfold with_comp. destruct (l =? k)%nat; [apply (is_derive_id (r k))|apply (is_derive_const (r l) (r k))].
  - rewrite dot_sym, (dot_unit n _ _ k Hk) by reflexivity. unfold ext_a. destruct x; [reflexivity| |]; [contradiction|]. rewrite ED, with_comp_same. reflexivity.
Qed.
Lemma ext_jerk : forall n x (X V : R -> vec) t k, (k < n)%nat -> regular n x (X t) ->
  (forall k, (k < n)%nat -> is_derive (fun u => X u k) t (V t k)) ->
  is_derive (fun u => ext_a n x (X u) k) t (ext_adot n x (X t) (V t) k).
Proof.
  intros n x X V t k Hk Hr H. destruct x as [|kg av rz|m rp]; unfold ext_a, ext_adot, regular in *.
  - apply (is_derive_const (0 : R) t).
  - apply (is_derive_const (if (k =? kg)%nat then av else 0) t).
  - pose proof (der_rpower _ _ _ (- (3 / 2)) Hr (der_square n (rp * rp) X V t H)) as D. pose proof (H k Hk) as Dk.
    replace (- (3 / 2) - 1) with (- (5 / 2)) in D by field.
    set (w := fun u => Rpower (dot n (X u) (X u) + rp * rp) (- (3 / 2))) in *. set (y := fun u => X u k) in *.
    change (is_derive (fun u => - (m * y u * w u)) t (3 * m * Rpower (dot n (X t) (X t) + rp * rp) (- (5 / 2)) * dot n (X t) (V t) * y t - m * w t * V t k)).
    auto_derive; [split; [eexists; exact Dk|split; [eexists; exact D|exact I]]|].
    rewrite (is_derive_unique _ _ _ D : Derive (fun x : R => w x) _ = _), (is_derive_unique _ _ _ Dk : Derive (fun x : R => y x) _ = _). field.
Qed.
Lemma rpower_half : forall x, 0 < x -> Rpower x (- (1 / 2)) = / sqrt x.
Proof. intros x Hx. rewrite Rpower_Ropp. replace (1 / 2) with (/ 2) by field. now rewrite Rpower_sqrt. Qed.

(** ** Energy *)
Lemma etot_stars : forall n hf sg N (F : nat -> star), (n <= 3)%nat ->
  d_Etot (CalculateDiagnostics n hf sg N nil (map (fun i => part_of (F i)) (seq 0 N)) nil) =
  sumf N (fun i => 1 / 2 * s_m (F i) * dot n (s_v (F i)) (s_v (F i))) - 1 / 2 * sumf N (fun i => s_m (F i) * s_gpot (F i)).
Proof.
  intros n hf sg N F Hn. destruct (calc_is n hf sg N nil (map (fun i => part_of (F i)) (seq 0 N)) nil Hn) as (_ & _ & _ & _ & E5 & E6 & E7 & E8 & _).
  rewrite E8, E7, E6, E5. cbn [alive filter app lsum]. rewrite !lsum_map, !lsum_seq. cbn [part_of p_m p_v p_gpot].
  destruct N as [|N]; [cbn; destruct hf, sg; cbn; ring|]. change (Nat.ltb 0 (Datatypes.S N)) with true. rewrite Bool.orb_true_r. destruct hf; ring.
Qed.
(** Energy is conserved by a potential energy and forces that match. *)
Lemma energy_conserved : forall n N (m : nat -> R) (X V : nat -> R -> vec) (A : nat -> vec) (G : R -> R) t0,
  (forall i k, (i < N)%nat -> (k < n)%nat -> is_derive (fun t => V i t k) t0 (A i k)) ->
  is_derive G t0 (sumf N (fun i => m i * dot n (V i t0) (A i))) ->
  is_derive (fun t => sumf N (fun i => 1 / 2 * m i * dot n (V i t) (V i t)) - G t) t0 0.
Proof.
  intros n N m X V A G t0 HV HG. eapply der_val.
  - apply (is_derive_minus (fun t => sumf N (fun i => 1 / 2 * m i * dot n (V i t) (V i t))) G); [|exact HG].
    apply (der_sumf N (fun i t => 1 / 2 * m i * dot n (V i t) (V i t)) (fun i => m i * dot n (V i t0) (A i))). intros i Hi.
    eapply der_val; [apply (is_derive_scal (fun t => dot n (V i t) (V i t)) t0 (1 / 2 * m i)), (der_dot n (V i) (V i) (fun _ => A i) (fun _ => A i)); auto|].
    rewrite (dot_sym n (A i)). cbn. eqR. field.
  - unfold minus, plus, opp. cbn. eqR. ring.
Qed.
Lemma aep_active : forall n x p, s_active p = true -> AddExternalPotential n x p =
  set_force p (s_gpot p + ext_pot n x (s_r p)) (fun k => s_a p k + ext_a n x (s_r p) k) (fun k => s_adot p k + ext_adot n x (s_r p) (s_v p) k).
Proof. intros n x p H. unfold AddExternalPotential. now rewrite H. Qed.
