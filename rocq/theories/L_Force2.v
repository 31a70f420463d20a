From Verif Require Import Prelude L_Prelude Vec M_Box L_Box M_Force S_Stock L_Stock S_Force L_Force.
From Coq Require Import Reals Lra Permutation.
Local Open Scope R_scope.

Lemma lsum_exch : forall {A B} (H : A -> B -> R) l m,
  lsum (fun p => lsum (H p) l) m = lsum (fun q => lsum (fun p => H p q) m) l.
Proof.
  intros A B H l m. induction m as [|a m IH]; cbn [lsum].
  - symmetry. apply lsum_zero. easy.
  - rewrite IH, lsum_plus. reflexivity.
Qed.
Lemma lsum_filter : forall {A} (f : A -> R) (c : A -> bool) l, lsum f (filter c l) = lsum (fun x => if c x then f x else 0) l.
Proof. intros. induction l as [|a l IH]; [easy|]. cbn [filter lsum]. destruct (c a); cbn [lsum]; rewrite IH; lra. Qed.
(** Antisymmetric sums over the pairs of a set vanish. *)
Lemma pairs_zero : forall (rel : fpart -> fpart -> bool) (G : fpart -> fpart -> R) ps,
  (forall p q, rel p q = rel q p) -> (forall p q, In p ps -> In q ps -> G p q + G q p = 0) ->
  lsum (fun p => lsum (G p) (filter (rel p) ps)) ps = 0.
Proof.
  intros rel G ps Hr HG.
  rewrite (lsum_ext _ (fun p => lsum (fun q => if rel p q then G p q else 0) ps)) by (intros; apply lsum_filter).
  pose proof (lsum_exch (fun p q => if rel p q then G p q else 0) ps ps) as E.
  assert (S : lsum (fun p => lsum (fun q => if rel p q then G p q else 0) ps) ps +
              lsum (fun q => lsum (fun p => if rel p q then G p q else 0) ps) ps = 0).
  { rewrite <- lsum_plus. apply lsum_zero. intros p Hp. rewrite <- lsum_plus. apply lsum_zero. intros q Hq.
    rewrite (Hr q p). destruct (rel p q); [now apply HG|lra]. }
  lra.
Qed.
Lemma antisym_plain : forall G, antisym G -> forall p q, G p q + G q p = 0.
Proof.
  intros G H p q. pose proof (H p q (f_r p) (f_r q) (opposite_self p q)) as E. now rewrite !setr_same in E.
Qed.
Lemma interacts_sym : forall n p q, interacts n p q = interacts n q p.
Proof.
  intros. unfold interacts.
  assert (E : dot n (vsub (f_r p) (f_r q)) (vsub (f_r p) (f_r q)) = dot n (vsub (f_r q) (f_r p)) (vsub (f_r q) (f_r p))).
  { apply sumf_ext. intros. unfold vsub. lra. }
  rewrite E. f_equal. apply andb_comm.
Qed.

Section Conserve.
Variables (n : nat) (w1 wgrav wpot : R -> R).
Variables (avisc : aviscenum) (acond : acondenum) (tdavisc : tdaviscenum) (al be almin : R) (Pr : fpart -> R).
Notation HF := (ComputeSphHydroForces n w1 avisc acond tdavisc al be almin Pr).
Notation HGF := (ComputeSphHydroGravForces n w1 wgrav wpot avisc acond tdavisc al be almin Pr).
Notation PA := (pa w1 avisc acond al be).
Notation DU := (du avisc acond al be).

Section Mutual.
Variables (L : vec) (ps : list fpart) (P : list link).
Hypothesis HP : mutual (length ps) P.
Lemma mutual_total : forall A (f : fpart -> A -> R) comp (G : fpart -> fpart -> R),
  (forall i p, nth_error ps i = Some p -> f p (comp i p) = lsum (G p) (neibs_of L ps P i)) ->
  (forall p q rp rq, In p ps -> In q ps -> opposite p q rp rq -> G p (setr q rq) + G q (setr p rp) = 0) ->
  total f comp ps = 0.
Proof.
  intros A f comp G Hf HG. rewrite (total_links A f comp L ps P G HP Hf).
  apply (links_antisym L ps P G (fun _ => True) HP); [easy|].
  intros p q s Hp Hq _. exact (HG p q _ _ Hp Hq (opposite_copy L s p q)).
Qed.
Lemma momentum_H : forall k, total (force k) (fun i p => a_a (HF p acc0 (neibs_of L ps P i))) ps = 0.
Proof.
  intros k. apply (mutual_total _ _ _ (fun p q => f_m p * (f_m q * he n p q k * PA p q (hd n p q) (hv n p q)))).
  - intros i p _. unfold force. rewrite HF_a, <- lsum_scal. reflexivity.
  - intros. now apply (hydro_antisym n w1 avisc acond al be k).
Qed.
Lemma momentum_HG : forall k, total (force k) (fun i p => a_a (HGF p acc0 (neibs_of L ps P i))) ps = 0.
Proof.
  intros k. apply (mutual_total _ _ _ (fun p q => f_m p * (f_m q * ge n p q k * PA p q (gd n p q) (gv n p q)))).
  - intros i p _. unfold force. rewrite HGF_a, <- lsum_scal. reflexivity.
  - intros. now apply (hydrograv_antisym n w1 avisc acond al be k).
Qed.
Lemma momentum_G : forall k, total (force k) (fun i p => a_atree (HGF p acc0 (neibs_of L ps P i))) ps = 0.
Proof.
  intros k. apply (mutual_total _ _ _ (fun p q => f_m p * (f_m q * ge n p q k * gaux w1 wgrav p q (gd n p q)))).
  - intros i p _. unfold force. rewrite HGF_atree, <- lsum_scal. reflexivity.
  - intros. now apply (gaux_antisym n w1 wgrav k).
Qed.
Hypothesis Hgood : forall p, In p ps -> f_rho p <> 0 /\ Pr p = f_pressure p.
Lemma energy_H : total (power n) (fun i p => HF p acc0 (neibs_of L ps P i)) ps = 0.
Proof.
  apply (mutual_total _ _ _ (fun p q => f_m p * (dot n (f_v p) (fun k => f_m q * he n p q k * PA p q (hd n p q) (hv n p q)) +
     (DU p q (hv n p q) (wi_ w1 p (hd n p q)) (wi_ w1 q (hd n p q)) + comph Pr p * (f_m q * hv n p q * wi_ w1 p (hd n p q)))))).
  - intros i p _. unfold power. rewrite HF_dudt, (dot_lsum n _ _ _ _ (fun k => HF_a n w1 avisc acond tdavisc al be almin Pr p _ k)).
    rewrite <- lsum_plus, <- lsum_scal. reflexivity.
  - intros p q rp rq Hp Hq H. apply (hydro_power n w1 avisc acond al be Pr p q rp rq); auto; now apply Hgood.
Qed.
Lemma energy_HG : total (power n) (fun i p => HGF p acc0 (neibs_of L ps P i)) ps = 0.
Proof.
  apply (mutual_total _ _ _ (fun p q => f_m p * (dot n (f_v p) (fun k => f_m q * ge n p q k * PA p q (gd n p q) (gv n p q)) +
     (DU p q (gv n p q) (wi_ w1 p (gd n p q)) (wi_ w1 q (gd n p q)) + comph Pr p * (f_m q * gv n p q * wi_ w1 p (gd n p q)))))).
  - intros i p _. unfold power. rewrite HGF_dudt, (dot_lsum n _ _ _ _ (fun k => HGF_a n w1 wgrav wpot avisc acond tdavisc al be almin Pr p _ k)).
    rewrite <- lsum_plus, <- lsum_scal. reflexivity.
  - intros p q rp rq Hp Hq H. apply (hydrograv_power n w1 avisc acond al be Pr p q rp rq); auto; now apply Hgood.
Qed.
End Mutual.

(** The set of all particles with the lists of the neighbour search. *)
Section Isolated.
Variable ps : list fpart.
Notation nl p := (filter (interacts n p) ps).
Lemma iso : forall A (f : fpart -> A -> R) comp (G : fpart -> fpart -> R),
  (forall p, f p (comp p) = lsum (G p) (nl p)) -> (forall p q, In p ps -> In q ps -> G p q + G q p = 0) ->
  lsum (fun p => f p (comp p)) ps = 0.
Proof.
  intros A f comp G Hf HG. rewrite (lsum_ext _ (fun p => lsum (G p) (nl p))) by auto.
  apply (pairs_zero (interacts n)); auto. intros; apply interacts_sym.
Qed.
Lemma lsum_lin2 : forall (a b c : R) (f g : fpart -> R) l, a * (b * lsum f l - c * lsum g l) = lsum (fun q => a * (b * f q - c * g q)) l.
Proof. intros. induction l as [|x l IH]; cbn [lsum]; [ring|]. rewrite <- IH. ring. Qed.
Lemma iso_torque_H : forall k l, lsum (fun p => torque k l p (a_a (HF p acc0 (nl p)))) ps = 0.
Proof.
  intros k l. apply (iso _ (torque k l) (fun p => a_a (HF p acc0 (nl p)))
    (fun p q => f_m p * (f_r p k * (f_m q * he n p q l * PA p q (hd n p q) (hv n p q)) - f_r p l * (f_m q * he n p q k * PA p q (hd n p q) (hv n p q))))).
  - intros p. unfold torque. rewrite !HF_a, lsum_lin2. reflexivity.
  - intros p q _ _. pose proof (opposite_self p q) as Op.
    pose proof (he_op n p q _ _ Op) as A. pose proof (hd_op n p q _ _ Op) as B. pose proof (hv_op n p q _ _ Op) as C.
    rewrite !setr_same in *.
    apply (central_torque p q (he n) (fun p q => PA p q (hd n p q) (hv n p q))); auto.
    + rewrite B, C. apply pa_sym.
    + apply he_central.
Qed.
Lemma iso_torque_HG : forall k l, lsum (fun p => torque k l p (a_a (HGF p acc0 (nl p)))) ps = 0.
Proof.
  intros k l. apply (iso _ (torque k l) (fun p => a_a (HGF p acc0 (nl p)))
    (fun p q => f_m p * (f_r p k * (f_m q * ge n p q l * PA p q (gd n p q) (gv n p q)) - f_r p l * (f_m q * ge n p q k * PA p q (gd n p q) (gv n p q))))).
  - intros p. unfold torque. rewrite !HGF_a, lsum_lin2. reflexivity.
  - intros p q _ _. pose proof (opposite_self p q) as Op.
    pose proof (ge_op n p q _ _ Op) as A. pose proof (gd_op n p q _ _ Op) as B. pose proof (gv_op n p q _ _ Op) as C.
    rewrite !setr_same in *.
    apply (central_torque p q (ge n) (fun p q => PA p q (gd n p q) (gv n p q))); auto.
    + rewrite B, C. apply pa_sym.
    + apply ge_central.
Qed.
Lemma iso_torque_G : forall k l, lsum (fun p => torque k l p (a_atree (HGF p acc0 (nl p)))) ps = 0.
Proof.
  intros k l. apply (iso _ (torque k l) (fun p => a_atree (HGF p acc0 (nl p)))
    (fun p q => f_m p * (f_r p k * (f_m q * ge n p q l * gaux w1 wgrav p q (gd n p q)) - f_r p l * (f_m q * ge n p q k * gaux w1 wgrav p q (gd n p q))))).
  - intros p. unfold torque. rewrite !HGF_atree, lsum_lin2. reflexivity.
  - intros p q _ _. pose proof (opposite_self p q) as Op.
    pose proof (ge_op n p q _ _ Op) as A. pose proof (gd_op n p q _ _ Op) as B.
    rewrite !setr_same in *.
    apply (central_torque p q (ge n) (fun p q => gaux w1 wgrav p q (gd n p q))); auto.
    + rewrite B. apply gaux_sym.
    + apply ge_central.
Qed.
Lemma iso_momentum_H : forall k, lsum (fun p => force k p (a_a (HF p acc0 (nl p)))) ps = 0.
Proof.
  intros k. apply (iso _ (force k) (fun p => a_a (HF p acc0 (nl p))) (fun p q => f_m p * (f_m q * he n p q k * PA p q (hd n p q) (hv n p q)))).
  - intros p. unfold force. rewrite HF_a, <- lsum_scal. reflexivity.
  - intros. apply (antisym_plain _ (hydro_antisym n w1 avisc acond al be k)).
Qed.
Lemma iso_momentum_HG : forall k, lsum (fun p => force k p (a_a (HGF p acc0 (nl p)))) ps = 0.
Proof.
  intros k. apply (iso _ (force k) (fun p => a_a (HGF p acc0 (nl p))) (fun p q => f_m p * (f_m q * ge n p q k * PA p q (gd n p q) (gv n p q)))).
  - intros p. unfold force. rewrite HGF_a, <- lsum_scal. reflexivity.
  - intros. apply (antisym_plain _ (hydrograv_antisym n w1 avisc acond al be k)).
Qed.
Lemma iso_momentum_G : forall k, lsum (fun p => force k p (a_atree (HGF p acc0 (nl p)))) ps = 0.
Proof.
  intros k. apply (iso _ (force k) (fun p => a_atree (HGF p acc0 (nl p))) (fun p q => f_m p * (f_m q * ge n p q k * gaux w1 wgrav p q (gd n p q)))).
  - intros p. unfold force. rewrite HGF_atree, <- lsum_scal. reflexivity.
  - intros. apply (antisym_plain _ (gaux_antisym n w1 wgrav k)).
Qed.
Hypothesis Hgood : forall p, In p ps -> f_rho p <> 0 /\ Pr p = f_pressure p.
Lemma iso_energy_H : lsum (fun p => power n p (HF p acc0 (nl p))) ps = 0.
Proof.
  apply (iso _ (power n) (fun p => HF p acc0 (nl p)) (fun p q => f_m p * (dot n (f_v p) (fun k => f_m q * he n p q k * PA p q (hd n p q) (hv n p q)) +
     (DU p q (hv n p q) (wi_ w1 p (hd n p q)) (wi_ w1 q (hd n p q)) + comph Pr p * (f_m q * hv n p q * wi_ w1 p (hd n p q)))))).
  - intros p. unfold power. rewrite HF_dudt, (dot_lsum n _ _ _ _ (fun k => HF_a n w1 avisc acond tdavisc al be almin Pr p _ k)).
    rewrite <- lsum_plus, <- lsum_scal. reflexivity.
  - intros p q Hp Hq. pose proof (hydro_power n w1 avisc acond al be Pr p q _ _ (Hgood p Hp) (Hgood q Hq) (opposite_self p q)) as E.
    cbn zeta in E. rewrite !setr_same in E. exact E.
Qed.
Lemma iso_energy_HG : lsum (fun p => power n p (HGF p acc0 (nl p))) ps = 0.
Proof.
  apply (iso _ (power n) (fun p => HGF p acc0 (nl p)) (fun p q => f_m p * (dot n (f_v p) (fun k => f_m q * ge n p q k * PA p q (gd n p q) (gv n p q)) +
     (DU p q (gv n p q) (wi_ w1 p (gd n p q)) (wi_ w1 q (gd n p q)) + comph Pr p * (f_m q * gv n p q * wi_ w1 p (gd n p q)))))).
  - intros p. unfold power. rewrite HGF_dudt, (dot_lsum n _ _ _ _ (fun k => HGF_a n w1 wgrav wpot avisc acond tdavisc al be almin Pr p _ k)).
    rewrite <- lsum_plus, <- lsum_scal. reflexivity.
  - intros p q Hp Hq. pose proof (hydrograv_power n w1 avisc acond al be Pr p q _ _ (Hgood p Hp) (Hgood q Hq) (opposite_self p q)) as E.
    cbn zeta in E. rewrite !setr_same in E. exact E.
Qed.
End Isolated.
End Conserve.
