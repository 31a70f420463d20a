From Verif Require Import Prelude L_Prelude Vec M_Box L_Box M_Force S_Stock L_Stock S_Force.
From Coq Require Import Reals Lra Permutation.
Local Open Scope R_scope.

(** ** Sums over mutual neighbour lists *)
Definition src (x : link) : nat := fst (fst x).
Lemma lsum_swap : forall N (F : nat -> link -> R) P, (forall x, In x P -> (src x < N)%nat) ->
  lsum (fun i => lsum (fun x => if Nat.eqb (src x) i then F i x else 0) P) (seq 0 N) = lsum (fun x => F (src x) x) P.
Proof.
  intros N F P. induction P as [|x P IH]; intros H.
  - apply lsum_zero. easy.
  - cbn [lsum]. rewrite <- IH by (intros; apply H; now right).
    rewrite lsum_plus. f_equal.
    assert (Hx : (src x < N)%nat) by (apply H; now left). clear -Hx.
    assert (G : forall a n, lsum (fun i => if Nat.eqb (src x) i then F i x else 0) (seq a n) =
                if ((a <=? src x)%nat && (src x <? a + n)%nat)%bool then F (src x) x else 0).
    { intros a n. revert a. induction n as [|n IHn]; intros a; cbn [seq lsum].
      - destruct (Nat.leb_spec a (src x)), (Nat.ltb_spec (src x) (a + 0)); cbn; try lra; lia.
      - rewrite IHn. destruct (Nat.eqb_spec (src x) a) as [E|E].
        + rewrite <- E. destruct (Nat.leb_spec (S (src x)) (src x)); [lia|].
          destruct (Nat.leb_spec (src x) (src x)); [|lia]. destruct (Nat.ltb_spec (src x) (src x + S n)); [|lia]. cbn. lra.
        + destruct (Nat.leb_spec (S a) (src x)), (Nat.leb_spec a (src x)); try lia;
          destruct (Nat.ltb_spec (src x) (S a + n)), (Nat.ltb_spec (src x) (a + S n)); try lia; cbn [andb]; lra. }
    rewrite G. cbn [Nat.leb andb Nat.add]. destruct (Nat.ltb_spec (src x) N); [reflexivity|lia].
Qed.

Definition both {A} (d : A) (ps : list fpart) (L : vec) (G : fpart -> fpart -> A) (x : link) : A :=
  let '(i, j, s) := x in
  match nth_error ps i with
  | Some p => match nth_error ps j with Some q => G p (copy L s q) | None => d end
  | None => d
  end.
Lemma lsum_neibs : forall L ps P i f,
  lsum f (neibs_of L ps P i) =
  lsum (fun x => if Nat.eqb (src x) i then match nth_error ps (snd (fst x)) with Some q => f (copy L (snd x) q) | None => 0 end else 0) P.
Proof.
  intros. unfold neibs_of. induction P as [|[[i' j] s] P IH]; [easy|].
  cbn [flat_map lsum]. rewrite lsum_app, IH. unfold src at 2. cbn [fst snd].
  destruct (Nat.eqb i' i); [|cbn; lra]. destruct (nth_error ps j); cbn; lra.
Qed.
(** A total whose summand is a sum over the neighbour list is a sum over all links. *)
Lemma total_links : forall A (f : fpart -> A -> R) comp L ps P (G : fpart -> fpart -> R),
  mutual (length ps) P ->
  (forall i p, nth_error ps i = Some p -> f p (comp i p) = lsum (G p) (neibs_of L ps P i)) ->
  total f comp ps = lsum (both 0 ps L G) P.
Proof.
  intros A f comp L ps P G [_ HP] Hf. unfold total.
  rewrite (lsum_ext _ (fun i => lsum (fun x => if Nat.eqb (src x) i then
     match nth_error ps i with Some p => match nth_error ps (snd (fst x)) with Some q => G p (copy L (snd x) q) | None => 0 end | None => 0 end else 0) P)).
  - rewrite (lsum_swap (length ps) (fun i x => match nth_error ps i with Some p => match nth_error ps (snd (fst x)) with Some q => G p (copy L (snd x) q) | None => 0 end | None => 0 end)).
    + apply lsum_ext. intros [[i j] s] Hx. reflexivity.
    + intros [[i j] s] Hx. apply (HP i j s Hx).
  - intros i Hi. destruct (nth_error ps i) as [p|] eqn:E.
    + rewrite (Hf i p E), lsum_neibs. reflexivity.
    + symmetry. apply lsum_zero. intros x _. destruct (Nat.eqb (src x) i); easy.
Qed.
Definition neg3 (s : shift3) : shift3 := let '(a, b, c) := s in (- a, - b, - c)%Z.
Lemma sh_neg : forall s k, sh (neg3 s) k = (- sh s k)%Z.
Proof. intros [[a b] c] [|[|[|k]]]; reflexivity. Qed.
Lemma links_antisym : forall L ps P (G : fpart -> fpart -> R) (good : shift3 -> Prop),
  mutual (length ps) P -> (forall i j s, In (i, j, s) P -> good s) ->
  (forall p q s, In p ps -> In q ps -> good s -> G p (copy L s q) + G q (copy L (neg3 s) p) = 0) ->
  lsum (both 0 ps L G) P = 0.
Proof.
  intros L ps P G good [Hperm HP] Hgood HG.
  assert (E : lsum (both 0 ps L G) P = lsum (both 0 ps L G) (map back P)) by now apply lsum_perm.
  assert (M : forall Q, lsum (both 0 ps L G) (map back Q) = lsum (fun x => both 0 ps L G (back x)) Q).
  { induction Q; [easy|]. cbn [map lsum]. now rewrite IHQ. }
  rewrite M in E.
  assert (S : lsum (both 0 ps L G) P + lsum (fun x => both 0 ps L G (back x)) P = 0).
  { rewrite <- lsum_plus. apply lsum_zero. intros [[i j] s] Hx. destruct (HP i j s Hx) as [Hi Hj].
    pose proof (Hgood i j s Hx) as Hs. destruct s as [[a b] c]. unfold both, back.
    destruct (nth_error ps i) as [p|] eqn:Ei; [|apply nth_error_None in Ei; lia].
    destruct (nth_error ps j) as [q|] eqn:Ej; [|apply nth_error_None in Ej; lia].
    apply (HG p q (a, b, c)); eauto using nth_error_In. }
  lra.
Qed.

(** ** The pair terms *)
Section Pair.
Variables (n : nat) (w1 wgrav wpot : R -> R).
Variables (avisc : aviscenum) (acond : acondenum) (tdavisc : tdaviscenum) (al be almin : R) (Pr : fpart -> R).
Notation diss := (dissipation avisc acond al be).

Definition dp (p q : fpart) (dvdr wi wj : R) : R := fst (diss p q dvdr wi wj 0 0).
Definition du (p q : fpart) (dvdr wi wj : R) : R := snd (diss p q dvdr wi wj 0 0).
Lemma diss_add : forall p q dvdr wi wj paux dudt,
  diss p q dvdr wi wj paux dudt = (paux + dp p q dvdr wi wj, dudt + du p q dvdr wi wj).
Proof.
  intros. unfold dp, du, dissipation. destruct (rltb dvdr 0); [|cbn; f_equal; lra].
  destruct avisc, acond; cbn; f_equal; lra.
Qed.
Lemma dp_sym : forall p q dvdr wi wj, dp p q dvdr wi wj = dp q p dvdr wj wi.
Proof.
  intros. unfold dp, dissipation. destruct (rltb dvdr 0); [|easy].
  rewrite (Rplus_comm (f_alpha q)), (Rplus_comm (f_sound q)), (Rplus_comm wj), (Rplus_comm (1 / f_rho q)).
  destruct avisc, acond; reflexivity.
Qed.
Lemma du_sum : forall p q dvdr wi wj,
  f_m p * du p q dvdr wi wj + f_m q * du q p dvdr wj wi = f_m p * f_m q * dvdr * dp p q dvdr wi wj.
Proof.
  intros. unfold dp, du, dissipation. destruct (rltb dvdr 0); [|cbn; lra].
  rewrite (Rplus_comm (f_alpha q)), (Rplus_comm (f_sound q)), (Rplus_comm wj), (Rplus_comm (1 / f_rho q)).
  rewrite (Rabs_minus_sym (f_pressure q)).
  destruct avisc, acond; cbn; lra.
Qed.

(** What one neighbour adds, given distance [d], direction [e] and approach speed. *)
Definition wi_ (p : fpart) (d : R) := f_hfactor p * w1 (d * (1 / f_h p)).
Definition pa (p q : fpart) (d dvdr : R) : R :=
  ppair p q (wi_ p d) (wi_ q d) + dp p q dvdr (wi_ p d) (wi_ q d).
Lemma pa_sym : forall p q d dvdr, pa p q d dvdr = pa q p d dvdr.
Proof. intros. unfold pa. rewrite dp_sym. unfold ppair. lra. Qed.

Definition hd (p q : fpart) : R := sqrt (dot n (vsub (f_r q) (f_r p)) (vsub (f_r q) (f_r p))).
Definition he (p q : fpart) : vec :=
  if rltb 0 (hd p q) then (fun k => vsub (f_r q) (f_r p) k / hd p q) else vsub (f_r q) (f_r p).
Definition hv (p q : fpart) : R := dot n (f_v q) (he p q) - dot n (f_v p) (he p q).
Definition gd (p q : fpart) : R := sqrt (dot n (vsub (f_r q) (f_r p)) (vsub (f_r q) (f_r p)) + small_number).
Definition ge (p q : fpart) : vec := fun k => vsub (f_r q) (f_r p) k * (1 / gd p q).
Definition gv (p q : fpart) : R := dot n (vsub (f_v q) (f_v p)) (ge p q).

Lemma hydro_neib_eq : forall p x q,
  hydro_neib n w1 avisc acond al be p x q =
  {| a_a := fun k => a_a x k + f_m q * he p q k * pa p q (hd p q) (hv p q);
     a_atree := a_atree x; a_gpot := a_gpot x;
     a_dudt := a_dudt x + du p q (hv p q) (wi_ p (hd p q)) (wi_ q (hd p q));
     a_divv := a_divv x - f_m q * hv p q * wi_ p (hd p q);
     a_dalphadt := a_dalphadt x; a_lneib := Z.max (a_lneib x) (f_level q) |}.
Proof. intros. unfold hydro_neib. rewrite diss_add. reflexivity. Qed.

Definition gaux (p q : fpart) (d : R) : R :=
  1 / 2 * (1 / f_h p * (1 / f_h p) * wgrav (d * (1 / f_h p)) + f_zeta p * wi_ p d +
           1 / f_h q * (1 / f_h q) * wgrav (d * (1 / f_h q)) + f_zeta q * wi_ q d).
Definition pot (p q : fpart) (d : R) : R :=
  1 / 2 * f_m q * (1 / f_h p * wpot (d * (1 / f_h p)) + 1 / f_h q * wpot (d * (1 / f_h q))).
Lemma hydrograv_neib_eq : forall p x q,
  hydrograv_neib n w1 wgrav wpot avisc acond al be p x q =
  {| a_a := fun k => a_a x k + f_m q * ge p q k * pa p q (gd p q) (gv p q);
     a_atree := fun k => a_atree x k + f_m q * ge p q k * gaux p q (gd p q);
     a_gpot := a_gpot x + pot p q (gd p q);
     a_dudt := a_dudt x + du p q (gv p q) (wi_ p (gd p q)) (wi_ q (gd p q));
     a_divv := a_divv x - f_m q * gv p q * wi_ p (gd p q);
     a_dalphadt := a_dalphadt x; a_lneib := Z.max (a_lneib x) (f_level q) |}.
Proof. intros. unfold hydrograv_neib. rewrite diss_add. reflexivity. Qed.

(** Folds as sums. *)
Lemma hydro_fold : forall p neib x, let y := fold_left (hydro_neib n w1 avisc acond al be p) neib x in
  (forall k, a_a y k = a_a x k + lsum (fun q => f_m q * he p q k * pa p q (hd p q) (hv p q)) neib) /\
  a_atree y = a_atree x /\ a_gpot y = a_gpot x /\ a_dalphadt y = a_dalphadt x /\
  a_dudt y = a_dudt x + lsum (fun q => du p q (hv p q) (wi_ p (hd p q)) (wi_ q (hd p q))) neib /\
  a_divv y = a_divv x - lsum (fun q => f_m q * hv p q * wi_ p (hd p q)) neib /\
  a_lneib y = fold_left (fun l q => Z.max l (f_level q)) neib (a_lneib x).
Proof.
  intros p. induction neib as [|q neib IH]; intros x.
  - cbn. repeat split; intros; lra.
  - intros y. subst y. cbn [fold_left lsum]. specialize (IH (hydro_neib n w1 avisc acond al be p x q)).
    cbn zeta in IH. destruct IH as (A & B & C & D & E & F & G). rewrite hydro_neib_eq in *. cbn [a_a a_atree a_gpot a_dalphadt a_dudt a_divv a_lneib] in *.
    repeat split; auto; [intros k; rewrite A; lra| |]; lra.
Qed.
Lemma hydrograv_fold : forall p neib x, let y := fold_left (hydrograv_neib n w1 wgrav wpot avisc acond al be p) neib x in
  (forall k, a_a y k = a_a x k + lsum (fun q => f_m q * ge p q k * pa p q (gd p q) (gv p q)) neib) /\
  (forall k, a_atree y k = a_atree x k + lsum (fun q => f_m q * ge p q k * gaux p q (gd p q)) neib) /\
  a_gpot y = a_gpot x + lsum (fun q => pot p q (gd p q)) neib /\ a_dalphadt y = a_dalphadt x /\
  a_dudt y = a_dudt x + lsum (fun q => du p q (gv p q) (wi_ p (gd p q)) (wi_ q (gd p q))) neib /\
  a_divv y = a_divv x - lsum (fun q => f_m q * gv p q * wi_ p (gd p q)) neib /\
  a_lneib y = fold_left (fun l q => Z.max l (f_level q)) neib (a_lneib x).
Proof.
  intros p. induction neib as [|q neib IH]; intros x.
  - cbn. repeat split; intros; lra.
  - intros y. subst y. cbn [fold_left lsum]. specialize (IH (hydrograv_neib n w1 wgrav wpot avisc acond al be p x q)).
    cbn zeta in IH. destruct IH as (A & B & C & D & E & F & G). rewrite hydrograv_neib_eq in *. cbn [a_a a_atree a_gpot a_dalphadt a_dudt a_divv a_lneib] in *.
    repeat split; auto; [intros k; rewrite A; lra|intros k; rewrite B; lra| | |]; lra.
Qed.

(** Symmetry of the geometry: [q] displaced as seen from [p], and [p] displaced as seen from [q]. *)
Definition setr (q : fpart) (r : vec) : fpart :=
  {| f_m := f_m q; f_r := r; f_v := f_v q; f_h := f_h q; f_rho := f_rho q;
     f_pressure := f_pressure q; f_invomega := f_invomega q; f_hfactor := f_hfactor q; f_sound := f_sound q;
     f_alpha := f_alpha q; f_u := f_u q; f_zeta := f_zeta q; f_hr2 := f_hr2 q; f_level := f_level q |}.
Lemma setr_same : forall q, setr q (f_r q) = q.
Proof. now intros []. Qed.
Definition opposite (p q : fpart) (rp rq : vec) : Prop := forall k, rp k - f_r q k = - (rq k - f_r p k).
Lemma opposite_copy : forall L s p q, opposite p q (f_r (copy L (neg3 s) p)) (f_r (copy L s q)).
Proof. intros L s p q k. unfold copy. cbn [f_r]. rewrite sh_neg, opp_IZR. lra. Qed.
Lemma opposite_self : forall p q, opposite p q (f_r p) (f_r q).
Proof. intros p q k. lra. Qed.
Lemma dot_opp : forall a b, (forall k, a k = - b k) -> dot n a a = dot n b b.
Proof. intros a b H. apply sumf_ext. intros. rewrite H. lra. Qed.
Lemma dot_oppr : forall a b c, (forall k, b k = - c k) -> dot n a b = - dot n a c.
Proof.
  intros a b c H. unfold dot. replace (- sumf n (fun k => a k * c k)) with (-1 * sumf n (fun k => a k * c k)) by lra.
  rewrite <- sumf_scal. apply sumf_ext. intros. rewrite H. lra.
Qed.
Section Opp.
Variables (p q : fpart) (rp rq : vec).
Hypothesis Hop : opposite p q rp rq.
Lemma hd_op : hd q (setr p rp) = hd p (setr q rq).
Proof. unfold hd. f_equal. apply dot_opp. intros k. apply Hop. Qed.
Lemma gd_op : gd q (setr p rp) = gd p (setr q rq).
Proof. unfold gd. do 2 f_equal. apply dot_opp. intros k. apply Hop. Qed.
Lemma he_op : forall k, he q (setr p rp) k = - he p (setr q rq) k.
Proof.
  intros k. unfold he. rewrite hd_op. destruct (rltb 0 _); [|apply Hop].
  unfold vsub, setr. cbn [f_r]. rewrite Hop. lra.
Qed.
Lemma ge_op : forall k, ge q (setr p rp) k = - ge p (setr q rq) k.
Proof. intros k. unfold ge. rewrite gd_op. unfold vsub, setr. cbn [f_r]. rewrite Hop. lra. Qed.
Lemma hv_op : hv q (setr p rp) = hv p (setr q rq).
Proof.
  unfold hv. cbn [setr f_v]. rewrite !(dot_oppr _ (he q (setr p rp)) (he p (setr q rq))) by apply he_op. lra.
Qed.
Lemma gv_op : gv q (setr p rp) = gv p (setr q rq).
Proof.
  unfold gv. cbn [setr f_v]. rewrite (dot_oppr _ (ge q (setr p rp)) (ge p (setr q rq))) by apply ge_op.
  rewrite !dot_sub_l. lra.
Qed.
End Opp.
Lemma gv_alt : forall p q, gv p q = dot n (f_v q) (ge p q) - dot n (f_v p) (ge p q).
Proof. intros. unfold gv. now rewrite dot_sub_l. Qed.

(** ** Conservation *)
Definition comph (p : fpart) : R := Pr p * (1 / f_rho p) * (1 / f_rho p) * f_invomega p.
Lemma pair_power : forall p q d v (e e' : vec),
  (forall k, e' k = - e k) -> v = dot n (f_v q) e - dot n (f_v p) e ->
  f_rho p <> 0 -> f_rho q <> 0 -> Pr p = f_pressure p -> Pr q = f_pressure q ->
  f_m p * (dot n (f_v p) (fun k => f_m q * e k * pa p q d v) + du p q v (wi_ p d) (wi_ q d) + comph p * (f_m q * v * wi_ p d)) +
  f_m q * (dot n (f_v q) (fun k => f_m p * e' k * pa q p d v) + du q p v (wi_ q d) (wi_ p d) + comph q * (f_m p * v * wi_ q d)) = 0.
Proof.
  intros p q d v e e' He Hv Rp Rq Pp Pq.
  assert (D1 : dot n (f_v p) (fun k => f_m q * e k * pa p q d v) = f_m q * pa p q d v * dot n (f_v p) e).
  { rewrite <- dot_scal_r. apply dot_ext; intros; unfold vscal; lra. }
  assert (D2 : dot n (f_v q) (fun k => f_m p * e' k * pa q p d v) = - (f_m p * pa q p d v) * dot n (f_v q) e).
  { rewrite <- dot_scal_r. apply dot_ext; intros; unfold vscal; rewrite ?He; lra. }
  rewrite D1, D2, (pa_sym q p).
  pose proof (du_sum p q v (wi_ p d) (wi_ q d)) as S.
  set (Ep := dot n (f_v p) e) in *. set (Eq := dot n (f_v q) e) in *.
  assert (S2 : f_m p * du p q v (wi_ p d) (wi_ q d) + f_m q * du q p v (wi_ q d) (wi_ p d) =
               f_m p * f_m q * v * (pa p q d v - ppair p q (wi_ p d) (wi_ q d))) by (rewrite S; unfold pa; lra).
  assert (C : comph p * wi_ p d + comph q * wi_ q d = ppair p q (wi_ p d) (wi_ q d)).
  { unfold comph, ppair. rewrite Pp, Pq. field. auto. }
  replace (f_m p * (f_m q * pa p q d v * Ep + du p q v (wi_ p d) (wi_ q d) + comph p * (f_m q * v * wi_ p d)) +
           f_m q * (- (f_m p * pa p q d v) * Eq + du q p v (wi_ q d) (wi_ p d) + comph q * (f_m p * v * wi_ q d)))
    with (f_m p * f_m q * pa p q d v * (Ep - Eq) +
          (f_m p * du p q v (wi_ p d) (wi_ q d) + f_m q * du q p v (wi_ q d) (wi_ p d)) +
          f_m p * f_m q * v * (comph p * wi_ p d + comph q * wi_ q d)) by ring.
  rewrite S2, C, Hv. ring.
Qed.

(** The results of the two routines from zero accumulators. *)
Notation HF := (ComputeSphHydroForces n w1 avisc acond tdavisc al be almin Pr).
Notation HGF := (ComputeSphHydroGravForces n w1 wgrav wpot avisc acond tdavisc al be almin Pr).
Lemma HF_a : forall p l k, a_a (HF p acc0 l) k = lsum (fun q => f_m q * he p q k * pa p q (hd p q) (hv p q)) l.
Proof.
  intros. unfold ComputeSphHydroForces. cbn [a_a]. destruct (hydro_fold p l acc0) as (A & _). rewrite A. cbn [acc0 a_a]. lra.
Qed.
Lemma HGF_a : forall p l k, a_a (HGF p acc0 l) k = lsum (fun q => f_m q * ge p q k * pa p q (gd p q) (gv p q)) l.
Proof.
  intros. unfold ComputeSphHydroGravForces. cbn [a_a]. destruct (hydrograv_fold p l acc0) as (A & _). rewrite A. cbn [acc0 a_a]. lra.
Qed.
Lemma HGF_atree : forall p l k, a_atree (HGF p acc0 l) k = lsum (fun q => f_m q * ge p q k * gaux p q (gd p q)) l.
Proof.
  intros. unfold ComputeSphHydroGravForces. cbn [a_atree]. destruct (hydrograv_fold p l acc0) as (_ & A & _). rewrite A. cbn [acc0 a_atree]. lra.
Qed.
Lemma HF_dudt : forall p l, a_dudt (HF p acc0 l) =
  lsum (fun q => du p q (hv p q) (wi_ p (hd p q)) (wi_ q (hd p q)) + comph p * (f_m q * hv p q * wi_ p (hd p q))) l.
Proof.
  intros. unfold ComputeSphHydroForces. cbn [a_dudt]. destruct (hydro_fold p l acc0) as (_ & _ & _ & _ & E & F & _).
  rewrite E, F, lsum_plus, lsum_scal. cbn [acc0 a_dudt a_divv]. unfold comph. lra.
Qed.
Lemma HGF_dudt : forall p l, a_dudt (HGF p acc0 l) =
  lsum (fun q => du p q (gv p q) (wi_ p (gd p q)) (wi_ q (gd p q)) + comph p * (f_m q * gv p q * wi_ p (gd p q))) l.
Proof.
  intros. unfold ComputeSphHydroGravForces. cbn [a_dudt]. destruct (hydrograv_fold p l acc0) as (_ & _ & _ & _ & E & F & _).
  rewrite E, F, lsum_plus, lsum_scal. cbn [acc0 a_dudt a_divv]. unfold comph. lra.
Qed.
Lemma dot_lsum : forall (v : vec) (f : fpart -> vec) (g : vec) l, (forall k, g k = lsum (fun q => f q k) l) ->
  dot n v g = lsum (fun q => dot n v (f q)) l.
Proof.
  intros v f g l H. unfold dot. rewrite lsum_sumf. apply sumf_ext. intros k _. rewrite H, <- lsum_scal. reflexivity.
Qed.

(** ** Pair functions and their symmetry *)
Definition antisym (G : fpart -> fpart -> R) : Prop :=
  forall p q rp rq, opposite p q rp rq -> G p (setr q rq) + G q (setr p rp) = 0.
Lemma hydro_antisym : forall k, antisym (fun p q => f_m p * (f_m q * he p q k * pa p q (hd p q) (hv p q))).
Proof.
  intros k p q rp rq H. rewrite (hd_op p q rp rq H), (hv_op p q rp rq H), (he_op p q rp rq H).
  cbn [setr f_m]. change (pa q (setr p rp)) with (pa q p). change (pa p (setr q rq)) with (pa p q). rewrite (pa_sym q p). lra.
Qed.
Lemma hydrograv_antisym : forall k, antisym (fun p q => f_m p * (f_m q * ge p q k * pa p q (gd p q) (gv p q))).
Proof.
  intros k p q rp rq H. rewrite (gd_op p q rp rq H), (gv_op p q rp rq H), (ge_op p q rp rq H).
  cbn [setr f_m]. change (pa q (setr p rp)) with (pa q p). change (pa p (setr q rq)) with (pa p q). rewrite (pa_sym q p). lra.
Qed.
Lemma gaux_sym : forall p q d, gaux p q d = gaux q p d.
Proof. intros. unfold gaux. lra. Qed.
Lemma gaux_antisym : forall k, antisym (fun p q => f_m p * (f_m q * ge p q k * gaux p q (gd p q))).
Proof.
  intros k p q rp rq H. rewrite (gd_op p q rp rq H), (ge_op p q rp rq H).
  cbn [setr f_m]. change (gaux q (setr p rp)) with (gaux q p). change (gaux p (setr q rq)) with (gaux p q). rewrite (gaux_sym q p). lra.
Qed.
Definition good (p : fpart) : Prop := f_rho p <> 0 /\ Pr p = f_pressure p.
Lemma hydro_power : forall p q rp rq, good p -> good q -> opposite p q rp rq ->
  let G p q := f_m p * (dot n (f_v p) (fun k => f_m q * he p q k * pa p q (hd p q) (hv p q)) +
               (du p q (hv p q) (wi_ p (hd p q)) (wi_ q (hd p q)) + comph p * (f_m q * hv p q * wi_ p (hd p q)))) in
  G p (setr q rq) + G q (setr p rp) = 0.
Proof.
  intros p q rp rq [A1 A2] [B1 B2] H G. unfold G. rewrite (hd_op p q rp rq H), (hv_op p q rp rq H).
  pose proof (pair_power p q (hd p (setr q rq)) (hv p (setr q rq)) (he p (setr q rq)) (he q (setr p rp))
                (he_op p q rp rq H) eq_refl A1 B1 A2 B2) as E.
  rewrite !Rplus_assoc in E. rewrite <- Rplus_assoc in E. rewrite <- !Rplus_assoc. rewrite <- !Rplus_assoc in E. exact E.
Qed.
Lemma hydrograv_power : forall p q rp rq, good p -> good q -> opposite p q rp rq ->
  let G p q := f_m p * (dot n (f_v p) (fun k => f_m q * ge p q k * pa p q (gd p q) (gv p q)) +
               (du p q (gv p q) (wi_ p (gd p q)) (wi_ q (gd p q)) + comph p * (f_m q * gv p q * wi_ p (gd p q)))) in
  G p (setr q rq) + G q (setr p rp) = 0.
Proof.
  intros p q rp rq [A1 A2] [B1 B2] H G. unfold G. rewrite (gd_op p q rp rq H), (gv_op p q rp rq H).
  pose proof (pair_power p q (gd p (setr q rq)) (gv p (setr q rq)) (ge p (setr q rq)) (ge q (setr p rp))
                (ge_op p q rp rq H) (gv_alt p (setr q rq)) A1 B1 A2 B2) as E.
  rewrite <- !Rplus_assoc. exact E.
Qed.
(** Central forces exert no torque. *)
Lemma central_torque : forall p q (e : fpart -> fpart -> vec) (X : fpart -> fpart -> R) k l,
  (forall j, e q p j = - e p q j) -> X q p = X p q ->
  (f_r q k - f_r p k) * e p q l = (f_r q l - f_r p l) * e p q k ->
  f_m p * (f_r p k * (f_m q * e p q l * X p q) - f_r p l * (f_m q * e p q k * X p q)) +
  f_m q * (f_r q k * (f_m p * e q p l * X q p) - f_r q l * (f_m p * e q p k * X q p)) = 0.
Proof.
  intros p q e X k l He HX Hc. rewrite !He, HX.
  replace (f_m p * (f_r p k * (f_m q * e p q l * X p q) - f_r p l * (f_m q * e p q k * X p q)) +
  f_m q * (f_r q k * (f_m p * - e p q l * X p q) - f_r q l * (f_m p * - e p q k * X p q)))
  with (- f_m p * f_m q * X p q * ((f_r q k - f_r p k) * e p q l - (f_r q l - f_r p l) * e p q k)) by ring.
  rewrite Hc. ring.
Qed.
Lemma he_central : forall p q k l, (f_r q k - f_r p k) * he p q l = (f_r q l - f_r p l) * he p q k.
Proof. intros. unfold he, vsub. destruct (rltb 0 (hd p q)); unfold Rdiv; ring. Qed.
Lemma ge_central : forall p q k l, (f_r q k - f_r p k) * ge p q l = (f_r q l - f_r p l) * ge p q k.
Proof. intros. unfold ge, vsub. ring. Qed.
End Pair.
