From Verif Require Import Prelude Vec M_Box L_Box M_Dust S_Diag S_Dust L_Diag L_Dust.
From Coq Require Import Reals Lra Lia List Permutation.
Local Open Scope R_scope.

Lemma lsum_perm : forall (A : Type) (f : A -> R) l l', Permutation l l' -> lsum f l = lsum f l'.
Proof. intros A f l l' P. induction P; cbn [lsum]; lra. Qed.
Lemma lsum_flat : forall (A B : Type) (f : B -> R) (g : A -> list B) l, lsum f (flat_map g l) = lsum (fun a => lsum f (g a)) l.
Proof. intros A B f g l. induction l; cbn [flat_map lsum]; auto. rewrite lsum_app, IHl. reflexivity. Qed.
Lemma lsum_filter : forall (A : Type) (f : A -> R) b l, lsum f (filter b l) = lsum (fun x => if b x then f x else 0) l.
Proof. intros A f b l. induction l; cbn [filter lsum]; auto. destruct (b a); cbn [lsum]; rewrite IHl; lra. Qed.
Lemma lsum_swap : forall (A B : Type) (f : A -> B -> R) l l', lsum (fun a => lsum (f a) l') l = lsum (fun b => lsum (fun a => f a b) l) l'.
Proof.
  intros A B f l l'. induction l as [|a l IH]; cbn [lsum].
  - induction l' as [|b l' IH]; cbn [lsum]; lra.
  - rewrite IH, <- lsum_plus. reflexivity.
Qed.
Lemma lsum_opp : forall (A : Type) (f : A -> R) l, lsum (fun x => - f x) l = - lsum f l.
Proof. intros A f l. induction l; cbn [lsum]; lra. Qed.
Lemma lsum_0 : forall (A : Type) (f : A -> R) l, (forall x, In x l -> f x = 0) -> lsum f l = 0.
Proof. intros A f l. induction l; cbn [lsum]; intros H; auto. rewrite H, IHl; [lra| |left; reflexivity]. intros; apply H; right; auto. Qed.
Lemma lsum_anti : forall (l : list nat) g, (forall i j, In i l -> In j l -> g j i = - g i j) -> lsum (fun i => lsum (g i) l) l = 0.
Proof.
  intros l g H. assert (E : lsum (fun i => lsum (g i) l) l = - lsum (fun i => lsum (g i) l) l); [|lra].
  rewrite lsum_swap at 1. rewrite <- lsum_opp. apply lsum_ext. intros i I. rewrite <- lsum_opp. apply lsum_ext. intros j J. apply H; auto.
Qed.
Lemma pick : forall (f : nat -> R) l i, NoDup l -> lsum (fun a => if Nat.eqb a i then f a else 0) l = if existsb (Nat.eqb i) l then f i else 0.
Proof.
  intros f l i. induction 1 as [|a l NI ND IH]; cbn [lsum existsb]; auto.
  rewrite IH. rewrite (Nat.eqb_sym i a). destruct (Nat.eqb_spec a i) as [->|]; cbn [orb]; [|lra].
  destruct (existsb (Nat.eqb i) l) eqn:E; [|lra]. apply existsb_exists in E. destruct E as (x & X & E). apply Nat.eqb_eq in E. subst. contradiction.
Qed.

Section Pairs.
Variables (ndim : nat) (sch : scheme) (w_tstep : R) (wdrag : R -> R) (lw : law) (Kd : R) (ue : bool).
Notation wkern := (wkern ndim wdrag).
Notation pair_S := (pair_S ndim sch lw Kd).
Notation pair_dir := (pair_dir ndim).
Notation drag_step := (drag_step ndim sch wdrag lw Kd).

Lemma pair_test rho dt ts : rho <> 0 -> ts <> 0 -> dt >= 0 -> pair_coeffs rho dt ts = (fst (test_coeffs dt ts) / rho, snd (test_coeffs dt ts) / rho).
Proof.
  intros Q T D. unfold pair_coeffs, test_coeffs. cbv zeta. destruct (rltb _ _) eqn:E; cbn [fst snd].
  - apply rltb_true in E. assert (dt <> 0). { intros ->. unfold Rdiv in E. rewrite Rmult_0_l in E. lra. }
    f_equal; field; auto.
  - f_equal; field; auto.
Qed.

Lemma drag_fold : forall p dt (l : list (nat * dpt)) s, let e := fold_left (fun s q => drag_step p dt s (snd q)) l s in
  g_norm e = g_norm s + lsum (fun q => wkern p (snd q) * (d_m (snd q) / d_rho (snd q))) l /\
  forall k, g_acc e k = g_acc s k - lsum (fun q => INR ndim * d_rho (snd q) * pair_S p (snd q) dt * pair_dir p (snd q) k *
    (wkern p (snd q) * (d_m (snd q) / d_rho (snd q)))) l.
Proof.
  intros p dt l. induction l as [|q l IH]; intros s; cbn [fold_left lsum].
  - split; intros; lra.
  - destruct (IH (drag_step p dt s (snd q))) as (A & B). rewrite A. split.
    + unfold M_Dust.drag_step. cbn [g_norm]. lra.
    + intros k. rewrite B. unfold M_Dust.drag_step. cbn [g_acc]. lra.
Qed.
Lemma x_acc_is : forall p l dt k, x_acc (ComputeDragForces ndim sch wdrag lw Kd ue p l dt) k =
  - lsum (fun q => INR ndim * d_rho (snd q) * pair_S p (snd q) dt * pair_dir p (snd q) k * (wkern p (snd q) * (d_m (snd q) / d_rho (snd q)))) l.
Proof.
  intros p l dt k. unfold ComputeDragForces. cbv zeta.
  match goal with |- context [fold_left ?f l ?s] => set (s0 := s); destruct (drag_fold p dt l s0) as (A & B) end.
  assert (Z : g_acc s0 k = 0) by (unfold s0; destruct (d_kind p); reflexivity).
  specialize (B k). destruct ue, (d_kind p); cbn [x_acc]; rewrite B, Z; lra.
Qed.

(** Symmetry of a pair. *)
Definition opposite (a b : vec) := forall k, a k = - b k.
Lemma wkern_sym p q p' q' : dragmask (d_kind p) (d_kind q) = true -> opposite (vsub (d_r q') (d_r p')) (vsub (d_r p) (d_r q)) ->
  d_kind p' = d_kind p -> d_kind q' = d_kind q -> d_h p' = d_h p -> d_h q' = d_h q -> wkern q' p' = wkern p q.
Proof.
  intros M O K1 K2 H1 H2. unfold M_Dust.wkern. cbv zeta.
  assert (E : dot ndim (vsub (d_r q') (d_r p')) (vsub (d_r q') (d_r p')) = dot ndim (vsub (d_r p) (d_r q)) (vsub (d_r p) (d_r q))).
  { unfold dot. apply sumf_ext. intros k _. rewrite (O k). ring. }
  rewrite E, K2. destruct (d_kind p), (d_kind q); try discriminate; rewrite ?H1, ?H2; reflexivity.
Qed.
Lemma dir_sym p q p' q' k : opposite (vsub (d_r q') (d_r p')) (vsub (d_r p) (d_r q)) -> pair_dir q' p' k = - pair_dir p q k.
Proof.
  intros O. unfold M_Dust.pair_dir. cbv zeta.
  assert (E : dot ndim (vsub (d_r q') (d_r p')) (vsub (d_r q') (d_r p')) = dot ndim (vsub (d_r p) (d_r q)) (vsub (d_r p) (d_r q))).
  { unfold dot. apply sumf_ext. intros j _. rewrite (O j). ring. }
  rewrite E, (O k). destruct (rltb _ _); unfold Rdiv; ring.
Qed.
Lemma dot_neg n a b a' b' : (forall k, a' k = - a k) -> (forall k, b' k = - b k) -> dot n a' b' = dot n a b.
Proof. intros A B. unfold dot. apply sumf_ext. intros k _. rewrite A, B. ring. Qed.
Lemma S_sym p q p' q' dt : dragmask (d_kind p) (d_kind q) = true -> opposite (vsub (d_r q') (d_r p')) (vsub (d_r p) (d_r q)) ->
  d_dt p = d_dt q -> (exists r, p' = set_pos p r) -> (exists r, q' = set_pos q r) -> pair_S q' p' dt = pair_S p q dt.
Proof.
  intros M O D (r1 & ->) (r2 & ->). unfold M_Dust.pair_S. cbv zeta.
  set (dir := pair_dir p q). set (dir' := pair_dir (set_pos q r2) (set_pos p r1)).
  assert (DD : forall k, dir' k = - dir k) by (intros k; apply dir_sym; exact O).
  rewrite (dot_neg ndim dir (vdiff sch p q) dir' (vdiff sch (set_pos q r2) (set_pos p r1))); [|exact DD|].
  2:{ intros k. unfold vdiff. destruct sch; cbn [set_pos d_v d_dt d_a0 d_v0]; [rewrite D; ring|ring]. }
  rewrite (dot_neg ndim dir (vsub (total_accel sch p) (total_accel sch q)) dir' (vsub (total_accel sch (set_pos q r2)) (total_accel sch (set_pos p r1)))); [|exact DD|].
  2:{ intros k. unfold vsub, total_accel. destruct sch; cbn [set_pos d_a d_a0 d_Q0m d_m d_dt d_dQ]; ring. }
  cbn [set_pos d_kind d_sound d_rho]. destruct (d_kind p), (d_kind q); try discriminate; reflexivity.
Qed.

(** m_i times the acceleration of i by j displaced by s. *)
Definition F (ps : nat -> dpt) (dt : R) (k i j : nat) (s : vec) : R :=
  if dragmask (d_kind (ps i)) (d_kind (ps j)) then
    let q := set_pos (ps j) (fun k => d_r (ps j) k + s k) in
    - (INR ndim * d_m (ps i) * d_m (ps j) * pair_S (ps i) q dt * pair_dir (ps i) q k * wkern (ps i) q)
  else 0.
Lemma F_anti ps dt k i j s : d_dt (ps i) = d_dt (ps j) -> F ps dt k j i (fun k => - s k) = - F ps dt k i j s.
Proof.
  intros D. unfold F.
  assert (E : dragmask (d_kind (ps j)) (d_kind (ps i)) = dragmask (d_kind (ps i)) (d_kind (ps j))) by (destruct (d_kind (ps i)), (d_kind (ps j)); reflexivity).
  rewrite E. clear E. destruct (dragmask (d_kind (ps i)) (d_kind (ps j))) eqn:M; [|ring]. cbv zeta.
  set (q := set_pos (ps j) (fun k => d_r (ps j) k + s k)). set (p' := set_pos (ps i) (fun k => d_r (ps i) k + - s k)).
  assert (O : opposite (vsub (d_r (ps j)) (d_r p')) (vsub (d_r (ps i)) (d_r q))).
  { unfold opposite. intros x. unfold vsub, p', q. cbn [set_pos d_r]. ring. }
  assert (SQ : exists r, ps j = set_pos q r). { exists (d_r (ps j)). unfold q. destruct (ps j). reflexivity. }
  rewrite (wkern_sym (ps i) q p' (ps j)); try reflexivity; auto.
  rewrite (S_sym (ps i) q p' (ps j) dt); auto; [|eexists; reflexivity].
  rewrite (dir_sym (ps i) q p' (ps j) k O). ring.
Qed.

Notation drag_of := (drag_of ndim sch w_tstep wdrag lw Kd ue).
Notation DoForces := (DoForces ndim sch w_tstep wdrag lw Kd ue).
Notation dragdt := (drag_timestep w_tstep).

Lemma mask_none k : dragmask Cdm k = false. Proof. destruct k; reflexivity. Qed.
Lemma drag_of_acc ps neibs i k : (forall j, In j (map fst (neibs i)) -> d_rho (ps j) <> 0) ->
  d_m (ps i) * x_acc (drag_of ps neibs i) k =
  lsum (fun x => F ps (dragdt (ps i)) k i (fst x) (fun c => snd x c - d_r (ps (fst x)) c)) (neibs i).
Proof.
  intros RN. unfold M_Dust.drag_of. cbv zeta. destruct (drag_forces (d_kind (ps i))) eqn:DF.
  2:{ cbn [x_acc]. rewrite Rmult_0_r. symmetry. apply lsum_0. intros x _. unfold F. destruct (d_kind (ps i)); try discriminate. rewrite mask_none. reflexivity. }
  rewrite x_acc_is, lsum_filter. unfold copies. rewrite lsum_map.
  rewrite <- lsum_opp, <- lsum_scal. apply lsum_ext. intros (j & pos) IN. cbn [fst snd].
  unfold F. cbn [set_pos d_kind]. destruct (dragmask _ _) eqn:M; [|ring]. cbv zeta.
  assert (EX : set_pos (ps j) (fun k0 => d_r (ps j) k0 + (pos k0 - d_r (ps j) k0)) = set_pos (ps j) pos).
  { unfold set_pos. f_equal. apply FunctionalExtensionality.functional_extensionality. intros x. ring. }
  rewrite EX. cbn [set_pos d_rho d_m]. field. apply RN. apply in_map_iff. exists (j, pos). auto.
Qed.

(** Generic pairwise cancellation with a position weight depending on the pair alone. *)
Lemma pair_total ps N sh neibs (P : nat -> nat -> nat -> vec -> R) :
  mutual N (fun i => d_r (ps i)) sh neibs ->
  (forall k i j s, (i < N)%nat -> (j < N)%nat -> P k j i (fun k => - s k) = - P k i j s) ->
  forall k, lsum (fun i => lsum (fun x => P k i (fst x) (fun c => snd x c - d_r (ps (fst x)) c)) (neibs i)) (seq 0 N) = 0.
Proof.
  intros (MU & SY) AN k.
  rewrite (lsum_ext _ _ (fun i => lsum (fun j => lsum (P k i j) (sh i j)) (seq 0 N))).
  - apply lsum_anti. intros i j I J. apply in_seq in I. apply in_seq in J.
    rewrite (lsum_perm _ _ _ _ (SY i j ltac:(lia) ltac:(lia))), lsum_map, <- lsum_opp. apply lsum_ext. intros s _. apply AN; lia.
  - intros i I. apply in_seq in I. rewrite (lsum_perm _ _ _ _ (MU i ltac:(lia))), lsum_flat. apply lsum_ext. intros j _.
    rewrite lsum_map. apply lsum_ext. intros s _. cbn [fst snd]. f_equal. apply FunctionalExtensionality.functional_extensionality. intros x. ring.
Qed.
Lemma in_neibs ps N sh neibs i j : mutual N (fun i => d_r (ps i)) sh neibs -> (i < N)%nat -> In j (map fst (neibs i)) -> (j < N)%nat.
Proof.
  intros (MU & _) I J. apply in_map_iff in J. destruct J as (x & <- & X). apply (Permutation_in _ (MU i I)) in X.
  apply in_flat_map in X. destruct X as (j & J & X). apply in_seq in J. apply in_map_iff in X. destruct X as (s & <- & _). cbn. lia.
Qed.
Lemma momentum_sum ps N sh neibs dt dtn k : mutual N (fun i => d_r (ps i)) sh neibs ->
  (forall i, (i < N)%nat -> d_rho (ps i) <> 0 /\ d_dt (ps i) = dt /\ d_dtnext (ps i) = dtn) ->
  lsum (fun i => d_m (ps i) * x_acc (drag_of ps neibs i) k) (seq 0 N) = 0.
Proof.
  intros MU H.
  rewrite (lsum_ext _ _ (fun i => lsum (fun x => F ps (w_tstep * dt + (1 - w_tstep) * dtn) k i (fst x) (fun c => snd x c - d_r (ps (fst x)) c)) (neibs i))).
  - apply (pair_total ps N sh neibs (F ps (w_tstep * dt + (1 - w_tstep) * dtn)) MU).
    intros c i j s I J. apply F_anti. destruct (H i I) as (_ & -> & _), (H j J) as (_ & -> & _). reflexivity.
  - intros i I. apply in_seq in I. rewrite drag_of_acc.
    + unfold dragdt. destruct (H i ltac:(lia)) as (_ & -> & ->). reflexivity.
    + intros j J. apply H. apply (in_neibs ps N sh neibs i j MU); [lia|exact J].
Qed.
Lemma dir_par p q a b : pair_dir p q a * (d_r p b - d_r q b) = pair_dir p q b * (d_r p a - d_r q a).
Proof. unfold M_Dust.pair_dir, vsub. cbv zeta. destruct (rltb _ _); unfold Rdiv; ring. Qed.
Lemma torque_sum ps N neibs dt dtn a b : mutual N (fun i => d_r (ps i)) (fun _ _ => [fun _ => 0]) neibs ->
  (forall i, (i < N)%nat -> d_rho (ps i) <> 0 /\ d_dt (ps i) = dt /\ d_dtnext (ps i) = dtn) ->
  lsum (fun i => d_m (ps i) * (d_r (ps i) a * x_acc (drag_of ps neibs i) b - d_r (ps i) b * x_acc (drag_of ps neibs i) a)) (seq 0 N) = 0.
Proof.
  intros MU H. set (D := w_tstep * dt + (1 - w_tstep) * dtn).
  set (P := fun i j s => d_r (ps i) a * F ps D b i j s - d_r (ps i) b * F ps D a i j s).
  transitivity (lsum (fun i => lsum (fun j => P i j (fun _ => 0)) (seq 0 N)) (seq 0 N)).
  - apply lsum_ext. intros i I. apply in_seq in I.
    replace (d_m (ps i) * _) with (d_r (ps i) a * (d_m (ps i) * x_acc (drag_of ps neibs i) b) - d_r (ps i) b * (d_m (ps i) * x_acc (drag_of ps neibs i) a)) by ring.
    assert (RN : forall j, In j (map fst (neibs i)) -> d_rho (ps j) <> 0).
    { intros j J. apply H. apply (in_neibs ps N _ neibs i j MU); [lia|exact J]. }
    rewrite !drag_of_acc by exact RN. unfold dragdt. destruct (H i ltac:(lia)) as (_ & -> & ->). fold D.
    rewrite <- !lsum_scal. unfold Rminus at 1. rewrite <- lsum_opp, <- lsum_plus.
    destruct MU as (MU & _). rewrite (lsum_perm _ _ _ _ (MU i ltac:(lia))), lsum_flat. apply lsum_ext. intros j _. cbn [map lsum fst snd].
    assert (E : (fun c => d_r (ps j) c + 0 - d_r (ps j) c) = (fun _ => 0)) by (apply FunctionalExtensionality.functional_extensionality; intros x; ring).
    rewrite E. unfold P. ring.
  - apply lsum_anti. intros i j I J. apply in_seq in I. apply in_seq in J. unfold P.
    assert (Z : (fun k : nat => - 0) = (fun _ : nat => 0)) by (apply FunctionalExtensionality.functional_extensionality; intros x; ring).
    assert (DT : d_dt (ps i) = d_dt (ps j)) by (destruct (H i ltac:(lia)) as (_ & -> & _), (H j ltac:(lia)) as (_ & -> & _); reflexivity).
    pose proof (F_anti ps D a i j (fun _ => 0) DT) as Fa. pose proof (F_anti ps D b i j (fun _ => 0) DT) as Fb. cbv beta in Fa, Fb. rewrite Z in Fa, Fb.
    rewrite Fa, Fb. unfold F. destruct (dragmask _ _); [|ring]. cbv zeta.
    pose proof (dir_par (ps i) (set_pos (ps j) (fun k => d_r (ps j) k + 0)) a b) as E. cbn [set_pos d_r] in E.
    set (u := M_Dust.pair_dir ndim (ps i) _ a) in *. set (v := M_Dust.pair_dir ndim (ps i) _ b) in *.
    set (c := INR ndim * d_m (ps i) * d_m (ps j) * _). set (w := M_Dust.wkern _ _ _ _). clearbody u v c w.
    assert (E' : u * (d_r (ps i) b - d_r (ps j) b) = v * (d_r (ps i) a - d_r (ps j) a)) by lra.
    replace (_ - _) with (c * w * (d_r (ps j) a * v - d_r (ps j) b * u)) by ring.
    replace (- _) with (c * w * (d_r (ps i) a * v - d_r (ps i) b * u)) by ring.
    f_equal. lra.
Qed.
End Pairs.
