(** Proofs about supernovae. *)
From Verif Require Import Prelude L_Prelude Vec M_Box L_Box M_Leapfrog M_Supernova S_Supernova.
From Coq Require Import Reals Lra Psatz.
Local Open Scope R_scope.

Lemma bindOk {A B} (x : res A) (f : A -> res B) y : bind x f = Ok y -> exists a, x = Ok a /\ f a = Ok y.
Proof. destruct x; cbn; intros H; try discriminate; eauto. Qed.

Lemma random_point_ok fuel ndim rs : forall i p j, random_point fuel ndim rs i = Ok (p, j) -> dot ndim p p <= 1.
Proof.
  induction fuel as [|fuel IH]; intros i p j; cbn [random_point]; [discriminate|].
  destruct (rltb 1 (dot ndim (fun k => 1 - 2 * rs (i + k)%nat) (fun k => 1 - 2 * rs (i + k)%nat))) eqn:E.
  - apply IH.
  - intros H. injection H as <- _. apply rltb_false in E. lra.
Qed.
Lemma sphere_ok fuel ndim c rad rs : forall N i l j, AddRandomSphere fuel ndim N c rad rs i = Ok (l, j) ->
  length l = N /\ Forall (fun r => dot ndim (vsub r c) (vsub r c) <= rad ^ 2) l.
Proof.
  induction N as [|N IH]; intros i l j; cbn [AddRandomSphere].
  - intros [= <- _]. split; [reflexivity|constructor].
  - intros H. apply bindOk in H as ((p & i1) & Hp & H). apply bindOk in H as ((l1 & i2) & Hl & H). injection H as <- _.
    destruct (IH _ _ _ Hl) as [A B]. split; [cbn; now rewrite A|]. constructor; [|assumption].
    apply random_point_ok in Hp. rewrite (dot_ext ndim _ (vscal rad p) _ (vscal rad p)); try (intros; unfold vsub, vscal; ring).
    rewrite dot_scal_l, dot_scal_r. pose proof (pow2_ge_0 rad). nra.
Qed.

(** Totals. *)
Lemma total_app {A} (f : A -> R) l l' : total f (l ++ l') = total f l + total f l'.
Proof. induction l as [|x l IH]; cbn [total app]; [ring|]. rewrite IH. ring. Qed.
Lemma total_upd {A} (f : A -> R) : forall l n x y, nth_error l n = Some y -> total f (upd l n x) = total f l - f y + f x.
Proof.
  induction l as [|z l IH]; intros [|n] x y H; cbn [nth_error] in H; try discriminate; cbn [upd total].
  - injection H as ->. ring.
  - rewrite (IH n x y H). ring.
Qed.
Lemma total_ext {A} (f g : A -> R) l : (forall x, In x l -> f x = g x) -> total f l = total g l.
Proof. induction l as [|x l IH]; intros H; cbn [total]; [reflexivity|]. rewrite (H x (or_introl eq_refl)), IH; [reflexivity|]. intros; apply H; now right. Qed.
Lemma total_const {A} (f : A -> R) c l : (forall x, In x l -> f x = c) -> total f l = IZR (zlen l) * c.
Proof.
  induction l as [|x l IH]; intros H; cbn [total]; unfold zlen in *; cbn [length]; [cbn; ring|].
  rewrite (H x), IH; [|intros; apply H; now right|now left]. rewrite Nat2Z.inj_succ, succ_IZR. ring.
Qed.
Lemma total_le {A} (f g : A -> R) l : (forall x, In x l -> f x <= g x) -> total f l <= total g l.
Proof. induction l as [|x l IH]; intros H; cbn [total]; [lra|]. pose proof (H x (or_introl eq_refl)). specialize (IH (fun y Hy => H y (or_intror Hy))). lra. Qed.
Lemma total_map {A B} (f : B -> R) (h : A -> B) l : total f (map h l) = total (fun x => f (h x)) l.
Proof. induction l as [|x l IH]; cbn [map total]; [reflexivity|]. now rewrite IH. Qed.

(** Heating. *)
Lemma heat_real ndim c vr ui : forall neib g, NoDup neib -> Forall (fun i => (0 <= i < zlen (g_real g))%Z) neib ->
  exists g', heat ndim c vr ui neib g = Ok g' /\ g_ghost g' = g_ghost g /\ g_max g' = g_max g /\ length (g_real g') = length (g_real g) /\
    (forall j p, nth_error (g_real g) j = Some p ->
       nth_error (g_real g') j = Some (if in_dec Z.eq_dec (Z.of_nat j) neib then heat_one ndim c vr ui p else p)) /\
    (forall f : spart -> R, total f (g_real g') = total f (g_real g) - total f (at_ (g_real g) neib) + total (fun p => f (heat_one ndim c vr ui p)) (at_ (g_real g) neib)) /\
    length (at_ (g_real g) neib) = length neib.
Proof.
  induction neib as [|i l IH]; intros g Hn Hf; cbn [heat].
  - exists g. repeat split; auto. intros f. cbn [at_ total]. ring.
  - inversion Hn as [|? ? Hi Hl]; subst. inversion Hf as [|? ? Hi2 Hf2]; subst.
    rewrite (proj2 (Z.ltb_lt _ _)) by lia.
    destruct (aget_in (g_real g) i Hi2) as (p & Hp). rewrite Hp. cbn [bind]. rewrite (aset_in _ _ _ Hi2). cbn [bind].
    set (g1 := mkg (upd (g_real g) (Z.to_nat i) (heat_one ndim c vr ui p)) (g_ghost g) (g_max g)).
    assert (Hz : zlen (g_real g1) = zlen (g_real g)) by (unfold g1; cbn [g_real]; apply zlen_upd).
    destruct (IH g1 Hl) as (g' & E & E1 & E2 & E3 & E4 & E5 & E6); [eapply Forall_impl; [|exact Hf2]; intros; rewrite Hz; assumption|].
    apply aget_Ok_inv in Hp. destruct Hp as [_ Hp].
    exists g'. split; [exact E|]. split; [exact E1|]. split; [exact E2|]. split; [rewrite E3; unfold g1; cbn [g_real]; apply length_upd|].
    assert (AT : forall l', ~ In i l' -> Forall (fun i => (0 <= i < zlen (g_real g))%Z) l' -> at_ (g_real g1) l' = at_ (g_real g) l').
    { induction l' as [|a l' IHl]; intros H1 H2; cbn [at_]; [reflexivity|]. inversion H2; subst. rewrite IHl by (auto; intros ?; apply H1; now right).
      f_equal. unfold g1. cbn [g_real]. rewrite nth_error_upd_ne; [reflexivity|]. intros K. apply H1. left. lia. }
    split; [|split].
    + intros j q Hj. destruct (Nat.eq_dec j (Z.to_nat i)) as [->|Hne].
      * rewrite Hp in Hj. injection Hj as <-. rewrite (E4 _ (heat_one ndim c vr ui p)).
        -- rewrite Z2Nat.id by lia. destruct (in_dec Z.eq_dec i l); [contradiction|].
           destruct (in_dec Z.eq_dec i (i :: l)) as [|K]; [reflexivity|]. exfalso. apply K. now left.
        -- unfold g1. cbn [g_real]. apply nth_error_upd_eq. apply nth_error_Some. congruence.
      * rewrite (E4 j q) by (unfold g1; cbn [g_real]; rewrite nth_error_upd_ne; auto).
        destruct (in_dec Z.eq_dec (Z.of_nat j) l) as [K|K]; destruct (in_dec Z.eq_dec (Z.of_nat j) (i :: l)) as [K2|K2]; try reflexivity.
        -- exfalso. apply K2. now right.
        -- exfalso. destruct K2 as [K2|K2]; [lia|contradiction].
    + intros f. rewrite E5, AT by assumption. cbn [at_]. rewrite Hp. cbn [app total].
      unfold g1. cbn [g_real]. rewrite (total_upd f _ _ _ p Hp). ring.
    + cbn [at_]. rewrite Hp. cbn [app length]. rewrite <- E6, AT by assumption. reflexivity.
Qed.

(** Injection. *)
Definition thrown (ndim : nat) (n nstep : Z) (t m vr ui : R) (c r : vec) : spart :=
  new_particle n nstep t m ui r (fun k => (r k - c k) / (sqrt (dot ndim (vsub r c) (vsub r c)) + small_number) * vr).
Lemma inject_ok ndim n nstep t m vr ui c : forall pos g g', inject ndim n nstep t m vr ui c pos g = Ok g' ->
  g_real g' = g_real g ++ map (thrown ndim n nstep t m vr ui c) pos.
Proof.
  induction pos as [|r l IH]; intros g g'; cbn [inject].
  - intros [= <-]. cbn. now rewrite app_nil_r.
  - intros H. apply bindOk in H as (g1 & H1 & H). rewrite (IH _ _ H).
    unfold CreateNewParticle in H1.
    destruct (zlen (g_real g) >=? (if (zlen (g_real g) >=? g_max g)%Z then grow (g_max g) else g_max g))%Z; [discriminate|].
    injection H1 as <-. cbn [g_real]. rewrite <- app_assoc. reflexivity.
Qed.
Lemma grow_more x : (5 <= x)%Z -> (x < grow x)%Z.
Proof. intros H. unfold grow. destruct (12 * x / 10 >? x)%Z eqn:E; lia. Qed.
Lemma inject_total ndim n nstep t m vr ui c : forall pos g, (5 <= g_max g)%Z -> (zlen (g_real g) <= g_max g)%Z ->
  exists g', inject ndim n nstep t m vr ui c pos g = Ok g' /\ (zlen (g_real g') <= g_max g')%Z.
Proof.
  induction pos as [|r l IH]; intros g H5 Hm; cbn [inject]; [eauto|].
  unfold CreateNewParticle. pose proof (grow_more _ H5).
  set (mx := if (zlen (g_real g) >=? g_max g)%Z then grow (g_max g) else g_max g).
  assert (zlen (g_real g) < mx)%Z by (unfold mx; destruct (zlen (g_real g) >=? g_max g)%Z eqn:E; lia).
  assert (g_max g <= mx)%Z by (unfold mx; destruct (zlen (g_real g) >=? g_max g)%Z eqn:E; lia).
  replace (zlen (g_real g) >=? mx)%Z with false by lia. cbn [bind]. apply IH; cbn [g_real g_max]; [lia|].
  unfold zlen in *. rewrite app_length. cbn [length]. lia.
Qed.

(** Energies. *)
Lemma small_pos : 0 < small_number.
Proof. unfold small_number. apply Rinv_0_lt_compat, pow_lt. lra. Qed.
Lemma thrown_speed ndim (x : vec) vr : let d := norm ndim x in
  dot ndim (fun k => x k / (d + small_number) * vr) (fun k => x k / (d + small_number) * vr) = (d / (d + small_number)) ^ 2 * vr ^ 2.
Proof.
  intros d. pose proof small_pos as S. assert (Hd : 0 <= d) by (unfold d, norm; apply sqrt_pos).
  rewrite (dot_ext ndim _ (vscal (vr / (d + small_number)) x) _ (vscal (vr / (d + small_number)) x)) by (intros; unfold vscal; field; lra).
  rewrite dot_scal_l, dot_scal_r. replace (dot ndim x x) with (d * d) by (unfold d, norm; apply sqrt_sqrt, dot_nonneg). field. lra.
Qed.
Lemma vrad_sq nSN m E Rt : (0 < nSN)%Z -> 0 < m -> 0 <= E -> 0 < Rt ->
  1 / 2 * m * vrad_mag nSN m E Rt ^ 2 = E / (Rt + 1) / IZR nSN.
Proof.
  intros Hn Hm HE HR. apply IZR_lt in Hn. unfold vrad_mag. rewrite <- Rsqr_pow2, Rsqr_sqrt.
  - field. repeat split; lra.
  - replace (2 / IZR nSN / m * E * 1 / (Rt + 1)) with (2 * E / (IZR nSN * m * (Rt + 1))) by (field; repeat split; lra).
    apply Rmult_le_pos; [lra|]. apply Rlt_le, Rinv_0_lt_compat. apply Rmult_lt_0_compat; [apply Rmult_lt_0_compat|]; lra.
Qed.
Lemma frac_le1 d : 0 <= d -> 0 <= d / (d + small_number) <= 1.
Proof.
  intros H. pose proof small_pos. split; [apply Rmult_le_pos; [lra|apply Rlt_le, Rinv_0_lt_compat; lra]|].
  apply Rmult_le_reg_r with (d + small_number); [lra|]. unfold Rdiv. rewrite Rmult_assoc, Rinv_l by lra. lra.
Qed.
Lemma frac_mono d e : 0 <= d <= e -> d / (d + small_number) <= e / (e + small_number).
Proof.
  intros [H1 H2]. pose proof small_pos.
  apply Rmult_le_reg_r with ((d + small_number) * (e + small_number)); [apply Rmult_lt_0_compat; lra|].
  replace (d / (d + small_number) * ((d + small_number) * (e + small_number))) with (d * (e + small_number)) by (field; lra).
  replace (e / (e + small_number) * ((d + small_number) * (e + small_number))) with (e * (d + small_number)) by (field; lra). nra.
Qed.

(** The whole supernova when the neighbours are real particles. *)
Lemma supernova_real fuel ndim n nstep t c E Rt Mi Ri m neib rs i g g' :
  NoDup neib -> Forall (fun i => (0 <= i < zlen (g_real g))%Z) neib ->
  SupernovaInjection fuel ndim n nstep t c E Rt Mi Ri m neib rs i g = Ok g' ->
  let nSN := (Ninject Mi m + zlen neib)%Z in
  let vr := vrad_mag nSN m E Rt in let ui := u_inj nSN m E Rt in
  exists hot pos, g_real g' = hot ++ map (thrown ndim n nstep t m vr ui c) pos /\
    length pos = Z.to_nat (Ninject Mi m) /\ Forall (fun r => dot ndim (vsub r c) (vsub r c) <= Ri ^ 2) pos /\
    length hot = length (g_real g) /\
    (forall j p, nth_error (g_real g) j = Some p -> nth_error hot j = Some (if in_dec Z.eq_dec (Z.of_nat j) neib then heat_one ndim c vr ui p else p)) /\
    (forall f : spart -> R, total f hot = total f (g_real g) - total f (at_ (g_real g) neib) + total (fun p => f (heat_one ndim c vr ui p)) (at_ (g_real g) neib)) /\
    length (at_ (g_real g) neib) = length neib.
Proof.
  intros Hn Hf H nSN vr ui. unfold SupernovaInjection in H. apply bindOk in H as ((pos & i1) & Hs & H).
  apply bindOk in H as (g1 & Hh & H). apply inject_ok in H. apply sphere_ok in Hs as [S1 S2].
  fold nSN vr ui in Hh, H.
  destruct (heat_real ndim c vr ui neib g Hn Hf) as (g2 & E2 & _ & _ & L & N & T & Q).
  rewrite E2 in Hh. injection Hh as <-. exists (g_real g2), pos. repeat split; assumption.
Qed.
Lemma Ninject_spec Mi m : 0 < m -> IZR (Ninject Mi m) * m <= Mi < IZR (Ninject Mi m) * m + m.
Proof.
  intros H. unfold Ninject. destruct (base_Int_part (Mi / m)) as [A B]. set (x := IZR (Int_part (Mi / m))) in *.
  assert (K : Mi = Mi / m * m) by (field; lra). split.
  - rewrite K at 1. apply Rmult_le_compat_r; lra.
  - rewrite K at 1. nra.
Qed.
Lemma Ninject_nonneg Mi m : 0 < m -> 0 <= Mi -> (0 <= Ninject Mi m)%Z.
Proof.
  intros H HM. destruct (Ninject_spec Mi m H) as [_ B].
  assert (-1 < IZR (Ninject Mi m)) by nra. apply lt_IZR in H0. lia.
Qed.
Lemma total_split (f : spart -> R) hot news (l0 : list spart) : length hot = length l0 ->
  total f (skipn (length l0) (hot ++ news)) = total f news.
Proof. intros H. rewrite <- H, skipn_app, skipn_all, Nat.sub_diag. reflexivity. Qed.

Lemma at_in l is p : In p (at_ l is) -> exists i, In i is /\ nth_error l (Z.to_nat i) = Some p.
Proof.
  induction is as [|i is IH]; cbn [at_]; [intros []|]. rewrite in_app_iff. intros [H|H].
  - destruct (nth_error l (Z.to_nat i)) eqn:K; [|destruct H]. destruct H as [<-|[]]. exists i. split; [now left|assumption].
  - destruct (IH H) as (j & A & B). exists j. split; [now right|assumption].
Qed.
Lemma heat_kin ndim c vr ui p : 1 / 2 * s_m (heat_one ndim c vr ui p) * dot ndim (l_v (s_l (heat_one ndim c vr ui p))) (l_v (s_l (heat_one ndim c vr ui p)))
  = (away ndim c p / (away ndim c p + small_number)) ^ 2 * (1 / 2 * s_m p * vr ^ 2).
Proof. unfold heat_one. cbn [s_m s_l l_v]. etransitivity; [apply (f_equal (Rmult (1 / 2 * s_m p))); exact (thrown_speed ndim (vsub (l_r (s_l p)) c) vr)|]. unfold away. field.
  pose proof small_pos. pose proof (sqrt_pos (dot ndim (vsub (l_r (s_l p)) c) (vsub (l_r (s_l p)) c))). unfold norm. lra. Qed.
Lemma thrown_kin ndim n nstep t m vr ui c r : let p := thrown ndim n nstep t m vr ui c r in
  1 / 2 * s_m p * dot ndim (l_v (s_l p)) (l_v (s_l p)) = (away ndim c p / (away ndim c p + small_number)) ^ 2 * (1 / 2 * m * vr ^ 2).
Proof. intros p. unfold p, thrown, new_particle. cbn [s_m s_l l_v]. etransitivity; [apply (f_equal (Rmult (1 / 2 * m))); exact (thrown_speed ndim (vsub r c) vr)|]. unfold away. cbn [s_l l_r]. field.
  pose proof small_pos. pose proof (sqrt_pos (dot ndim (vsub r c) (vsub r c))). unfold norm. lra. Qed.

(** Drivers. *)
Lemma single_one ts : let (N, es) := run single_Update ts 0%nat in
  made es = N /\ (N <= 1)%nat /\ (N = 1%nat <-> Exists (fun t => 1 <= t) ts).
Proof.
  assert (H1 : forall ts, let (N, es) := run single_Update ts 1%nat in made es = 0%nat /\ N = 1%nat).
  { induction ts0 as [|t l IH]; cbn [run]; [now split|]. unfold single_Update at 1. cbn [Nat.eqb andb].
    destruct (run single_Update l 1%nat). destruct IH. now split. }
  induction ts as [|t l IH]; cbn [run].
  - split; [reflexivity|]. split; [lia|]. split; [discriminate|]. intros K; inversion K.
  - unfold single_Update at 1. cbn [Nat.eqb andb]. destruct (rleb 1 t) eqn:E.
    + specialize (H1 l). destruct (run single_Update l 1%nat). destruct H1 as [A ->]. unfold made in *. cbn [filter length]. rewrite A.
      repeat split; auto. intros _. left. now apply rleb_true.
    + destruct (run single_Update l 0%nat). destruct IH as (A & B & C). unfold made in *. cbn [filter]. split; [assumption|]. split; [assumption|].
      rewrite C. split; [now right|]. intros K. inversion K; subst; [|assumption]. apply rleb_false in E. lra.
Qed.

(** The times at which the [true]s stand. *)
Fixpoint when (ts : list R) (es : list bool) : list R :=
  match ts, es with t :: l, e :: m => (if e then [t] else []) ++ when l m | _, _ => [] end.
Definition due (k : nat) : R := (INR k + 1 / 2) * tsupernova.
Lemma random_inv ts : forall N, let (s, es) := run random_Update ts (N, due N) in
  s = ((N + made es)%nat, due (N + made es)) /\
  (forall k t, nth_error (when ts es) k = Some t -> due (N + k) <= t) /\ length (when ts es) = made es.
Proof.
  induction ts as [|t l IH]; intros N; cbn [run].
  - cbn. rewrite Nat.add_0_r. repeat split; auto. intros [|k] ? K; discriminate.
  - unfold random_Update at 1. destruct (rleb (due N) t) eqn:E.
    + specialize (IH (S N)). fold (due (S N)). destruct (run random_Update l (S N, due (S N))) as [s es]. destruct IH as (A & B & C).
      unfold made in *. cbn [filter length when app]. split; [rewrite A; f_equal; [lia|f_equal; lia]|]. split; [|now rewrite C].
      intros [|k] u K; cbn [nth_error] in K.
      * injection K as <-. rewrite Nat.add_0_r. now apply rleb_true.
      * replace (N + S k)%nat with (S N + k)%nat by lia. now apply B.
    + specialize (IH N). destruct (run random_Update l (N, due N)) as [s es]. destruct IH as (A & B & C).
      unfold made in *. cbn [filter when app]. auto.
Qed.
(** Calls at most [tsupernova] apart, starting before [t0 + tsupernova]. *)
Fixpoint close (t0 : R) (ts : list R) : Prop := match ts with [] => True | t :: l => t <= t0 + tsupernova /\ close t l end.
Lemma random_prompt ts : forall N t0, t0 < due N -> close t0 ts -> ts <> [] ->
  let (s, es) := run random_Update ts (N, due N) in last ts t0 < due (N + made es).
Proof.
  induction ts as [|t l IH]; intros N t0 H0 Hc Hne; [congruence|]. destruct Hc as [Hc1 Hc2]. cbn [run].
  unfold random_Update at 1. destruct (rleb (due N) t) eqn:E.
  - fold (due (S N)). assert (Ht : t < due (S N)) by (unfold due, tsupernova in *; rewrite S_INR; lra).
    destruct l as [|t2 l2].
    + cbn [run last made filter length]. replace (N + 1)%nat with (S N) by lia. exact Ht.
    + specialize (IH (S N) t Ht Hc2). destruct (run random_Update (t2 :: l2) (S N, due (S N))) as [s es].
      unfold made in *. cbn [filter length]. replace (N + S (length (filter (fun b => b) es)))%nat with (S N + length (filter (fun b => b) es))%nat by lia.
      change (last (t :: t2 :: l2) t0) with (last (t2 :: l2) t0). 
      assert (LL : forall a b (x : R) l, last (x :: l) a = last (x :: l) b). { clear. intros a b x l. revert x. induction l as [|y l IHl]; intros x; [reflexivity|]. change (last (y :: l) a = last (y :: l) b). apply IHl. }
      rewrite (LL t0 t). apply IH. discriminate.
  - apply rleb_false in E. destruct l as [|t2 l2].
    + cbn [run last made filter length]. rewrite Nat.add_0_r. lra.
    + assert (Ht : t < due N) by lra. specialize (IH N t Ht Hc2). destruct (run random_Update (t2 :: l2) (N, due N)) as [s es].
      unfold made in *. cbn [filter].
      change (last (t :: t2 :: l2) t0) with (last (t2 :: l2) t0). 
      assert (LL : forall a b (x : R) l, last (x :: l) a = last (x :: l) b). { clear. intros a b x l. revert x. induction l as [|y l IHl]; intros x; [reflexivity|]. change (last (y :: l) a = last (y :: l) b). apply IHl. }
      rewrite (LL t0 t). apply IH. discriminate.
Qed.

Lemma silcc_order ndim table ts : forall id id' es, silcc_run ndim table ts id = Ok (id', es) ->
  id' = (id + zlen es)%Z /\ (forall k t e, nth_error es k = Some (t, e) -> aget table (id + Z.of_nat k) = Ok (Some e) /\ e_t e <= t /\ In t ts).
Proof.
  induction ts as [|t l IH]; intros id id' es; cbn [silcc_run].
  - intros [= <- <-]. split; [unfold zlen; cbn; lia|]. intros [|k] ? ? K; discriminate.
  - intros H. apply bindOk in H as ((id1 & e) & Hu & H). apply bindOk in H as ((id2 & es2) & Hr & H). injection H as <- <-.
    destruct (IH _ _ _ Hr) as [A B]. unfold silcc_Update in Hu. apply bindOk in Hu as (oe & Ha & Hu).
    destruct oe as [e1|]; [|discriminate]. destruct (rleb (e_t e1) t) eqn:E.
    + destruct (3 <=? ndim)%nat; [|discriminate]. injection Hu as <- <-. split; [rewrite A; unfold zlen; cbn [length]; lia|].
      intros [|k] u e K; cbn [nth_error] in K.
      * injection K as <- <-. rewrite Z.add_0_r. repeat split; [assumption|now apply rleb_true|now left].
      * destruct (B k u e K) as (B1 & B2 & B3). replace (id + Z.of_nat (S k))%Z with (id + 1 + Z.of_nat k)%Z by lia. repeat split; auto. now right.
    + injection Hu as <- <-. split; [assumption|]. intros k u e K. destruct (B k u e K) as (B1 & B2 & B3). repeat split; auto. now right.
Qed.
Lemma fill_ok rows : forall i a, (0 <= i)%Z -> (i + zlen rows <= zlen a)%Z -> exists a', fill rows i a = Ok a' /\ zlen a' = zlen a /\
  (forall k e, nth_error rows k = Some e -> aget a' (i + Z.of_nat k) = Ok (Some e)) /\
  (forall j, (j < i \/ i + zlen rows <= j)%Z -> aget a' j = aget a j).
Proof.
  induction rows as [|e l IH]; intros i a Hi Hl; cbn [fill].
  - exists a. repeat split; auto. intros [|k] ? K; discriminate.
  - unfold zlen in Hl. cbn [length] in Hl. rewrite (aset_in a i (Some e)) by (unfold zlen; lia). cbn [bind].
    destruct (IH (i + 1)%Z (upd a (Z.to_nat i) (Some e))) as (a' & A & B & C & D); [lia|rewrite zlen_upd; unfold zlen; lia|].
    exists a'. rewrite zlen_upd in B. split; [assumption|]. split; [assumption|]. split.
    + intros [|k] f K; cbn [nth_error] in K.
      * injection K as <-. rewrite D by lia. replace (i + Z.of_nat 0)%Z with i by lia. apply aget_upd_eq. unfold zlen. lia.
      * replace (i + Z.of_nat (S k))%Z with (i + 1 + Z.of_nat k)%Z by lia. now apply C.
    + intros j Hj. unfold zlen in Hj. cbn [length] in Hj. rewrite D by (unfold zlen; lia). apply aget_upd_ne; lia.
Qed.
Lemma fill_over rows : forall i a, (0 <= i <= zlen a)%Z -> (zlen a < i + zlen rows)%Z -> fill rows i a = UB.
Proof.
  induction rows as [|e l IH]; intros i a Hi Hl; cbn [fill]; unfold zlen in Hl; cbn [length] in Hl; [unfold zlen in *; lia|].
  destruct (Z.eq_dec i (zlen a)) as [->|Hne].
  - unfold aset. fold (zlen a). rewrite Z.leb_refl, orb_true_r. reflexivity.
  - rewrite (aset_in a i (Some e)) by lia. cbn [bind]. apply IH; rewrite zlen_upd; unfold zlen in *; lia.
Qed.
Lemma aget_repeat_none n i : (0 <= i < Z.of_nat n)%Z -> aget (repeat (@None event) n) i = Ok None.
Proof. intros H. apply aget_nth_error; [lia|]. rewrite (nth_error_nth' _ None) by (rewrite repeat_length; lia). now rewrite nth_repeat. Qed.
Lemma aget_over {A} (l : list A) : aget l (zlen l) = UB.
Proof. unfold aget, zlen. destruct (Z.ltb_spec (Z.of_nat (length l)) 0); [lia|]. rewrite Nat2Z.id. destruct (nth_error l (length l)) eqn:E; [|reflexivity].
  assert (K : nth_error l (length l) <> None) by congruence. apply nth_error_Some in K. lia. Qed.
(** Each of [m] calls makes a supernova, and the next call fails. *)
Lemma silcc_fails table rows ts : forall id : nat,
  (forall k e, nth_error rows k = Some e -> aget table (Z.of_nat k) = Ok (Some e)) ->
  (aget table (zlen rows) = UB \/ aget table (zlen rows) = Ok None) ->
  (forall t e, In t ts -> In e rows -> e_t e <= t) -> (id <= length rows)%nat -> (length rows < id + length ts)%nat ->
  silcc_run 3 table ts (Z.of_nat id) = UB.
Proof.
  induction ts as [|t l IH]; intros id Ht Hu Hd Hi Hl; cbn [length] in Hl; [lia|]. cbn [silcc_run].
  destruct (Nat.eq_dec id (length rows)) as [->|Hne].
  - unfold silcc_Update. fold (zlen rows). destruct Hu as [-> | ->]; reflexivity.
  - destruct (nth_error rows id) as [e|] eqn:E; [|apply nth_error_None in E; lia].
    unfold silcc_Update. rewrite (Ht id e E). cbn [bind]. rewrite (proj2 (rleb_true _ _)) by (apply Hd; [now left|eapply nth_error_In; eauto]).
    cbn [Nat.leb bind]. replace (Z.of_nat id + 1)%Z with (Z.of_nat (S id)) by lia. rewrite (IH (S id)); auto; try lia.
    intros u f Hu' Hf. apply Hd; [now right|assumption].
Qed.

(** One pass after the supernova. *)
Lemma pass_end c A U n t ns dtn x : l_dead x = false -> l_active x = true -> (n - l_nlast x)%Z = l_nstep x ->
  let q := KDK_End c n t (mark_end n ns dtn (kick A U x)) in
  let e := l_u x + 1 / 2 * (U (l_r x) - l_dudt0 x) * l_dt x in
  (forall k, l_r0 q k = l_r x k /\ l_v0 q k = l_v x k + 1 / 2 * l_dt x * (A (l_r x) k - l_a0 x k)) /\
  (c_energy c = true -> 0 < e -> l_u0 q = e) /\ l_tlast q = t.
Proof.
  destruct x as [d a en r v ac r0 v0 a0 u u0 du du0 al dal nl nst tl dt dtx]. cbn [l_dead l_active l_nlast l_nstep]. intros -> -> Hn. cbv zeta.
  unfold kick. cbn [l_active]. unfold mark_end. cbn [l_nlast l_nstep]. rewrite (proj2 (Z.eqb_eq _ _) Hn).
  unfold KDK_End. cbn [l_dead l_end l_u l_dudt l_dudt0 l_dt l_r l_v l_a l_a0 l_u0 l_r0 l_v0 l_tlast].
  split; [|split; [|reflexivity]].
  - intros k. cbn [l_r0 l_v0]. split; reflexivity.
  - intros He H0. cbn [l_u0]. rewrite He. destruct (rleb _ 0) eqn:K; [apply rleb_true in K; lra|reflexivity].
Qed.
Lemma pass_mid c A U n t ns dtn x : l_active x = false -> l_end x = false -> (n - l_nlast x)%Z <> l_nstep x ->
  KDK_End c n t (mark_end n ns dtn (kick A U x)) = x.
Proof.
  intros Ha He Hn. unfold kick. rewrite Ha. unfold mark_end. rewrite (proj2 (Z.eqb_neq _ _) Hn). unfold KDK_End. rewrite He. now destruct (l_dead x).
Qed.
(** What an advance starts from. *)
Definition same_start (x y : lpart) : Prop :=
  l_dead x = false /\ l_dead y = false /\ l_end x = l_end y /\ l_r0 x = l_r0 y /\ l_v0 x = l_v0 y /\ l_a0 x = l_a0 y /\ l_u0 x = l_u0 y /\ l_dudt0 x = l_dudt0 y /\
  l_nlast x = l_nlast y /\ l_nstep x = l_nstep y /\ l_tlast x = l_tlast y /\ l_dt x = l_dt y /\ l_dtnext x = l_dtnext y.
Lemma loop_same c A U n t ts ns dtn x y : c_energy c = true -> same_start x y -> l_end x = false ->
  let q := KDK_loop c A U n t ts ns dtn x in let q0 := KDK_loop c A U n t ts ns dtn y in
  l_r q = l_r q0 /\ l_v q = l_v q0 /\ l_u q = l_u q0 /\ l_r0 q = l_r0 q0 /\ l_v0 q = l_v0 q0 /\ l_u0 q = l_u0 q0.
Proof.
  destruct x as [d a en r v ac r0 v0 a0 u u0 du du0 al dal nl nst tl dt dtx], y as [d' a' en' r' v' ac' r0' v0' a0' u' u0' du' du0' al' dal' nl' nst' tl' dt' dtx'].
  unfold same_start. cbn [l_dead l_active l_end l_r l_v l_a l_r0 l_v0 l_a0 l_u l_u0 l_dudt l_dudt0 l_alpha l_dalphadt l_nlast l_nstep l_tlast l_dt l_dtnext].
  intros Hc H He. destruct H as (-> & -> & <- & <- & <- & <- & <- & <- & <- & <- & <- & <- & <-). subst en. cbv zeta.
  unfold KDK_loop, KDK_Advance. cbn [l_dead]. cbn [l_end l_r0 l_v0 l_a l_a0 l_u l_u0 l_dudt l_dudt0 l_alpha l_dalphadt l_nlast l_nstep l_tlast l_dt l_dtnext].
  rewrite Hc. set (R1 := fun k : nat => r0 k + v0 k * (t - tl) + 1 / 2 * a0 k * (t - tl) * (t - tl)). set (V1 := fun k : nat => v0 k + a0 k * (t - tl)). set (U1 := u0 + du0 * (t - tl)).
  set (al1 := if c_tdav c then al + dal * ts else al). set (al1' := if c_tdav c then al' + dal' * ts else al'). clearbody R1 V1 U1 al1 al1'.
  destruct (n - nl =? nst)%Z eqn:E; unfold kick; cbn [l_active]; unfold mark_end; cbn [l_nlast l_nstep]; rewrite E; unfold KDK_End; cbn [l_dead l_end]; rewrite ?Hc.
  - cbn [l_r l_v l_u l_r0 l_v0 l_u0 l_a l_a0 l_dt l_dudt l_dudt0]. repeat split; reflexivity.
  - cbn [l_r l_v l_u l_r0 l_v0 l_u0]. repeat split; reflexivity.
Qed.
