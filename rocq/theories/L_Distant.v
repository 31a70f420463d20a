(** The walk over distant particles. *)
From Verif Require Import Prelude L_Prelude Vec S_Tree M_Walk L_Tree M_KDTree M_Stock S_Stock S_Box S_Search M_Search L_Search
  M_Box L_Box M_Gather L_Gather M_Util M_Periodic M_Ghost M_Distant S_Distant.
From Coq Require Import Reals Lra Permutation.
Local Open Scope R_scope.

Lemma small_pos : 0 < small_number.
Proof. unfold small_number. apply Rinv_0_lt_compat, pow_lt. lra. Qed.

(** ** dt_guess is the largest h/vsig *)
Lemma dt_fold : forall acts d, (forall a, In a acts -> 0 < a_vsig a) ->
  let r := fold_left (fun dt a => if rltb 0 (a_vsig a) then Rmax dt (a_h a / a_vsig a) else big_number) acts d in
  d <= r /\ (forall a, In a acts -> a_h a / a_vsig a <= r).
Proof.
  induction acts as [|a acts IH]; intros d H; cbn [fold_left].
  - split; [lra|easy].
  - rewrite (proj2 (rltb_true _ _) (H a (or_introl eq_refl))).
    destruct (IH (Rmax d (a_h a / a_vsig a)) (fun b Hb => H b (or_intror Hb))) as [A B]. cbv zeta in *.
    assert (X := Rmax_l d (a_h a / a_vsig a)). assert (Y := Rmax_r d (a_h a / a_vsig a)).
    split; [lra|]. intros b [<-|Hb]; [lra|auto].
Qed.
Lemma dt_guess_ge : forall acts a, (forall a, In a acts -> 0 < a_vsig a) -> In a acts -> a_h a / a_vsig a <= dt_guess acts.
Proof. intros acts a H Ha. exact (proj2 (dt_fold acts 0 H) a Ha). Qed.

(** ** One pair *)
Definition need (ndim : nat) (a : apart) (r v : vec) (c : R) : R :=
  needed ndim small_number (a_r a) (a_v a) (a_sound a) (a_h a) r v c.
Definition same (a b : apart) : Prop :=
  a_r a = a_r b /\ a_v a = a_v b /\ a_h a = a_h b /\ a_sound a = a_sound b.

Lemma need_same : forall ndim a b r v c, same a b -> need ndim a r v c = need ndim b r v c.
Proof. intros ndim a b r v c (A & B & C & D). unfold need. now rewrite A, B, C, D. Qed.
Lemma same_refl : forall a, same a a. Proof. repeat split. Qed.
Lemma same_trans : forall a b c, same a b -> same b c -> same a c.
Proof. unfold same. intros a b c (A&B&C&D) (E&F&G&H). repeat split; congruence. Qed.

Lemma apart_pos : forall ndim r1 r2, apart_from ndim r1 r2 <-> 0 < dot ndim (vsub r1 r2) (vsub r1 r2).
Proof.
  intros ndim r1 r2. split.
  - intros (k & Hk & Hn).
    assert (X := sumf_term_le ndim (fun k => vsub r1 r2 k * vsub r1 r2 k) k (fun j _ => Rle_0_sqr (vsub r1 r2 j)) Hk).
    unfold dot. assert (0 < vsub r1 r2 k * vsub r1 r2 k); [|lra].
    apply (Rsqr_pos_lt (vsub r1 r2 k)). unfold vsub. intro E. apply Hn. lra.
  - intros H. unfold dot in H. induction ndim as [|n IH]; [cbn in H; lra|]. cbn [sumf] in H.
    destruct (Req_dec (r1 n) (r2 n)) as [E|E].
    + destruct IH as (k & Hk & Hn).
      { replace (vsub r1 r2 n) with 0 in H by (unfold vsub; lra). lra. }
      exists k. split; [lia|exact Hn].
    + exists n. split; [lia|exact E].
Qed.

(** Outcome for one active particle after the images [l] (position, velocity, sound) were seen. *)
Definition seen (ndim : nat) (l : list (vec * vec * R)) (a a' : apart) : Prop :=
  same a a' /\ a_vsig a <= a_vsig a' /\
  (forall r v c, In (r, v, c) l -> apart_from ndim (a_r a) r -> need ndim a r v c <= a_vsig a') /\
  (a_vsig a' = a_vsig a \/ exists r v c, In (r, v, c) l /\ apart_from ndim (a_r a) r /\ a_vsig a' = need ndim a r v c).

Lemma seen_nil : forall ndim a, seen ndim [] a a.
Proof. intros. split; [apply same_refl|]. split; [lra|]. split; [easy|now left]. Qed.
Lemma seen_app : forall ndim l m a b c, seen ndim l a b -> seen ndim m b c -> seen ndim (l ++ m) a c.
Proof.
  intros ndim l m a b c (S1 & L1 & A1 & E1) (S2 & L2 & A2 & E2).
  assert (R1 : a_r a = a_r b) by apply S1.
  split; [eapply same_trans; eauto|]. split; [lra|]. split.
  - intros r v k H HA. apply in_app_or in H. destruct H as [H|H].
    + specialize (A1 r v k H HA). lra.
    + rewrite (need_same ndim a b) by exact S1. apply A2; [exact H|now rewrite <- R1].
  - destruct E2 as [E2|(r & v & k & H & HA & E2)].
    + destruct E1 as [E1|(r & v & k & H & HA & E1)]; [left; lra|].
      right. exists r, v, k. split; [apply in_or_app; now left|]. split; [exact HA|lra].
    + right. exists r, v, k. split; [apply in_or_app; now right|]. split; [now rewrite R1|].
      rewrite (need_same ndim a b) by exact S1. exact E2.
Qed.

Lemma update_pair_spec : forall ndim cs a q, 0 <= a_vsig a ->
  exists a', update_pair ndim cs a q = Ok a' /\ seen ndim [(gp_r q, gp_v q, cs)] a a'.
Proof.
  intros ndim cs a q H0. unfold update_pair.
  assert (E : sumf ndim (fun k => (a_r a k - gp_r q k) * (a_r a k - gp_r q k)) = dot ndim (vsub (a_r a) (gp_r q)) (vsub (a_r a) (gp_r q)))
    by reflexivity.
  assert (F : sumf ndim (fun k => (a_r a k - gp_r q k) * (a_v a k - gp_v q k)) = dot ndim (vsub (a_r a) (gp_r q)) (vsub (a_v a) (gp_v q)))
    by reflexivity.
  rewrite E, F. clear E F.
  destruct (rltb 0 (dot ndim (vsub (a_r a) (gp_r q)) (vsub (a_r a) (gp_r q)))) eqn:E.
  - apply rltb_true in E.
    assert (N : (a_sound a + cs - dot ndim (vsub (a_r a) (gp_r q)) (vsub (a_v a) (gp_v q)) /
        (sqrt (dot ndim (vsub (a_r a) (gp_r q)) (vsub (a_r a) (gp_r q))) + small_number)) * a_h a /
        Rmax (sqrt (dot ndim (vsub (a_r a) (gp_r q)) (vsub (a_r a) (gp_r q)))) (a_h a) = need ndim a (gp_r q) (gp_v q) cs).
    { unfold need, needed, signal, closing, norm. unfold Rdiv. rewrite Ropp_mult_distr_l_reverse. reflexivity. }
    rewrite N.
    assert (X := Rmax_l (a_vsig a) (need ndim a (gp_r q) (gp_v q) cs)).
    assert (Y := Rmax_r (a_vsig a) (need ndim a (gp_r q) (gp_v q) cs)).
    destruct (rltb _ 0) eqn:G; [apply rltb_true in G; lra|].
    eexists. split; [reflexivity|]. split; [repeat split|]. cbn [set_vsig a_vsig]. split; [exact X|]. split.
    + intros r v c [K|[]] _. injection K as <- <- <-. exact Y.
    + destruct (Rle_dec (need ndim a (gp_r q) (gp_v q) cs) (a_vsig a)) as [M|M]; [left; now apply Rmax_left|].
      assert (M' : a_vsig a <= need ndim a (gp_r q) (gp_v q) cs) by lra. clear M. assert (M := Rmax_right _ _ M').
      right. exists (gp_r q), (gp_v q), cs. split; [now left|]. split; [now apply apart_pos|exact M].
  - eexists. split; [reflexivity|]. split; [apply same_refl|]. split; [lra|]. split; [|now left].
    intros r v c [K|[]] HA. injection K as <- <- <-. apply apart_pos in HA. apply rltb_false in E. lra.
Qed.

Lemma update_images_spec : forall ndim cs l a, 0 <= a_vsig a ->
  exists a', update_images ndim cs l a = Ok a' /\ seen ndim (map (fun q => (gp_r q, gp_v q, cs)) l) a a'.
Proof.
  induction l as [|q l IH]; intros a H0; cbn [update_images map].
  - exists a. split; [reflexivity|apply seen_nil].
  - destruct (update_pair_spec ndim cs a q H0) as (a1 & E & S). rewrite E. cbn [bind].
    destruct (IH a1) as (a2 & E2 & S2); [destruct S as (_ & L & _); lra|]. rewrite E2. exists a2. split; [reflexivity|].
    exact (seen_app ndim [_] _ _ _ _ S S2).
Qed.
Lemma update_acts_spec : forall ndim cs l acts, (forall a, In a acts -> 0 <= a_vsig a) ->
  exists acts', update_acts ndim cs l acts = Ok acts' /\ Forall2 (seen ndim (map (fun q => (gp_r q, gp_v q, cs)) l)) acts acts'.
Proof.
  induction acts as [|a acts IH]; intros H; cbn [update_acts].
  - exists []. split; [reflexivity|constructor].
  - destruct (update_images_spec ndim cs l a (H a (or_introl eq_refl))) as (a1 & E & S). rewrite E. cbn [bind].
    destruct (IH (fun b Hb => H b (or_intror Hb))) as (r & E2 & S2). rewrite E2. cbn [bind].
    eexists. split; [reflexivity|]. now constructor.
Qed.

Lemma Forall2_trans_seen : forall ndim l m xs ys zs,
  Forall2 (seen ndim l) xs ys -> Forall2 (seen ndim m) ys zs -> Forall2 (seen ndim (l ++ m)) xs zs.
Proof.
  intros ndim l m xs ys zs H. revert zs. induction H as [|x y xs ys S H IH]; intros zs H2; inversion H2; subst; constructor.
  - eapply seen_app; eauto.
  - auto.
Qed.
Lemma Forall2_seen_nil : forall ndim xs, Forall2 (seen ndim []) xs xs.
Proof. induction xs; constructor; auto using seen_nil. Qed.
Lemma Forall2_pos : forall ndim l xs ys, Forall2 (seen ndim l) xs ys -> (forall a, In a xs -> 0 < a_vsig a) -> forall a, In a ys -> 0 < a_vsig a.
Proof.
  intros ndim l xs ys H. induction H as [|x y xs ys S H IH]; intros P a Ha; [easy|].
  destruct Ha as [<-|Ha]; [|apply IH; auto; intros; apply P; now right].
  destruct S as (_ & L & _). specialize (P x (or_introl eq_refl)). lra.
Qed.

(** ** A leaf, in a domain without periodic or reflecting sides *)
Definition plain (tg : target) : Prop := f_anyper (t_f tg) = false /\ f_anymir (t_f tg) = false /\ t_need tg = false.
Definition body (p : particle) : vec * vec * R := (p_r p, p_v p, p_sound p).

Lemma plain_ghost : forall ndim tg i p, plain tg ->
  ConstructAllGhosts ndim tg (as_gpart i p) (repeat blank (Z.to_nat (MaxNumGhosts ndim (t_f tg)))) = Ok ([as_gpart i p], 1%Z).
Proof.
  intros ndim tg i p (A & B & C). unfold ConstructAllGhosts, MaxNumGhosts. rewrite A, B, C. reflexivity.
Qed.

Lemma update_leaf_spec : forall ndim tg pd l xs acts, plain tg -> parts_of pd l = Ok xs -> (forall a, In a acts -> 0 < a_vsig a) ->
  exists acts', update_leaf ndim tg pd l acts = Ok acts' /\ Forall2 (seen ndim (map body xs)) acts acts'.
Proof.
  intros ndim tg pd l xs acts HP. revert xs acts. induction l as [|i l IH]; intros xs acts HX H; cbn [update_leaf].
  - cbn in HX. injection HX as <-. exists acts. split; [reflexivity|apply Forall2_seen_nil].
  - cbn [parts_of] in HX. destruct (aget pd i) as [p| | |]; cbn [bind] in HX; try discriminate.
    destruct (parts_of pd l) as [ys| | |] eqn:EY; cbn [bind] in HX; try discriminate. injection HX as <-.
    cbn [bind]. rewrite plain_ghost by exact HP. cbn [bind].
    change (firstn (Z.to_nat 1) [as_gpart i p]) with [as_gpart i p].
    destruct (update_acts_spec ndim (p_sound p) [as_gpart i p] acts (fun a Ha => Rlt_le _ _ (H a Ha))) as (r & E & S).
    rewrite E. cbn [bind]. destruct (IH ys r eq_refl (Forall2_pos _ _ _ _ S H)) as (r2 & E2 & S2).
    exists r2. split; [exact E2|]. exact (Forall2_trans_seen ndim [body p] (map body ys) _ _ _ S S2).
Qed.
