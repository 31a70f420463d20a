(** Which particles the density contains; the search ends. *)
From Verif Require Import Prelude Vec M_Box L_Box M_Force M_Dens S_Dens S_Stock L_Stock M_Kernel S_Kernel L_Dens L_Dens2 L_Dens3 L_Dens4.
From Coq Require Import Reals Lra Lia Psatz Permutation.
Local Open Scope R_scope.

Lemma perm_filter_split : forall {A} (f : A -> bool) l, Permutation (filter f l ++ filter (fun x => negb (f x)) l) l.
Proof.
  intros A f l. induction l as [|x l IH]; cbn; [constructor|]. destruct (f x); cbn.
  - constructor. exact IH.
  - etransitivity; [apply Permutation_sym, Permutation_middle|]. constructor. exact IH.
Qed.
Lemma perm_filter : forall {A} (f : A -> bool) l l', Permutation l l' -> Permutation (filter f l) (filter f l').
Proof.
  intros A f l l' P. induction P; cbn.
  - constructor.
  - destruct (f x); [constructor|]; auto.
  - destruct (f x), (f y); auto; apply perm_swap || reflexivity.
  - etransitivity; eassumption.
Qed.
Lemma filter_app' : forall {A} (f : A -> bool) l l', filter f (l ++ l') = filter f l ++ filter f l'.
Proof. intros A f l l'. induction l as [|x l IH]; cbn; [reflexivity|]. destruct (f x); cbn; rewrite IH; reflexivity. Qed.
Lemma filter_and : forall {A} (f g : A -> bool) l, filter (fun x => f x && g x) l = filter g (filter f l).
Proof. intros A f g l. induction l as [|x l IH]; cbn; [reflexivity|]. destruct (f x); cbn; rewrite IH; reflexivity. Qed.

Section D5.
Variables (n : nat) (range : R) (w w1 om : R -> R) (womega_s2 wzeta_s2 : R -> R) (kernrangesqd h_fac h_converge : R).
Hypothesis N1 : (1 <= n)%nat.
Hypothesis DK : density_kernel n range w w1 om.
Hypothesis RP : 0 < range.
Hypothesis HF : 0 < h_fac.
Hypothesis KR : kernrangesqd = range * range.
Notation s2 := (fun s => w (sqrt s)).
Notation func := (h_rho_func n h_fac).
Notation id := (fun x : R => x).
Notation held := (held n w).

Lemma trim_all : forall hmask all act gather p H, 0 < H -> finds n range all act gather -> In p act ->
  all_near n range hmask p all (trim n kernrangesqd hmask p H (gather H)) H.
Proof.
  intros hmask all act gather p H HP F I. destruct (F H) as (others & P & Ho).
  unfold all_near, trim, counting.
  set (g := fun q => rleb (dot n (vsub (nb_r q) (p_r p)) (vsub (nb_r q) (p_r p)) + small_number) (kernrangesqd * H * H)).
  set (f := fun q => hmask (p_type p) (nb_type q)).
  exists (filter (fun x => negb (g x)) (filter f (gather H)) ++ filter f others). split.
  - change (filter (fun q => hmask (p_type p) (nb_type q) && rleb (dot n (vsub (nb_r q) (p_r p)) (vsub (nb_r q) (p_r p)) + small_number) (kernrangesqd * H * H)) (gather H))
      with (filter (fun q => f q && g q) (gather H)).
    rewrite filter_and. rewrite app_assoc. etransitivity; [apply Permutation_app; [apply perm_filter_split | reflexivity]|].
    rewrite <- filter_app'. apply perm_filter. exact P.
  - intros q Hq. apply in_app_or in Hq. destruct Hq as [Hq|Hq].
    + apply filter_In in Hq. destruct Hq as (_ & Hq). apply negb_true_iff in Hq. unfold g in Hq.
      unfold far, norm. rewrite sqrt_sqrt by apply dot_nonneg. rewrite <- KR.
      apply Rnot_le_lt. intros C. apply rleb_t in C. congruence.
    + apply filter_In in Hq. destruct Hq as (Hq & _). specialize (Ho p q I Hq).
      pose proof (far_nonneg n (p_r p) q). assert (0 < range * H) by (apply Rmult_lt_0_compat; assumption).
      assert (range * H * (range * H) < far n (p_r p) q * far n (p_r p) q) by (apply Rmult_le_0_lt_compat; lra).
      assert (0 < small_number) by (unfold small_number; apply Rinv_0_lt_compat, pow_lt; lra). nra.
Qed.

Lemma held_all : forall hmask all near p H h, 0 < h -> all_near n range hmask p all near H -> range * range * h * h + small_number <= range * range * H * H ->
  held (p_r p) near h = held (p_r p) (counting hmask p all) h.
Proof.
  intros hmask all near p H h Hh (fo & P & Hf) B. unfold L_Dens3.held. rewrite <- (lsum_perm _ _ _ P), lsum_app.
  enough (lsum (fun q => nb_m q * w (far n (p_r p) q / h)) fo = 0) as -> by lra.
  clear P. induction fo as [|q fo IH]; cbn; [reflexivity|].
  rewrite IH by (intros; apply Hf; right; assumption).
  specialize (Hf q (or_introl eq_refl)). pose proof (far_nonneg n (p_r p) q) as F0.
  assert (G : range <= far n (p_r p) q / h).
  { apply Rmult_le_reg_r with h; [exact Hh|]. replace (far n (p_r p) q / h * h) with (far n (p_r p) q) by (field; lra).
    apply Rnot_lt_le. intros C.
    assert (far n (p_r p) q * far n (p_r p) q <= range * h * (range * h)) by (apply Rmult_le_compat; lra). nra. }
  destruct (dk_out _ _ _ _ _ DK _ G) as (-> & _). lra.
Qed.

(** ** The mass held does not jump *)
Lemma held_lip : forall W1 r l, (forall s t, 0 <= s <= t -> w s - w t <= W1 * (t - s)) -> 0 <= W1 -> (forall q, In q l -> 0 <= nb_m q) ->
  (forall q, In q l -> far n r q = 0 \/ 0 < far n r q) ->
  forall a b, 0 < a <= b ->
  held r l b - held r l a <= lsum (fun q => if Req_EM_T (far n r q) 0 then 0 else nb_m q * W1 * range * range / far n r q) l * (b - a).
Proof.
  intros W1 r l HL HW HM HD a b Hab. unfold L_Dens3.held. induction l as [|q l IH]; cbn; [lra|].
  assert (IH' := IH (fun q Hq => HM q (or_intror Hq)) (fun q Hq => HD q (or_intror Hq))). clear IH.
  rewrite Rmult_plus_distr_r.
  enough (nb_m q * w (far n r q / b) - nb_m q * w (far n r q / a) <= (if Req_EM_T (far n r q) 0 then 0 else nb_m q * W1 * range * range / far n r q) * (b - a)) by lra.
  pose proof (HM q (or_introl eq_refl)) as Hm. set (d := far n r q) in *.
  destruct (Req_EM_T d 0) as [E|E].
  { rewrite E. replace (0 / b) with 0 by (field; lra). replace (0 / a) with 0 by (field; lra). lra. }
  assert (Dp : 0 < d) by (destruct (HD q (or_introl eq_refl)); fold d in H; lra).
  rewrite <- Rmult_minus_distr_l.
  replace (nb_m q * W1 * range * range / d * (b - a)) with (nb_m q * (W1 * range * range / d * (b - a))) by (field; lra).
  apply Rmult_le_compat_l; [exact Hm|].
  assert (KEY : forall a, 0 < a <= b -> d / a <= range -> w (d / b) - w (d / a) <= W1 * range * range / d * (b - a)).
  { intros a' Ha' Hr.
    assert (G : d / b <= d / a') by (unfold Rdiv; apply Rmult_le_compat_l; [lra | apply Rinv_le_contravar; lra]).
    assert (G0 : 0 < d / b) by (apply Rdiv_lt_0_compat; lra).
    eapply Rle_trans; [apply HL; lra|].
    assert (E2 : d / a' - d / b = (d / a') * (d / b) / d * (b - a')) by (field; lra). rewrite E2.
    replace (W1 * range * range / d * (b - a')) with (W1 * ((range * range) / d * (b - a'))) by (field; lra).
    apply Rmult_le_compat_l; [exact HW|]. apply Rmult_le_compat_r; [lra|]. unfold Rdiv.
    apply Rmult_le_compat_r; [left; apply Rinv_0_lt_compat; lra|].
    apply Rmult_le_compat; unfold Rdiv in *; lra. }
  destruct (Rle_lt_dec (d / a) range) as [C|C]; [apply KEY; lra|].
  assert (Wa : w (d / a) = 0) by (apply (dk_out _ _ _ _ _ DK); lra). rewrite Wa.
  assert (Nn : 0 <= W1 * range * range / d).
  { unfold Rdiv. apply Rmult_le_pos; [|left; apply Rinv_0_lt_compat; lra]. apply Rmult_le_pos; [apply Rmult_le_pos|]; lra. }
  destruct (Rle_lt_dec (d / b) range) as [C2|C2].
  - assert (A1 : d / range <= b).
    { apply Rmult_le_reg_r with (range / b); [apply Rdiv_lt_0_compat; lra|].
      replace (d / range * (range / b)) with (d / b) by (field; lra). replace (b * (range / b)) with range by (field; lra). exact C2. }
    assert (A2 : a <= d / range).
    { apply Rmult_le_reg_r with (range / a); [apply Rdiv_lt_0_compat; lra|].
      replace (d / range * (range / a)) with (d / a) by (field; lra). replace (a * (range / a)) with range by (field; lra). lra. }
    assert (A3 : 0 < d / range) by (apply Rdiv_lt_0_compat; lra).
    assert (E3 : d / (d / range) = range) by (field; lra).
    pose proof (KEY (d / range) ltac:(lra) ltac:(lra)) as K. rewrite E3 in K.
    assert (Wr : w range = 0) by (apply (dk_out _ _ _ _ _ DK); lra). rewrite Wr in K.
    eapply Rle_trans; [exact K|]. apply Rmult_le_compat_l; [exact Nn | lra].
  - assert (Wb : w (d / b) = 0) by (apply (dk_out _ _ _ _ _ DK); lra). rewrite Wb.
    assert (0 <= W1 * range * range / d * (b - a)) by (apply Rmult_le_pos; lra). lra.
Qed.

(** ** The loop over hmax ends *)
Lemma big_enough : forall hmask all act gather, finds n range all act gather ->
  (forall q, In q all -> 0 <= nb_m q) ->
  (forall p, In p act -> 0 < p_m p /\ 0 < p_h p /\ itself n p (counting hmask p all) /\
     exists H, 0 < H /\ h_fac ^ n * p_m p <= H ^ n * dens n w (p_r p) (counting hmask p all) H) ->
  forall p, In p act -> exists B, forall hm, B <= hm -> 0 < p_h p <= hm /\
    forall h, 0 < h <= hm -> 0 < func (p_m p) (dens n w (p_r p) (trim n kernrangesqd hmask p hm (gather hm)) h) <= hm.
Proof.
  intros hmask all act gather F M A p I. destruct (A p I) as (Hm & Hh & It & H & PH & HK).
  rewrite dens_held in HK by exact PH.
  pose proof (w0_pos n range w w1 om DK RP) as W0.
  assert (S0 : 0 < small_number) by (unfold small_number; apply Rinv_0_lt_compat, pow_lt; lra).
  set (B1 := (1 + h_fac ^ n * H ^ n / w 0)).
  assert (HQ : 0 < h_fac ^ n * H ^ n) by (apply Rmult_lt_0_compat; apply pow_lt; assumption).
  assert (B1p : 1 < B1) by (unfold B1; assert (0 < h_fac ^ n * H ^ n / w 0) by (apply Rdiv_lt_0_compat; lra); lra).
  exists (B1 + p_h p + H + (1 + small_number) / range + 1). intros hm Hhm.
  assert (SR : 0 < (1 + small_number) / range) by (apply Rdiv_lt_0_compat; lra).
  split; [lra|]. assert (Hhm0 : 0 < hm) by lra.
  pose proof (trim_all hmask all act gather p hm Hhm0 F I) as T.
  assert (RG : range * range * H * H + small_number <= range * range * hm * hm).
  { assert (range * H + (1 + small_number) <= range * hm).
    { replace (range * H + (1 + small_number)) with (range * (H + (1 + small_number) / range)) by (field; lra).
      apply Rmult_le_compat_l; lra. }
    assert (0 < range * H) by (apply Rmult_lt_0_compat; assumption). nra. }
  assert (IT : itself n p (trim n kernrangesqd hmask p hm (gather hm))).
  { destruct It as (q & Iq & Em & Er). exists q. split; [|split; assumption].
    destruct T as (fo & P & Hf). apply (Permutation_in q (Permutation_sym P)) in Iq. apply in_app_or in Iq. destruct Iq as [Iq|Iq]; [exact Iq|].
    exfalso. specialize (Hf q Iq). rewrite (far_itself n p q Er) in Hf.
    assert (0 < range * range * H * H) by (repeat apply Rmult_lt_0_compat; assumption). lra. }
  apply (func_bound n range w w1 om h_fac N1 DK RP HF p _ H B1 hm Hm); [|exact IT|exact PH| |lra| |lra].
  - intros q Hq. destruct T as (fo & P & _). apply M. assert (In q (counting hmask p all)) as Z.
    { apply (Permutation_in q P). apply in_or_app. left. exact Hq. }
    unfold counting in Z. apply filter_In in Z. apply Z.
  - rewrite (held_all hmask all _ p hm H PH T RG). exact HK.
  - apply Rle_trans with (B1 * w 0).
    + unfold B1. replace ((1 + h_fac ^ n * H ^ n / w 0) * w 0) with (w 0 + h_fac ^ n * H ^ n) by (field; lra). lra.
    + apply Rmult_le_compat_r; [lra|]. apply pow_ge1; [lra | exact N1].
Qed.

Lemma common_bound : forall (Q : dpart -> R -> Prop) act, (forall p, In p act -> exists B, forall hm, B <= hm -> Q p hm) ->
  exists B, forall p hm, In p act -> B <= hm -> Q p hm.
Proof.
  intros Q act. induction act as [|p act IH]; intros H; [exists 0; intros p hm []|].
  destruct (H p (or_introl eq_refl)) as (B1 & H1). destruct (IH (fun p Hp => H p (or_intror Hp))) as (B2 & H2).
  exists (Rmax B1 B2). intros p0 hm [<-|Hp] Hb.
  - apply H1. eapply Rle_trans; [apply Rmax_l | exact Hb].
  - apply H2; [exact Hp|]. eapply Rle_trans; [apply Rmax_r | exact Hb].
Qed.

Lemma cell_ends : forall rho_sink cs co so stars hmask all act gather hmax, finds n range all act gather -> 0 < hmax ->
  (forall rs, rho_sink = Some rs -> 0 < rs) -> (forall q, In q all -> 0 <= nb_m q) ->
  (forall p, In p act -> 0 < p_m p /\ 0 < p_h p /\ itself n p (counting hmask p all) /\
     exists H, 0 < H /\ h_fac ^ n * p_m p <= H ^ n * dens n w (p_r p) (counting hmask p all) H) ->
  exists k, dens_cell n kernrangesqd k (ComputeH n s2 womega_s2 wzeta_s2 kernrangesqd h_fac h_converge id rho_sink cs co so stars) hmask gather act hmax <> NoFuel.
Proof.
  intros rho_sink cs co so stars hmask all act gather hmax F Hp Hs M A.
  destruct (common_bound _ act (big_enough hmask all act gather F M A)) as (B & HB).
  destruct (Pow_x_infinity (105 / 100) ltac:(rewrite Rabs_right; lra) (Rabs B / (105 / 100 * hmax))) as (k & Hk).
  exists (S k). apply dens_cell_ends with B; [|exact Hp|].
  - intros p hm p' I Hb. destruct (HB p hm I Hb) as (H1 & H2).
    apply (computeH_not0 n w womega_s2 wzeta_s2 kernrangesqd h_fac h_converge N1 HF rho_sink cs co so stars p hm _ p' H2 H1); [apply A; exact I | exact Hs].
  - specialize (Hk k (Nat.le_refl _)). rewrite Rabs_right in Hk by (apply Rle_ge, pow_le; lra).
    apply Rle_trans with (Rabs B); [apply Rle_abs|].
    replace (Rabs B) with (Rabs B / (105 / 100 * hmax) * (105 / 100 * hmax)) by (field; lra).
    apply Rmult_le_compat_r; lra.
Qed.
End D5.
