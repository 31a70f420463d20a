(** The result of ComputeH. *)
From Verif Require Import Prelude Vec M_Box L_Box M_Force M_Dens S_Dens S_Stock L_Stock M_Kernel S_Kernel L_Dens.
From Coq Require Import Reals Lra Lia Psatz.
Local Open Scope R_scope.

Lemma rleb_t : forall x y, rleb x y = true <-> x <= y.
Proof. intros x y. unfold rleb. destruct (Rle_dec x y); split; auto; discriminate. Qed.

Section D2.
Variables (n : nat) (range : R) (w w1 om : R -> R) (womega_s2 wzeta_s2 : R -> R) (kernrangesqd h_fac h_converge : R) (rnd : R -> R).
Hypothesis N1 : (1 <= n)%nat.
Hypothesis DK : density_kernel n range w w1 om.
Hypothesis RP : 0 < range.
Hypothesis HF : 0 < h_fac.
Notation s2 := (fun s => w (sqrt s)).
Notation func := (h_rho_func n h_fac).

Lemma far_nonneg : forall r q, 0 <= far n r q.
Proof. intros. apply sqrt_pos. Qed.
Lemma w_nonneg : forall r q h, 0 < h -> 0 <= w (far n r q / h).
Proof.
  intros r q h H. apply (dk_pos _ _ _ _ _ DK). apply Rmult_le_pos; [apply far_nonneg|]. left. apply Rinv_0_lt_compat; lra.
Qed.
Lemma far_itself : forall p q, (forall k, (k < n)%nat -> nb_r q k = p_r p k) -> far n (p_r p) q = 0.
Proof.
  intros p q H. unfold far, norm. replace (dot n _ _) with 0; [apply sqrt_0|].
  unfold dot. rewrite (sumf_ext n _ (fun _ => 0)); [rewrite sumf_zero; reflexivity|].
  intros k Hk. unfold vsub. rewrite H by exact Hk. ring.
Qed.
Lemma w0_pos : 0 < w 0.
Proof. apply (dk_inside _ _ _ _ _ DK). lra. Qed.
Lemma dens_pos : forall p l h, 0 < p_m p -> (forall q, In q l -> 0 <= nb_m q) -> itself n p l -> 0 < h ->
  p_m p * (w 0 / h ^ n) <= dens n w (p_r p) l h.
Proof.
  intros p l h Hm M (q & Hq & E & Er) H.
  assert (G : (fun q => nb_m q * (w (far n (p_r p) q / h) / h ^ n)) q <= dens n w (p_r p) l h).
  { apply (lsum_pos_ge (fun q => nb_m q * (w (far n (p_r p) q / h) / h ^ n)) l q); [|exact Hq]. intros y Hy. apply Rmult_le_pos; [auto|].
    apply Rmult_le_pos; [apply w_nonneg; exact H|]. left. apply Rinv_0_lt_compat. apply pow_lt; exact H. }
  cbv beta in G. rewrite (far_itself p q Er), E in G. unfold Rdiv in G at 2. rewrite Rmult_0_l in G. exact G.
Qed.
Lemma dens_pos' : forall p l h, 0 < p_m p -> (forall q, In q l -> 0 <= nb_m q) -> itself n p l -> 0 < h -> 0 < dens n w (p_r p) l h.
Proof.
  intros p l h Hm M I H. pose proof (dens_pos p l h Hm M I H). pose proof w0_pos.
  assert (0 < p_m p * (w 0 / h ^ n)); [|lra]. apply Rmult_lt_0_compat; [exact Hm|]. apply Rdiv_lt_0_compat; [lra|]. apply pow_lt; exact H.
Qed.

Definition lower_of (rho_sink : option R) (m : R) : R := match rho_sink with Some rs => h_fac * root n (m / rs) | None => 0 end.
Lemma least_lower : forall rho_sink m lower, 0 < m -> (forall rs, rho_sink = Some rs -> 0 < rs) ->
  least n h_fac rho_sink m lower -> lower_of rho_sink m = lower /\ 0 <= lower.
Proof.
  intros [rs|] m lower Hm Hs H; cbn in *; [|subst; lra].
  specialize (Hs rs eq_refl). split; [|destruct H; lra].
  apply (belongs_unique n N1 h_fac m _ _ rs Hs); [|exact H].
  apply (func_belongs n N1 h_fac HF m rs Hm Hs).
Qed.

Definition ComputeH' := ComputeH n s2 womega_s2 wzeta_s2 kernrangesqd h_fac h_converge rnd.

Lemma computeH_left : forall rho_sink cs co so stars p hmax l f p',
  ComputeH' rho_sink cs co so stars p hmax l = Ret f p' -> f <> 0%Z -> lower_of rho_sink (p_m p) <= hmax ->
  exists h0 lo, hloop n s2 h_fac h_converge rnd 150 (p_m p) (p_r p) l hmax 0 (p_h p) (lower_of rho_sink (p_m p)) hmax = Left h0 lo /\
    p_rho p' = rho_sum n s2 (p_r p) l h0 /\ p_h p' = Rmax (func (p_m p) (rho_sum n s2 (p_r p) l h0)) lo /\
    ((f = 1%Z /\ p_h p' <= hmax) \/ (f = (-1)%Z /\ hmax < p_h p')) /\
    p_hrangesqd p' = kernrangesqd * p_h p' * p_h p'.
Proof.
  intros rho_sink cs co so stars p hmax l f p' E Hf HL. unfold ComputeH', ComputeH in E.
  fold (lower_of rho_sink (p_m p)) in E.
  destruct (_ && _) eqn:B in E.
  { apply andb_true_iff in B. destruct B as (_ & B). apply rltb_t in B. lra. }
  destruct (hloop _ _ _ _ _ _ _ _ _ _ _ _ _ _) as [h0 lo|h|] eqn:L in E; [| |discriminate].
  2: { injection E as <- _. congruence. }
  exists h0, lo. split; [exact L|]. cbv zeta in E.
  destruct (rleb _ _) eqn:Q in E; injection E as <- <-; cbn [p_rho p_h p_hrangesqd].
  - apply rleb_t in Q. split; [reflexivity|]. split; [reflexivity|]. split; [left; auto|reflexivity].
  - split; [reflexivity|]. split; [reflexivity|]. split; [right|reflexivity]. split; [reflexivity|].
    apply Rnot_le_lt. intros C. apply rleb_t in C. congruence.
Qed.

(** How the density and the length found are related. *)
Definition fitting (p p' : dpart) (hmax lower h0 : R) : Prop :=
  (exists hf, belongs n h_fac (p_m p) hf (p_rho p') /\ Rabs (h0 - hf) < h_converge * h0 /\ Rabs (h0 - p_h p') < h_converge * h0) \/
  (p_h p' = lower /\ exists hf, belongs n h_fac (p_m p) hf (p_rho p') /\ hf <= lower) \/
  (p_h p' = hmax /\ belongs n h_fac (p_m p) hmax (p_rho p')) \/
  (exists a b, lower <= a /\ a < b /\ b <= hmax /\ (rnd (1 / 2 * (a + b)) <= a \/ b <= rnd (1 / 2 * (a + b))) /\
     ((a = lower /\ b = hmax) \/ h0 = a \/ h0 = b)).

Lemma computeH_spec : forall rho_sink cs co so stars p hmax l f p' lower,
  0 < p_m p -> 0 < p_h p <= hmax -> (forall q, In q l -> 0 <= nb_m q) -> itself n p l ->
  (forall rs, rho_sink = Some rs -> 0 < rs) -> least n h_fac rho_sink (p_m p) lower -> lower <= hmax ->
  ComputeH' rho_sink cs co so stars p hmax l = Ret f p' -> f <> 0%Z ->
  exists h0, 0 < h0 <= hmax /\ p_rho p' = dens n w (p_r p) l h0 /\ lower <= p_h p' /\
    ((f = 1%Z /\ p_h p' <= hmax) \/ (f = (-1)%Z /\ hmax < p_h p')) /\ fitting p p' hmax lower h0.
Proof.
  intros rho_sink cs co so stars p hmax l f p' lower Hm Hh M I Hs HL HLm E Hf.
  destruct (least_lower rho_sink (p_m p) lower Hm Hs HL) as (EL & L0).
  destruct (computeH_left rho_sink cs co so stars p hmax l f p' E Hf) as (h0 & lo & L & Er & Eh & F & _); [lra|].
  rewrite EL in L.
  destruct (hloop_left n w N1 h_fac HF h_converge rnd (p_m p) (p_r p) l hmax lower Hm L0
      (fun h P => dens_pos' p l h Hm M I P) 150 0%Z (p_h p) lower hmax h0 lo) as (B0 & Blo & OK);
    [lia | reflexivity | exact Hh | auto | intros; lia | exact L |].
  exists h0. rewrite rho_sum_dens in Er, Eh by lra. split; [exact B0|]. split; [exact Er|].
  set (rho := dens n w (p_r p) l h0) in *.
  assert (Hr : 0 < rho) by (apply dens_pos'; auto; lra).
  pose proof (func_belongs n N1 h_fac HF (p_m p) rho Hm Hr) as FB. set (hf := func (p_m p) rho) in *.
  split. { rewrite Eh. eapply Rle_trans; [exact Blo | apply Rmax_r]. }
  split; [exact F|]. unfold fitting. rewrite Er. unfold left_ok in OK. cbv zeta in OK. fold rho hf in OK.
  destruct OK as [(_ & G1 & G2)|[(G1 & G2)|[(G1 & G2)|(a & b & G1 & G2 & G3 & G4 & G5 & G6)]]].
  - left. exists hf. split; [exact FB|]. split; [exact G2|]. rewrite Eh.
    unfold Rmax. destruct (Rle_dec hf lo); [|exact G2].
    rewrite Rabs_right by lra. rewrite Rabs_right in G2 by lra. lra.
  - right. left. split; [rewrite Eh, G2; apply Rmax_right; exact G1|]. exists hf. split; assumption.
  - right. right. left. split; [rewrite Eh, G2, G1; apply Rmax_left; exact HLm|]. rewrite <- G1. exact FB.
  - right. right. right. exists a, b. repeat split; auto.
Qed.

(** ** Which particles the sum contains *)
Lemma trim_in : forall hmask p hmax l q, In q (trim n kernrangesqd hmask p hmax l) <->
  In q l /\ hmask (p_type p) (nb_type q) = true /\ far n (p_r p) q * far n (p_r p) q + small_number <= kernrangesqd * hmax * hmax.
Proof.
  intros. unfold trim. rewrite filter_In, andb_true_iff, rleb_t.
  unfold far, norm. rewrite sqrt_sqrt by apply dot_nonneg. tauto.
Qed.
End D2.
