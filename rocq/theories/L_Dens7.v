(** The grad-h terms set by ComputeH and the rates of change of density and energy. *)
From Verif Require Import Prelude Vec M_Box L_Box M_Force M_Dens S_Dens S_Dens2 S_Stock L_Stock M_Kernel S_Kernel L_Dens L_Dens2 L_Dens3 L_Dens6.
From Coq Require Import Reals Lra Lia Psatz.
From Coquelicot Require Import Coquelicot.
Local Open Scope R_scope.

Lemma lsum_map' : forall {A B} (g : A -> B) (f : B -> R) l, lsum f (map g l) = lsum (fun x => f (g x)) l.
Proof. intros A B g f l. induction l as [|x l IH]; cbn; [reflexivity | rewrite IH; reflexivity]. Qed.

Section D7.
Variables (n : nat) (range : R) (w w1 om : R -> R) (grav pot zeta : R -> R) (kernrangesqd h_fac h_converge : R) (rnd : R -> R).
Hypothesis N1 : (1 <= n)%nat.
Hypothesis DK : density_kernel n range w w1 om.
Hypothesis GK : gravity_kernel range grav pot zeta.
Hypothesis RP : 0 < range.
Hypothesis HF : 0 < h_fac.
Hypothesis HC : 0 < h_converge.
Notation s2 f := (fun s => f (sqrt s)).
Notation func := (h_rho_func n h_fac).

Lemma w1_nonpos : forall s, 0 <= s -> w1 s <= 0.
Proof.
  intros s Hs. apply Rnot_lt_le. intros C. pose proof (dk_deriv _ _ _ _ _ DK s) as D. apply is_derive_Reals in D.
  destruct (D (w1 s) C) as (delta & Hd). pose proof (cond_pos delta) as Pd.
  specialize (Hd (delta / 2)). rewrite Rabs_right in Hd by lra. specialize (Hd ltac:(lra) ltac:(lra)).
  assert (G : w (s + delta / 2) <= w s) by (apply (dk_decr _ _ _ _ _ DK); lra).
  assert (Q : (w (s + delta / 2) - w s) / (delta / 2) <= 0).
  { unfold Rdiv at 1. apply Rmult_le_0_r; [lra|]. left. apply Rinv_0_lt_compat. lra. }
  rewrite Rabs_left1 in Hd by lra. lra.
Qed.

Lemma omega_sum_eq : forall r l h, 0 < h -> omega_sum n (s2 om) r l h = lsum (fun q => nb_m q * (om (far n r q / h) / h ^ S n)) l.
Proof.
  intros r l h H. unfold omega_sum. rewrite add_up_lsum, Rplus_0_l, lsum_div. apply lsum_ext. intros q _. rewrite ssqd_far by exact H.
  assert (h ^ n <> 0) by (apply pow_nonzero; lra).
  replace ((1 / h) ^ n) with (/ h ^ n) by (unfold Rdiv; rewrite Rmult_1_l, pow_inv; reflexivity). cbn [pow]. field. split; [assumption | lra].
Qed.
Lemma zeta_sum_eq : forall r l h, 0 < h -> zeta_sum n (s2 zeta) r l h = lsum (fun q => nb_m q * (zeta (far n r q / h) / h ^ 2)) l.
Proof.
  intros r l h H. unfold zeta_sum. rewrite add_up_lsum, Rplus_0_l, lsum_div. apply lsum_ext. intros q _. rewrite ssqd_far by exact H. field. lra.
Qed.
Lemma star_zeta_eq : forall so p h stars z, (forall s, In s stars -> 0 < star_length so h s) ->
  star_zeta n (s2 zeta) so p h stars z =
  z + lsum (fun s => s_m s * (zeta (Vec.norm n (vsub (s_r s) (p_r p)) / star_length so h s) / star_length so h s ^ 2)) stars.
Proof.
  intros so p h stars. unfold star_zeta. induction stars as [|s stars IH]; intros z H; cbn [fold_left lsum]; [lra|].
  rewrite IH by (intros; apply H; right; assumption). rewrite <- Rplus_assoc. f_equal. f_equal.
  pose proof (H s (or_introl eq_refl)) as P. set (L := star_length so h s) in *.
  assert (EI : (if so then (2 / (h + s_h s)) ^ 2 else 4 * (1 / h) * (1 / h)) = / L * / L).
  { unfold L, star_length in *. destruct so; field; lra. }
  rewrite EI. rewrite sqrt_mult_alt by apply dot_nonneg. rewrite sqrt_square by (left; apply Rinv_0_lt_compat; exact P).
  unfold Vec.norm, Rdiv. field. lra.
Qed.

Definition Omega (r : vec) (l : list dneib) (h : R) : R :=
  1 + h / (INR n * dens n w r l h) * lsum (fun q => nb_m q * (om (far n r q / h) / h ^ S n)) l.

Lemma computeH_exact : forall rho_sink cs co so stars p hmax l lower,
  0 < p_m p -> (forall rs, rho_sink = Some rs -> 0 < rs) -> least n h_fac rho_sink (p_m p) lower -> lower < p_h p <= hmax ->
  0 < dens n w (p_r p) l (p_h p) -> belongs n h_fac (p_m p) (p_h p) (dens n w (p_r p) l (p_h p)) ->
  (forall s, In s stars -> 0 < star_length so (p_h p) s) -> p_insink p = false ->
  exists p', ComputeH n (s2 w) (s2 om) (s2 zeta) kernrangesqd h_fac h_converge rnd rho_sink cs co so stars p hmax l = Ret 1 p' /\
    p_h p' = p_h p /\ p_rho p' = dens n w (p_r p) l (p_h p) /\ p_invomega p' = 1 / Omega (p_r p) l (p_h p) /\
    p_zeta p' = - p_h p / (INR n * dens n w (p_r p) l (p_h p)) *
      (lsum (fun q => nb_m q * (zeta (far n (p_r p) q / p_h p) / p_h p ^ 2)) l +
       (if co then lsum (fun s => s_m s * (zeta (Vec.norm n (vsub (s_r s) (p_r p)) / star_length so (p_h p) s) / star_length so (p_h p) s ^ 2)) stars else 0)) * p_invomega p' /\
    p_potmin p' = (if cs then potmin_loop n kernrangesqd p ((1 / p_h p) * (1 / p_h p)) l (last_dr p l) true else p_potmin p).
Proof.
  intros rho_sink cs co so stars p hmax l lower Hm Hs HL Hh Hd HB HS HI.
  destruct (least_lower n h_fac N1 HF rho_sink (p_m p) lower Hm Hs HL) as (EL & L0).
  assert (Hp : 0 < p_h p) by (destruct HB; assumption).
  assert (Hf : func (p_m p) (dens n w (p_r p) l (p_h p)) = p_h p).
  { apply (belongs_unique n N1 h_fac (p_m p) _ _ _ Hd); [apply (func_belongs n N1 h_fac HF); assumption | exact HB]. }
  assert (NN : 0 < INR n) by (apply lt_0_INR; lia).
  unfold ComputeH. fold (lower_of n h_fac rho_sink (p_m p)). rewrite EL.
  replace ((match rho_sink with Some _ => true | None => false end) && rltb hmax lower) with false.
  2: { symmetry. apply andb_false_iff. right. unfold rltb. destruct (Rlt_dec hmax lower); [lra | reflexivity]. }
  assert (EH : forall k, hloop n (s2 w) h_fac h_converge rnd (S k) (p_m p) (p_r p) l hmax 0 (p_h p) lower hmax = Left (p_h p) lower).
  { intros k. cbn [hloop]. rewrite (rho_sum_dens n w) by exact Hp. rewrite Hf.
    replace (rltb 0 (dens n w (p_r p) l (p_h p)) && rltb lower (p_h p) && rltb (Rabs (p_h p - p_h p) * (1 / p_h p)) h_converge) with true; [reflexivity|].
    symmetry. apply andb_true_iff. split; [apply andb_true_iff; split|]; unfold rltb; destruct (Rlt_dec _ _); auto; try lra.
    exfalso. apply n0. replace (p_h p - p_h p) with 0 by lra. rewrite Rabs_R0. lra. }
  rewrite (EH 149%nat). cbv zeta. rewrite (rho_sum_dens n w) by exact Hp. rewrite Hf. rewrite Rmax_left by lra.
  replace (rleb (p_h p) hmax) with true by (symmetry; apply rleb_t; lra). rewrite HI.
  eexists. split; [reflexivity|]. cbn [p_h p_rho p_invomega p_zeta p_potmin].
  split; [reflexivity|]. split; [reflexivity|].
  assert (EO : 1 - h_rho_deriv n (p_h p) (dens n w (p_r p) l (p_h p)) * omega_sum n (s2 om) (p_r p) l (p_h p) = Omega (p_r p) l (p_h p)).
  { rewrite omega_sum_eq by exact Hp. unfold Omega, h_rho_deriv, invndim. field. split; lra. }
  rewrite EO. split; [reflexivity|]. split; [|reflexivity].
  rewrite zeta_sum_eq by exact Hp. unfold h_rho_deriv, invndim.
  destruct co; [rewrite star_zeta_eq by exact HS|rewrite Rplus_0_r];
    replace (- (1 / INR n) * p_h p / dens n w (p_r p) l (p_h p)) with (- p_h p / (INR n * dens n w (p_r p) l (p_h p))) by (field; split; lra); reflexivity.
Qed.

(** Omega is positive if some neighbour is off centre. *)
Lemma omega_pos : forall p l, 0 < p_h p -> 0 < dens n w (p_r p) l (p_h p) -> (forall q, In q l -> 0 <= nb_m q) ->
  (exists q, In q l /\ 0 < nb_m q /\ far n (p_r p) q / p_h p * w1 (far n (p_r p) q / p_h p) < 0) -> 0 < Omega (p_r p) l (p_h p).
Proof.
  intros p l Hp Hd HM (q0 & I0 & M0 & W0). assert (NN : 0 < INR n) by (apply lt_0_INR; lia).
  set (h := p_h p) in *. set (r := p_r p) in *.
  assert (Pn : 0 < h ^ n) by (apply pow_lt; exact Hp).
  assert (E : Omega r l h * (INR n * dens n w r l h) = lsum (fun q => nb_m q * (- (far n r q / h * w1 (far n r q / h)) / h ^ n)) l).
  { unfold Omega. replace ((1 + h / (INR n * dens n w r l h) * lsum (fun q => nb_m q * (om (far n r q / h) / h ^ S n)) l) * (INR n * dens n w r l h))
      with (dens n w r l h * INR n + lsum (fun q => nb_m q * (om (far n r q / h) / h ^ S n)) l * h) by (field; split; lra).
    unfold dens. rewrite !lsum_div, <- lsum_plus. apply lsum_ext. intros q _. rewrite (dk_omega _ _ _ _ _ DK). cbn [pow]. field. split; lra. }
  assert (0 < INR n * dens n w r l h) by (apply Rmult_lt_0_compat; assumption).
  apply Rmult_lt_reg_r with (INR n * dens n w r l h); [assumption|]. rewrite Rmult_0_l, E.
  apply Rlt_le_trans with (nb_m q0 * (- (far n r q0 / h * w1 (far n r q0 / h)) / h ^ n)).
  - apply Rmult_lt_0_compat; [exact M0|]. apply Rdiv_lt_0_compat; lra.
  - apply (lsum_pos_ge (fun q => nb_m q * (- (far n r q / h * w1 (far n r q / h)) / h ^ n)) l q0); [|exact I0].
    intros q Hq. apply Rmult_le_pos; [apply HM; exact Hq|]. unfold Rdiv at 1. apply Rmult_le_pos; [|left; apply Rinv_0_lt_compat; exact Pn].
    assert (0 <= far n r q / h).
    { unfold Rdiv. apply Rmult_le_pos; [apply far_nonneg | left; apply Rinv_0_lt_compat; exact Hp]. }
    pose proof (w1_nonpos _ H0). nra.
Qed.

Section Rate.
Variables (p : dpart) (ts : list track) (h rho : R -> R).
Hypothesis MV : moving n w h_fac p ts h rho.
Hypothesis Hm : 0 < p_m p.
Let l := map k_nb ts.
Let h0 := p_h p.
Let slope := lsum (fun k => nb_m (k_nb k) * (w1 (far n (p_r p) (k_nb k) / h0) / h0 ^ S n) * k_rate k) ts.

Lemma lsum_tracks : forall (f : dneib -> R -> R), lsum (fun k => f (k_nb k) (k_d k 0)) ts = lsum (fun q => f q (far n (p_r p) q)) l.
Proof.
  intros f. unfold l. assert (S := mv_start _ _ _ _ _ _ _ MV). clear MV slope l. induction ts as [|k ts' IH]; cbn; [reflexivity|].
  rewrite IH by (intros; apply S; right; assumption). rewrite (S k (or_introl eq_refl)). reflexivity.
Qed.
Lemma rho0 : rho 0 = dens n w (p_r p) l h0 /\ belongs n h_fac (p_m p) h0 (rho 0) /\ 0 < rho 0.
Proof.
  pose proof (locally_singleton _ _ (mv_dens _ _ _ _ _ _ _ MV)) as D. cbv beta in D. rewrite (mv_h _ _ _ _ _ _ _ MV) in D. fold h0 in D.
  rewrite (lsum_tracks (fun q d => nb_m q * (w (d / h0) / h0 ^ n))) in D.
  pose proof (locally_singleton _ _ (mv_fits _ _ _ _ _ _ _ MV)) as B. cbv beta in B. rewrite (mv_h _ _ _ _ _ _ _ MV) in B. fold h0 in B.
  split; [exact D|]. split; [exact B|]. destruct B as (P & E).
  assert (0 < h0 ^ n) by (apply pow_lt; exact P). assert (0 < h_fac ^ n * p_m p) by (apply Rmult_lt_0_compat; [apply pow_lt|]; assumption).
  apply Rmult_lt_reg_l with (h0 ^ n); lra.
Qed.

Lemma rates : Omega (p_r p) l h0 <> 0 -> is_derive rho 0 (1 / Omega (p_r p) l h0 * slope) /\
  is_derive h 0 (- h0 / (INR n * rho 0) * (1 / Omega (p_r p) l h0 * slope)).
Proof.
  intros HO. destruct rho0 as (E & B & P).
  assert (EO : 1 + h0 / (INR n * rho 0) * lsum (fun k => nb_m (k_nb k) * (om (k_d k 0 / h0) / h0 ^ S n)) ts = Omega (p_r p) l h0).
  { rewrite (lsum_tracks (fun q d => nb_m q * (om (d / h0) / h0 ^ S n))). unfold Omega. rewrite <- E. reflexivity. }
  destruct (rho_rate n range w w1 om h_fac N1 DK p ts h rho MV P) as (D1 & D2).
  { fold h0. rewrite EO. exact HO. }
  fold h0 in D1, D2. rewrite EO in D1, D2.
  assert (ES : lsum (fun k => nb_m (k_nb k) * (w1 (k_d k 0 / h0) / h0 ^ S n) * k_rate k) ts = slope).
  { unfold slope. apply lsum_ext. intros k Hk. rewrite (mv_start _ _ _ _ _ _ _ MV k Hk). reflexivity. }
  rewrite ES in D1, D2. unfold Rdiv in *. rewrite Rmult_1_l. rewrite (Rmult_comm (/ Omega (p_r p) l h0)). split; assumption.
Qed.

Lemma pot_derive : forall s, is_derive pot s (- grav s).
Proof. apply GK. Qed.
Lemma zeta_alt : forall s, zeta s = pot s - s * grav s.
Proof. intros s. rewrite (gk_zeta _ _ _ _ GK). rewrite (is_derive_unique _ _ _ (pot_derive s)). ring. Qed.

Lemma energy_rate : forall so ss h', star_moving n p ss -> (forall k, In k ss -> 0 < star_length so h0 (k_star k)) -> is_derive h 0 h' -> 
  is_derive (energy pot so ts ss h) 0
   (1 / 2 * (lsum (fun k => nb_m (k_nb k) * (grav (far n (p_r p) (k_nb k) / h0) / h0 ^ 2) * k_rate k) ts
      + h' * lsum (fun q => nb_m q * (zeta (far n (p_r p) q / h0) / h0 ^ 2)) l)
    + (lsum (fun k => let L := star_length so h0 (k_star k) in s_m (k_star k) * (grav (Vec.norm n (vsub (s_r (k_star k)) (p_r p)) / L) / L ^ 2) * k_srate k) ss
      + h' * (1 / 2 * lsum (fun s => let L := star_length so h0 s in s_m s * (zeta (Vec.norm n (vsub (s_r s) (p_r p)) / L) / L ^ 2)) (map k_star ss)))).
Proof.
  intros so ss h' HS HP Hh. pose proof (mv_h _ _ _ _ _ _ _ MV) as E0. fold h0 in E0.
  assert (P0 : 0 < h0) by (destruct rho0 as (_ & (P & _) & _); exact P).
  assert (D1 : is_derive (fun t => lsum (fun k => nb_m (k_nb k) * (pot (k_d k t / h t) / h t)) ts) 0
    (- lsum (fun k => nb_m (k_nb k) * (grav (far n (p_r p) (k_nb k) / h0) / h0 ^ 2) * k_rate k) ts - h' * lsum (fun q => nb_m q * (zeta (far n (p_r p) q / h0) / h0 ^ 2)) l)).
  { rewrite <- (lsum_tracks (fun q d => nb_m q * (zeta (d / h0) / h0 ^ 2))).
    eapply is_derive_val; [apply (is_derive_lsum (fun k t => nb_m (k_nb k) * (pot (k_d k t / h t) / h t))
       (fun k => (- 1) * (nb_m (k_nb k) * (grav (far n (p_r p) (k_nb k) / h0) / h0 ^ 2) * k_rate k) + (- h') * (nb_m (k_nb k) * (zeta (k_d k 0 / h0) / h0 ^ 2))))|].
    - intros k Hk. apply (is_derive_ext (fun t => nb_m (k_nb k) * (pot (k_d k t / h t) / h t ^ 1))); [intros t; rewrite pow_1; reflexivity|].
      eapply is_derive_val; [apply (is_derive_scal (fun t => pot (k_d k t / h t) / h t ^ 1) 0 (nb_m (k_nb k)));
        apply (term_derive pot (fun s => - grav s) (k_d k) h (k_rate k) h' 1 (Nat.le_refl _) pot_derive (mv_rate _ _ _ _ _ _ _ MV k Hk) Hh); lra|].
      rewrite E0, <- (mv_start _ _ _ _ _ _ _ MV k Hk), zeta_alt. unfold scal. cbn. unfold mult. cbn. field. lra.
    - rewrite lsum_plus, !lsum_scal. ring. }
  assert (D2 : is_derive (fun t => lsum (fun k => s_m (k_star k) * (pot (k_sd k t / star_length so (h t) (k_star k)) / star_length so (h t) (k_star k))) ss) 0
    (- lsum (fun k => let L := star_length so h0 (k_star k) in s_m (k_star k) * (grav (Vec.norm n (vsub (s_r (k_star k)) (p_r p)) / L) / L ^ 2) * k_srate k) ss
      - h' * (1 / 2 * lsum (fun s => let L := star_length so h0 s in s_m s * (zeta (Vec.norm n (vsub (s_r s) (p_r p)) / L) / L ^ 2)) (map k_star ss)))).
  { rewrite lsum_map'.
    eapply is_derive_val; [apply (is_derive_lsum (fun k t => s_m (k_star k) * (pot (k_sd k t / star_length so (h t) (k_star k)) / star_length so (h t) (k_star k)))
       (fun k => (- 1) * (let L := star_length so h0 (k_star k) in s_m (k_star k) * (grav (Vec.norm n (vsub (s_r (k_star k)) (p_r p)) / L) / L ^ 2) * k_srate k)
          + (- h' * (1 / 2)) * (let L := star_length so h0 (k_star k) in s_m (k_star k) * (zeta (Vec.norm n (vsub (s_r (k_star k)) (p_r p)) / L) / L ^ 2))))|].
    - intros k Hk. destruct (HS k Hk) as (Ed & Dd). pose proof (HP k Hk) as PL.
      apply (is_derive_ext (fun t => s_m (k_star k) * (pot (k_sd k t / star_length so (h t) (k_star k)) / star_length so (h t) (k_star k) ^ 1))); [intros t; rewrite pow_1; reflexivity|].
      assert (DL : is_derive (fun t => star_length so (h t) (k_star k)) 0 (1 / 2 * h')).
      { destruct so; unfold star_length.
        - apply (is_derive_ext (fun t => 1 / 2 * (h t + s_h (k_star k)))); [intros t; change ((1 / 2 * (h t + s_h (k_star k))) = (h t + s_h (k_star k)) / 2); field|].
          apply (is_derive_scal (fun t => h t + s_h (k_star k)) 0 (1 / 2)).
          eapply is_derive_val; [apply (is_derive_plus h (fun _ => s_h (k_star k)) 0 h' 0); [exact Hh | apply (is_derive_const (s_h (k_star k)) 0)]|].
          unfold plus. cbn. ring.
        - apply (is_derive_ext (fun t => 1 / 2 * h t)); [intros t; change (1 / 2 * h t = h t / 2); field|].
          apply (is_derive_scal h 0 (1 / 2)). exact Hh. }
      eapply is_derive_val; [apply (is_derive_scal (fun t => pot (k_sd k t / star_length so (h t) (k_star k)) / star_length so (h t) (k_star k) ^ 1) 0 (s_m (k_star k)));
        apply (term_derive pot (fun s => - grav s) (k_sd k) (fun t => star_length so (h t) (k_star k)) (k_srate k) (1 / 2 * h') 1 (Nat.le_refl _) pot_derive Dd DL); rewrite E0; exact PL|].
      cbv beta zeta. rewrite E0, Ed, zeta_alt. set (L := star_length so h0 (k_star k)) in *. clearbody L. unfold scal. cbn. unfold mult. cbn. field. lra.
    - rewrite lsum_plus, !lsum_scal. cbv beta zeta. ring. }
  unfold energy. eapply is_derive_val.
  - apply (is_derive_minus (fun t => - (1 / 2 * lsum (fun k => nb_m (k_nb k) * (pot (k_d k t / h t) / h t)) ts))
       (fun t => lsum (fun k => s_m (k_star k) * (pot (k_sd k t / star_length so (h t) (k_star k)) / star_length so (h t) (k_star k))) ss) 0).
    + apply (is_derive_opp (fun t => 1 / 2 * lsum (fun k => nb_m (k_nb k) * (pot (k_d k t / h t) / h t)) ts) 0).
      apply (is_derive_scal (fun t => lsum (fun k => nb_m (k_nb k) * (pot (k_d k t / h t) / h t)) ts) 0 (1 / 2)). exact D1.
    + exact D2.
  - unfold minus, plus, opp, scal, mult. cbn -[pow lsum star_length]. unfold mult. cbn -[pow lsum star_length]. ring.
Qed.
End Rate.
End D7.
