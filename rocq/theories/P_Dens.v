(** C65-C68: density and smoothing length. *)
From Verif Require Import Prelude Vec M_Box L_Box M_Force M_Dens S_Dens S_Dens2 S_Stock L_Stock M_Kernel S_Kernel L_Kernel L_Dens L_Dens2 L_Dens3 L_Dens4 L_Dens5 L_Dens6 L_Dens7 L_Dens8 L_Dens9.
From Coq Require Import Reals Lra Lia Psatz Permutation.
From Coquelicot Require Import Coquelicot.
Local Open Scope R_scope.

Section C65.
Variables (n : nat) (range : R) (w w1 om : R -> R) (womega_s2 wzeta_s2 : R -> R) (kernrangesqd h_fac h_converge : R).
Hypothesis N1 : (1 <= n)%nat.
Hypothesis DK : density_kernel n range w w1 om.
Hypothesis RP : 0 < range.
Hypothesis HF : 0 < h_fac.
Hypothesis KR : kernrangesqd = range * range.
Notation compute rnd := (ComputeH n (fun s => w (sqrt s)) womega_s2 wzeta_s2 kernrangesqd h_fac h_converge rnd).

(** What is accepted (midpoints may be rounded in any way): the density is the one smoothed over some length [h0], and
    - [h0] agrees with the length that belongs to that density, and with the length stored, to the tolerance; or
    - the length stored is the smallest allowed, the one belonging to the density being smaller; or
    - the length stored is the largest allowed and belongs to the density; or
    - the interval between a length too small and one too large could not be halved in the arithmetic used. *)
Theorem C65_density : forall rnd rho_sink cs co so stars p hmax l f p' lower,
  0 < p_m p -> 0 < p_h p <= hmax -> (forall q, In q l -> 0 <= nb_m q) -> itself n p l ->
  (forall rs, rho_sink = Some rs -> 0 < rs) -> least n h_fac rho_sink (p_m p) lower -> lower <= hmax ->
  compute rnd rho_sink cs co so stars p hmax l = Ret f p' -> f <> 0%Z ->
  exists h0, 0 < h0 <= hmax /\ p_rho p' = dens n w (p_r p) l h0 /\ lower <= p_h p' /\
    ((f = 1%Z /\ p_h p' <= hmax) \/ (f = (-1)%Z /\ hmax < p_h p')) /\
    ((exists hf, belongs n h_fac (p_m p) hf (p_rho p') /\ Rabs (h0 - hf) < h_converge * h0 /\ Rabs (h0 - p_h p') < h_converge * h0) \/
     (p_h p' = lower /\ exists hf, belongs n h_fac (p_m p) hf (p_rho p') /\ hf <= lower) \/
     (p_h p' = hmax /\ belongs n h_fac (p_m p) hmax (p_rho p')) \/
     (exists a b, lower <= a /\ a < b /\ b <= hmax /\ (rnd (1 / 2 * (a + b)) <= a \/ b <= rnd (1 / 2 * (a + b))) /\
        ((a = lower /\ b = hmax) \/ h0 = a \/ h0 = b))).
Proof. intros rnd. exact (computeH_spec n range w w1 om womega_s2 wzeta_s2 kernrangesqd h_fac h_converge rnd N1 DK RP HF). Qed.

(** A length that fits is found: if one exists between the limits, the iteration never gives up (exact midpoints).  [W1] bounds the slope of the kernel;
    the last premise says that 120 halvings of the largest interval are enough for the tolerance. *)
Theorem C65_found : forall rho_sink cs co so stars p hmax l lower hs W1,
  0 < p_m p -> 0 < p_h p <= hmax -> (forall q, In q l -> 0 <= nb_m q) -> itself n p l ->
  (forall rs, rho_sink = Some rs -> 0 < rs) -> least n h_fac rho_sink (p_m p) lower ->
  0 < h_converge < 1 -> small_number <= p_m p * (w 0 / hmax ^ n) ->
  lower < hs < hmax -> belongs n h_fac (p_m p) hs (dens n w (p_r p) l hs) ->
  0 <= W1 -> (forall s t, 0 <= s <= t -> w s - w t <= W1 * (t - s)) ->
  lsum (fun q => if Req_EM_T (far n (p_r p) q) 0 then 0 else nb_m q * W1 * range * range / far n (p_r p) q) l * (hmax - lower) / 2 ^ 120
    <= h_converge / 2 * (h_fac ^ n * p_m p) ->
  compute (fun x => x) rho_sink cs co so stars p hmax l <> Raised.
Proof.
  intros rho_sink cs co so stars p hmax l lower hs W1 Hm Hh M It Hs HL HT HSm Hhs HB HW1 HLip HE E.
  destruct (least_lower n h_fac N1 HF rho_sink (p_m p) lower Hm Hs HL) as (EL & L0).
  unfold ComputeH in E. fold (lower_of n h_fac rho_sink (p_m p)) in E. rewrite EL in E.
  destruct (_ && _) in E; [discriminate|].
  destruct (hloop _ _ _ _ _ _ _ _ _ _ _ _ _ _) as [h0 lo|h|] eqn:L in E.
  - cbv zeta in E. destruct (rleb _ _) in E; discriminate.
  - discriminate.
  - revert L. apply (fixed n range w w1 om womega_s2 wzeta_s2 h_fac h_converge N1 DK HF (p_m p) (p_r p) l hmax lower
      (lsum (fun q => if Req_EM_T (far n (p_r p) q) 0 then 0 else nb_m q * W1 * range * range / far n (p_r p) q) l) hs Hm M).
    + intros h P. apply (dens_pos' n range w w1 om DK RP); assumption.
    + intros h P. eapply Rle_trans; [exact HSm|]. eapply Rle_trans; [|apply (dens_pos n range w w1 om DK p l h Hm M It (proj1 P))].
      apply Rmult_le_compat_l; [lra|]. unfold Rdiv. apply Rmult_le_compat_l; [left; apply (w0_pos n range w w1 om DK RP)|].
      apply Rinv_le_contravar; [apply pow_lt; lra|]. apply pow_incr. lra.
    + exact HT.
    + exact L0.
    + split; [exact Hhs|]. destruct HB as (P & E2). rewrite <- (dens_held n w) by exact P. exact E2.
    + intros a b Hab _. apply (held_lip n range w w1 om DK RP W1 (p_r p) l HLip HW1 M); [|exact Hab].
      intros q _. destruct (far_nonneg n (p_r p) q); [right; assumption | left; symmetry; assumption].
    + apply lsum_nonneg. intros q Hq. destruct (Req_EM_T _ 0); [lra|].
      pose proof (far_nonneg n (p_r p) q). unfold Rdiv. repeat apply Rmult_le_pos; auto; try lra. left. apply Rinv_0_lt_compat. lra.
    + exact HE.
    + lia.
    + reflexivity.
    + exact Hh.
Qed.

(** The loop that enlarges the neighbour list ends if each particle has enough matter around it at all. *)
Theorem C65_ends : forall rho_sink cs co so stars hmask all act gather hmax, finds n range all act gather -> 0 < hmax ->
  (forall rs, rho_sink = Some rs -> 0 < rs) -> (forall q, In q all -> 0 <= nb_m q) ->
  (forall p, In p act -> 0 < p_m p /\ 0 < p_h p /\ itself n p (counting hmask p all) /\
     exists H, 0 < H /\ h_fac ^ n * p_m p <= H ^ n * dens n w (p_r p) (counting hmask p all) H) ->
  exists k, dens_cell n kernrangesqd k (compute (fun x => x) rho_sink cs co so stars) hmask gather act hmax <> NoFuel.
Proof. exact (cell_ends n range w w1 om womega_s2 wzeta_s2 kernrangesqd h_fac h_converge N1 DK RP HF KR). Qed.

(** A cell: each density contains every particle that counts and lies within the range of the length it was formed with. *)
Theorem C65_cell : forall rnd rho_sink cs co so stars hmask all act gather hmax k ps, finds n range all act gather -> 0 < hmax ->
  small_number <= range * range * hmax * hmax -> (forall rs, rho_sink = Some rs -> 0 < rs) -> (forall q, In q all -> 0 <= nb_m q) ->
  (forall p, In p act -> 0 < p_m p /\ 0 < p_h p <= hmax /\ itself n p (counting hmask p all) /\ exists lower, least n h_fac rho_sink (p_m p) lower /\ lower <= hmax) ->
  dens_cell n kernrangesqd k (compute rnd rho_sink cs co so stars) hmask gather act hmax = Ok ps ->
  exists hm, 105 / 100 * hmax <= hm /\
  Forall2 (fun p p' => exists near h0 lower, all_near n range hmask p all near hm /\ 0 < h0 <= hm /\ p_rho p' = dens n w (p_r p) near h0 /\
    least n h_fac rho_sink (p_m p) lower /\ lower <= p_h p' /\
    ((exists hf, belongs n h_fac (p_m p) hf (p_rho p') /\ Rabs (h0 - hf) < h_converge * h0 /\ Rabs (h0 - p_h p') < h_converge * h0) \/
     (p_h p' = lower /\ exists hf, belongs n h_fac (p_m p) hf (p_rho p') /\ hf <= lower) \/
     (p_h p' = hm /\ belongs n h_fac (p_m p) hm (p_rho p')) \/
     (exists a b, lower <= a /\ a < b /\ b <= hm /\ (rnd (1 / 2 * (a + b)) <= a \/ b <= rnd (1 / 2 * (a + b))) /\
        ((a = lower /\ b = hm) \/ h0 = a \/ h0 = b)))) act ps.
Proof.
  intros rnd rho_sink cs co so stars hmask all act gather hmax k ps F Hp HSm Hs M A E.
  destruct (dens_cell_ok n kernrangesqd _ _ _ _ _ _ _ Hp E) as (hm & B & FA). exists hm. split; [exact B|].
  assert (Hmm : 0 < hm) by lra.
  assert (Sub : forall act' ps', incl act' act ->
    Forall2 (fun p p' => exists f, compute rnd rho_sink cs co so stars p hm (trim n kernrangesqd hmask p hm (gather hm)) = Ret f p' /\ f <> 0%Z) act' ps' ->
    Forall2 (fun p p' => exists near h0 lower, all_near n range hmask p all near hm /\ 0 < h0 <= hm /\ p_rho p' = dens n w (p_r p) near h0 /\
    least n h_fac rho_sink (p_m p) lower /\ lower <= p_h p' /\
    ((exists hf, belongs n h_fac (p_m p) hf (p_rho p') /\ Rabs (h0 - hf) < h_converge * h0 /\ Rabs (h0 - p_h p') < h_converge * h0) \/
     (p_h p' = lower /\ exists hf, belongs n h_fac (p_m p) hf (p_rho p') /\ hf <= lower) \/
     (p_h p' = hm /\ belongs n h_fac (p_m p) hm (p_rho p')) \/
     (exists a b, lower <= a /\ a < b /\ b <= hm /\ (rnd (1 / 2 * (a + b)) <= a \/ b <= rnd (1 / 2 * (a + b))) /\
        ((a = lower /\ b = hm) \/ h0 = a \/ h0 = b)))) act' ps'); [|apply Sub; [apply incl_refl | exact FA]].
  intros act' ps' Inc H. induction H as [|p p' act' ps' (f & R & Hf) _ IH]; constructor; [|apply IH; intros x Hx; apply Inc; right; exact Hx].
  assert (I : In p act) by (apply Inc; left; reflexivity).
  destruct (A p I) as (Hm & Hh & It & lower & HL & HLm).
  pose proof (trim_all n range kernrangesqd RP KR hmask all act gather p hm Hmm F I) as T.
  assert (SB : small_number <= range * range * hm * hm).
  { eapply Rle_trans; [exact HSm|]. assert (0 < range * range) by (apply Rmult_lt_0_compat; exact RP). 
    rewrite !(Rmult_assoc (range * range)). apply Rmult_le_compat_l; [lra|]. apply Rmult_le_compat; lra. }
  destruct (C65_density rnd rho_sink cs co so stars p hm (trim n kernrangesqd hmask p hm (gather hm)) f p' lower Hm ltac:(lra)) as (h0 & H1 & H2 & H3 & H4 & H5); auto.
  - intros q Hq. destruct T as (fo & P & _). apply M. assert (Z : In q (counting hmask p all)) by (apply (Permutation_in q P), in_or_app; left; exact Hq).
    unfold counting in Z. apply filter_In in Z. apply Z.
  - destruct It as (q & Iq & Em & Er). exists q. split; [|split; assumption].
    destruct T as (fo & P & Hfo). apply (Permutation_in q (Permutation_sym P)) in Iq. apply in_app_or in Iq. destruct Iq as [Iq|Iq]; [exact Iq|].
    exfalso. specialize (Hfo q Iq). rewrite (far_itself n p q Er) in Hfo. lra.
  - lra.
  - exists (trim n kernrangesqd hmask p hm (gather hm)), h0, lower. repeat (split; [assumption|]). exact H5.
Qed.
(** Particles left out lie outside the kernel, so the sum is that over all particles that count. *)
Theorem C65_all : forall hmask all near p H h, 0 < h -> all_near n range hmask p all near H -> range * range * h * h + small_number <= range * range * H * H ->
  dens n w (p_r p) near h = dens n w (p_r p) (counting hmask p all) h.
Proof.
  intros hmask all near p H h Hh A B. apply Rmult_eq_reg_l with (h ^ n); [|apply pow_nonzero; lra]. rewrite !(dens_held n w) by exact Hh.
  exact (held_all n range w w1 om DK hmask all near p H h Hh A B).
Qed.
End C65.
Print Assumptions C65_density.
Print Assumptions C65_found.
Print Assumptions C65_ends.
Print Assumptions C65_cell.
Print Assumptions C65_all.

(** With sink particles, the length stored may be the lower limit and the density one formed with another length, twice the density smoothed over the length
    stored, although a length that fits lies above the limit. *)
Theorem C65_clipped_refuted : exists p hmax l p', 0 < p_m p /\ 0 < p_h p <= hmax /\ (forall q, In q l -> 0 < nb_m q) /\ itself 1 p l /\
  least 1 (6 / 5) (Some (6 / 5)) (p_m p) 1 /\
  ComputeH 1 (fun s => m4_w0 1 (sqrt s)) (fun s => m4_womega 1 (sqrt s)) (fun s => m4_wzeta (sqrt s)) 4 (6 / 5) (1 / 100) (fun x => x) (Some (6 / 5)) false false false [] p hmax l = Ret 1 p' /\
  p_h p' = 1 /\ p_rho p' = 2 * dens 1 (m4_w0 1) (p_r p) l (p_h p') /\
  exists hs, 1 < hs < hmax /\ belongs 1 (6 / 5) (p_m p) hs (dens 1 (m4_w0 1) (p_r p) l hs).
Proof.
  destruct clipped as (p' & R & H1 & H2). exists (part_ 2 0), 3, c_l, p'. cbn [p_m p_h part_ p_r].
  split; [lra|]. split; [lra|]. split.
  { intros q Hq. unfold c_l in Hq. cbn in Hq. repeat (destruct Hq as [<-|Hq]; [cbn; lra|]). destruct Hq. }
  split. { exists (at_ 0 0). split; [left; reflexivity|]. split; [reflexivity|]. intros; reflexivity. }
  split. { cbn. split; [lra|]. rewrite !Rmult_1_r. lra. }
  split; [exact R|]. split; [exact H1|]. split; [rewrite H2, H1; change here with here; rewrite c_dens1; lra|].
  destruct c_solution as (hs & A & B). exists hs. split; [lra | exact B].
Qed.
Print Assumptions C65_clipped_refuted.

(** With sink particles, a cell whose largest length is below the limit is passed over: its particles keep whatever density they had (here none). *)
Theorem C65_stuck_refuted : exists act hmax, 0 < hmax /\ (forall p, In p act -> 0 < p_m p /\ 0 < p_h p <= hmax /\ p_rho p = 0) /\ act <> [] /\
  forall hmask gather k, dens_cell 1 4 (S k) (ComputeH 1 (fun s => m4_w0 1 (sqrt s)) (fun s => m4_womega 1 (sqrt s)) (fun s => m4_wzeta (sqrt s)) 4 (6 / 5) (1 / 100) (fun x => x) (Some (6 / 5)) false false false [])
    hmask gather act hmax = Ok act.
Proof.
  exists (part_ (1 / 2) 0 :: nil), (1 / 2). split; [lra|]. split; [intros p [<-|[]]; cbn; lra|]. split; [discriminate|]. exact stuck.
Qed.
Print Assumptions C65_stuck_refuted.

(** ** C66 *)
Section C66.
Variables (n : nat) (range : R) (w w1 om grav pot zeta : R -> R) (kernrangesqd h_fac h_converge : R) (rnd : R -> R).
Hypothesis N1 : (1 <= n)%nat.
Hypothesis DK : density_kernel n range w w1 om.
Hypothesis GK : gravity_kernel range grav pot zeta.
Hypothesis HF : 0 < h_fac.
Hypothesis HC : 0 < h_converge.
Notation compute := (ComputeH n (fun s => w (sqrt s)) (fun s => om (sqrt s)) (fun s => zeta (sqrt s)) kernrangesqd h_fac h_converge rnd).

(** If the length fits at the start, 1/Omega and zeta are the factors in the rates of change of the density and of the potential energy for every motion of the
    neighbours (and stars) during which the length goes on fitting. *)
Theorem C66_rates : forall rho_sink cs co so stars p hmax lower ts ss h rho,
  0 < p_m p -> p_insink p = false -> (forall k, In k ts -> 0 <= nb_m (k_nb k)) ->
  (exists k, In k ts /\ 0 < nb_m (k_nb k) /\ far n (p_r p) (k_nb k) / p_h p * w1 (far n (p_r p) (k_nb k) / p_h p) < 0) ->
  (forall rs, rho_sink = Some rs -> 0 < rs) -> least n h_fac rho_sink (p_m p) lower -> lower < p_h p <= hmax ->
  moving n w h_fac p ts h rho -> star_moving n p ss -> (forall k, In k ss -> 0 < star_length so (p_h p) (k_star k)) ->
  (co = true /\ stars = map k_star ss \/ co = false /\ ss = []) -> (forall s, In s stars -> 0 < star_length so (p_h p) s) ->
  exists p', compute rho_sink cs co so stars p hmax (map k_nb ts) = Ret 1 p' /\ p_h p' = p_h p /\ p_rho p' = rho 0 /\ 0 < p_invomega p' /\
  let slope k := w1 (far n (p_r p) (k_nb k) / p_h p) / p_h p ^ S n in
  is_derive rho 0 (p_invomega p' * lsum (fun k => nb_m (k_nb k) * slope k * k_rate k) ts) /\
  is_derive (energy pot so ts ss h) 0
   (1 / 2 * lsum (fun k => nb_m (k_nb k) * (grav (far n (p_r p) (k_nb k) / p_h p) / p_h p ^ 2 + p_zeta p' * slope k) * k_rate k) ts
    + lsum (fun k => let L := star_length so (p_h p) (k_star k) in s_m (k_star k) * (grav (Vec.norm n (vsub (s_r (k_star k)) (p_r p)) / L) / L ^ 2) * k_srate k) ss).
Proof.
  intros rho_sink cs co so stars p hmax lower ts ss h rho Hm HI HM (k0 & I0 & M0 & W0) Hs HL Hh MV SM SL HS HSt.
  destruct (rho0 n w h_fac HF p ts h rho MV Hm) as (E0 & B0 & P0).
  rewrite E0 in B0.
  assert (Pd : 0 < dens n w (p_r p) (map k_nb ts) (p_h p)) by lra.
  destruct (computeH_exact n w om zeta kernrangesqd h_fac h_converge rnd N1 HF HC rho_sink cs co so stars p hmax (map k_nb ts) lower Hm Hs HL Hh Pd B0 HSt HI)
    as (p' & R & Eh & Er & Eo & Ez & _).
  assert (PO : 0 < Omega n w om (p_r p) (map k_nb ts) (p_h p)).
  { apply (omega_pos n range w w1 om h_converge rnd N1 DK p (map k_nb ts)); [apply B0 | exact Pd | | ].
    - intros q Hq. apply in_map_iff in Hq. destruct Hq as (k & <- & Hk). apply HM. exact Hk.
    - exists (k_nb k0). split; [apply in_map; exact I0 | auto]. }
  exists p'. split; [exact R|]. split; [exact Eh|]. split; [rewrite Er, E0; reflexivity|].
  split; [rewrite Eo; apply Rdiv_lt_0_compat; lra|]. cbv zeta.
  destruct (rates n range w w1 om h_fac N1 DK HF p ts h rho MV Hm) as (D1 & D2); [lra|].
  rewrite <- Eo in D1, D2. split; [exact D1|].
  eapply is_derive_val; [apply (energy_rate n range w grav pot zeta h_fac GK HF p ts h rho MV Hm so ss _ SM SL D2)|].
  rewrite <- E0 in Ez. 
  set (sl := lsum (fun k => nb_m (k_nb k) * (w1 (far n (p_r p) (k_nb k) / p_h p) / p_h p ^ S n) * k_rate k) ts).
  set (zs := lsum (fun q => nb_m q * (zeta (far n (p_r p) q / p_h p) / p_h p ^ 2)) (map k_nb ts)) in *.
  replace (lsum (fun k => nb_m (k_nb k) * (grav (far n (p_r p) (k_nb k) / p_h p) / p_h p ^ 2 + p_zeta p' * (w1 (far n (p_r p) (k_nb k) / p_h p) / p_h p ^ S n)) * k_rate k) ts)
    with (lsum (fun k => nb_m (k_nb k) * (grav (far n (p_r p) (k_nb k) / p_h p) / p_h p ^ 2) * k_rate k) ts + p_zeta p' * sl).
  2: { unfold sl. rewrite <- lsum_scal, <- lsum_plus. apply lsum_ext. intros. ring. }
  set (gs := lsum (fun k => nb_m (k_nb k) * (grav (far n (p_r p) (k_nb k) / p_h p) / p_h p ^ 2) * k_rate k) ts).
  destruct HS as [(-> & ->)|(-> & ->)].
  - set (ssum := lsum (fun s => s_m s * (zeta (Vec.norm n (vsub (s_r s) (p_r p)) / star_length so (p_h p) s) / star_length so (p_h p) s ^ 2)) (map k_star ss)) in Ez.
    change (lsum (fun s => let L := star_length so (p_h p) s in s_m s * (zeta (Vec.norm n (vsub (s_r s) (p_r p)) / L) / L ^ 2)) (map k_star ss)) with ssum.
    rewrite Ez. unfold Rdiv. ring.
  - cbn [map lsum]. rewrite Ez. unfold Rdiv. ring.
Qed.
End C66.
Print Assumptions C66_rates.

(** ** C67 *)
Section C67.
Variables (n : nat) (range : R) (w om zeta : R -> R) (kernrangesqd h_fac h_converge : R) (rnd : R -> R).
Hypothesis N1 : (1 <= n)%nat.
Hypothesis RP : 0 < range.
Hypothesis KR : kernrangesqd = range * range.
Hypothesis HF : 0 < h_fac.
Hypothesis HC : 0 < h_converge.
(** The test of the meshless scheme and of the Saitoh & Makino scheme: a particle is marked just if none within its range is deeper in the potential. *)
Theorem C67_deepest : forall p l h, 0 < h -> potmin_right n kernrangesqd p ((1 / h) * (1 / h)) l true = true <-> deepest n p l (range * h).
Proof. intros p l h H. exact (potmin_right_ok n range kernrangesqd h RP KR H p l). Qed.
(** The test of the grad-h scheme is right if every particle of the list is within range. *)
Theorem C67_near : forall rho_sink co so stars p hmax l lower, 0 < p_m p -> (forall rs, rho_sink = Some rs -> 0 < rs) ->
  least n h_fac rho_sink (p_m p) lower -> lower < p_h p <= hmax -> 0 < dens n w (p_r p) l (p_h p) ->
  belongs n h_fac (p_m p) (p_h p) (dens n w (p_r p) l (p_h p)) -> (forall s, In s stars -> 0 < star_length so (p_h p) s) -> p_insink p = false ->
  l <> [] -> (forall q, In q l -> far n (p_r p) q < range * p_h p) ->
  exists p', ComputeH n (fun s => w (sqrt s)) (fun s => om (sqrt s)) (fun s => zeta (sqrt s)) kernrangesqd h_fac h_converge rnd rho_sink true co so stars p hmax l = Ret 1 p' /\
    (p_potmin p' = true <-> deepest n p l (range * p_h p)).
Proof.
  intros rho_sink co so stars p hmax l lower Hm Hs HL Hh Hd HB HS HI NE HA.
  destruct (computeH_exact n w om zeta kernrangesqd h_fac h_converge rnd N1 HF HC rho_sink true co so stars p hmax l lower Hm Hs HL Hh Hd HB HS HI)
    as (p' & R & _ & _ & _ & _ & E).
  exists p'. split; [exact R|]. rewrite E. apply (potmin_loop_near n range kernrangesqd (p_h p) RP KR (proj1 HB)); [|exact HA].
  apply (last_dr_near n range kernrangesqd (p_h p) RP KR (proj1 HB)); assumption.
Qed.
End C67.
Print Assumptions C67_deepest.
Print Assumptions C67_near.

(** In general it is wrong either way, because each neighbour is judged by the distance of the neighbour before it in the list. *)
Theorem C67_refuted :
  let run p l := ComputeH 1 (fun s => m4_w0 1 (sqrt s)) (fun s => m4_womega 1 (sqrt s)) (fun s => m4_wzeta (sqrt s)) 4 (7 / 6) (1 / 100) (fun x => x) None true false false [] p (105 / 100) l in
  (exists p l p', run p l = Ret 1 p' /\ p_h p' = 1 /\ p_potmin p' = true /\ ~ deepest 1 p l (2 * p_h p')) /\
  (exists p l p', run p l = Ret 1 p' /\ p_h p' = 1 /\ p_potmin p' = false /\ deepest 1 p l (2 * p_h p')).
Proof.
  cbv zeta.
  assert (X : forall l, l = d_l \/ l = d_l2 -> exists p', ComputeH 1 (fun s => m4_w0 1 (sqrt s)) (fun s => m4_womega 1 (sqrt s)) (fun s => m4_wzeta (sqrt s)) 4 (7 / 6) (1 / 100) (fun x => x) None true false false [] (part_ 1 2) (105 / 100) l = Ret 1 p' /\
    p_h p' = 1 /\ p_potmin p' = potmin_loop 1 4 (part_ 1 2) 1 l (last_dr (part_ 1 2) l) true).
  { intros l Hl. pose proof (d_dens l Hl) as D.
    destruct (computeH_exact 1 (m4_w0 1) (m4_womega 1) m4_wzeta 4 (7 / 6) (1 / 100) (fun x => x) (Nat.le_refl _) ltac:(lra) ltac:(lra) None true false false [] (part_ 1 2) (105 / 100) l 0)
      as (p' & R & Eh & _ & _ & _ & Ep); cbn [part_ p_m p_h p_r p_insink] in *.
    - lra.
    - discriminate.
    - reflexivity.
    - lra.
    - rewrite D. lra.
    - rewrite D. split; [lra|]. rewrite !pow_1. lra.
    - intros s [].
    - reflexivity.
    - exists p'. split; [exact R|]. split; [exact Eh|]. rewrite Ep. replace (1 / 1 * (1 / 1)) with 1 by field. reflexivity. }
  split.
  - destruct (X d_l (or_introl eq_refl)) as (p' & R & Eh & Ep). exists (part_ 1 2), d_l, p'. rewrite d_potmin in Ep.
    split; [exact R|]. split; [exact Eh|]. split; [exact Ep|]. rewrite Eh. intros H. specialize (H (at_ 1 3) (or_introl eq_refl)).
    change (p_r (part_ 1 2)) with here in H. rewrite far1, Rabs_R1 in H. cbn in H. lra.
  - destruct (X d_l2 (or_intror eq_refl)) as (p' & R & Eh & Ep). exists (part_ 1 2), d_l2, p'. rewrite d_potmin2 in Ep.
    split; [exact R|]. split; [exact Eh|]. split; [exact Ep|]. rewrite Eh. intros q Hq Hf. unfold d_l2 in Hq.
    change (p_r (part_ 1 2)) with here in Hf. cbn [In] in Hq.
    destruct Hq as [<-|[<-|[<-|[<-|[<-|[]]]]]]; cbn; try lra. rewrite far1, Rabs_right in Hf; lra.
Qed.
Print Assumptions C67_refuted.

(** ** C68 *)
Section C68.
Variables (n : nat) (w : R -> R) (kernrangesqd h_fac h_converge : R) (rnd : R -> R).
Hypothesis N1 : (1 <= n)%nat.
Hypothesis HF : 0 < h_fac.
Notation compute := (MfvComputeH n (fun s => w (sqrt s)) kernrangesqd h_fac h_converge rnd).
(** What is accepted: the number density is the one smoothed over some length, the density its product with the mass, and the length stored belongs to it. *)
Theorem C68_density : forall hmin p hmax l f p', 0 <= hmin -> 0 < p_h p <= hmax -> (p_insink p = true -> hmin <= hmax) ->
  compute hmin p hmax l = Ret f p' -> f <> 0%Z -> 
  exists h0, 0 < h0 <= hmax /\ p_ndens p' = numb n w (p_r p) l h0 /\ p_rho p' = p_m p * p_ndens p' /\
    (0 < p_ndens p' -> belongs n h_fac 1 (p_h p') (p_ndens p')) /\
    ((f = 1%Z /\ p_h p' <= hmax) \/ (f = (-1)%Z /\ hmax < p_h p')).
Proof. exact (mfv_spec n w kernrangesqd h_fac h_converge rnd N1 HF). Qed.
(** If the length of the start fits to the tolerance, the number density is the one smoothed over it. *)
Theorem C68_settled : forall hmin p hmax l hf, 0 < p_h p <= hmax -> 0 < p_rho p -> (if p_insink p then hmin < p_h p else True) ->
  0 < numb n w (p_r p) l (p_h p) -> belongs n h_fac 1 hf (numb n w (p_r p) l (p_h p)) -> Rabs (p_h p - hf) < h_converge ->
  exists f p', compute hmin p hmax l = Ret f p' /\ f <> 0%Z /\
    p_ndens p' = numb n w (p_r p) l (p_h p) /\ p_rho p' = p_m p * p_ndens p' /\ p_h p' = hf.
Proof. exact (mfv_settled n w kernrangesqd h_fac h_converge rnd N1 HF). Qed.
(** The correction term of gravity is never anything but the zero it starts with. *)
Theorem C68_zeta : forall hmin p hmax l f p', compute hmin p hmax l = Ret f p' -> p_zeta p = 0 -> p_zeta p' = 0.
Proof. exact (mfv_zeta n w kernrangesqd h_fac h_converge rnd). Qed.
End C68.
Print Assumptions C68_density.
Print Assumptions C68_settled.
Print Assumptions C68_zeta.

(** The number density stored need not be the one smoothed over the length stored: the new length is compared with the length before the iteration, so two
    lengths that lead to each other pass for a solution.  Here the density is half of what it should be. *)
Theorem C68_cycle_refuted : exists p hmax l p', 0 < p_rho p /\ 0 < p_h p <= hmax /\ itself 1 p l /\
  MfvComputeH 1 (fun s => m4_w0 1 (sqrt s)) 4 (4 / 3) (1 / 100) (fun x => x) 0 p hmax l = Ret 1 p' /\
  0 < p_h p' /\ 19 / 10 * p_ndens p' <= numb 1 (m4_w0 1) (p_r p) l (p_h p').
Proof.
  destruct m_cycle as (p' & R & H1 & H2 & H3). exists m_part, 3, c_l, p'. split; [cbn; lra|]. split; [cbn; lra|].
  split. { exists (at_ 0 0). split; [left; reflexivity|]. split; [reflexivity|]. intros; reflexivity. }
  split; [exact R|]. split; [lra | exact H3].
Qed.
(** The tolerance is an absolute length: where lengths are smaller than it, any length is accepted. *)
Theorem C68_tolerance_refuted : exists p hmax l p', 0 < p_rho p /\ 0 < p_h p <= hmax /\ itself 1 p l /\
  MfvComputeH 1 (fun s => m4_w0 1 (sqrt s)) 4 (6 / 5) (1 / 100) (fun x => x) 0 p hmax l = Ret 1 p' /\
  0 < p_h p' /\ 17 / 10 * numb 1 (m4_w0 1) (p_r p) l (p_h p') <= p_ndens p'.
Proof.
  destruct t_run as (p' & R & H1 & H2 & H3). exists t_part, 1, t_l, p'. split; [cbn; lra|]. split; [cbn; lra|].
  split. { exists (at_ 0 0). split; [left; reflexivity|]. split; [reflexivity|]. intros; reflexivity. }
  split; [exact R|]. split; [lra|]. change (p_r t_part) with here. lra.
Qed.
Definition with_omega (p : dpart) (z : R) : dpart :=
  mkdpart (p_r p) (p_m p) (p_h p) (p_rho p) (p_ndens p) z (p_zeta p) (p_hfactor p) (p_hrangesqd p) (p_gpot p) (p_insink p) (p_potmin p) (p_type p).
Local Opaque mloop.
Lemma mfv_omega : forall n w kr h_fac hc rnd hmin p z hmax l p',
  MfvComputeH n w kr h_fac hc rnd hmin p hmax l = Ret 1 p' ->
  p_m p' = p_m p /\ p_r p' = p_r p /\ (p_insink p = false -> p_invomega p' = 1 / (1 + invndim n * p_h p' * p_invomega p / p_ndens p') /\
  exists p2, MfvComputeH n w kr h_fac hc rnd hmin (with_omega p z) hmax l = Ret 1 p2 /\ p_invomega p2 = 1 / (1 + invndim n * p_h p' * z / p_ndens p')).
Proof.
  intros n w kr h_fac hc rnd hmin p z hmax l p' R. unfold MfvComputeH in *. 
  cbn [with_omega p_insink p_h p_rho p_r p_m p_invomega p_zeta p_ndens p_hfactor p_hrangesqd p_gpot p_potmin p_type] in *.
  destruct (p_insink p && rltb hmax hmin); [discriminate|].
  destruct (mloop _ _ _ _ _ _ _ _ _ _ _ _ _ _ _) as [h0 lo| |]; try discriminate. cbv zeta in *.
  set (nd := ndens_sum n w (p_r p) l h0) in *. set (hh := h_fac * root n (1 / nd)) in *.
  destruct (rleb hh hmax); [|discriminate]. injection R as <-. cbn [p_m p_r p_invomega p_h p_ndens].
  split; [reflexivity|]. split; [reflexivity|]. intros _. split; [reflexivity|]. eexists. split; [reflexivity|]. reflexivity.
Qed.
(** The correction term of gravity should not be zero. *)
Theorem C68_zeta_refuted : exists p hmax l p', p_zeta p = 0 /\
  MfvComputeH 1 (fun s => m4_w0 1 (sqrt s)) 4 (6 / 5) (1 / 100) (fun x => x) 0 p hmax l = Ret 1 p' /\
  p_zeta p' <> zeta_needed 1 m4_wzeta (p_m p') (p_h p') (p_ndens p') (p_invomega p') (p_r p') l.
Proof.
  destruct t_run as (p' & R & H1 & H2 & H3). exists t_part, 1, t_l, p'. split; [reflexivity|]. split; [exact R|].
  rewrite (C68_zeta _ _ _ _ _ _ _ _ _ _ _ _ R eq_refl).
  destruct (mfv_omega _ _ _ _ _ _ _ _ 0 _ _ _ R) as (EM & ER & EO). destruct (EO eq_refl) as (EI & _). clear EO R.
  change (p_m t_part) with 1 in EM. change (p_r t_part) with here in ER. change (p_invomega t_part) with 1 in EI.
  rewrite EM, ER. unfold zeta_needed. set (h := p_h p') in *. set (nd := p_ndens p') in *.
  assert (PI_ : 0 < p_invomega p').
  { rewrite EI. unfold invndim. cbn. replace (1 / 1 * h * 1 / nd) with (h / nd) by (field; lra). assert (0 < h / nd) by (apply Rdiv_lt_0_compat; lra). apply Rdiv_lt_0_compat; lra. }
  assert (PZ : 0 < lsum (fun q => nb_m q * (m4_wzeta (sqrt (far 1 here q * far 1 here q + small_number) / h) / h ^ 2)) t_l).
  { assert (Z0 : 1 < m4_wzeta (sqrt small_number / h)).
    { pose proof sqrt_small as (S1 & S2). assert (Q : 0 <= sqrt small_number / h <= 1 / 1000).
      { split; [unfold Rdiv; apply Rmult_le_pos; [exact S1 | left; apply Rinv_0_lt_compat; lra]|].
        apply Rmult_le_reg_r with h; [lra|]. replace (sqrt small_number / h * h) with (sqrt small_number) by (field; lra). lra. }
      set (x := sqrt small_number / h) in *. unfold m4_wzeta, rltb. destruct (Rlt_dec x 1); [|lra].
      assert (0 <= x ^ 4) by (apply pow_le; lra). assert (x ^ 5 <= x ^ 4) by (replace (x ^ 5) with (x ^ 4 * x) by ring; nra). nra. }
    assert (Z2 : m4_wzeta (sqrt (1 / 200 * (1 / 200) + small_number) / h) = 0).
    { pose proof (sqrt_near (1 / 200) ltac:(lra)) as (S1 & _). set (x := sqrt (1 / 200 * (1 / 200) + small_number)) in *.
      assert (2 <= x / h) by (apply Rmult_le_reg_r with h; [lra|]; replace (x / h * h) with x by (field; lra); lra).
      unfold m4_wzeta, rltb. destruct (Rlt_dec (x / h) 1); [lra|]. destruct (Rlt_dec (x / h) 2); [lra|reflexivity]. }
    unfold t_l. cbn [repeat app lsum]. rewrite !far1. rewrite Rabs_R0, (Rabs_right (1 / 200)), (Rabs_left (- (1 / 200))) by lra.
    replace (- - (1 / 200)) with (1 / 200) by lra. rewrite Z2. replace (0 * 0 + small_number) with small_number by ring. cbn [nb_m at_].
    assert (0 < / h ^ 2) by (apply Rinv_0_lt_compat, pow_lt; lra). unfold Rdiv at 1. nra. }
  set (Z := lsum _ t_l) in *. clearbody Z. intros C.
  assert (0 < h / nd) by (apply Rdiv_lt_0_compat; lra).
  assert (0 < h / nd * Z * p_invomega p') by (apply Rmult_lt_0_compat; [apply Rmult_lt_0_compat|]; assumption).
  replace (- h / (INR 1 * nd) * 1 * Z * p_invomega p') with (- (h / nd * Z * p_invomega p')) in C by (cbn; field; lra). lra.
Qed.
(** 1/Omega depends on the value it had before. *)
Theorem C68_omega_refuted : exists x y p hmax l p1 p2, x <> y /\ p_insink p = false /\
  let run z := MfvComputeH 1 (fun s => m4_w0 1 (sqrt s)) 4 (6 / 5) (1 / 100) (fun x => x) 0 (with_omega p z) hmax l in
  run x = Ret 1 p1 /\ run y = Ret 1 p2 /\ p_invomega p1 <> p_invomega p2.
Proof.
  destruct t_run as (p' & R & H1 & H2 & H3).
  destruct (mfv_omega _ _ _ _ _ _ _ _ 1 _ _ _ R) as (_ & _ & A). destruct (A eq_refl) as (_ & p1 & R1 & E1).
  destruct (mfv_omega _ _ _ _ _ _ _ _ 2 _ _ _ R) as (_ & _ & B). destruct (B eq_refl) as (_ & p2 & R2 & E2). clear A B R.
  exists 1, 2, t_part, 1, t_l, p1, p2. split; [lra|]. split; [reflexivity|]. cbv zeta. split; [exact R1|]. split; [exact R2|]. clear R1 R2.
  rewrite E1, E2. set (hh := p_h p') in *. set (nd := p_ndens p') in *. clearbody hh nd.
  unfold invndim. cbn [INR]. replace (1 / 1 * hh * 1 / nd) with (hh / nd) by (field; lra). replace (1 / 1 * hh * 2 / nd) with (2 * (hh / nd)) by (field; lra).
  assert (0 < hh / nd) by (apply Rdiv_lt_0_compat; lra). set (c := hh / nd) in *. intros C.
  assert (1 + c = 1 + 2 * c); [|lra]. rewrite <- (Rinv_inv (1 + c)), <- (Rinv_inv (1 + 2 * c)). f_equal. lra.
Qed.
Print Assumptions C68_cycle_refuted.
Print Assumptions C68_tolerance_refuted.
Print Assumptions C68_zeta_refuted.
Print Assumptions C68_omega_refuted.

(** ** Cases that meet the hypotheses *)
Definition e_l : list dneib := at_ 1 1 :: at_ 0 2 :: at_ (-1) 1 :: at_ (-1) 1 :: nil.
Lemma e_dens : dens 1 (m4_w0 1) here e_l 1 = 7 / 6.
Proof.
  unfold dens, e_l. cbn [lsum]. rewrite !far1. cbn [nb_m at_]. rewrite Rabs_R0, Rabs_R1, (Rabs_left (-1)) by lra.
  replace (- -1 / 1) with 1 by field. replace (1 / 1) with 1 by field. replace (0 / 1) with 0 by field. rewrite w_0, w_mid, !pow_1 by lra. field.
Qed.
Lemma e_itself : itself 1 (part_ 1 2) e_l.
Proof. exists (at_ 0 2). split; [right; left; reflexivity|]. split; [reflexivity|]. intros; reflexivity. Qed.
Lemma e_mass : forall q, In q e_l -> nb_m q = 1.
Proof. intros q Hq. unfold e_l in Hq. cbn [In] in Hq. destruct Hq as [<-|[<-|[<-|[<-|[]]]]]; reflexivity. Qed.
Lemma e_belongs : belongs 1 (7 / 6) 1 1 (dens 1 (m4_w0 1) here e_l 1).
Proof. rewrite e_dens. split; [lra|]. rewrite !pow_1. lra. Qed.
Notation e_compute := (ComputeH 1 (fun s => m4_w0 1 (sqrt s)) (fun s => m4_womega 1 (sqrt s)) (fun s => m4_wzeta (sqrt s)) 4 (7 / 6) (1 / 100) (fun x => x) None true false false nil).
Lemma e_run : forall hmax, 1 <= hmax -> exists p', e_compute (part_ 1 2) hmax e_l = Ret 1 p' /\ p_h p' = 1 /\ p_rho p' = 7 / 6.
Proof.
  intros hmax Hh.
  destruct (computeH_exact 1 (m4_w0 1) (m4_womega 1) m4_wzeta 4 (7 / 6) (1 / 100) (fun x => x) (Nat.le_refl _) ltac:(lra) ltac:(lra) None true false false nil (part_ 1 2) hmax e_l 0)
      as (p' & R & Eh & Er & _); cbn [part_ p_m p_h p_r p_insink] in *.
  - lra.
  - discriminate.
  - reflexivity.
  - lra.
  - rewrite e_dens. lra.
  - exact e_belongs.
  - intros s [].
  - reflexivity.
  - exists p'. rewrite e_dens in Er. auto.
Qed.
Lemma e_trim : trim 1 4 (fun _ _ => true) (part_ 1 2) (105 / 100) e_l = e_l.
Proof.
  unfold trim, e_l. assert (S0 : small_number < 1 / 100) by (unfold small_number; apply Rmult_lt_reg_r with (10 ^ 20); [apply pow_lt; lra|]; rewrite Rinv_l by (apply pow_nonzero; lra); cbn; lra).
  assert (S1 : 0 < small_number) by (unfold small_number; apply Rinv_0_lt_compat, pow_lt; lra).
  cbn [filter]. rewrite !dot1. cbn [at_ nb_r part_ p_r vsub here andb]. unfold vsub, here.
  repeat match goal with |- context [rleb ?a ?b] => replace (rleb a b) with true by (symmetry; apply rleb_t; lra) end. reflexivity.
Qed.
(** A cell with one active particle. *)
Example C65_ex_cell : exists p', dens_cell 1 4 1 e_compute (fun _ _ => true) (fun _ => e_l) (part_ 1 2 :: nil) 1 = Ok (p' :: nil) /\ p_h p' = 1 /\ p_rho p' = 7 / 6 /\
  finds 1 2 e_l (part_ 1 2 :: nil) (fun _ => e_l) /\ itself 1 (part_ 1 2) (counting (fun _ _ => true) (part_ 1 2) e_l) /\ least 1 (7 / 6) None 1 0.
Proof.
  destruct (e_run (105 / 100 * 1) ltac:(lra)) as (p' & R & E1 & E2). exists p'. cbn [dens_cell do_active bind].
  replace (trim 1 4 (fun _ _ => true) (part_ 1 2) (105 / 100 * 1) e_l) with e_l by (rewrite Rmult_1_r; symmetry; exact e_trim).
  rewrite R. split; [reflexivity|]. split; [exact E1|]. split; [exact E2|]. split.
  - intros H. exists nil. split; [rewrite app_nil_r; apply Permutation_refl | intros p q _ []].
  - split; [exact e_itself | reflexivity].
Qed.
Lemma m4_slope : forall s t, 0 <= s <= t -> m4_w0 1 s - m4_w0 1 t <= 2 * (t - s).
Proof.
  assert (B : forall s, 0 <= s -> -2 <= m4_w1 1 s).
  { intros s Hs. unfold m4_w1, rltb, m4_kernnorm. destruct (Rlt_dec s 1); [|destruct (Rlt_dec s 2)]; nra. }
  intros s t H. destruct (MVT_gen (m4_w0 1) s t (m4_w1 1)) as (c & Hc & E).
  - intros x _. apply (dk_deriv _ _ _ _ _ D1).
  - intros x _. apply continuity_pt_filterlim, (ex_derive_continuous (m4_w0 1) x). exists (m4_w1 1 x). apply (dk_deriv _ _ _ _ _ D1).
  - rewrite Rmin_left, Rmax_right in Hc by lra. pose proof (B c ltac:(lra)). nra.
Qed.
(** The fitting length is found from another one. *)
Example C65_ex_found : e_compute (part_ (3 / 4) 2) (105 / 100) e_l <> Raised.
Proof.
  apply (C65_found 1 2 (m4_w0 1) (m4_w1 1) (m4_womega 1) _ _ 4 (7 / 6) (1 / 100) (Nat.le_refl _) D1 ltac:(lra) ltac:(lra) None true false false nil (part_ (3 / 4) 2) (105 / 100) e_l 0 1 2);
    cbn [part_ p_m p_h p_r]; try lra.
  - intros q Hq. rewrite (e_mass q Hq). lra.
  - exact e_itself.
  - discriminate.
  - reflexivity.
  - rewrite w_0. unfold small_number. apply Rmult_le_reg_r with (10 ^ 20); [apply pow_lt; lra|]. rewrite Rinv_l by (apply pow_nonzero; lra). cbn. lra.
  - exact e_belongs.
  - exact m4_slope.
  - unfold e_l. cbn [lsum]. rewrite !far1. cbn [nb_m at_]. rewrite Rabs_R0, Rabs_R1, (Rabs_left (-1)) by lra.
    destruct (Req_EM_T 1 0); [lra|]. destruct (Req_EM_T 0 0); [|lra]. destruct (Req_EM_T (- -1) 0); [lra|].
    replace (- -1) with 1 by lra.
    assert (P : 10000 <= 2 ^ 120) by (replace 120%nat with (14 + 106)%nat by reflexivity; rewrite pow_add; pose proof (pow_R1_Rle 2 106 ltac:(lra)); nra).
    set (b := 2 ^ 120) in *. clearbody b. apply Rmult_le_reg_r with b; [lra|]. unfold Rdiv at 1. rewrite Rmult_assoc, Rinv_l by lra. rewrite !pow_1. lra.
Qed.
(** Neighbours that all recede in proportion to their distance. *)
Definition e_ts : list track := map (fun q => mktrack q (fun t => far 1 here q * (1 + t)) (far 1 here q)) e_l.
Example C66_ex : moving 1 (m4_w0 1) (7 / 6) (part_ 1 2) e_ts (fun t => 1 + t) (fun t => 7 / 6 / (1 + t)) /\
  (exists k, In k e_ts /\ 0 < nb_m (k_nb k) /\ far 1 here (k_nb k) / 1 * m4_w1 1 (far 1 here (k_nb k) / 1) < 0) /\ map k_nb e_ts = e_l.
Proof.
  assert (LN : locally 0 (fun t : R => 0 < 1 + t)).
  { exists (mkposreal (1 / 2) ltac:(lra)). intros t Ht. unfold ball in Ht. cbn in Ht. unfold AbsRing_ball, abs, minus, plus, opp in Ht. cbn in Ht. apply Rabs_def2 in Ht. lra. }
  split; [split|split].
  - intros k Hk. unfold e_ts in Hk. apply in_map_iff in Hk. destruct Hk as (q & <- & _). cbn. change (p_r (part_ 1 2)) with here. lra.
  - intros k Hk. unfold e_ts in Hk. apply in_map_iff in Hk. destruct Hk as (q & <- & _). cbn [k_d k_rate]. auto_derive; [exact I | ring].
  - cbn. lra.
  - auto_derive. exact I.
  - apply (filter_imp (fun t : R => 0 < 1 + t)); [|exact LN]. intros t Ht. unfold e_ts, e_l. cbn [map lsum k_nb k_d nb_m at_]. fold (at_ 1 1) (at_ 0 2) (at_ (-1) 1).
    rewrite !far1, Rabs_R0, Rabs_R1, (Rabs_left (-1)) by lra. 
    replace (1 * (1 + t) / (1 + t)) with 1 by (field; lra). replace (0 * (1 + t) / (1 + t)) with 0 by (field; lra). replace (- -1 * (1 + t) / (1 + t)) with 1 by (field; lra).
    rewrite w_0, w_mid, !pow_1 by lra. field. lra.
  - apply (filter_imp (fun t : R => 0 < 1 + t)); [|exact LN]. intros t Ht. split; [exact Ht|]. cbn [part_ p_m]. rewrite !pow_1. field. lra.
  - exists (mktrack (at_ 1 1) (fun t => far 1 here (at_ 1 1) * (1 + t)) (far 1 here (at_ 1 1))). split; [left; reflexivity|]. cbn [k_nb]. split; [cbn; lra|].
    rewrite far1, Rabs_R1. replace (1 / 1) with 1 by field. unfold m4_w1, rltb. destruct (Rlt_dec 1 1); [lra|]. destruct (Rlt_dec 1 2); [|lra]. unfold m4_kernnorm. lra.
  - reflexivity.
Qed.
(** A particle deepest of all, and one that is not. *)
Example C67_ex : e_l <> nil /\ (forall q, In q e_l -> far 1 here q < 2 * 1) /\ deepest 1 (part_ 1 2) e_l (2 * 1) /\ ~ deepest 1 (part_ 1 (1 / 2)) e_l (2 * 1).
Proof.
  split; [discriminate|]. split; [|split].
  - intros q Hq. unfold e_l in Hq. cbn [In] in Hq. destruct Hq as [<-|[<-|[<-|[<-|[]]]]]; rewrite far1; [rewrite Rabs_R1 | rewrite Rabs_R0 | rewrite Rabs_left | rewrite Rabs_left]; lra.
  - intros q Hq _. unfold e_l in Hq. cbn [In] in Hq. destruct Hq as [<-|[<-|[<-|[<-|[]]]]]; cbn; lra.
  - intros H. specialize (H (at_ 1 1) (or_introl eq_refl)). change (p_r (part_ 1 (1 / 2))) with here in H. rewrite far1, Rabs_R1 in H. cbn in H. lra.
Qed.
