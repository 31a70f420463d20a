(** The HLLC solver. *)
From Verif Require Import Prelude Vec M_Box L_Box M_Mfv M_Riemann S_Riemann.
From Coq Require Import Reals Lra Psatz.
Local Open Scope R_scope.

Lemma rleb_spec : forall a b, rleb a b = true <-> a <= b.
Proof. intros. unfold rleb. destruct (Rle_dec a b); split; intros; try easy. Qed.
Lemma rleb_false : forall a b, rleb a b = false <-> b < a.
Proof. intros. unfold rleb. destruct (Rle_dec a b); split; intros; try easy; lra. Qed.
Lemma rltb_spec : forall a b, rltb a b = true <-> a < b.
Proof. intros. unfold rltb. destruct (Rlt_dec a b); split; intros; try easy. Qed.
Lemma rltb_false : forall a b, rltb a b = false <-> b <= a.
Proof. intros. unfold rltb. destruct (Rlt_dec a b); split; intros; try easy; lra. Qed.

Section Hllc.
Variable ndim : nat.
Notation irho := (irho ndim).
Notation iE := (ietot ndim).

(** A state with its derived fields, as built by the solver; [v.n] is stored. *)
Definition wf (n : vec) (s : hstate) : Prop := 0 < s_rho s /\ 0 < s_cs s /\ s_vline s = dot ndim (s_v s) n.
(** The state in the frame of the laboratory. *)
Definition lab (s : hstate) (w : vec) : fluid :=
  mkfluid (s_rho s) (fun k => s_v s k + w k) (s_press s) (s_e s + s_rho s * dot ndim (s_v s) w + 1 / 2 * s_rho s * dot ndim w w).

Lemma sum_lin2 : forall m (a b c : R) (f g h : vec), sumf m (fun k => a * f k + b * g k + c * h k) = a * sumf m f + b * sumf m g + c * sumf m h.
Proof. intros. rewrite !sumf_plus, !sumf_scal. ring. Qed.

(** The flux of a state, seen from the laboratory. *)
Lemma lab_flux : forall s n w i, (i <= S ndim)%nat -> s_vline s = dot ndim (s_v s) n ->
  lab_frame ndim false (Hydro_Flux ndim s n) w i = crossing ndim (lab s w) n w i.
Proof.
  intros s n w i Hi Hv. unfold lab_frame, crossing, lab. cbn [d_rho d_v d_p d_E].
  assert (Rel : sumf ndim (fun k => (s_v s k + w k - w k) * n k) = s_vline s).
  { rewrite Hv. unfold dot. apply sumf_ext. intros; ring. }
  rewrite Rel. destruct (Nat.ltb_spec i ndim) as [L|L].
  - replace (Nat.eqb i irho) with false by (symmetry; apply Nat.eqb_neq; unfold M_Mfv.irho; lia).
    replace (Nat.eqb i iE) with false by (symmetry; apply Nat.eqb_neq; unfold M_Mfv.ietot; lia).
    unfold Hydro_Flux. rewrite Nat.eqb_refl.
    replace (Nat.eqb i irho) with false by (symmetry; apply Nat.eqb_neq; unfold M_Mfv.irho; lia).
    replace (Nat.eqb i iE) with false by (symmetry; apply Nat.eqb_neq; unfold M_Mfv.ietot; lia). ring.
  - destruct (Nat.eqb_spec i ndim) as [->|Ne].
    + unfold M_Mfv.irho. rewrite Nat.eqb_refl. unfold Hydro_Flux, M_Mfv.irho. now rewrite Nat.eqb_refl.
    + assert (i = S ndim) by lia. subst i. unfold M_Mfv.irho, M_Mfv.ietot.
      replace (Nat.eqb (S ndim) ndim) with false by (symmetry; apply Nat.eqb_neq; lia). rewrite Nat.eqb_refl.
      unfold Hydro_Flux at 1. unfold M_Mfv.irho, M_Mfv.ietot. replace (Nat.eqb (S ndim) ndim) with false by (symmetry; apply Nat.eqb_neq; lia). rewrite Nat.eqb_refl.
      rewrite (sumf_ext ndim (fun i => Hydro_Flux ndim s n i * w i) (fun i => s_rho s * s_vline s * (s_v s i * w i) + s_press s * (n i * w i) + 0 * 0)).
      2:{ intros k Hk. unfold Hydro_Flux, M_Mfv.irho, M_Mfv.ietot. replace (Nat.eqb k ndim) with false by (symmetry; apply Nat.eqb_neq; lia).
          replace (Nat.eqb k (S ndim)) with false by (symmetry; apply Nat.eqb_neq; lia). ring. }
      rewrite sum_lin2. rewrite (sumf_ext ndim (fun k => (s_v s k + w k) * n k) (fun k => s_v s k * n k + n k * w k)) by (intros; ring).
      rewrite sumf_plus. unfold Hydro_Flux, M_Mfv.irho. rewrite Nat.eqb_refl. unfold dot in *. rewrite <- Hv. ring.
Qed.

(** ** The states beside the contact *)
(** A state in the fan, as a state of the solver. *)
Definition pstar (s : hstate) (S_ vm : R) : R := s_press s + s_rho s * (s_vline s - S_) * (s_vline s - vm).
Definition star (s : hstate) (n : vec) (S_ vm : R) : hstate :=
  mkhstate (fun k => s_v s k + (vm - s_vline s) * n k) (s_rho s * (S_ - s_vline s) / (S_ - vm)) (pstar s S_ vm) (star_of ndim s n S_ vm iE) 0 vm.

Lemma star_flux : forall s n S_ vm i, (i <= S ndim)%nat -> 0 < s_rho s -> S_ <> vm -> S_ <> s_vline s ->
  add_RH_flux ndim s n S_ vm (Hydro_Flux ndim s n) i = Hydro_Flux ndim (star s n S_ vm) n i.
Proof.
  intros s n S_ vm i Hi Hr N1 N2. unfold add_RH_flux, star_of, cons_of, Hydro_Flux, star. cbn [s_v s_rho s_press s_e s_vline]. unfold pstar.
  destruct (Nat.eqb_spec i irho) as [->|Ne1].
  - field. lra.
  - destruct (Nat.eqb_spec i iE) as [->|Ne2].
    + unfold star_of. replace (Nat.eqb iE irho) with false by (symmetry; apply Nat.eqb_neq; unfold M_Mfv.irho, M_Mfv.ietot; lia). rewrite Nat.eqb_refl.
      field. repeat split; lra.
    + field. lra.
Qed.
Lemma star_cons : forall s n S_ vm i, (i <= S ndim)%nat -> star_of ndim s n S_ vm i = cons_of ndim (star s n S_ vm) i.
Proof.
  intros s n S_ vm i Hi. unfold star_of at 1, cons_of, star. cbn [s_v s_rho s_press s_e s_vline].
  destruct (Nat.eqb_spec i irho) as [->|Ne1]; [reflexivity|]. destruct (Nat.eqb_spec i iE) as [->|Ne2]; [|reflexivity].
  unfold star_of. replace (Nat.eqb iE irho) with false by (symmetry; apply Nat.eqb_neq; unfold M_Mfv.irho, M_Mfv.ietot; lia). now rewrite Nat.eqb_refl.
Qed.
Lemma star_vline : forall s n S_ vm, unit ndim n -> s_vline s = dot ndim (s_v s) n -> s_vline (star s n S_ vm) = dot ndim (s_v (star s n S_ vm)) n.
Proof.
  intros s n S_ vm U Hv. cbn [star s_vline s_v]. unfold dot. rewrite (sumf_ext ndim _ (fun k => s_v s k * n k + (vm - s_vline s) * (n k * n k))) by (intros; ring).
  rewrite sumf_plus, sumf_scal. unfold unit in U. rewrite U. unfold dot in Hv. rewrite <- Hv. ring.
Qed.
(** The central speed makes the pressures on both sides of the contact equal. *)
Lemma pstar_eq : forall sl sr Smin Smax, s_rho sr * (s_vline sr - Smax) - s_rho sl * (s_vline sl - Smin) <> 0 ->
  let vm := compute_central_wave_speed false sl sr Smin Smax in pstar sl Smin vm = pstar sr Smax vm.
Proof. intros sl sr Smin Smax H. cbv zeta. unfold compute_central_wave_speed, pstar. cbn [negb]. field. lra. Qed.

(** ** Wave speeds *)
Lemma speeds : forall sl sr Smin Smax, HLL_Speeds ndim sl sr = (Smin, Smax) -> Smin <= s_vline sl - s_cs sl /\ s_vline sr + s_cs sr <= Smax.
Proof. intros sl sr Smin Smax E. unfold HLL_Speeds in E. injection E as <- <-. split; [apply Rmin_l|apply Rmax_l]. Qed.
Lemma roe : forall sl sr, 0 < s_rho sl -> 0 < s_rho sr -> let fl := 1 / (1 + sqrt (s_rho sr / s_rho sl)) in 0 < fl < 1 /\ 1 - fl = 1 / (1 + sqrt (s_rho sl / s_rho sr)).
Proof.
  intros sl sr Hl Hr. cbv zeta. assert (P : 0 < s_rho sr / s_rho sl) by (apply Rdiv_lt_0_compat; lra).
  assert (S1 : 0 < sqrt (s_rho sr / s_rho sl)) by now apply sqrt_lt_R0. split.
  - split; [apply Rdiv_lt_0_compat; lra|]. apply (Rmult_lt_reg_r (1 + sqrt (s_rho sr / s_rho sl))); [lra|]. unfold Rdiv. rewrite Rmult_assoc, Rinv_l by lra. lra.
  - replace (s_rho sl / s_rho sr) with (/ (s_rho sr / s_rho sl)) by (field; lra). rewrite sqrt_inv. field. lra.
Qed.
Lemma cav_pos : forall sl sr fl, 0 < fl < 1 -> 0 < s_cs sl ->
  0 < sqrt (fl * s_cs sl * s_cs sl + (1 - fl) * s_cs sr * s_cs sr + 1 / 2 * fl * (1 - fl) *
    (Rmax ((s_rho sl * s_cs sl * s_cs sl + s_rho sr * s_cs sr * s_cs sr) / (s_press sl + s_press sr)) 1 - 1) *
    sumf ndim (fun i => (s_v sl i - s_v sr i) * (s_v sl i - s_v sr i))).
Proof.
  intros sl sr fl Hf C. apply sqrt_lt_R0. set (d := sumf _ _). assert (0 <= d) by (apply sumf_nonneg; intros; apply Rle_0_sqr).
  match goal with |- context [Rmax ?a 1] => pose proof (Rmax_r a 1); set (g := Rmax a 1) in * end.
  assert (0 < fl * s_cs sl * s_cs sl) by (apply Rmult_lt_0_compat; [apply Rmult_lt_0_compat|]; lra).
  assert (0 <= (1 - fl) * s_cs sr * s_cs sr) by (rewrite Rmult_assoc; apply Rmult_le_pos; [lra|apply Rle_0_sqr]).
  assert (0 <= 1 / 2 * fl * (1 - fl) * (g - 1) * d).
  { apply Rmult_le_pos; [|lra]. apply Rmult_le_pos; [|lra]. apply Rmult_le_pos; lra. }
  lra.
Qed.
Lemma speeds_order : forall sl sr n Smin Smax, wf n sl -> wf n sr -> HLL_Speeds ndim sl sr = (Smin, Smax) -> Smin < Smax.
Proof.
  intros sl sr n Smin Smax (Hl & Cl & _) (Hr & Cr & _) E. unfold HLL_Speeds in E. injection E as <- <-.
  destruct (roe sl sr Hl Hr) as (Hf & _). cbv zeta in Hf. pose proof (cav_pos sl sr _ Hf Cl) as Hc.
  set (fl := 1 / (1 + sqrt (s_rho sr / s_rho sl))) in *.
  match goal with |- Rmin _ (?v - ?c) < _ => set (vav := v); set (cav := c) in * end.
  pose proof (Rmin_r (s_vline sl - s_cs sl) (vav - cav)). pose proof (Rmax_r (s_vline sr + s_cs sr) (vav + cav)). lra.
Qed.
Lemma dm_ne : forall sl sr n Smin Smax, wf n sl -> wf n sr -> HLL_Speeds ndim sl sr = (Smin, Smax) ->
  0 < s_rho sl * (s_vline sl - Smin) /\ s_rho sr * (s_vline sr - Smax) < 0 /\ Smin <> s_vline sl /\ Smax <> s_vline sr.
Proof.
  intros sl sr n Smin Smax (Hl & Cl & _) (Hr & Cr & _) E. destruct (speeds _ _ _ _ E) as (A & B). repeat split; try lra; nra.
Qed.
End Hllc.
