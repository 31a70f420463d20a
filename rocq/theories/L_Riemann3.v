(** The HLLC solver on gas states; no exchange of mass; viscosity. *)
From Verif Require Import Prelude Vec M_Box L_Box M_Mfv M_Riemann S_Riemann L_Riemann L_Riemann2.
From Coq Require Import Reals Lra Psatz.
Local Open Scope R_scope.

Section Hllc.
Variable ndim : nat.
Notation irho := (irho ndim).
Notation iE := (ietot ndim).
Notation wf := (wf ndim).
Notation lab := (lab ndim).
Notation star := (star ndim).

Theorem zero_mass_flux : forall sl sr n w Smin Smax i, (i <= S ndim)%nat -> unit ndim n -> wf n sl -> wf n sr -> HLL_Speeds ndim sl sr = (Smin, Smax) ->
  let vm := compute_central_wave_speed false sl sr Smin Smax in Smin < vm < Smax ->
  solve ndim true false sl sr n w i = crossing ndim (lab (star sl n Smin vm) w) n (fun k => w k + vm * n k) i /\
  solve ndim true false sl sr n w i = crossing ndim (lab (star sr n Smax vm) w) n (fun k => w k + vm * n k) i.
Proof.
  intros sl sr n w Smin Smax i Hi U Wl Wr E vm Ho. destruct (dm_ne ndim _ _ n _ _ Wl Wr E) as (D1 & D2 & D3 & D4).
  assert (Hp : pstar sl Smin vm = pstar sr Smax vm) by (apply pstar_eq; lra).
  assert (X : solve ndim true false sl sr n w i = if Nat.eqb i ndim then 0 else if Nat.eqb i (S ndim) then pstar sl Smin vm * (vm + dot ndim n w) else pstar sl Smin vm * n i).
  { unfold solve. rewrite E. fold vm. unfold frame_flux.
    replace (rleb (Smax - vm) 0) with false by (symmetry; apply rleb_false; lra). replace (rleb 0 (Smin - vm)) with false by (symmetry; apply rleb_false; lra).
    cbn [negb]. replace (rltb 0 0) with false by (symmetry; apply rltb_false; lra).
    assert (F : forall k, (k <= S ndim)%nat -> add_RH_flux ndim (boosted sr n vm) n (Smax - vm) 0 (Hydro_Flux ndim (boosted sr n vm) n) k = if Nat.ltb k ndim then pstar sl Smin vm * n k else 0).
    { intros k Hk. rewrite rest_flux; [|easy|apply Wr|lra|cbn; lra]. destruct (Nat.ltb k ndim); [|reflexivity]. f_equal. rewrite Hp. unfold pstar. cbn. ring. }
    rewrite (lab_ext ndim true _ _ _ i Hi F). unfold lab_frame, M_Mfv.irho, M_Mfv.ietot.
    set (f := fun k => if Nat.ltb k ndim then pstar sl Smin vm * n k else 0). replace (vupd f ndim 0 ndim) with 0 by (unfold vupd; now rewrite Nat.eqb_refl).
    destruct (Nat.eqb_spec i ndim) as [->|N1]; [reflexivity|].
    destruct (Nat.eqb_spec i (S ndim)) as [->|N2].
    - unfold vupd at 1. replace (Nat.eqb (S ndim) ndim) with false by (symmetry; apply Nat.eqb_neq; lia). unfold f at 1. replace (Nat.ltb (S ndim) ndim) with false by (symmetry; apply Nat.ltb_ge; lia).
      rewrite (sumf_ext ndim _ (fun k => pstar sl Smin vm * (n k * w k + vm * (n k * n k)))).
      2:{ intros k Hk. unfold vupd, f. replace (Nat.eqb k ndim) with false by (symmetry; apply Nat.eqb_neq; lia). replace (Nat.ltb k ndim) with true by (symmetry; now apply Nat.ltb_lt). ring. }
      rewrite sumf_scal, sumf_plus, sumf_scal. unfold unit in U. rewrite U. unfold dot. ring.
    - unfold vupd, f. replace (Nat.eqb i ndim) with false by (symmetry; now apply Nat.eqb_neq). replace (Nat.ltb i ndim) with true by (symmetry; apply Nat.ltb_lt; lia). ring. }
  clearbody vm.
  assert (Y : forall s S_, s_vline s = dot ndim (s_v s) n -> pstar s S_ vm = pstar sl Smin vm -> solve ndim true false sl sr n w i = crossing ndim (lab (star s n S_ vm) w) n (fun k => w k + vm * n k) i).
  { intros s S_ Hv P. rewrite X. unfold crossing, L_Riemann.lab. cbn [d_rho d_v d_p d_E L_Riemann.star s_rho s_v s_press s_e]. rewrite P.
    pose proof (star_vline ndim s n S_ vm U Hv) as V. cbn in V. unfold dot in V.
    assert (Rel : sumf ndim (fun k => (s_v s k + (vm - s_vline s) * n k + w k - (w k + vm * n k)) * n k) = 0).
    { rewrite (sumf_ext ndim _ (fun k => (s_v s k + (vm - s_vline s) * n k) * n k + - vm * (n k * n k))) by (intros; ring).
      rewrite sumf_plus, sumf_scal, <- V. unfold unit in U. rewrite U. ring. }
    rewrite Rel. destruct (Nat.ltb_spec i ndim) as [L|L].
    - replace (Nat.eqb i ndim) with false by (symmetry; apply Nat.eqb_neq; lia). replace (Nat.eqb i (S ndim)) with false by (symmetry; apply Nat.eqb_neq; lia). ring.
    - destruct (Nat.eqb_spec i ndim) as [->|N]; [ring|]. assert (i = S ndim) by lia. subst i. rewrite Nat.eqb_refl.
      rewrite (sumf_ext ndim (fun k => (s_v s k + (vm - s_vline s) * n k + w k) * n k) (fun k => (s_v s k + (vm - s_vline s) * n k) * n k + n k * w k)) by (intros; ring).
      rewrite sumf_plus, <- V. unfold dot. ring. }
  split; [now apply Y; [apply Wl|]|]. apply Y; [apply Wr|]. now symmetry.
Qed.

(** ** Gas *)
Variables (gammam1 : R) (sound : R -> R -> R).
Hypothesis Hg : 0 < gammam1.
Definition valid (W : vec) : Prop := 0 < W ndim /\ 0 < sound (W ndim) (W (S ndim) / (W ndim * gammam1)).
Lemma state_wf : forall W n, valid W -> wf n (state_of ndim gammam1 sound W n).
Proof. intros W n (A & B). split; [exact A|]. split; [exact B|]. reflexivity. Qed.
Lemma lab_gas : forall W n w, 0 < W ndim -> lab (state_of ndim gammam1 sound W n) w = gas ndim gammam1 W w.
Proof.
  intros W n w Hr. unfold L_Riemann.lab, state_of, gas. cbn [s_rho s_v s_press s_e]. unfold M_Mfv.irho, M_Mfv.ietot. f_equal.
  rewrite (sumf_ext ndim (fun k => (W k + w k) * (W k + w k)) (fun k => W k * W k + 2 * (W k * w k) + w k * w k)) by (intros; ring).
  rewrite !sumf_plus, !sumf_scal. rewrite (sumf_ext ndim (fun i => 1 / 2 * W ndim * W i * W i) (fun i => 1 / 2 * W ndim * (W i * W i))) by (intros; ring).
  rewrite sumf_scal. unfold dot. field. lra.
Qed.
Lemma state_flip : forall W n i k zmf iso sl w, solve ndim zmf iso (state_of ndim gammam1 sound W (vneg n)) (state_of ndim gammam1 sound sl (vneg n)) (vneg n) w i = k ->
  solve ndim zmf iso (flip (state_of ndim gammam1 sound W n)) (flip (state_of ndim gammam1 sound sl n)) (vneg n) w i = k.
Proof.
  intros W n i k zmf iso sl w <-. assert (F : forall W, flip (state_of ndim gammam1 sound W n) = state_of ndim gammam1 sound W (vneg n)).
  { intros V. unfold flip, state_of. cbn. f_equal. unfold dot, vneg. replace (- sumf ndim (fun k => V k * n k)) with (-1 * sumf ndim (fun k => V k * n k)) by ring.
    rewrite <- sumf_scal. apply sumf_ext. intros; ring. }
  now rewrite !F.
Qed.
Theorem hllc_exchange : forall zmf iso Wl Wr n w i j, (i <= S ndim)%nat -> valid Wl -> valid Wr ->
  hllc ndim zmf iso gammam1 sound Wr Wl (vneg n) w i j = hllc ndim zmf iso gammam1 sound Wl Wr n w i j.
Proof.
  intros zmf iso Wl Wr n w i j Hi Vl Vr. unfold hllc. pose proof (state_flip Wr n i _ zmf iso Wl w eq_refl) as F. rewrite <- F.
  rewrite exchange_sides by (try easy; now apply state_wf). unfold vneg. ring.
Qed.
Theorem hllc_consistent : forall iso W n w i j, (i <= S ndim)%nat -> unit ndim n -> valid W ->
  hllc ndim false iso gammam1 sound W W n w i j = crossing ndim (gas ndim gammam1 W w) n w i * n j.
Proof. intros iso W n w i j Hi U V. unfold hllc. rewrite consistent by (try easy; now apply state_wf). rewrite lab_gas; [reflexivity|apply V]. Qed.
End Hllc.
