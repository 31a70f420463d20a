(** The HLLC solver: waves, consistency, contacts, exchange of sides. *)
From Verif Require Import Prelude Vec M_Box L_Box M_Mfv M_Riemann S_Riemann L_Riemann.
From Coq Require Import Reals Lra Psatz.
Local Open Scope R_scope.

Section Hllc.
Variable ndim : nat.
Notation irho := (irho ndim).
Notation iE := (ietot ndim).
Notation wf := (wf ndim).
Notation lab := (lab ndim).
Notation star := (star ndim).

Lemma idx : forall i, (i <= S ndim)%nat -> i = ndim \/ i = S ndim \/ (i < ndim)%nat.
Proof. lia. Qed.
Lemma eq_mass : Nat.eqb ndim irho = true. Proof. apply Nat.eqb_refl. Qed.
Lemma eq_en : Nat.eqb (S ndim) irho = false. Proof. apply Nat.eqb_neq. unfold M_Mfv.irho. lia. Qed.
Lemma eq_en2 : Nat.eqb (S ndim) iE = true. Proof. apply Nat.eqb_refl. Qed.
Lemma eq_mom : forall i, (i < ndim)%nat -> Nat.eqb i irho = false /\ Nat.eqb i iE = false.
Proof. intros i H. split; apply Nat.eqb_neq; unfold M_Mfv.irho, M_Mfv.ietot; lia. Qed.

Lemma lab_cons : forall s w i, (i <= S ndim)%nat -> lab_frame ndim false (cons_of ndim s) w i = density ndim (lab s w) i.
Proof.
  intros s w i Hi. unfold lab_frame, density, L_Riemann.lab. cbn [d_rho d_v d_p d_E].
  destruct (idx i Hi) as [->|[->|L]].
  - rewrite eq_mass, Nat.ltb_irrefl, Nat.eqb_refl. unfold cons_of. now rewrite Nat.eqb_refl.
  - rewrite eq_en, eq_en2. replace (Nat.ltb (S ndim) ndim) with false by (symmetry; apply Nat.ltb_ge; lia).
    replace (Nat.eqb (S ndim) ndim) with false by (symmetry; apply Nat.eqb_neq; lia).
    rewrite (sumf_ext ndim _ (fun i => s_rho s * (s_v s i * w i))).
    2:{ intros k Hk. unfold cons_of. destruct (eq_mom k Hk) as (-> & ->). ring. }
    rewrite sumf_scal. unfold cons_of. rewrite Nat.eqb_refl. replace (Nat.eqb iE irho) with false by (symmetry; apply eq_en). rewrite Nat.eqb_refl. unfold dot. ring.
  - destruct (eq_mom i L) as (E1 & E2). rewrite E1, E2. replace (Nat.ltb i ndim) with true by (symmetry; now apply Nat.ltb_lt).
    unfold cons_of. rewrite E1, E2, Nat.eqb_refl. ring.
Qed.
Lemma lab_ext : forall z f g w i, (i <= S ndim)%nat -> (forall k, (k <= S ndim)%nat -> f k = g k) -> lab_frame ndim z f w i = lab_frame ndim z g w i.
Proof.
  intros z f g w i Hi H. unfold lab_frame.
  assert (H' : forall k, (k <= S ndim)%nat -> (if z then vupd f irho 0 else f) k = (if z then vupd g irho 0 else g) k).
  { intros k Hk. destruct z; [|auto]. unfold vupd. destruct (Nat.eqb k irho); auto. }
  rewrite !H' by (unfold M_Mfv.irho, M_Mfv.ietot; lia). rewrite (sumf_ext ndim _ (fun i => (if z then vupd g irho 0 else g) i * w i)); [reflexivity|].
  intros k Hk. now rewrite H' by lia.
Qed.
Lemma lab_lin : forall f g c w i, lab_frame ndim false (fun k => f k + c * g k) w i = lab_frame ndim false f w i + c * lab_frame ndim false g w i.
Proof.
  intros f g c w i. unfold lab_frame. destruct (Nat.eqb i irho); [reflexivity|]. destruct (Nat.eqb i iE); [|ring].
  rewrite (sumf_ext ndim _ (fun k => f k * w k + c * (g k * w k))) by (intros; ring). rewrite sumf_plus, sumf_scal. ring.
Qed.

(** The jump across an outer wave. *)
Lemma outer_jump : forall s n w S_ vm, unit ndim n -> 0 < s_rho s -> s_vline s = dot ndim (s_v s) n -> S_ <> vm -> S_ <> s_vline s ->
  jump ndim (lab s w) (lab (star s n S_ vm) w) n w S_.
Proof.
  intros s n w S_ vm U Hr Hv N1 N2 i Hi. rewrite <- !lab_flux by (try easy; now apply star_vline).
  rewrite <- !lab_cons by easy.
  rewrite (lab_ext false (Hydro_Flux ndim (star s n S_ vm) n) (fun k => Hydro_Flux ndim s n k + S_ * (cons_of ndim (star s n S_ vm) k + (-1) * cons_of ndim s k))); [|easy|].
  - rewrite (lab_lin (Hydro_Flux ndim s n)), (lab_lin (cons_of ndim (star s n S_ vm))). ring.
  - intros k Hk. rewrite <- star_flux by easy. unfold add_RH_flux. rewrite star_cons by easy. ring.
Qed.

Theorem waves : forall sl sr n w, unit ndim n -> wf n sl -> wf n sr ->
  exists Smin Smax vm, HLL_Speeds ndim sl sr = (Smin, Smax) /\ Smin <= s_vline sl - s_cs sl /\ s_vline sr + s_cs sr <= Smax /\
  (let Ls := lab (star sl n Smin vm) w in let Rs := lab (star sr n Smax vm) w in
   (Smin <> vm -> jump ndim (lab sl w) Ls n w Smin) /\ (Smax <> vm -> jump ndim (lab sr w) Rs n w Smax) /\
   normal_speed ndim Ls n w = vm /\ normal_speed ndim Rs n w = vm /\ d_p Ls = d_p Rs /\
   forall i, (i <= S ndim)%nat -> solve ndim false false sl sr n w i =
     crossing ndim (if rleb Smax 0 then lab sr w else if rleb 0 Smin then lab sl w else if rltb 0 vm then Ls else Rs) n w i).
Proof.
  intros sl sr n w U Wl Wr. destruct (HLL_Speeds ndim sl sr) as (Smin, Smax) eqn:E.
  exists Smin, Smax, (compute_central_wave_speed false sl sr Smin Smax). set (vm := compute_central_wave_speed false sl sr Smin Smax).
  destruct (speeds ndim _ _ _ _ E) as (A & B). destruct (dm_ne ndim _ _ n _ _ Wl Wr E) as (D1 & D2 & D3 & D4).
  destruct Wl as (Hl & Cl & Vl). destruct Wr as (Hr & Cr & Vr).
  split; [reflexivity|]. split; [exact A|]. split; [exact B|]. cbv zeta.
  assert (NS : forall s S_, s_vline s = dot ndim (s_v s) n -> normal_speed ndim (lab (star s n S_ vm) w) n w = vm).
  { intros s S_ Hv. unfold normal_speed, L_Riemann.lab. cbn [d_v]. change vm with (s_vline (star s n S_ vm)) at 2. rewrite star_vline by easy. unfold dot. apply sumf_ext. intros; ring. }
  repeat split.
  - intros N. now apply outer_jump.
  - intros N. now apply outer_jump.
  - now apply NS.
  - now apply NS.
  - cbn. unfold vm. apply pstar_eq. lra.
  - intros i Hi. unfold solve. rewrite E. fold vm. unfold frame_flux. destruct (rleb Smax 0) eqn:E1.
    + now apply lab_flux.
    + apply rleb_false in E1. destruct (rleb 0 Smin) eqn:E2.
      * now apply lab_flux.
      * apply rleb_false in E2. cbn [negb]. destruct (rltb 0 vm) eqn:E3; [apply rltb_spec in E3|apply rltb_false in E3].
        -- rewrite (lab_ext _ _ (Hydro_Flux ndim (star sl n Smin vm) n)) by (try easy; intros; apply star_flux; try easy; lra). apply lab_flux; [easy|]. now apply star_vline.
        -- rewrite (lab_ext _ _ (Hydro_Flux ndim (star sr n Smax vm) n)) by (try easy; intros; apply star_flux; try easy; lra). apply lab_flux; [easy|]. now apply star_vline.
Qed.

(** A star state with the normal speed of the state itself is that state. *)
Lemma star_same : forall s n S_ i, (i <= S ndim)%nat -> 0 < s_rho s -> S_ <> s_vline s -> star_of ndim s n S_ (s_vline s) i = cons_of ndim s i.
Proof.
  intros s n S_ i Hi Hr N. unfold star_of, cons_of. destruct (Nat.eqb i irho); [field; lra|]. destruct (Nat.eqb i iE); [field; repeat split; lra|]. field. lra.
Qed.

(** Flow without jump of pressure and normal velocity. *)
Theorem contact : forall sl sr n w i, (i <= S ndim)%nat -> unit ndim n -> wf n sl -> wf n sr -> s_vline sl = s_vline sr -> s_press sl = s_press sr ->
  solve ndim false false sl sr n w i = crossing ndim (lab (if rltb 0 (s_vline sl) then sl else sr) w) n w i.
Proof.
  intros sl sr n w i Hi U Wl Wr Ev Ep. destruct (HLL_Speeds ndim sl sr) as (Smin, Smax) eqn:E.
  destruct (speeds ndim _ _ _ _ E) as (A & B). destruct (dm_ne ndim _ _ n _ _ Wl Wr E) as (D1 & D2 & D3 & D4).
  destruct Wl as (Hl & Cl & Vl). destruct Wr as (Hr & Cr & Vr).
  assert (Evm : compute_central_wave_speed false sl sr Smin Smax = s_vline sl).
  { unfold compute_central_wave_speed. cbn [negb]. rewrite <- Ev, <- Ep in *. field. lra. }
  unfold solve. rewrite E, Evm. unfold frame_flux. cbn [negb].
  destruct (rleb Smax 0) eqn:E1.
  - apply rleb_spec in E1. replace (rltb 0 (s_vline sl)) with false by (symmetry; apply rltb_false; lra). now apply lab_flux.
  - destruct (rleb 0 Smin) eqn:E2.
    + apply rleb_spec in E2. replace (rltb 0 (s_vline sl)) with true by (symmetry; apply rltb_spec; lra). now apply lab_flux.
    + destruct (rltb 0 (s_vline sl)).
      * rewrite <- lab_flux by easy. apply lab_ext; [easy|]. intros k Hk. unfold add_RH_flux. rewrite star_same by easy. ring.
      * rewrite <- lab_flux by easy. apply lab_ext; [easy|]. intros k Hk. unfold add_RH_flux. rewrite Ev, star_same by easy. ring.
Qed.

Theorem consistent : forall iso s n w i, (i <= S ndim)%nat -> unit ndim n -> wf n s ->
  solve ndim false iso s s n w i = crossing ndim (lab s w) n w i.
Proof.
  intros [] s n w i Hi U W.
  - unfold solve. destruct (HLL_Speeds ndim s s) as (Smin, Smax) eqn:E. pose proof (speeds_order ndim _ _ n _ _ W W E) as O1.
    unfold frame_flux. rewrite <- lab_flux by (try easy; apply W). destruct (rleb Smax 0); [reflexivity|]. destruct (rleb 0 Smin); [reflexivity|]. cbn [negb].
    apply lab_ext; [easy|]. intros k Hk. unfold compute_HLL_flux. field. lra.
  - rewrite contact by easy. now destruct (rltb 0 (s_vline s)).
Qed.

(** ** Exchange of the sides *)
Definition vneg (n : vec) : vec := fun k => - n k.
Definition flip (s : hstate) : hstate := mkhstate (s_v s) (s_rho s) (s_press s) (s_e s) (s_cs s) (- s_vline s).
Lemma flip_wf : forall n s, wf n s -> wf (vneg n) (flip s).
Proof.
  intros n s (A & B & Hv). split; [exact A|]. split; [exact B|]. cbn. rewrite Hv. unfold dot, vneg. rewrite <- (Ropp_involutive (sumf ndim (fun k => s_v s k * - n k))).
  f_equal. replace (- sumf ndim (fun k => s_v s k * - n k)) with (-1 * sumf ndim (fun k => s_v s k * - n k)) by ring. rewrite <- sumf_scal. apply sumf_ext. intros; ring.
Qed.
Lemma flip_flux : forall s n i, (i <= S ndim)%nat -> Hydro_Flux ndim (flip s) (vneg n) i = - Hydro_Flux ndim s n i.
Proof. intros s n i _. unfold Hydro_Flux, flip, vneg. cbn. destruct (Nat.eqb i irho); [ring|]. destruct (Nat.eqb i iE); ring. Qed.
Lemma flip_speeds : forall sl sr Smin Smax, 0 < s_rho sl -> 0 < s_rho sr -> HLL_Speeds ndim sl sr = (Smin, Smax) ->
  HLL_Speeds ndim (flip sr) (flip sl) = (- Smax, - Smin).
Proof.
  intros sl sr Smin Smax Hl Hr E. unfold HLL_Speeds in *. injection E as <- <-. cbn [flip s_rho s_v s_vline s_cs s_press].
  destruct (roe sl sr Hl Hr) as (_ & F). cbv zeta in F. rewrite <- F. set (fl := 1 / (1 + sqrt (s_rho sr / s_rho sl))).
  replace (1 - (1 - fl)) with fl by ring.
  rewrite (sumf_ext ndim (fun i => (s_v sr i - s_v sl i) * (s_v sr i - s_v sl i)) (fun i => (s_v sl i - s_v sr i) * (s_v sl i - s_v sr i))) by (intros; ring).
  rewrite (Rplus_comm (s_press sr)), (Rplus_comm (s_rho sr * s_cs sr * s_cs sr)).
  set (g := Rmax _ 1). set (d := sumf _ _).
  replace ((1 - fl) * s_cs sr * s_cs sr + fl * s_cs sl * s_cs sl + 1 / 2 * (1 - fl) * fl * (g - 1) * d)
    with (fl * s_cs sl * s_cs sl + (1 - fl) * s_cs sr * s_cs sr + 1 / 2 * fl * (1 - fl) * (g - 1) * d) by ring.
  set (c := sqrt _). f_equal.
  - unfold Rmin, Rmax. destruct (Rle_dec _ _), (Rle_dec _ _); lra.
  - unfold Rmin, Rmax. destruct (Rle_dec _ _), (Rle_dec _ _); lra.
Qed.
Lemma flip_central : forall iso sl sr Smin Smax, s_rho sr * (s_vline sr - Smax) - s_rho sl * (s_vline sl - Smin) <> 0 ->
  compute_central_wave_speed iso (flip sr) (flip sl) (- Smax) (- Smin) = - compute_central_wave_speed iso sl sr Smin Smax.
Proof. intros [] sl sr Smin Smax H; unfold compute_central_wave_speed, flip; cbn; field; lra. Qed.

Lemma flip_star : forall s n S_ vm i, 0 < s_rho s -> S_ <> vm -> S_ <> s_vline s -> star_of ndim (flip s) (vneg n) (- S_) (- vm) i = star_of ndim s n S_ vm i.
Proof.
  intros s n S_ vm i Hr N1 N2. unfold star_of, flip, vneg. cbn. destruct (Nat.eqb i irho); [field; lra|]. destruct (Nat.eqb i iE); [field; repeat split; lra|]. field. lra.
Qed.
Lemma flip_RH : forall s n S_ vm i, (i <= S ndim)%nat -> 0 < s_rho s -> S_ <> vm -> S_ <> s_vline s ->
  add_RH_flux ndim (flip s) (vneg n) (- S_) (- vm) (Hydro_Flux ndim (flip s) (vneg n)) i = - add_RH_flux ndim s n S_ vm (Hydro_Flux ndim s n) i.
Proof. intros s n S_ vm i Hi Hr N1 N2. unfold add_RH_flux. rewrite flip_flux, flip_star by easy. change (cons_of ndim (flip s) i) with (cons_of ndim s i). ring. Qed.

(** The flux in the frame of the face when the contact is at rest: only pressure. *)
Lemma rest_flux : forall s n S_ i, (i <= S ndim)%nat -> 0 < s_rho s -> S_ <> 0 -> S_ <> s_vline s ->
  add_RH_flux ndim s n S_ 0 (Hydro_Flux ndim s n) i = if Nat.ltb i ndim then pstar s S_ 0 * n i else 0.
Proof.
  intros s n S_ i Hi Hr N1 N2. rewrite star_flux by easy. unfold Hydro_Flux, L_Riemann.star. cbn [s_vline s_rho s_press s_e s_v].
  destruct (idx i Hi) as [->|[->|L]].
  - rewrite eq_mass, Nat.ltb_irrefl. ring.
  - rewrite eq_en, eq_en2. replace (Nat.ltb (S ndim) ndim) with false by (symmetry; apply Nat.ltb_ge; lia). ring.
  - destruct (eq_mom i L) as (-> & ->). replace (Nat.ltb i ndim) with true by (symmetry; now apply Nat.ltb_lt). ring.
Qed.

Lemma flip_frame : forall iso sl sr n Smin Smax vm i, (i <= S ndim)%nat -> 0 < s_rho sl -> 0 < s_rho sr -> Smin < Smax ->
  Smin <> s_vline sl -> Smax <> s_vline sr -> pstar sl Smin vm = pstar sr Smax vm \/ iso = true ->
  frame_flux ndim iso (flip sr) (flip sl) (vneg n) (- Smax) (- Smin) (- vm) i = - frame_flux ndim iso sl sr n Smin Smax vm i.
Proof.
  intros iso sl sr n Smin Smax vm i Hi Hl Hr O1 N1 N2 Hp. unfold frame_flux.
  destruct (rleb Smax 0) eqn:E1.
  - apply rleb_spec in E1. replace (rleb (- Smin) 0) with false by (symmetry; apply rleb_false; lra).
    replace (rleb 0 (- Smax)) with true by (symmetry; apply rleb_spec; lra). now apply flip_flux.
  - apply rleb_false in E1. destruct (rleb 0 Smin) eqn:E2.
    + apply rleb_spec in E2. replace (rleb (- Smin) 0) with true by (symmetry; apply rleb_spec; lra). now apply flip_flux.
    + apply rleb_false in E2. replace (rleb (- Smin) 0) with false by (symmetry; apply rleb_false; lra).
      replace (rleb 0 (- Smax)) with false by (symmetry; apply rleb_false; lra).
      destruct iso; cbn [negb].
      * unfold compute_HLL_flux. rewrite !flip_flux by easy. change (cons_of ndim (flip sr) i) with (cons_of ndim sr i). change (cons_of ndim (flip sl) i) with (cons_of ndim sl i). field. lra.
      * destruct Hp as [Hp|Hp]; [|discriminate]. destruct (Rtotal_order 0 vm) as [L|[<-|L]].
        -- replace (rltb 0 (- vm)) with false by (symmetry; apply rltb_false; lra). replace (rltb 0 vm) with true by (symmetry; now apply rltb_spec).
           apply flip_RH; try easy; lra.
        -- replace (rltb 0 (- 0)) with false by (symmetry; apply rltb_false; lra). replace (rltb 0 0) with false by (symmetry; apply rltb_false; lra).
           rewrite flip_RH, !rest_flux by (try easy; lra). destruct (Nat.ltb i ndim); [|reflexivity]. now rewrite Hp.
        -- replace (rltb 0 (- vm)) with true by (symmetry; apply rltb_spec; lra). replace (rltb 0 vm) with false by (symmetry; apply rltb_false; lra).
           apply flip_RH; try easy; lra.
Qed.

Lemma lab_neg : forall z f w i, lab_frame ndim z (fun k => - f k) w i = - lab_frame ndim z f w i.
Proof.
  intros z f w i. unfold lab_frame.
  assert (H : forall k, (if z then vupd (fun k => - f k) irho 0 else fun k => - f k) k = - (if z then vupd f irho 0 else f) k).
  { intros k. destruct z; [|reflexivity]. unfold vupd. destruct (Nat.eqb k irho); [ring|reflexivity]. }
  rewrite !H. set (g := if z then vupd f irho 0 else f) in *. rewrite (sumf_ext ndim _ (fun k => -1 * (g k * w k))) by (intros; rewrite H; ring).
  rewrite sumf_scal. destruct (Nat.eqb i irho); [reflexivity|]. destruct (Nat.eqb i iE); ring.
Qed.
Lemma lab_ext_w : forall z f w w' i, (forall k, w k = w' k) -> lab_frame ndim z f w i = lab_frame ndim z f w' i.
Proof.
  intros z f w w' i H. unfold lab_frame. rewrite H. unfold dot. rewrite !(sumf_ext ndim (fun k => w k * w k) (fun k => w' k * w' k)) by (intros; now rewrite H).
  rewrite (sumf_ext ndim (fun i => _ * w i) (fun i => (if z then vupd f irho 0 else f) i * w' i)) by (intros; now rewrite H). reflexivity.
Qed.

Theorem exchange_sides : forall zmf iso sl sr n w i, (i <= S ndim)%nat -> wf n sl -> wf n sr ->
  solve ndim zmf iso (flip sr) (flip sl) (vneg n) w i = - solve ndim zmf iso sl sr n w i.
Proof.
  intros zmf iso sl sr n w i Hi Wl Wr. unfold solve. destruct (HLL_Speeds ndim sl sr) as (Smin, Smax) eqn:E. cbv zeta.
  pose proof (speeds_order ndim _ _ n _ _ Wl Wr E) as O1. destruct (dm_ne ndim _ _ n _ _ Wl Wr E) as (D1 & D2 & D3 & D4).
  destruct Wl as (Hl & Cl & Vl). destruct Wr as (Hr & Cr & Vr).
  rewrite (flip_speeds _ _ _ _ Hl Hr E), flip_central by lra. set (vm := compute_central_wave_speed iso sl sr Smin Smax).
  assert (P : pstar sl Smin vm = pstar sr Smax vm \/ iso = true).
  { unfold vm. destruct iso; [now right|left]. apply pstar_eq. lra. }
  destruct zmf.
  - rewrite <- lab_neg. rewrite (lab_ext_w _ _ (fun k => w k + - vm * vneg n k) (fun k => w k + vm * n k)) by (intros; unfold vneg; ring).
    apply lab_ext; [easy|]. intros k Hk.
    rewrite <- (flip_frame iso (boosted sl n vm) (boosted sr n vm) n (Smin - vm) (Smax - vm) 0 k); cbn [boosted s_rho s_vline]; try lra; try easy.
    + assert (Bs : forall s, s_rho (boosted (flip s) (vneg n) (- vm)) = s_rho (flip (boosted s n vm)) /\ s_press (boosted (flip s) (vneg n) (- vm)) = s_press (flip (boosted s n vm)) /\
        s_e (boosted (flip s) (vneg n) (- vm)) = s_e (flip (boosted s n vm)) /\ s_cs (boosted (flip s) (vneg n) (- vm)) = s_cs (flip (boosted s n vm)) /\
        s_vline (boosted (flip s) (vneg n) (- vm)) = s_vline (flip (boosted s n vm)) /\ forall k, s_v (boosted (flip s) (vneg n) (- vm)) k = s_v (flip (boosted s n vm)) k).
      { intros s. cbn. repeat split; try ring. intros; unfold vneg; ring. }
      replace (- Smax - - vm) with (- (Smax - vm)) by ring. replace (- Smin - - vm) with (- (Smin - vm)) by ring. rewrite Ropp_0.
      assert (X : forall a b a' b' m S1 S2 v, (s_rho a = s_rho a' /\ s_press a = s_press a' /\ s_e a = s_e a' /\ s_cs a = s_cs a' /\ s_vline a = s_vline a' /\ forall k, s_v a k = s_v a' k) ->
        (s_rho b = s_rho b' /\ s_press b = s_press b' /\ s_e b = s_e b' /\ s_cs b = s_cs b' /\ s_vline b = s_vline b' /\ forall k, s_v b k = s_v b' k) ->
        frame_flux ndim iso a b m S1 S2 v k = frame_flux ndim iso a' b' m S1 S2 v k).
      { intros a b a' b' m S1 S2 v (A1 & A2 & A3 & A4 & A5 & A6) (B1 & B2 & B3 & B4 & B5 & B6).
        unfold frame_flux, add_RH_flux, compute_HLL_flux, star_of, cons_of, Hydro_Flux.
        destruct (rleb S2 0); [|destruct (rleb 0 S1); [|destruct (negb iso); [destruct (rltb 0 v)|]]]; rewrite ?A1, ?A2, ?A3, ?A5, ?B1, ?B2, ?B3, ?B5, ?A6, ?B6; reflexivity. }
      apply X; apply Bs.
    + destruct P as [P|P]; [left|now right]. unfold pstar in *. cbn [boosted s_press s_rho s_vline].
      replace (s_vline sl - vm - (Smin - vm)) with (s_vline sl - Smin) by ring. replace (s_vline sr - vm - (Smax - vm)) with (s_vline sr - Smax) by ring.
      rewrite !Rminus_0_r. exact P.
  - rewrite <- lab_neg. apply lab_ext; [easy|]. intros k Hk. apply flip_frame; try easy; lra.
Qed.
End Hllc.
