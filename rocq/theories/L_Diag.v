(** Proofs about the diagnostics. *)
From Verif Require Import Prelude Vec M_Box L_Box M_Hermite M_Diag S_Diag.
From Coq Require Import Reals List FunctionalExtensionality.
Import ListNotations.
Local Open Scope R_scope.

Lemma lsum_app : forall (A : Type) (f : A -> R) l l', lsum f (l ++ l') = lsum f l + lsum f l'.
Proof. induction l; intros; cbn; [ring|rewrite IHl; ring]. Qed.
Lemma lsum_ext : forall (A : Type) (f g : A -> R) l, (forall x, In x l -> f x = g x) -> lsum f l = lsum g l.
Proof. induction l; intros H; cbn; [reflexivity|]. rewrite H by (left; reflexivity). rewrite IHl; [reflexivity|]. intros. apply H. now right. Qed.
Lemma lsum_map : forall (A B : Type) (h : A -> B) (f : B -> R) l, lsum f (map h l) = lsum (fun x => f (h x)) l.
Proof. induction l; cbn; congruence. Qed.
Lemma lsum_plus : forall (A : Type) (f g : A -> R) l, lsum (fun x => f x + g x) l = lsum f l + lsum g l.
Proof. induction l; cbn; [ring|rewrite IHl; ring]. Qed.
Lemma lsum_scal : forall (A : Type) c (f : A -> R) l, lsum (fun x => c * f x) l = c * lsum f l.
Proof. induction l; cbn; [ring|rewrite IHl; ring]. Qed.
Lemma lsum_sumf : forall (A : Type) n (f : nat -> A -> R) l, lsum (fun x => sumf n (fun k => f k x)) l = sumf n (fun k => lsum (f k) l).
Proof.
  induction l; cbn; [symmetry; apply sumf_zero|]. rewrite IHl, <- sumf_plus. reflexivity.
Qed.
Lemma lsum_seq : forall N f, lsum f (seq 0 N) = sumf N f.
Proof. induction N; intros; [reflexivity|]. rewrite seq_S, lsum_app, IHN. cbn. ring. Qed.

Section Diag.
Variable ndim : nat.
Definition alive (l : list part) : list part := filter (fun p => negb (p_dead p)) l.
Lemma alive_map : forall c w l, alive (map (shift c w) l) = map (shift c w) (alive l).
Proof. intros c w l. unfold alive. induction l; cbn; [reflexivity|]. destruct (p_dead a); cbn; rewrite IHl; reflexivity. Qed.
Lemma alive_app : forall l l', alive (l ++ l') = alive l ++ alive l'.
Proof. intros. apply filter_app. Qed.
(** The angular momentum of a body. *)
Definition ang (p : part) (k : nat) : R := if Nat.ltb k 3 then p_m p * cross ndim (p_r p) (p_v p) k else 0.
Lemma add_ang_is : forall a p k, (ndim <= 3)%nat -> add_ang ndim a p k = a k + ang p k.
Proof.
  intros a p k Hn. unfold add_ang, ang, cross, S_Diag.comp. destruct ndim as [|[|[|[|n]]]]; [| | | |lia];
  destruct k as [|[|[|k]]]; cbn; ring.
Qed.
Lemma gas_fold : forall l d, let e := fold_left (add_gas ndim) l d in
  d_Nhydro e = d_Nhydro d /\ d_Nstar e = d_Nstar d /\ d_Ndead e = (d_Ndead d + length (filter p_dead l))%nat /\
  d_mtot e = d_mtot d + lsum p_m (alive l) /\ d_utot e = d_utot d + lsum (fun p => p_m p * p_u p) (alive l) /\
  d_ketot e = d_ketot d + lsum (fun p => p_m p * dot ndim (p_v p) (p_v p)) (alive l) /\
  d_gpetot e = d_gpetot d - lsum (fun p => p_m p * p_gpot p) (alive l) /\
  (forall k, d_rcom e k = d_rcom d k + lsum (fun p => p_m p * p_r p k) (alive l)) /\
  (forall k, d_vcom e k = d_vcom d k + lsum (fun p => p_m p * p_v p k) (alive l)) /\
  (forall k, d_mom e k = d_mom d k + lsum (fun p => p_m p * p_v p k) (alive l)) /\
  (forall k, d_force e k = d_force d k + lsum (fun p => p_m p * p_a p k) (alive l)) /\ d_angmom e = d_angmom d.
Proof.
  induction l as [|p l IH]; intros d; cbv zeta.
  - cbn. repeat split; intros; try ring; try lia.
  - cbn [fold_left]. destruct (IH (add_gas ndim d p)) as (-> & -> & -> & -> & -> & -> & -> & R1 & V1 & M1 & F1 & ->).
    unfold alive in *. cbn [filter]. unfold add_gas in *. destruct (p_dead p); cbn in *.
    + repeat split; auto; try lia.
    + repeat split; intros; rewrite ?R1, ?V1, ?M1, ?F1; ring.
Qed.
Lemma gas_ang_fold : forall l d, (ndim <= 3)%nat -> let e := fold_left (add_gas_ang ndim) l d in
  e = mkdiag (d_Nhydro d) (d_Nstar d) (d_Ndead d) (d_mtot d) (d_Etot d) (d_utot d) (d_ketot d) (d_gpetot d) (d_rcom d) (d_vcom d) (d_mom d) (d_force d)
        (fun k => d_angmom d k + lsum (fun p => ang p k) (alive l)).
Proof.
  induction l as [|p l IH]; intros d Hn; cbv zeta.
  - cbn. destruct d; cbn. f_equal. apply functional_extensionality. intros; ring.
  - cbn [fold_left]. rewrite IH by assumption. unfold alive in *. cbn [filter]. unfold add_gas_ang. destruct (p_dead p); cbn; [reflexivity|].
    f_equal. apply functional_extensionality. intros k. rewrite add_ang_is by assumption. ring.
Qed.
Lemma star_fold : forall l d, (ndim <= 3)%nat -> let e := fold_left (add_star ndim) l d in
  d_Nhydro e = d_Nhydro d /\ d_Nstar e = d_Nstar d /\ d_Ndead e = d_Ndead d /\
  d_mtot e = d_mtot d + lsum p_m l /\ d_utot e = d_utot d /\
  d_ketot e = d_ketot d + lsum (fun p => p_m p * dot ndim (p_v p) (p_v p)) l /\
  d_gpetot e = d_gpetot d - lsum (fun p => p_m p * p_gpot p) l /\
  (forall k, d_rcom e k = d_rcom d k + lsum (fun p => p_m p * p_r p k) l) /\
  (forall k, d_vcom e k = d_vcom d k + lsum (fun p => p_m p * p_v p k) l) /\
  (forall k, d_mom e k = d_mom d k + lsum (fun p => p_m p * p_v p k) l) /\
  (forall k, d_force e k = d_force d k + lsum (fun p => p_m p * p_a p k) l) /\ (forall k, d_angmom e k = d_angmom d k + lsum (fun p => ang p k) l).
Proof.
  induction l as [|p l IH]; intros d Hn; cbv zeta.
  - cbn. repeat split; intros; ring.
  - cbn [fold_left]. destruct (IH (add_star ndim d p) Hn) as (-> & -> & -> & -> & -> & -> & -> & R1 & V1 & M1 & F1 & A1).
    unfold add_star in *. cbn in *. repeat split; intros; rewrite ?R1, ?V1, ?M1, ?F1, ?A1, ?add_ang_is by assumption; ring.
Qed.
Lemma sink_fold : forall l d, fold_left add_sink l d =
  mkdiag (d_Nhydro d) (d_Nstar d) (d_Ndead d) (d_mtot d) (d_Etot d) (d_utot d) (d_ketot d) (d_gpetot d) (d_rcom d) (d_vcom d) (d_mom d) (d_force d)
    (fun k => d_angmom d k + lsum (fun s : vec => s k) l).
Proof.
  induction l as [|p l IH]; intros d.
  - cbn. destruct d; cbn. f_equal. apply functional_extensionality. intros; ring.
  - cbn [fold_left]. rewrite IH. unfold add_sink. cbn. f_equal. apply functional_extensionality. intros; ring.
Qed.

Variables hf sg : bool.
Lemma calc_is : forall Nstar gas stars sinks, (ndim <= 3)%nat ->
  let d := CalculateDiagnostics ndim hf sg Nstar gas stars sinks in let all := alive gas ++ stars in
  d_Nhydro d = length gas /\ d_Nstar d = Nstar /\ d_Ndead d = length (filter p_dead gas) /\
  d_mtot d = lsum p_m all /\ d_utot d = lsum (fun p => p_m p * p_u p) (alive gas) /\
  d_ketot d = lsum (fun p => 1 / 2 * p_m p * dot ndim (p_v p) (p_v p)) all /\
  d_gpetot d = - (1 / 2 * lsum (fun p => p_m p * p_gpot p) all) /\
  d_Etot d = d_ketot d + (if hf then d_utot d else 0) + (if sg || Nat.ltb 0 Nstar then d_gpetot d else 0) /\
  (forall k, d_rcom d k = (if rltb 0 (d_mtot d) then / d_mtot d else 1) * lsum (fun p => p_m p * p_r p k) all) /\
  (forall k, d_vcom d k = (if rltb 0 (d_mtot d) then / d_mtot d else 1) * lsum (fun p => p_m p * p_v p k) all) /\
  (forall k, d_mom d k = lsum (fun p => p_m p * p_v p k) all) /\ (forall k, d_force d k = lsum (fun p => p_m p * p_a p k) all) /\
  (forall k, d_angmom d k = lsum (fun p => ang p k) all + lsum (fun s : vec => s k) sinks).
Proof.
  intros Nstar gas stars sinks Hn. cbv zeta. unfold CalculateDiagnostics.
  pose proof (gas_fold gas (diag0 (length gas) Nstar)) as G. cbv zeta in G. set (d1 := fold_left (add_gas ndim) gas _) in *. clearbody d1.
  pose proof (gas_ang_fold gas d1 Hn) as A. cbv zeta in A. set (d2 := fold_left (add_gas_ang ndim) gas d1) in *. clearbody d2.
  pose proof (star_fold stars d2 Hn) as H. cbv zeta in H. set (d3 := fold_left (add_star ndim) stars d2) in *. clearbody d3.
  rewrite A in H. rewrite sink_fold. cbn [diag0 d_Nhydro d_Nstar d_Ndead d_mtot d_Etot d_utot d_ketot d_gpetot d_rcom d_vcom d_mom d_force d_angmom] in *.
  destruct G as (G1 & G2 & G3 & G4 & G5 & G6 & G7 & G8 & G9 & G10 & G11 & G12). destruct H as (H1 & H2 & H3 & H4 & H5 & H6 & H7 & H8 & H9 & H10 & H11 & H12).
  assert (KE : forall l, lsum (fun p => 1 / 2 * p_m p * dot ndim (p_v p) (p_v p)) l = 1 / 2 * lsum (fun p => p_m p * dot ndim (p_v p) (p_v p)) l).
  { intros l. rewrite <- lsum_scal. apply lsum_ext. intros; ring. }
  rewrite !KE, !lsum_app. repeat split; intros; rewrite ?lsum_app.
  - congruence.
  - congruence.
  - rewrite H3, G3. reflexivity.
  - rewrite H4, G4. ring.
  - rewrite H5, G5. ring.
  - rewrite H6, G6. field.
  - rewrite H7, G7. field.
  - destruct hf, (sg || (0 <? Nstar)%nat); ring.
  - destruct (rltb 0 (d_mtot d3)); rewrite H8, G8; [unfold Rdiv|]; ring.
  - destruct (rltb 0 (d_mtot d3)); rewrite H9, G9; [unfold Rdiv|]; ring.
  - rewrite H10, G10. ring.
  - rewrite H11, G11. ring.
  - rewrite H12, G12. ring.
Qed.

(** ** The frame of the centre of mass *)
Lemma shift_sum : forall c w l k, lsum (fun p => p_m p * p_r p k) (map (shift c w) l) = lsum (fun p => p_m p * p_r p k) l - c k * lsum p_m l /\
  lsum (fun p => p_m p * p_v p k) (map (shift c w) l) = lsum (fun p => p_m p * p_v p k) l - w k * lsum p_m l /\ lsum p_m (map (shift c w) l) = lsum p_m l.
Proof. intros c w l k. induction l as [|p l (A & B & C)]; cbn; [repeat split; ring|]. rewrite A, B, C. repeat split; ring. Qed.
Lemma shift_ke : forall c w l, lsum (fun p => 1 / 2 * p_m p * dot ndim (p_v p) (p_v p)) (map (shift c w) l) =
  lsum (fun p => 1 / 2 * p_m p * dot ndim (p_v p) (p_v p)) l - dot ndim w (fun k => lsum (fun p => p_m p * p_v p k) l) + 1 / 2 * lsum p_m l * dot ndim w w.
Proof.
  intros c w l. rewrite lsum_map. unfold dot at 3. rewrite <- (sumf_ext ndim (fun k => lsum (fun p => w k * (p_m p * p_v p k)) l)) by (intros; apply lsum_scal).
  rewrite <- lsum_sumf. induction l as [|p l IH]; cbn [lsum map]; [ring|]. rewrite IH.
  assert (E : dot ndim (p_v (shift c w p)) (p_v (shift c w p)) = dot ndim (p_v p) (p_v p) - 2 * dot ndim w (p_v p) + dot ndim w w).
  { unfold dot, shift. cbn [p_v]. rewrite <- (sumf_scal ndim 2), <- sumf_minus, <- sumf_plus. apply sumf_ext. intros; ring. }
  rewrite E. cbn [shift p_m]. replace (sumf ndim (fun k => w k * (p_m p * p_v p k))) with (p_m p * dot ndim w (p_v p)); [field|].
  unfold dot. rewrite <- sumf_scal. apply sumf_ext. intros; ring.
Qed.
Lemma cross_shift : forall r v c w k, cross ndim (fun k => r k - c k) (fun k => v k - w k) k =
  cross ndim r v k - cross ndim c v k - cross ndim r w k + cross ndim c w k.
Proof. intros. unfold cross, S_Diag.comp; cbv beta zeta. set (i := ((k + 1) mod 3)%nat). set (j := ((k + 2) mod 3)%nat). destruct (i <? ndim)%nat, (j <? ndim)%nat; ring. Qed.
Lemma cross_sum : forall (l : list part) c k, lsum (fun p => p_m p * cross ndim c (p_v p) k) l = cross ndim c (fun k => lsum (fun p => p_m p * p_v p k) l) k /\
  lsum (fun p => p_m p * cross ndim (p_r p) c k) l = cross ndim (fun k => lsum (fun p => p_m p * p_r p k) l) c k.
Proof.
  intros l c k. unfold cross, S_Diag.comp; cbv beta zeta. generalize ((k + 1) mod 3)%nat as i, ((k + 2) mod 3)%nat as j. intros i j.
  destruct (i <? ndim)%nat, (j <? ndim)%nat; induction l as [|p l (A & B)]; cbn [lsum]; (split; [try ring; rewrite A; ring|try ring; rewrite B; ring]).
Qed.
Lemma shift_ang : forall c w l k, (k < 3)%nat -> lsum (fun p => ang p k) (map (shift c w) l) =
  lsum (fun p => ang p k) l - cross ndim c (fun k => lsum (fun p => p_m p * p_v p k) l) k - cross ndim (fun k => lsum (fun p => p_m p * p_r p k) l) w k + lsum p_m l * cross ndim c w k.
Proof.
  intros c w l k Hk. rewrite lsum_map. unfold ang. rewrite (proj2 (Nat.ltb_lt k 3) Hk).
  destruct (cross_sum l c k) as (<- & _). destruct (cross_sum l w k) as (_ & <-).
  induction l as [|p l IH]; cbn [lsum]; [ring|]. rewrite IH. unfold shift at 1 2 3. cbn [p_m p_r p_v]. rewrite cross_shift. ring.
Qed.
End Diag.
