(** The frame of the centre of mass and the collection of diagnostics from processes. *)
From Verif Require Import Prelude Vec M_Box L_Box M_Hermite M_Diag S_Diag L_Diag.
From Coq Require Import Reals List FunctionalExtensionality.
Import ListNotations.
Local Open Scope R_scope.

Section Frame.
Variables (n : nat) (hf sg : bool).
Hypothesis Hn : (n <= 3)%nat.
Lemma frame_is : forall gas stars sinks, let d := CalculateDiagnostics n hf sg (length stars) gas stars sinks in 0 < d_mtot d ->
  let d' := snd (SetComFrame n hf sg gas stars sinks) in
  d_Nhydro d' = d_Nhydro d /\ d_Nstar d' = d_Nstar d /\ d_Ndead d' = d_Ndead d /\ d_mtot d' = d_mtot d /\ d_utot d' = d_utot d /\ d_gpetot d' = d_gpetot d /\
  (forall k, d_rcom d' k = 0) /\ (forall k, d_vcom d' k = 0) /\ (forall k, d_mom d' k = 0) /\ (forall k, d_force d' k = d_force d k) /\
  d_ketot d' = d_ketot d - 1 / 2 * d_mtot d * dot n (d_vcom d) (d_vcom d) /\
  (forall k, (k < 3)%nat -> d_angmom d' k = d_angmom d k - d_mtot d * cross n (d_rcom d) (d_vcom d) k).
Proof.
  intros gas stars sinks. cbv zeta. intros HM.
  destruct (calc_is n hf sg (length stars) gas stars sinks Hn) as (A1 & A2 & A3 & A4 & A5 & A6 & A7 & A8 & A9 & A10 & A11 & A12 & A13).
  unfold SetComFrame. cbn [snd]. set (d := CalculateDiagnostics n hf sg (length stars) gas stars sinks) in *. set (c := d_rcom d) in *. set (w := d_vcom d) in *.
  destruct (calc_is n hf sg (length (map (shift c w) stars)) (map (shift c w) gas) (map (shift c w) stars) sinks Hn) as (B1 & B2 & B3 & B4 & B5 & B6 & B7 & B8 & B9 & B10 & B11 & B12 & B13).
  set (e := CalculateDiagnostics n hf sg (length (map (shift c w) stars)) (map (shift c w) gas) (map (shift c w) stars) sinks) in *.
  rewrite !map_length in *. rewrite alive_map in *. rewrite <- map_app in *.
  set (all := alive gas ++ stars) in *.
  assert (EM : d_mtot e = d_mtot d) by (rewrite B4, A4; apply (shift_sum c w all 0)).
  assert (T : rltb 0 (d_mtot d) = true) by now apply rltb_true.
  rewrite EM, T in *.
  assert (C : forall k, c k * lsum p_m all = lsum (fun p => p_m p * p_r p k) all) by (intros k; rewrite (A9 k), <- A4; field; lra).
  assert (W : forall k, w k * lsum p_m all = lsum (fun p => p_m p * p_v p k) all) by (intros k; rewrite (A10 k), <- A4; field; lra).
  assert (Z1 : forall k, lsum (fun p => p_m p * p_r p k) (map (shift c w) all) = 0) by (intros k; rewrite (proj1 (shift_sum c w all k)), C; ring).
  assert (Z2 : forall k, lsum (fun p => p_m p * p_v p k) (map (shift c w) all) = 0) by (intros k; rewrite (proj1 (proj2 (shift_sum c w all k))), W; ring).
  assert (EW : (fun k => lsum (fun p => p_m p * p_v p k) all) = (fun k => d_mtot d * w k)) by (apply functional_extensionality; intros k; rewrite <- W, A4; ring).
  assert (EC : (fun k => lsum (fun p => p_m p * p_r p k) all) = (fun k => d_mtot d * c k)) by (apply functional_extensionality; intros k; rewrite <- C, A4; ring).
  assert (SC : forall a x y k, cross n x (fun k => a * y k) k = a * cross n x y k /\ cross n (fun k => a * x k) y k = a * cross n x y k).
  { intros a x y k. unfold cross, S_Diag.comp. cbv zeta. generalize ((k + 1) mod 3)%nat as i, ((k + 2) mod 3)%nat as j. intros i j. destruct (i <? n)%nat, (j <? n)%nat; split; ring. }
  repeat split; try congruence.
  - rewrite B3, A3. generalize c w; clear; intros c w. induction gas as [|a l IH]; cbn; [reflexivity|]. destruct (p_dead a); cbn; rewrite IH; reflexivity.
  - rewrite B5, A5, lsum_map. reflexivity.
  - rewrite B7, A7, lsum_map. reflexivity.
  - intros k. rewrite (B9 k), Z1. ring.
  - intros k. rewrite (B10 k), Z2. ring.
  - intros k. rewrite (B11 k). apply Z2.
  - intros k. rewrite (B12 k), (A12 k), lsum_map. reflexivity.
  - rewrite B6, A6, shift_ke, EW, <- A4.
    replace (dot n w (fun k => d_mtot d * w k)) with (d_mtot d * dot n w w); [field|]. unfold dot. rewrite <- sumf_scal. apply sumf_ext. intros; ring.
  - intros k Hk. rewrite (B13 k), (A13 k), shift_ang by assumption. rewrite EW, EC, <- A4, (proj1 (SC _ _ _ _)), (proj2 (SC _ _ _ _)). ring.
Qed.

(** ** Processes *)
Definition proc := (list part * list part * list vec)%type.
Definition local (Nstar : nat) (p : proc) : diag := let '(g, s, k) := p in CalculateDiagnostics n hf sg Nstar g s k.
Lemma collate_fold : forall xs d, let e := fold_left collate_one xs d in
  d_Nhydro e = fold_left (fun a x => (a + d_Nhydro x)%nat) xs (d_Nhydro d) /\ d_Nstar e = d_Nstar d /\ d_Ndead e = d_Ndead d /\
  d_mtot e = d_mtot d + lsum d_mtot xs /\ d_Etot e = d_Etot d + lsum d_Etot xs /\ d_utot e = d_utot d + lsum d_utot xs /\
  d_ketot e = d_ketot d + lsum d_ketot xs /\ d_gpetot e = d_gpetot d + lsum d_gpetot xs /\
  (forall k, d_rcom e k = d_rcom d k + lsum (fun x => d_mtot x * d_rcom x k) xs) /\ (forall k, d_vcom e k = d_vcom d k + lsum (fun x => d_mtot x * d_vcom x k) xs) /\
  (forall k, d_mom e k = d_mom d k + lsum (fun x => d_mom x k) xs) /\ (forall k, d_force e k = d_force d k + lsum (fun x => d_force x k) xs) /\
  (forall k, d_angmom e k = d_angmom d k + lsum (fun x => d_angmom x k) xs).
Proof.
  induction xs as [|x xs IH]; intros d; cbv zeta.
  - cbn. repeat split; intros; ring.
  - cbn [fold_left]. destruct (IH (collate_one d x)) as (-> & -> & -> & -> & -> & -> & -> & -> & R1 & V1 & M1 & F1 & A1).
    cbn in *. repeat split; intros; rewrite ?R1, ?V1, ?M1, ?F1, ?A1; ring.
Qed.
Lemma fold_add : forall (xs : list proc) N a, fold_left (fun a x => (a + d_Nhydro x)%nat) (map (local N) xs) a = (a + length (concat (map (fun p : proc => fst (fst p)) xs)))%nat.
Proof.
  induction xs as [|[[g s] k] xs IH]; intros N a; cbn [map fold_left concat]; [cbn; lia|]. rewrite IH. cbn [fst local]. rewrite app_length.
  rewrite (proj1 (calc_is n hf sg N g s k Hn)). lia.
Qed.
Definition gases (xs : list proc) := concat (map (fun p : proc => fst (fst p)) xs).
Definition starss (xs : list proc) := concat (map (fun p : proc => snd (fst p)) xs).
Definition sinkss (xs : list proc) := concat (map (fun p : proc => snd p) xs).
(** Every process has mass, or none of its bodies has. *)
Definition massive (p : proc) : Prop := let l := alive (fst (fst p)) ++ snd (fst p) in 0 < lsum p_m l \/ (forall q, In q l -> p_m q = 0).
Lemma local_sums : forall xs N, (forall p, In p xs -> massive p) ->
  let all := alive (gases xs) ++ starss xs in let ds := map (local N) xs in
  lsum d_mtot ds = lsum p_m all /\ lsum d_utot ds = lsum (fun p => p_m p * p_u p) (alive (gases xs)) /\
  lsum d_ketot ds = lsum (fun p => 1 / 2 * p_m p * dot n (p_v p) (p_v p)) all /\ lsum d_gpetot ds = - (1 / 2 * lsum (fun p => p_m p * p_gpot p) all) /\
  lsum d_Etot ds = lsum d_ketot ds + (if hf then lsum d_utot ds else 0) + (if sg || Nat.ltb 0 N then lsum d_gpetot ds else 0) /\
  (forall k, lsum (fun x => d_mtot x * d_rcom x k) ds = lsum (fun p => p_m p * p_r p k) all) /\ (forall k, lsum (fun x => d_mtot x * d_vcom x k) ds = lsum (fun p => p_m p * p_v p k) all) /\
  (forall k, lsum (fun x => d_mom x k) ds = lsum (fun p => p_m p * p_v p k) all) /\ (forall k, lsum (fun x => d_force x k) ds = lsum (fun p => p_m p * p_a p k) all) /\
  (forall k, lsum (fun x => d_angmom x k) ds = lsum (fun p => ang n p k) all + lsum (fun s : vec => s k) (sinkss xs)).
Proof.
  induction xs as [|[[g s] q] xs IH]; intros N HM; cbv zeta.
  - cbn [map lsum gases starss sinkss concat alive filter app]. repeat split; intros; try ring. destruct hf, (sg || (0 <? N)%nat)%bool; ring.
  - assert (HM' : forall p, In p xs -> massive p) by (intros; apply HM; now right).
    specialize (IH N HM'). cbv zeta in IH. destruct IH as (I1 & I2 & I3 & I4 & I5 & I6 & I7 & I8 & I9 & I10).
    specialize (HM (g, s, q) (or_introl eq_refl)). unfold massive in HM. cbn [fst snd] in HM.
    unfold gases, starss, sinkss in *. cbn [map concat fst snd lsum local] in *. rewrite !alive_app, !lsum_app in *.
    pose proof (calc_is n hf sg N g s q Hn) as A. cbv zeta in A.
    destruct A as (_ & _ & _ & A4 & A5 & A6 & A7 & A8 & A9 & A10 & A11 & A12 & A13).
    set (d := CalculateDiagnostics n hf sg N g s q) in *.
    assert (Z : forall f : part -> R, ~ 0 < lsum p_m (alive g ++ s) -> lsum (fun p => p_m p * f p) (alive g ++ s) = 0).
    { intros f Hf. destruct HM as [HM|HM]; [rewrite lsum_app in Hf; lra|]. rewrite (lsum_ext _ _ (fun p => 0 * p_m p)); [rewrite lsum_scal; ring|].
      intros p Hp. rewrite (HM p Hp). ring. }
    assert (C : forall f : part -> R, d_mtot d * ((if rltb 0 (d_mtot d) then / d_mtot d else 1) * lsum (fun p => p_m p * f p) (alive g ++ s)) = lsum (fun p => p_m p * f p) (alive g ++ s)).
    { intros f. destruct (rltb 0 (d_mtot d)) eqn:E; [apply rltb_true in E; field; lra|]. apply rltb_false in E. rewrite Z; [ring|]. rewrite <- A4. lra. }
    repeat split; intros.
    + rewrite A4, I1, !lsum_app. ring.
    + rewrite A5, I2. ring.
    + rewrite A6, I3, !lsum_app. ring.
    + rewrite A7, I4, !lsum_app. ring.
    + rewrite A8, I5. destruct hf, (sg || (0 <? N)%nat)%bool; ring.
    + rewrite (A9 k), C, I6, !lsum_app. ring.
    + rewrite (A10 k), C, I7, !lsum_app. ring.
    + rewrite (A11 k), I8, !lsum_app. ring.
    + rewrite (A12 k), I9, !lsum_app. ring.
    + rewrite (A13 k), I10, !lsum_app. ring.
Qed.
Lemma collate_is : forall p0 ps N, (forall p, In p (p0 :: ps) -> massive p) ->
  let e := CollateDiagnosticsData (local N p0) (map (local N) ps) in
  let d := CalculateDiagnostics n hf sg N (gases (p0 :: ps)) (starss (p0 :: ps)) (sinkss (p0 :: ps)) in 0 < d_mtot d ->
  d_Nhydro e = d_Nhydro d /\ d_Nstar e = d_Nstar d /\ d_mtot e = d_mtot d /\ d_Etot e = d_Etot d /\ d_utot e = d_utot d /\ d_ketot e = d_ketot d /\ d_gpetot e = d_gpetot d /\
  (forall k, d_rcom e k = d_rcom d k) /\ (forall k, d_vcom e k = d_vcom d k) /\ (forall k, d_mom e k = d_mom d k) /\ (forall k, d_force e k = d_force d k) /\ (forall k, d_angmom e k = d_angmom d k).
Proof.
  intros p0 ps N HM. cbv zeta. intros H0.
  pose proof (local_sums (p0 :: ps) N HM) as L. cbv zeta in L. cbn [map lsum] in L. destruct L as (L1 & L2 & L3 & L4 & L5 & L6 & L7 & L8 & L9 & L10).
  pose proof (calc_is n hf sg N (gases (p0 :: ps)) (starss (p0 :: ps)) (sinkss (p0 :: ps)) Hn) as A. cbv zeta in A.
  destruct A as (A1 & A2 & _ & A4 & A5 & A6 & A7 & A8 & A9 & A10 & A11 & A12 & A13).
  set (d := CalculateDiagnostics n hf sg N _ _ _) in *.
  assert (T : rltb 0 (d_mtot d) = true) by now apply rltb_true. rewrite T in *.
  assert (P : d_Nhydro (local N p0) = length (fst (fst p0)) /\ d_Nstar (local N p0) = N).
  { destruct p0 as [[g s] q]. destruct (calc_is n hf sg N g s q Hn) as (X & Y & _). split; assumption. }
  unfold CollateDiagnosticsData. set (d0 := local N p0) in *.
  pose proof (collate_fold (map (local N) ps) (mkdiag (d_Nhydro d0) (d_Nstar d0) (d_Ndead d0) (d_mtot d0) (d_Etot d0) (d_utot d0) (d_ketot d0) (d_gpetot d0)
    (fun k => d_rcom d0 k * d_mtot d0) (fun k => d_vcom d0 k * d_mtot d0) (d_mom d0) (d_force d0) (d_angmom d0))) as F. cbv zeta in F.
  set (e := fold_left collate_one (map (local N) ps) _) in *.
  cbn [d_Nhydro d_Nstar d_Ndead d_mtot d_Etot d_utot d_ketot d_gpetot d_rcom d_vcom d_mom d_force d_angmom] in *.
  destruct F as (F1 & F2 & _ & F4 & F5 & F6 & F7 & F8 & F9 & F10 & F11 & F12 & F13). rewrite fold_add in F1.
  assert (EM : d_mtot e = d_mtot d) by (rewrite F4, A4; exact L1).
  repeat split; intros.
  - rewrite F1, A1. unfold gases. cbn [map concat]. rewrite app_length. lia.
  - rewrite F2, A2. apply P.
  - exact EM.
  - rewrite F5, A8, A6, A5, A7, L5, L2, L3, L4. reflexivity.
  - rewrite F6, A5. exact L2.
  - rewrite F7, A6. exact L3.
  - rewrite F8, A7. exact L4.
  - rewrite (A9 k), (F9 k), EM, <- L6. unfold Rdiv. ring.
  - rewrite (A10 k), (F10 k), EM, <- L7. unfold Rdiv. ring.
  - rewrite (A11 k), (F11 k). apply L8.
  - rewrite (A12 k), (F12 k). apply L9.
  - rewrite (A13 k), (F13 k). apply L10.
Qed.
End Frame.
