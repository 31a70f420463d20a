(** Totals in the meshless finite-volume scheme. *)
From Verif Require Import Prelude L_Prelude Vec M_Box M_Mfv S_Stock S_Mfv L_Stock L_Force2 L_Mfv.
From Coq Require Import Reals Lra.
Local Open Scope R_scope.

Lemma lsum_pointwise : forall {A} (F F' : A -> R) (g : nat -> R) l l' a, length l' = length l ->
  (forall s p, nth_error l s = Some p -> exists p', nth_error l' s = Some p' /\ F' p' = F p + g (a + s)%nat) ->
  lsum F' l' = lsum F l + lsum g (seq a (length l)).
Proof.
  intros A F F' g. induction l as [|p l IH]; intros [|p' l'] a Hl H; try discriminate; cbn [lsum length seq]; [ring|].
  injection Hl as Hl. destruct (H 0%nat p eq_refl) as (x & E & G). injection E as <-. rewrite G, Nat.add_0_r.
  rewrite (IH l' (S a) Hl); [ring|]. intros s q Hs. destruct (H (S s) q Hs) as (y & E & G'). exists y. split; [exact E|].
  rewrite G'. f_equal. f_equal. lia.
Qed.

Section End.
Variable ndim : nat.
(** ** The end of a step *)
Notation irho := (irho ndim).
Notation ietot := (ietot ndim).
Lemma vupd_eq : forall v k x, vupd v k x k = x.
Proof. intros. unfold vupd. now rewrite Nat.eqb_refl. Qed.
Lemma vupd_ne : forall v k j x, j <> k -> vupd v k x j = v j.
Proof. intros. unfold vupd. now destruct (Nat.eqb_spec j k). Qed.

Lemma end_grav_spec : forall p Q n, (n <= ndim)%nat ->
  (forall k, (n <= k)%nat -> k <> ietot -> end_grav ndim n p Q k = Q k) /\
  (forall k, (k < n)%nat -> end_grav ndim n p Q k = Q k + 1 / 2 * m_dt p * (m_Q0 p irho * m_a0 p k + Q irho * m_a p k)) /\
  end_grav ndim n p Q ietot = Q ietot + sumf n (fun k => 1 / 2 * m_dt p * (m_a0 p k * (m_Q0 p k + 1 / 2 * m_Q0 p irho * m_a0 p k * m_dt p) +
                                                         m_a p k * (Q k + 1 / 2 * Q irho * m_a p k * m_dt p))).
Proof.
  intros p Q. induction n as [|n IH]; intros Hn.
  - cbn. repeat split; intros; try lia; ring.
  - destruct IH as (A & B & C); [lia|]. cbn [end_grav]. set (G := end_grav ndim n p Q) in *.
    assert (Hr : G irho = Q irho) by (apply A; unfold M_Mfv.irho, M_Mfv.ietot in *; lia).
    assert (Hk : G n = Q n) by (apply A; unfold M_Mfv.irho, M_Mfv.ietot in *; lia).
    assert (N1 : n <> ietot) by (unfold M_Mfv.ietot; lia). assert (N2 : irho <> n) by (unfold M_Mfv.irho; lia).
    assert (N3 : irho <> ietot) by (unfold M_Mfv.irho, M_Mfv.ietot; lia).
    repeat split.
    + intros k Hk' Ne. rewrite !vupd_ne by lia. apply A; lia.
    + intros k Hk'. destruct (Nat.eq_dec k n) as [->|Ne].
      * rewrite vupd_eq, !vupd_ne by easy. rewrite Hk, Hr. reflexivity.
      * rewrite vupd_ne by easy. rewrite vupd_ne by (unfold M_Mfv.ietot; lia). apply B. lia.
    + rewrite vupd_ne by congruence. rewrite vupd_eq, C, Hk, Hr. cbn [sumf]. ring.
Qed.

Theorem end_Q_spec : forall p k, end_Q ndim p k = m_Q0 p k + q_dQ (m_q p) k + source ndim p k.
Proof.
  intros p k. unfold end_Q, source. destruct (end_grav_spec p (fun k => m_Q0 p k + q_dQ (m_q p) k) ndim (le_n _)) as (A & B & C).
  set (G := end_grav ndim ndim p _) in *. destruct (Nat.eq_dec k ietot) as [->|Ne].
  - rewrite !vupd_eq, C. unfold M_Mfv.ietot. replace (Nat.ltb (S ndim) ndim) with false by (symmetry; apply Nat.ltb_ge; lia).
    rewrite Nat.eqb_refl. unfold dot, M_Mfv.irho. cbv beta zeta. ring.
  - rewrite !vupd_ne by easy. destruct (Nat.ltb_spec k ndim) as [L|L].
    + rewrite B by easy. unfold M_Mfv.irho. cbv beta zeta. ring.
    + rewrite A by easy. unfold M_Mfv.ietot in Ne. replace (Nat.eqb k (S ndim)) with false by (symmetry; now apply Nat.eqb_neq). ring.
Qed.
Lemma source_mass : forall p, source ndim p ndim = 0.
Proof.
  intros p. unfold source. rewrite Nat.ltb_irrefl. replace (Nat.eqb ndim (S ndim)) with false; [reflexivity|]. symmetry. apply Nat.eqb_neq. lia.
Qed.
Lemma source_quiet : forall p k, (forall i, m_a p i = 0) -> (forall i, m_a0 p i = 0) -> m_cool p = 0 -> source ndim p k = 0.
Proof.
  intros p k Ha Ha0 Hc. unfold source. destruct (Nat.ltb k ndim); [rewrite Ha, Ha0; ring|]. destruct (Nat.eqb k (S ndim)); [|reflexivity].
  assert (Z : forall f, (forall k, (k < ndim)%nat -> f k = 0) -> sumf ndim f = 0).
  { intros f Hf. rewrite (sumf_ext ndim f (fun _ => 0)); [apply sumf_zero|exact Hf]. }
  cbv zeta. rewrite 3!Z; [rewrite Hc; ring| | |]; intros; rewrite ?Ha, ?Ha0; ring.
Qed.

Lemma m_array : forall p Q, m_m (UpdateArrayVariables ndim p Q) = Q irho /\
  (Q irho <> 0 -> (forall k, m_m (UpdateArrayVariables ndim p Q) * m_v (UpdateArrayVariables ndim p Q) k = Q k) /\
    let p' := UpdateArrayVariables ndim p Q in m_m p' * (m_u p' + 1 / 2 * dot ndim (m_v p') (m_v p')) = Q ietot).
Proof.
  intros p Q. split; [reflexivity|]. intros N. split.
  - intros k. cbn. field. exact N.
  - cbn. unfold dot. field. exact N.
Qed.

Theorem end_step : forall n p, m_dead p = false -> (((n - m_nlast p) =? m_nstep p)%Z || m_end p) = true ->
  let p' := EndTimestep ndim n p in
  (forall k, m_Q0 p' k = m_Q0 p k + q_dQ (m_q p) k + source ndim p k) /\ m_q p' = acc0 /\ m_m p' = m_Q0 p' ndim /\
  (m_m p' <> 0 -> (forall k, m_m p' * m_v p' k = m_Q0 p' k) /\ m_m p' * (m_u p' + 1 / 2 * dot ndim (m_v p') (m_v p')) = m_Q0 p' (S ndim)) /\
  m_nlast p' = n /\ m_active p' = true.
Proof.
  intros n p Hd He. cbv zeta. unfold EndTimestep. rewrite Hd, He. cbn [m_Q0 m_q m_m m_v m_u m_nlast m_active].
  split; [apply end_Q_spec|]. split; [reflexivity|]. split; [reflexivity|]. split; [|split; reflexivity]. intros N. apply (m_array p (end_Q ndim p) ). exact N.
Qed.

Lemma end_content : forall n p k, m_Q0 (EndTimestep ndim n p) k + q_dQ (m_q (EndTimestep ndim n p)) k =
  m_Q0 p k + q_dQ (m_q p) k + (if ends n p then source ndim p k else 0).
Proof.
  intros n p k. unfold ends. destruct (m_dead p) eqn:Hd; [unfold EndTimestep; rewrite Hd; cbn; ring|].
  destruct (((n - m_nlast p) =? m_nstep p)%Z || m_end p) eqn:He.
  - destruct (end_step n p Hd He) as (A & B & _). cbv zeta in A, B. rewrite A, B. cbn. ring.
  - unfold EndTimestep. rewrite Hd, He. cbn. ring.
Qed.

Lemma adv_content : forall n ts p, m_Q0 (AdvanceParticle ndim n ts p) = m_Q0 p /\ m_q (AdvanceParticle ndim n ts p) = m_q p.
Proof. intros n ts p. unfold AdvanceParticle. destruct (m_dead p); split; reflexivity. Qed.

Lemma lsum_forall2 : forall {A} (F : A -> R) (P : A -> A -> Prop) l l', (forall a b, P a b -> F b = F a) -> Forall2 P l l' -> lsum F l' = lsum F l.
Proof. intros A F P l l' H H2. induction H2; cbn; [reflexivity|]. rewrite IHForall2. f_equal. auto. Qed.

End End.

Section Mfv.
Variable ndim : nat.
Variables (w0_s2 w1 : R -> R) (limiter : gpart -> gpart -> vec -> (nat -> vec) * vec) (riemann : vec -> vec -> vec -> vec -> nat -> vec)
  (viscous : vec -> vec -> (nat -> vec) -> (nat -> vec) -> (nat -> vec) -> nat -> vec) (staticParticles : bool).
Notation pair_flux := (pair_flux ndim w0_s2 w1 limiter riemann viscous staticParticles).
Notation UpdateGodunovFluxes := (UpdateGodunovFluxes ndim w0_s2 w1 limiter riemann viscous staticParticles).
Notation xg := (xg ndim w0_s2 w1 limiter riemann viscous staticParticles).

Lemma xg_gain : forall k xs t, xg (CQ k) xs t = gain pair_flux xs k t.
Proof. intros. apply lsum_ext. intros x _. cbn [out inn]. unfold xflux, fl. reflexivity. Qed.
Lemma xg_rate : forall k xs t, xg (CT k) xs t = rate pair_flux xs k t.
Proof. intros. apply lsum_ext. intros x _. cbn [out inn]. unfold xflux, fl. reflexivity. Qed.

Lemma xchs_range : forall ts parts threads x, (forall cl, In cl (concat threads) -> cell_ok (zlen parts) cl) ->
  In x (xchs ts parts threads) -> (0 <= x_i x < zlen parts)%Z /\ (0 <= x_j x < zlen parts)%Z.
Proof.
  intros ts parts threads x H I. unfold xchs in I. apply in_flat_map in I as (cl & Icl & I). destruct (H cl Icl) as (Ok1 & Ok2).
  unfold cell_xchs in I. apply in_flat_map in I as ((i, l) & Ia & I). destruct (Ok1 i l Ia) as (Hi & Hl). cbn [fst snd] in I.
  destruct (getp parts i) as [p|]; [|easy]. apply in_flat_map in I as ((j, q) & Jl & I). cbn [fst snd] in I. unfold getn in I.
  destruct (j <? 0)%Z; [easy|]. destruct (nth_error (c_neib cl) (Z.to_nat j)) as [(j', w)|] eqn:E; [|easy]. destruct I as [<-|[]]. cbn.
  split; [exact Hi|]. apply nth_error_In in E. apply (Ok2 _ _ E).
Qed.

Lemma gain_total : forall N xs k, (forall x, In x xs -> (0 <= x_i x < Z.of_nat N)%Z /\ (0 <= x_j x < Z.of_nat N)%Z) ->
  lsum (fun s => gain pair_flux xs k (Z.of_nat s)) (seq 0 N) = - to_walls pair_flux xs k.
Proof.
  intros N xs k H. unfold gain. rewrite lsum_exch. unfold to_walls.
  replace (- lsum (fun x => if x_wall x then xflux pair_flux x k * x_dt x else 0) xs)
    with (lsum (fun x => - 1 * (if x_wall x then xflux pair_flux x k * x_dt x else 0)) xs) by (rewrite lsum_scal; ring).
  apply lsum_ext. intros x I. destruct (H x I) as (Hi & Hj). rewrite lsum_plus.
  pose proof (sum_pick (fun _ => true) (- (xflux pair_flux x k * x_dt x)) (x_i x) N 0) as E1. cbv beta iota in E1. rewrite E1.
  pose proof (sum_pick (fun _ => negb (x_wall x)) (xflux pair_flux x k * x_dt x) (x_j x) N 0) as E2. cbv beta iota in E2.
  rewrite (lsum_ext (fun p => if (x_j x =? Z.of_nat p)%Z && negb (x_wall x) then _ else _)
    (fun s => if negb (x_wall x) then (if (x_j x =? Z.of_nat s)%Z then xflux pair_flux x k * x_dt x else 0) else 0)).
  2:{ intros s _. destruct (x_j x =? Z.of_nat s)%Z, (x_wall x); reflexivity. }
  rewrite E2. replace (((Z.of_nat 0 <=? x_i x) && (x_i x <? Z.of_nat (0 + N)))%Z && true) with true by lia.
  replace ((Z.of_nat 0 <=? x_j x) && (x_j x <? Z.of_nat (0 + N)))%Z with true by lia. cbn [andb]. destruct (x_wall x); cbn [negb]; ring.
Qed.

Theorem fluxes_total : forall ts parts threads parts' k, (forall cl, In cl (concat threads) -> cell_ok (zlen parts) cl) ->
  UpdateGodunovFluxes ts parts threads = Ok parts' ->
  total k parts' = total k parts - to_walls pair_flux (xchs ts parts threads) k.
Proof.
  intros ts parts threads parts' k H G. destruct (fluxes_spec ndim w0_s2 w1 limiter riemann viscous staticParticles ts parts threads H) as (l & G' & L & T).
  rewrite G in G'. injection G' as <-. unfold total.
  rewrite (lsum_pointwise (fun p => m_Q0 p k + q_dQ (m_q p) k) (fun p => m_Q0 p k + q_dQ (m_q p) k)
    (fun s => gain pair_flux (xchs ts parts threads) k (Z.of_nat s)) parts parts' 0 L).
  - rewrite gain_total; [ring|]. intros x I. apply (xchs_range ts parts threads x H I).
  - intros s p Hs. destruct (T (Z.of_nat s) p) as (p' & Hp' & Rs & C).
    { apply aget_nth_error; [lia|]. now rewrite Nat2Z.id. }
    exists p'. apply aget_Ok_inv in Hp' as (_ & Hp'). rewrite Nat2Z.id in Hp'. split; [exact Hp'|].
    specialize (C (CQ k)). cbn [get on] in C. rewrite C, xg_gain. rewrite Rs. cbn. ring.
Qed.

Notation event := (event ndim w0_s2 w1 limiter riemann viscous staticParticles).
Notation history := (history ndim w0_s2 w1 limiter riemann viscous staticParticles).
Lemma lsum_map : forall {A B} (f : B -> R) (g : A -> B) l, lsum f (map g l) = lsum (fun a => f (g a)) l.
Proof. intros A B f g. induction l as [|a l IH]; cbn; [reflexivity|]. now rewrite IH. Qed.

Theorem event_total : forall s a b k, event s a b -> total k b = total k a + s k.
Proof.
  intros s a b k H. destruct H as [ts threads parts parts' Hc G|n parts|n ts parts|ldm ls n ts parts parts' H|parts parts' H]; unfold total.
  - pose proof (fluxes_total ts parts threads parts' k Hc G) as E. unfold total in E. rewrite E. ring.
  - rewrite lsum_map, <- lsum_plus. apply lsum_ext. intros p _. apply end_content.
  - rewrite lsum_map, Rplus_0_r. apply lsum_ext. intros p _. destruct (adv_content ndim n ts p) as (-> & ->). reflexivity.
  - rewrite Rplus_0_r. refine (lsum_forall2 _ _ _ _ _ H). intros p p' E. cbn in E. injection E as <-. reflexivity.
  - rewrite Rplus_0_r. refine (lsum_forall2 _ _ _ _ _ H). intros p p' (E1 & E2). now rewrite E1, E2.
Qed.
Theorem history_total : forall s a b k, history s a b -> total k b = total k a + s k.
Proof.
  intros s a b k H. induction H as [parts|s s' a b c E H IH]; [ring|]. rewrite IH, (event_total _ _ _ k E). ring.
Qed.
End Mfv.
