(** The deepest potential; the meshless scheme. *)
From Verif Require Import Prelude Vec M_Box L_Box M_Force M_Dens S_Dens S_Stock L_Stock M_Kernel S_Kernel L_Kernel L_Dens L_Dens2 L_Dens3 L_Dens8.
From Coq Require Import Reals Lra Lia Psatz.
Local Open Scope R_scope.

Section Pot.
Variables (n : nat) (range kernrangesqd h : R).
Hypothesis RP : 0 < range.
Hypothesis KR : kernrangesqd = range * range.
Hypothesis HP : 0 < h.

Lemma far_sq : forall p q, dot n (vsub (nb_r q) (p_r p)) (vsub (nb_r q) (p_r p)) = far n (p_r p) q * far n (p_r p) q.
Proof. intros. unfold far, norm. rewrite sqrt_sqrt by apply dot_nonneg. reflexivity. Qed.
Lemma in_range : forall d, 0 <= d -> rltb (d * d * ((1 / h) * (1 / h))) kernrangesqd = true <-> d < range * h.
Proof.
  intros d Hd. rewrite KR.
  assert (E : d * d * (1 / h * (1 / h)) = (d / h) * (d / h)) by (field; lra). rewrite E.
  assert (Q : 0 <= d / h) by (unfold Rdiv; apply Rmult_le_pos; [exact Hd | left; apply Rinv_0_lt_compat; exact HP]).
  assert (ED : d = d / h * h) by (field; lra).
  split; intros H.
  - apply rltb_t in H. rewrite ED. apply Rmult_lt_compat_r; [exact HP|]. apply Rnot_le_lt. intros C.
    assert (range * range <= d / h * (d / h)) by (apply Rmult_le_compat; lra). lra.
  - apply rltb_true. assert (d / h < range) by (apply Rmult_lt_reg_r with h; lra). apply Rmult_le_0_lt_compat; lra.
Qed.
Lemma deepest_cons : forall p q l d, deepest n p (q :: l) d <-> (far n (p_r p) q < d -> nb_gpot q <= 1000000001 / 1000000000 * p_gpot p) /\ deepest n p l d.
Proof.
  intros. unfold deepest. split.
  - intros H. split; [apply H; left; reflexivity | intros; apply H; [right|]; assumption].
  - intros (H1 & H2) q0 [<-|Hq] Hd; auto.
Qed.
Lemma potmin_false : forall p i l, potmin_right n kernrangesqd p i l false = false.
Proof. intros p i l. induction l as [|q l IH]; cbn; [reflexivity|]. destruct (_ && _); exact IH. Qed.
Lemma potmin_right_ok : forall p l, potmin_right n kernrangesqd p ((1 / h) * (1 / h)) l true = true <-> deepest n p l (range * h).
Proof.
  intros p l. induction l as [|q l IH]; cbn [potmin_right].
  - split; [intros _ q [] | reflexivity].
  - rewrite deepest_cons, far_sq. pose proof (far_nonneg n (p_r p) q) as F.
    destruct (rltb (1000000001 / 1000000000 * p_gpot p) (nb_gpot q)) eqn:G; cbn [andb].
    + destruct (rltb (far n (p_r p) q * far n (p_r p) q * (1 / h * (1 / h))) kernrangesqd) eqn:D.
      * rewrite potmin_false. split; [discriminate|]. intros (H & _). exfalso. apply rltb_t in G. apply (in_range _ F) in D. specialize (H D). lra.
      * rewrite IH. split; [|intros (_ & H); exact H]. intros H. split; [|exact H]. intros C. apply (in_range _ F) in C. congruence.
    + rewrite IH. apply rltb_f in G. split; [intros H; split; auto | intros (_ & H); exact H].
Qed.

Lemma potmin_loop_false : forall p i l dr, potmin_loop n kernrangesqd p i l dr false = false.
Proof. intros p i l. induction l as [|q l IH]; intros dr; cbn; [reflexivity|]. destruct (_ && _); apply IH. Qed.
Lemma potmin_loop_near : forall p l dr, rltb (dot n dr dr * ((1 / h) * (1 / h))) kernrangesqd = true -> (forall q, In q l -> far n (p_r p) q < range * h) ->
  potmin_loop n kernrangesqd p ((1 / h) * (1 / h)) l dr true = true <-> deepest n p l (range * h).
Proof.
  intros p l. induction l as [|q l IH]; intros dr Hdr HA; cbn [potmin_loop].
  - split; [intros _ q [] | reflexivity].
  - rewrite Hdr, andb_true_r. rewrite deepest_cons.
    assert (Hq : far n (p_r p) q < range * h) by (apply HA; left; reflexivity).
    assert (Hdr' : rltb (dot n (vsub (nb_r q) (p_r p)) (vsub (nb_r q) (p_r p)) * ((1 / h) * (1 / h))) kernrangesqd = true).
    { rewrite far_sq. apply in_range; [apply far_nonneg | exact Hq]. }
    destruct (rltb (1000000001 / 1000000000 * p_gpot p) (nb_gpot q)) eqn:G.
    + rewrite potmin_loop_false. split; [discriminate|]. intros (H & _). apply rltb_t in G. specialize (H Hq). lra.
    + rewrite IH by (auto; intros; apply HA; right; assumption). apply rltb_f in G. split; [intros H; split; auto | intros (_ & H); exact H].
Qed.
Lemma last_dr_near : forall p l, l <> [] -> (forall q, In q l -> far n (p_r p) q < range * h) ->
  rltb (dot n (last_dr p l) (last_dr p l) * ((1 / h) * (1 / h))) kernrangesqd = true.
Proof.
  intros p l NE HA. unfold last_dr. destruct (rev l) as [|q l'] eqn:E.
  - exfalso. apply NE. rewrite <- (rev_involutive l), E. reflexivity.
  - rewrite far_sq. apply in_range; [apply far_nonneg|]. apply HA. apply in_rev. rewrite E. left. reflexivity.
Qed.
End Pot.

(** ** The meshless scheme *)
Section Mfv.
Variables (n : nat) (w : R -> R) (kernrangesqd h_fac h_converge : R) (rnd : R -> R).
Hypothesis N1 : (1 <= n)%nat.
Hypothesis HF : 0 < h_fac.
Notation mfunc := (fun nd => h_fac * root n (1 / nd)).

Lemma mloop_left : forall ph prho r l hmax k it h lo hi h0 lo0, 0 <= lo -> 0 < h <= hmax ->
  mloop n (s2 w) h_fac h_converge rnd k ph prho r l hmax it h lo hi = Left h0 lo0 -> 0 < h0 <= hmax.
Proof.
  intros ph prho r l hmax k. induction k as [|k IH]; intros it h lo hi h0 lo0 Hlo Hh E; [discriminate|].
  cbn [mloop] in E. set (nd := ndens_sum _ _ _ _ _) in *. set (hn := h_fac * root n (1 / nd)) in *.
  destruct (rltb 0 prho && _ && _); [injection E as <- <-; exact Hh|].
  assert (NX : forall h' a b, 0 <= a -> (if rltb hmax h' then TooBig h' else if rltb a h' && rltb h' b then mloop n (s2 w) h_fac h_converge rnd k ph prho r l hmax (it + 1) h' a b else Left h a) = Left h0 lo0 -> 0 < h0 <= hmax).
  { intros h' a b Ha E'. destruct (rltb hmax h') eqn:T; [discriminate|]. apply rltb_f in T.
    destruct (rltb a h' && rltb h' b) eqn:W; [|injection E' as <- <-; exact Hh].
    apply andb_true_iff in W. destruct W as (W & _). apply rltb_t in W. apply (IH _ _ _ _ _ _ Ha (conj (Rle_lt_trans _ _ _ Ha W) T) E'). }
  destruct ((it + 1 <? 30)%Z); [exact (NX _ _ _ Hlo E)|].
  destruct ((it + 1 =? 30)%Z); [exact (NX _ _ _ Hlo E)|].
  destruct ((it + 1 <? 150)%Z); [|discriminate].
  destruct (rltb nd small_number || _); [exact (NX _ _ _ Hlo E)|]. refine (NX _ h hi _ E); lra.
Qed.

Lemma mfv_spec : forall hmin p hmax l f p', 0 <= hmin -> 0 < p_h p <= hmax -> (p_insink p = true -> hmin <= hmax) ->
  MfvComputeH n (s2 w) kernrangesqd h_fac h_converge rnd hmin p hmax l = Ret f p' -> f <> 0%Z -> 
  exists h0, 0 < h0 <= hmax /\ p_ndens p' = numb n w (p_r p) l h0 /\ p_rho p' = p_m p * p_ndens p' /\
    (0 < p_ndens p' -> belongs n h_fac 1 (p_h p') (p_ndens p')) /\
    ((f = 1%Z /\ p_h p' <= hmax) \/ (f = (-1)%Z /\ hmax < p_h p')).
Proof.
  intros hmin p hmax l f p' H0 Hh Hs E Hf. unfold MfvComputeH in E.
  destruct (p_insink p && rltb hmax hmin) eqn:B.
  { apply andb_true_iff in B. destruct B as (B1 & B2). apply rltb_t in B2. specialize (Hs B1). lra. }
  destruct (mloop _ _ _ _ _ _ _ _ _ _ _ _ _ _ _) as [h0 lo|h|] eqn:L in E; [| |discriminate].
  2: { injection E as <- _. congruence. }
  apply mloop_left in L; [|destruct (p_insink p); lra|exact Hh]. exists h0. split; [exact L|].
  cbv zeta in E. rewrite (ndens_sum_numb n w) in E by lra.
  assert (FB : 0 < numb n w (p_r p) l h0 -> belongs n h_fac 1 (mfunc (numb n w (p_r p) l h0)) (numb n w (p_r p) l h0)).
  { intros P. apply (func_belongs n N1 h_fac HF 1 _ Rlt_0_1 P). }
  destruct (rleb _ hmax) eqn:Q in E; injection E as <- <-; cbn [p_ndens p_rho p_h].
  - apply rleb_t in Q. repeat split; auto; apply FB; assumption.
  - split; [reflexivity|]. split; [reflexivity|]. split; [exact FB|]. right. split; [reflexivity|]. apply Rnot_le_lt. intros C. apply rleb_t in C. congruence.
Qed.

(** The length at the start fits already. *)
Lemma mfv_settled : forall hmin p hmax l hf, 0 < p_h p <= hmax -> 0 < p_rho p -> (if p_insink p then hmin < p_h p else True) ->
  0 < numb n w (p_r p) l (p_h p) -> belongs n h_fac 1 hf (numb n w (p_r p) l (p_h p)) -> Rabs (p_h p - hf) < h_converge ->
  exists f p', MfvComputeH n (s2 w) kernrangesqd h_fac h_converge rnd hmin p hmax l = Ret f p' /\ f <> 0%Z /\
    p_ndens p' = numb n w (p_r p) l (p_h p) /\ p_rho p' = p_m p * p_ndens p' /\ p_h p' = hf.
Proof.
  intros hmin p hmax l hf Hh Hr Hs Pn HB Ht. unfold MfvComputeH.
  replace (p_insink p && rltb hmax hmin) with false.
  2: { destruct (p_insink p); [|reflexivity]. cbn. symmetry. apply rltb_false. lra. }
  assert (EF : mfunc (numb n w (p_r p) l (p_h p)) = hf).
  { apply (belongs_unique n N1 h_fac 1 _ _ _ Pn); [apply (func_belongs n N1 h_fac HF 1 _ Rlt_0_1 Pn) | exact HB]. }
  assert (EH : forall k, mloop n (s2 w) h_fac h_converge rnd (S k) (p_h p) (p_rho p) (p_r p) l hmax 0 (p_h p) (if p_insink p then hmin else 0) hmax = Left (p_h p) (if p_insink p then hmin else 0)).
  { intros k. cbn [mloop]. rewrite (ndens_sum_numb n w) by lra. cbv beta in EF. rewrite EF. rewrite (rltb_true 0) by exact Hr.
    rewrite (rltb_true (Rabs _)) by exact Ht. rewrite (rltb_true _ (p_h p)); [reflexivity|]. destruct (p_insink p); lra. }
  rewrite (EH 149%nat). cbv zeta. rewrite (ndens_sum_numb n w) by lra. cbv beta in EF. rewrite EF.
  destruct (rleb hf hmax).
  - exists 1%Z. eexists. split; [reflexivity|]. split; [discriminate|]. cbn. auto.
  - exists (-1)%Z. eexists. split; [reflexivity|]. split; [discriminate|]. cbn. auto.
Qed.

Lemma mfv_zeta : forall hmin p hmax l f p', MfvComputeH n (s2 w) kernrangesqd h_fac h_converge rnd hmin p hmax l = Ret f p' -> p_zeta p = 0 -> p_zeta p' = 0.
Proof.
  intros hmin p hmax l f p' E Z. unfold MfvComputeH in E. destruct (p_insink p && _); [injection E as _ <-; exact Z|].
  destruct (mloop _ _ _ _ _ _ _ _ _ _ _ _ _ _ _); [|injection E as _ <-; exact Z|discriminate].
  cbv zeta in E. destruct (rleb _ hmax); injection E as _ <-; cbn [p_zeta]; rewrite Z; unfold Rdiv; ring.
Qed.
End Mfv.

(** ** A cycle of two lengths taken for convergence *)
Lemma sqrt_small : 0 <= sqrt small_number <= 1 / 1000000.
Proof.
  split; [apply sqrt_pos|]. rewrite <- (sqrt_square (1 / 1000000)) by lra. apply sqrt_le_1_alt. unfold small_number.
  replace (1 / 1000000 * (1 / 1000000)) with (/ 10 ^ 12) by (cbn; lra). apply Rinv_le_contravar; [apply pow_lt; lra|]. apply Rle_pow; [lra | lia].
Qed.
Lemma sqrt_near : forall d, 0 <= d -> d <= sqrt (d * d + small_number) <= d + 1 / 1000000.
Proof.
  intros d Hd. assert (S0 : 0 < small_number) by (unfold small_number; apply Rinv_0_lt_compat, pow_lt; lra).
  pose proof sqrt_small as (A & B). split.
  - rewrite <- (sqrt_square d) at 1 by exact Hd. apply sqrt_le_1_alt. lra.
  - rewrite <- (sqrt_square (d + 1 / 1000000)) by lra. apply sqrt_le_1_alt.
    assert (small_number <= 1 / 1000000 * (1 / 1000000)). { rewrite <- (sqrt_sqrt small_number) by lra. apply Rmult_le_compat; lra. } nra.
Qed.
(** The weights of particles at the centre and at the distance [d], with the small number. *)
Definition wn (d h : R) : R := w (sqrt (d * d + small_number) / h).
Lemma wn_bounds : forall d h a b, 0 <= d -> 0 < h -> 0 <= a -> a * h <= d -> d + 1 / 1000000 <= b * h -> w b <= wn d h <= w a.
Proof.
  intros d h a b Hd Hh Ha H1 H2. pose proof (sqrt_near d Hd) as (S1 & S2). set (s := sqrt (d * d + small_number)) in *.
  assert (E : s = s / h * h) by (field; lra).
  unfold wn. fold s. split; apply (dk_decr _ _ _ _ _ D1); split.
  - unfold Rdiv. apply Rmult_le_pos; [lra | left; apply Rinv_0_lt_compat; exact Hh].
  - apply Rmult_le_reg_r with h; lra.
  - exact Ha.
  - apply Rmult_le_reg_r with h; lra.
Qed.
Lemma m_numb : forall h, 0 < h -> numb 1 w here c_l h = (wn 0 h + 12 * wn 2 h) / h.
Proof.
  intros h H. unfold numb, c_l. cbn [repeat app lsum]. rewrite !far1.
  rewrite Rabs_R0, (Rabs_right 2) by lra. rewrite (Rabs_left (-2)) by lra. replace (- -2) with 2 by lra. fold (wn 0 h) (wn 2 h). rewrite pow_1. field. lra.
Qed.
Definition m_part : dpart := mkdpart here 1 2 1 1 1 0 0 0 0 false false 0.
Notation mrun := (MfvComputeH 1 (s2 w) 4 (4 / 3) (1 / 100) (fun x => x) 0 m_part 3 c_l).

Lemma m_first : 266 / 100 <= wn 0 2 + 12 * wn 2 2 <= 8 / 3.
Proof.
  destruct (wn_bounds 0 2 0 (1 / 1000)) as (A1 & A2); try lra. rewrite w_0 in A2. rewrite w_in in A1 by lra.
  destruct (wn_bounds 2 2 1 (1001 / 1000)) as (B1 & B2); try lra. rewrite w_mid in B1 by lra. rewrite w_mid in B2 by lra. lra.
Qed.
Lemma m_second : forall h, 1 <= h <= 101 / 100 -> 6666 / 10000 <= wn 0 h + 12 * wn 2 h <= 6671 / 10000.
Proof.
  intros h Hh. destruct (wn_bounds 0 h 0 (1 / 1000)) as (A1 & A2); try lra. rewrite w_0 in A2. rewrite w_in in A1 by lra.
  destruct (wn_bounds 2 h (198 / 100) 3) as (B1 & B2); try lra. rewrite w_out in B1 by lra. rewrite w_mid in B2 by lra. lra.
Qed.
Lemma m_third : forall h, 199 / 100 <= h <= 202 / 100 -> 26 / 10 <= wn 0 h + 12 * wn 2 h.
Proof.
  intros h Hh. destruct (wn_bounds 0 h 0 (1 / 1000)) as (A1 & A2); try lra. rewrite w_in in A1 by lra.
  destruct (wn_bounds 2 h 0 (1006 / 1000)) as (B1 & B2); try lra. rewrite w_mid in B1 by lra. lra.
Qed.

Lemma m_root : forall x, 0 < x -> 4 / 3 * root 1 (1 / x) = 4 / 3 / x.
Proof. intros x H. change (h_rho_func 1 (4 / 3) 1 x = 4 / 3 / x). rewrite func1 by lra. field. lra. Qed.

Lemma m_cycle : exists p', mrun = Ret 1 p' /\ p_ndens p' <= 67 / 100 /\ 199 / 100 <= p_h p' <= 201 / 100 /\ 19 / 10 * p_ndens p' <= numb 1 w here c_l (p_h p').
Proof.
  pose proof m_first as F. pose proof (m_numb 2 ltac:(lra)) as E2. set (N2 := wn 0 2 + 12 * wn 2 2) in *.
  set (h1 := 4 / 3 / (N2 / 2)).
  assert (B1 : 1 <= h1 <= 1003 / 1000).
  { unfold h1. split; apply Rmult_le_reg_r with (N2 / 2); try lra; replace (4 / 3 / (N2 / 2) * (N2 / 2)) with (4 / 3) by (field; lra); lra. }
  pose proof (m_second h1 ltac:(lra)) as G. pose proof (m_numb h1 ltac:(lra)) as E1. set (N1 := wn 0 h1 + 12 * wn 2 h1) in *.
  assert (P1 : 0 < N1 / h1) by (apply Rdiv_lt_0_compat; lra).
  set (h2 := 4 / 3 / (N1 / h1)).
  assert (EX : N1 / h1 <= 67 / 100) by (apply Rmult_le_reg_r with h1; [lra|]; replace (N1 / h1 * h1) with N1 by (field; lra); lra).
  assert (B2 : 1995 / 1000 <= h2 <= 2007 / 1000).
  { unfold h2. split; apply Rmult_le_reg_r with (N1 / h1); try lra; replace (4 / 3 / (N1 / h1) * (N1 / h1)) with (4 / 3) by (field; lra);
      apply Rmult_le_reg_r with h1; try lra.
    - replace (1995 / 1000 * (N1 / h1) * h1) with (1995 / 1000 * N1) by (field; lra). lra.
    - replace (2007 / 1000 * (N1 / h1) * h1) with (2007 / 1000 * N1) by (field; lra). lra. }
  assert (EL : forall k, mloop 1 (s2 w) (4 / 3) (1 / 100) (fun x => x) (S (S k)) 2 1 here c_l 3 0 2 0 3 = Left h1 0).
  { intros k. cbn [mloop]. rewrite !(ndens_sum_numb 1 w) by lra. rewrite E2, m_root by lra. fold h1.
    rewrite (rltb_false (Rabs (2 - h1)) (1 / 100)) by (rewrite Rabs_right; lra). rewrite andb_false_r.
    cbn [Z.add Z.ltb Z.compare Pos.compare Pos.compare_cont].
    rewrite (rltb_false 3 h1), (rltb_true 0 h1), (rltb_true h1 3) by lra. cbn [andb].
    rewrite (ndens_sum_numb 1 w) by lra. rewrite E1, m_root by exact P1. fold h2.
    rewrite (rltb_true (Rabs (2 - h2)) (1 / 100)) by (apply Rabs_def1; lra).
    rewrite (rltb_true 0 1), (rltb_true 0 2) by lra. reflexivity. }
  unfold MfvComputeH. cbn [m_part p_insink p_h p_rho p_r andb].
  rewrite (EL 148%nat). cbv zeta. rewrite (ndens_sum_numb 1 w) by lra. rewrite E1, m_root by exact P1. fold h2.
  replace (rleb h2 3) with true by (symmetry; apply rleb_t; lra).
  eexists. split; [reflexivity|]. cbn [p_ndens p_h]. split; [exact EX|]. split; [lra|].
  rewrite m_numb by lra. pose proof (m_third h2 ltac:(lra)) as T. set (N3 := wn 0 h2 + 12 * wn 2 h2) in *.
  apply Rmult_le_reg_r with h2; [lra|]. replace (N3 / h2 * h2) with N3 by (field; lra). nra.
Qed.

(** ** Lengths smaller than the tolerance are not iterated *)
Definition t_l : list dneib := at_ 0 0 :: repeat (at_ (1 / 200) 0) 6 ++ repeat (at_ (- (1 / 200)) 0) 6.
Definition t_part : dpart := mkdpart here 1 (1 / 200) 1 1 1 0 0 0 0 false false 0.
Notation trun := (MfvComputeH 1 (s2 w) 4 (6 / 5) (1 / 100) (fun x => x) 0 t_part 1 t_l).
Lemma t_numb : forall h, 0 < h -> numb 1 w here t_l h = (wn 0 h + 12 * wn (1 / 200) h) / h.
Proof.
  intros h H. unfold numb, t_l. cbn [repeat app lsum]. rewrite !far1.
  rewrite Rabs_R0, (Rabs_right (1 / 200)) by lra. rewrite (Rabs_left (- (1 / 200))) by lra. replace (- - (1 / 200)) with (1 / 200) by lra.
  fold (wn 0 h) (wn (1 / 200) h). rewrite pow_1. field. lra.
Qed.
Lemma t_first : 266 / 100 <= wn 0 (1 / 200) + 12 * wn (1 / 200) (1 / 200) <= 8 / 3.
Proof.
  destruct (wn_bounds 0 (1 / 200) 0 (1 / 1000)) as (A1 & A2); try lra. rewrite w_0 in A2. rewrite w_in in A1 by lra.
  destruct (wn_bounds (1 / 200) (1 / 200) 1 (1001 / 1000)) as (B1 & B2); try lra. rewrite w_mid in B1 by lra. rewrite w_mid in B2 by lra. lra.
Qed.
Lemma t_run : exists p', trun = Ret 1 p' /\ 530 <= p_ndens p' /\ 22 / 10000 <= p_h p' <= 23 / 10000 /\ numb 1 w here t_l (p_h p') <= 310.
Proof.
  pose proof t_first as F. pose proof (t_numb (1 / 200) ltac:(lra)) as E. set (N := wn 0 (1 / 200) + 12 * wn (1 / 200) (1 / 200)) in *.
  set (h1 := 6 / 5 / (N / (1 / 200))).
  assert (PN : 532 <= N / (1 / 200)) by lra.
  assert (B : 22 / 10000 <= h1 <= 23 / 10000).
  { unfold h1. split; apply Rmult_le_reg_r with (N / (1 / 200)); try lra; replace (6 / 5 / (N / (1 / 200)) * (N / (1 / 200))) with (6 / 5) by (field; lra); lra. }
  destruct (mfv_settled 1 w 4 (6 / 5) (1 / 100) (fun x => x) (Nat.le_refl _) ltac:(lra) 0 t_part 1 t_l h1) as (f & p' & R & Hf & E1 & E2 & E3); cbn [t_part p_h p_rho p_insink p_r]; try lra.
  - rewrite E. split; [lra|]. rewrite !pow_1. unfold h1. field. lra.
  - apply Rabs_def1; lra.
  - exists p'. cbn [t_part p_r p_h] in *. rewrite E in E1.
    assert (f = 1%Z).
    { destruct (mfv_spec 1 w 4 (6 / 5) (1 / 100) (fun x => x) (Nat.le_refl _) ltac:(lra) 0 t_part 1 t_l f p' ltac:(lra) ltac:(cbn; lra) ltac:(cbn; discriminate) R Hf) as (_ & _ & _ & _ & _ & [(Z & _)|(_ & Z)]); [exact Z|]. rewrite E3 in Z. lra. }
    subst f. split; [exact R|]. split; [rewrite E1; lra|]. split; [rewrite E3; lra|].
    rewrite E3, t_numb by lra.
    destruct (wn_bounds 0 h1 0 1) as (A1 & A2); try lra. rewrite w_0 in A2.
    destruct (wn_bounds (1 / 200) h1 2 3) as (B1 & B2); try lra. rewrite w_out in B1, B2 by lra.
    apply Rmult_le_reg_r with h1; [lra|]. replace ((wn 0 h1 + 12 * wn (1 / 200) h1) / h1 * h1) with (wn 0 h1 + 12 * wn (1 / 200) h1) by (field; lra). lra.
Qed.
