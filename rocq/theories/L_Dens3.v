(** The iteration for the smoothing length finds a solution if there is one, and the search for neighbours ends. *)
From Verif Require Import Prelude Vec M_Box L_Box M_Force M_Dens S_Dens S_Stock L_Stock M_Kernel S_Kernel L_Dens L_Dens2.
From Coq Require Import Reals Lra Lia Psatz.
Local Open Scope R_scope.

Lemma pow_ge1 : forall x k, 1 <= x -> (1 <= k)%nat -> x <= x ^ k.
Proof.
  intros x k H K. destruct k as [|k]; [lia|]. cbn. pose proof (pow_R1_Rle x k H). nra.
Qed.
Lemma pow_le1 : forall x k, 0 <= x <= 1 -> (1 <= k)%nat -> x ^ k <= x.
Proof.
  intros x k H K. destruct k as [|k]; [lia|]. cbn. pose proof (pow_incr x 1 k H). rewrite pow1 in H0. nra.
Qed.

Section D3.
Variables (n : nat) (range : R) (w w1 om : R -> R) (womega_s2 wzeta_s2 : R -> R) (kernrangesqd h_fac h_converge : R).
Hypothesis N1 : (1 <= n)%nat.
Hypothesis DK : density_kernel n range w w1 om.
Hypothesis RP : 0 < range.
Hypothesis HF : 0 < h_fac.
Notation s2 := (fun s => w (sqrt s)).
Notation func := (h_rho_func n h_fac).

(** The mass within the kernel: h^n times the density. *)
Definition held (r : vec) (l : list dneib) (h : R) : R := lsum (fun q => nb_m q * w (far n r q / h)) l.

Lemma dens_held : forall r l h, 0 < h -> h ^ n * dens n w r l h = held r l h.
Proof.
  intros r l h H. unfold dens, held. rewrite Rmult_comm, lsum_div. apply lsum_ext. intros q _.
  field. apply pow_nonzero. lra.
Qed.
Lemma lsum_le : forall {A} (f g : A -> R) l, (forall x, In x l -> f x <= g x) -> lsum f l <= lsum g l.
Proof.
  intros A f g l. induction l as [|x l IH]; intros H; cbn; [lra|].
  assert (f x <= g x) by (apply H; left; reflexivity).
  assert (lsum f l <= lsum g l) by (apply IH; intros; apply H; right; assumption). lra.
Qed.
Lemma held_mono : forall r l a b, (forall q, In q l -> 0 <= nb_m q) -> 0 < a <= b -> held r l a <= held r l b.
Proof.
  intros r l a b M H. apply lsum_le. intros q Hq. apply Rmult_le_compat_l; [auto|].
  apply (dk_decr _ _ _ _ _ DK). pose proof (far_nonneg n r q). split.
  - apply Rmult_le_pos; [assumption|]. left. apply Rinv_0_lt_compat. lra.
  - apply Rmult_le_compat_l; [assumption|]. apply Rinv_le_contravar; lra.
Qed.

Lemma func_held : forall m r l h, 0 < m -> 0 < h -> 0 < dens n w r l h ->
  let x := func m (dens n w r l h) / h in 0 < x /\ x ^ n * held r l h = h_fac ^ n * m.
Proof.
  intros m r l h Hm Hh Hd x.
  destruct (func_belongs n N1 h_fac HF m (dens n w r l h) Hm Hd) as (P & E).
  split; [apply Rdiv_lt_0_compat; assumption|]. unfold x.
  rewrite <- dens_held by exact Hh. unfold Rdiv. rewrite Rpow_mult_distr, pow_inv.
  rewrite <- E. field. apply pow_nonzero. lra.
Qed.
Lemma func_lt : forall m r l h, 0 < m -> 0 < h -> 0 < dens n w r l h ->
  (func m (dens n w r l h) < h <-> h_fac ^ n * m < held r l h).
Proof.
  intros m r l h Hm Hh Hd.
  destruct (func_belongs n N1 h_fac HF m (dens n w r l h) Hm Hd) as (P & E).
  rewrite <- E, <- (dens_held r l h Hh).
  rewrite <- (pow_lt_iff n N1 (func m (dens n w r l h)) h) by lra. split; intros H.
  - apply Rmult_lt_compat_r; assumption.
  - apply Rmult_lt_reg_r in H; assumption.
Qed.
Lemma near : forall m r l h, 0 < m -> 0 < h -> 0 < dens n w r l h -> 0 < h_converge < 1 ->
  Rabs (held r l h - h_fac ^ n * m) <= h_converge / 2 * (h_fac ^ n * m) ->
  Rabs (h - func m (dens n w r l h)) < h_converge * h.
Proof.
  intros m r l h Hm Hh Hd Ht HA.
  destruct (func_held m r l h Hm Hh Hd) as (Px & Ex). set (x := func m (dens n w r l h) / h) in *.
  assert (K : 0 < h_fac ^ n * m) by (apply Rmult_lt_0_compat; [apply pow_lt; exact HF | exact Hm]).
  set (T := held r l h) in *. set (KK := h_fac ^ n * m) in *.
  assert (HB : (1 - h_converge / 2) * KK <= T <= (1 + h_converge / 2) * KK).
  { pose proof (Rle_abs (T - KK)) as B1. pose proof (Rle_abs (- (T - KK))) as B2. rewrite Rabs_Ropp in B2. lra. }
  assert (G : 1 - h_converge < x < 1 + h_converge).
  { destruct (Rle_lt_dec 1 x) as [C|C].
    - pose proof (pow_ge1 x n C N1) as Q. split; [lra|].
      assert (x * T <= KK). { rewrite <- Ex. apply Rmult_le_compat_r; [|exact Q]. nra. }
      assert (x * ((1 - h_converge / 2) * KK) <= KK) by nra.
      apply Rnot_le_lt. intros D.
      assert ((1 + h_converge) * ((1 - h_converge / 2) * KK) <= KK).
      { eapply Rle_trans; [|exact H0]. apply Rmult_le_compat_r; [nra|exact D]. }
      assert (0 < (h_converge / 2) * (1 - h_converge) * KK) by (apply Rmult_lt_0_compat; [apply Rmult_lt_0_compat; lra|exact K]). nra.
    - pose proof (pow_le1 x n (conj (Rlt_le _ _ Px) (Rlt_le _ _ C)) N1) as Q. split; [|lra].
      assert (KK <= x * T). { rewrite <- Ex. apply Rmult_le_compat_r; [|exact Q]. nra. }
      assert (KK <= x * ((1 + h_converge / 2) * KK)) by nra.
      apply Rnot_le_lt. intros D. nra. }
  replace (h - func m (dens n w r l h)) with ((1 - x) * h) by (unfold x; field; lra).
  rewrite Rabs_mult, (Rabs_right h) by lra. apply Rmult_lt_compat_r; [exact Hh|].
  apply Rabs_def1; lra.
Qed.

(** ** Bisection *)
Notation id := (fun x : R => x).
Section Bis.
Variables (m : R) (r : vec) (l : list dneib) (hmax lower Lam hs : R).
Hypothesis Hm : 0 < m.
Hypothesis HM : forall q, In q l -> 0 <= nb_m q.
Hypothesis HD : forall h, 0 < h -> 0 < dens n w r l h.
Hypothesis HS : forall h, 0 < h <= hmax -> small_number <= dens n w r l h.
Hypothesis HT : 0 < h_converge < 1.
Hypothesis L0 : 0 <= lower.
Hypothesis HSol : lower < hs < hmax /\ held r l hs = h_fac ^ n * m.
Hypothesis HLip : forall a b, 0 < a <= b -> b <= hmax -> held r l b - held r l a <= Lam * (b - a).
Hypothesis HLam : 0 <= Lam.
Hypothesis HE : Lam * (hmax - lower) / 2 ^ 120 <= h_converge / 2 * (h_fac ^ n * m).

Lemma bis : forall k it h lo hi, (30 <= it <= 149)%Z -> (k + Z.to_nat it = 150)%nat ->
  lower <= lo -> lo < hs < hi -> hi <= hmax -> h = 1 / 2 * (lo + hi) ->
  hi - lo <= (hmax - lower) / 2 ^ (Z.to_nat it - 30) ->
  hloop n s2 h_fac h_converge id k m r l hmax it h lo hi <> NoConv.
Proof.
  induction k as [|k IH]; intros it h lo hi Hit Hk Hlo Hhs Hhi Eh Hw; [lia|].
  cbn [hloop]. assert (Ph : 0 < h) by lra. rewrite rho_sum_dens by lra.
  set (rho := dens n w r l h). set (hn := func m rho).
  destruct (rltb 0 rho && rltb lo h && rltb (Rabs (h - hn) * (1 / h)) h_converge) eqn:B; [discriminate|].
  assert (NB : ~ Rabs (h - hn) < h_converge * h).
  { intros C. apply abs_div in C; [|exact Ph]. unfold rltb in B.
    destruct (Rlt_dec 0 rho) as [|D]; [|apply D, HD, Ph]. destruct (Rlt_dec lo h) as [|D]; [|lra].
    destruct (Rlt_dec _ h_converge) as [|D]; [discriminate|contradiction]. }
  assert (LT : hn < h <-> h_fac ^ n * m < held r l h) by (apply func_lt; auto).
  destruct HSol as (HsB & HsE).
  (* where the solution lies *)
  assert (SIDE : (hn < h /\ hs < h) \/ (~ hn < h /\ h < hs)).
  { destruct (Rlt_le_dec hn h) as [C|C].
    - left. split; [exact C|]. apply LT in C. apply Rnot_le_lt. intros D.
      assert (held r l h <= held r l hs) by (apply held_mono; [auto|lra]). lra.
    - right. split; [lra|]. apply Rnot_le_lt. intros D.
      assert (G1 : held r l hs <= held r l h) by (apply held_mono; [auto|lra]).
      assert (G2 : held r l h = h_fac ^ n * m).
      { apply Rle_antisym; [|lra]. apply Rnot_lt_le. intros X. apply LT in X. lra. }
      apply NB. apply near; auto. rewrite G2, Rminus_eq_0, Rabs_R0.
      apply Rmult_le_pos; [lra|]. apply Rmult_le_pos; [apply pow_le|]; lra. }
  assert (P2 : forall j, 0 < 2 ^ j) by (intros; apply pow_lt; lra).
  destruct ((it + 1 <? 30)%Z) eqn:C1; [apply Z.ltb_lt in C1; lia|].
  destruct ((it + 1 =? 30)%Z) eqn:C2; [apply Z.eqb_eq in C2; lia|].
  destruct ((it + 1 <? 150)%Z) eqn:C3.
  - apply Z.ltb_lt in C3.
    assert (Sm : rltb rho small_number = false).
    { unfold rltb. destruct (Rlt_dec rho small_number) as [D|]; [|reflexivity].
      assert (small_number <= rho) by (apply HS; lra). lra. }
    rewrite Sm. cbn [orb].
    assert (HW : forall a b, lower <= a -> a < hs < b -> b <= hmax -> b - a = (hi - lo) / 2 ->
       (if rltb hmax (1 / 2 * (a + b)) then TooBig (1 / 2 * (a + b))
        else if rltb a (1 / 2 * (a + b)) && rltb (1 / 2 * (a + b)) b
             then hloop n s2 h_fac h_converge id k m r l hmax (it + 1) (1 / 2 * (a + b)) a b else Left h a) <> NoConv).
    { intros a b Ha Hs Hb E. destruct (rltb hmax _); [discriminate|].
      destruct (rltb a _ && rltb _ b); [|discriminate].
      apply IH; auto; [lia | lia |].
      rewrite E. replace (Z.to_nat (it + 1) - 30)%nat with (S (Z.to_nat it - 30)) by lia.
      cbn [pow]. specialize (P2 (Z.to_nat it - 30)%nat).
      replace ((hmax - lower) / (2 * 2 ^ (Z.to_nat it - 30))) with ((hmax - lower) / 2 ^ (Z.to_nat it - 30) / 2) by (field; lra). lra. }
    unfold rltb at 1. destruct SIDE as [(S1 & S2)|(S1 & S2)]; (destruct (Rlt_dec hn h) as [D|D]; [|try contradiction]); try contradiction.
    + apply HW; lra.
    + apply HW; lra.
  - apply Z.ltb_ge in C3. exfalso. assert (it = 149%Z) by lia. subst it.
    change (Z.to_nat 149 - 30)%nat with 119%nat in Hw.
    assert (W2 : (hi - lo) / 2 <= (hmax - lower) / 2 ^ 120).
    { change (2 ^ 120) with (2 * 2 ^ 119). specialize (P2 119%nat).
      replace ((hmax - lower) / (2 * 2 ^ 119)) with ((hmax - lower) / 2 ^ 119 / 2) by (field; lra). lra. }
    apply NB. apply near; auto.
    assert (AB : Rabs (held r l h - h_fac ^ n * m) <= Lam * ((hi - lo) / 2)).
    { rewrite <- HsE. destruct SIDE as [(S1 & S2)|(S1 & S2)].
      - assert (G := HLip hs h ltac:(lra) ltac:(lra)).
        assert (G' : held r l hs <= held r l h) by (apply held_mono; [auto|lra]).
        rewrite Rabs_right by lra. eapply Rle_trans; [exact G|]. apply Rmult_le_compat_l; [exact HLam|lra].
      - assert (G := HLip h hs ltac:(lra) ltac:(lra)).
        assert (G' : held r l h <= held r l hs) by (apply held_mono; [auto|lra]).
        rewrite Rabs_minus_sym, Rabs_right by lra. eapply Rle_trans; [exact G|]. apply Rmult_le_compat_l; [exact HLam|lra]. }
    eapply Rle_trans; [exact AB|]. eapply Rle_trans; [|exact HE].
    replace (Lam * (hmax - lower) / 2 ^ 120) with (Lam * ((hmax - lower) / 2 ^ 120)) by (unfold Rdiv; ring).
    apply Rmult_le_compat_l; assumption.
Qed.

Lemma fixed : forall k it h, (0 <= it <= 29)%Z -> (k + Z.to_nat it = 150)%nat -> 0 < h <= hmax ->
  hloop n s2 h_fac h_converge id k m r l hmax it h lower hmax <> NoConv.
Proof.
  induction k as [|k IH]; intros it h Hit Hk Hh; [lia|].
  cbn [hloop]. rewrite rho_sum_dens by lra.
  set (rho := dens n w r l h). set (hn := func m rho).
  destruct (rltb 0 rho && _ && _); [discriminate|].
  destruct ((it + 1 <? 30)%Z) eqn:C1.
  - apply Z.ltb_lt in C1. destruct (rltb hmax hn) eqn:T; [discriminate|]. apply rltb_f in T.
    destruct (rltb lower hn && rltb hn hmax) eqn:W; [|discriminate].
    apply andb_true_iff in W. destruct W as (W1 & W2). apply rltb_t in W1. apply IH; [lia | lia | lra].
  - apply Z.ltb_ge in C1. assert (it = 29%Z) by lia. subst it. cbn [Z.add Z.eqb Pos.add Pos.eqb Pos.succ].
    destruct (rltb hmax _); [discriminate|]. destruct (rltb lower _ && rltb _ hmax); [|discriminate].
    change (29 + 1)%Z with 30%Z. apply bis; auto; try lia; try lra.
    change (2 ^ (Z.to_nat 30 - 30)) with 1. lra.
Qed.
End Bis.
End D3.
