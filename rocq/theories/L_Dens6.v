(** The grad-h terms. *)
From Verif Require Import Prelude Vec M_Box L_Box M_Force M_Dens S_Dens S_Dens2 S_Stock L_Stock M_Kernel S_Kernel L_Dens L_Dens2.
From Coq Require Import Reals Lra Lia Psatz.
From Coquelicot Require Import Coquelicot.
Local Open Scope R_scope.

Lemma is_derive_lsum : forall {A} (f : A -> R -> R) (f' : A -> R) (x : R) l, (forall k, In k l -> is_derive (f k) x (f' k)) ->
  is_derive (fun t => lsum (fun k => f k t) l) x (lsum f' l).
Proof.
  intros A f f' x l. induction l as [|k l IH]; intros H; cbn.
  - apply (is_derive_const 0 x).
  - apply (is_derive_plus (f k) (fun t => lsum (fun k => f k t) l) x (f' k) (lsum f' l)); [apply H; left; reflexivity|].
    apply IH. intros k' Hk. apply H. right. exact Hk.
Qed.
Lemma is_derive_val : forall (f : R -> R) (x a b : R), is_derive f x a -> a = b -> is_derive f x b.
Proof. intros f x a b H E. rewrite <- E. exact H. Qed.

(** A function of s = d/h divided by a power of h. *)
Lemma term_derive : forall f f1 (d h : R -> R) d' h' n, (1 <= n)%nat -> (forall s, is_derive f s (f1 s)) ->
  is_derive d 0 d' -> is_derive h 0 h' -> 0 < h 0 ->
  is_derive (fun t => f (d t / h t) / h t ^ n) 0
    (f1 (d 0 / h 0) / h 0 ^ S n * d' - (INR n * f (d 0 / h 0) + d 0 / h 0 * f1 (d 0 / h 0)) / h 0 ^ S n * h').
Proof.
  intros f f1 d h d' h' n N1 Hf Hd Hh P. destruct n as [|n]; [lia|].
  assert (Pn : h 0 ^ n <> 0) by (apply pow_nonzero; lra).
  eapply is_derive_val.
  - apply (is_derive_div (fun t => f (d t / h t)) (fun t => h t ^ S n) 0).
    + apply (is_derive_comp f (fun t => d t / h t) 0); [apply Hf|].
      apply (is_derive_div d h 0); [exact Hd | exact Hh | lra].
    + apply is_derive_pow. exact Hh.
    + apply pow_nonzero. lra.
  - unfold scal, plus, minus, opp, mult. cbn -[INR]. unfold mult. cbn -[INR]. field. split; [lra | exact Pn].
Qed.

Section D6.
Variables (n : nat) (range : R) (w w1 om : R -> R) (h_fac : R).
Hypothesis N1 : (1 <= n)%nat.
Hypothesis DK : density_kernel n range w w1 om.
Variables (p : dpart) (ts : list track) (h rho : R -> R).
Hypothesis MV : moving n w h_fac p ts h rho.
Let l := map k_nb ts.
Let h0 := p_h p.
Let slope := lsum (fun k => nb_m (k_nb k) * (w1 (k_d k 0 / h0) / h0 ^ S n) * k_rate k) ts.
Let omsum := lsum (fun k => nb_m (k_nb k) * (om (k_d k 0 / h0) / h0 ^ S n)) ts.

Lemma h0_pos : 0 < h0.
Proof. pose proof (locally_singleton _ _ (mv_fits _ _ _ _ _ _ _ MV)) as (H & _). rewrite (mv_h _ _ _ _ _ _ _ MV) in H. exact H. Qed.

Lemma rho_derive : forall h', is_derive h 0 h' -> is_derive rho 0 (slope + omsum * h').
Proof.
  intros h' Hh. pose proof h0_pos as P. 
  apply (is_derive_ext_loc (fun t => lsum (fun k => nb_m (k_nb k) * (w (k_d k t / h t) / h t ^ n)) ts)).
  { generalize (mv_dens _ _ _ _ _ _ _ MV). apply filter_imp. intros t E. symmetry. exact E. }
  unfold slope, omsum. rewrite lsum_div, <- lsum_plus.
  apply (is_derive_lsum (fun k t => nb_m (k_nb k) * (w (k_d k t / h t) / h t ^ n))). intros k Hk.
  eapply is_derive_val.
  - apply (is_derive_scal (fun t => w (k_d k t / h t) / h t ^ n) 0 (nb_m (k_nb k))).
    apply (term_derive w w1 (k_d k) h (k_rate k) h' n N1 (dk_deriv _ _ _ _ _ DK) (mv_rate _ _ _ _ _ _ _ MV k Hk) Hh).
    rewrite (mv_h _ _ _ _ _ _ _ MV). exact P.
  - rewrite (mv_h _ _ _ _ _ _ _ MV). fold h0. rewrite (dk_omega _ _ _ _ _ DK). unfold scal, mult. cbn -[INR pow]. unfold mult. cbn -[INR pow]. unfold Rdiv. ring.
Qed.

(** The length follows the density. *)
Lemma h_follows : forall h' r', is_derive h 0 h' -> is_derive rho 0 r' -> 0 < rho 0 -> h' = - h0 / (INR n * rho 0) * r'.
Proof.
  intros h' r' Hh Hr Pr. pose proof h0_pos as P. pose proof (mv_h _ _ _ _ _ _ _ MV) as E0. fold h0 in E0.
  destruct n as [|m] eqn:En; [lia|].
  assert (D : is_derive (fun t => h t ^ S m * rho t) 0 (INR (S m) * h' * h 0 ^ m * rho 0 + h 0 ^ S m * r')).
  { eapply is_derive_val; [apply (is_derive_mult (fun t => h t ^ S m) rho 0); [apply is_derive_pow; exact Hh | exact Hr | intros; apply Rmult_comm]|].
    unfold plus, mult. cbn -[INR pow]. ring. }
  assert (D2 : is_derive (fun t => h t ^ S m * rho t) 0 0).
  { apply (is_derive_ext_loc (fun _ => h_fac ^ S m * p_m p)); [|apply (is_derive_const (h_fac ^ S m * p_m p) 0)].
    generalize (mv_fits _ _ _ _ _ _ _ MV). apply filter_imp. intros t (_ & E). symmetry. exact E. }
  apply is_derive_unique in D. apply is_derive_unique in D2. rewrite D in D2. rewrite E0 in D2.
  assert (Pn : 0 < h0 ^ m) by (apply pow_lt; exact P).
  assert (NN : 0 < INR (S m)) by (apply lt_0_INR; lia).
  assert (D3 : INR (S m) * rho 0 * h' + h0 * r' = 0).
  { apply Rmult_eq_reg_l with (h0 ^ m); [|lra]. rewrite Rmult_0_r. etransitivity; [|exact D2]. change (h0 ^ S m) with (h0 * h0 ^ m). ring. }
  apply Rmult_eq_reg_l with (INR (S m) * rho 0); [|apply Rgt_not_eq, Rmult_lt_0_compat; assumption].
  replace (INR (S m) * rho 0 * (- h0 / (INR (S m) * rho 0) * r')) with (- (h0 * r')) by (field; split; lra). lra.
Qed.

Lemma rho_rate : 0 < rho 0 -> 1 + h0 / (INR n * rho 0) * omsum <> 0 ->
  is_derive rho 0 (slope / (1 + h0 / (INR n * rho 0) * omsum)) /\
  is_derive h 0 (- h0 / (INR n * rho 0) * (slope / (1 + h0 / (INR n * rho 0) * omsum))).
Proof.
  intros Pr HO. destruct (mv_diff _ _ _ _ _ _ _ MV) as (h' & Hh). pose proof (rho_derive h' Hh) as Hr.
  pose proof (h_follows h' _ Hh Hr Pr) as E.
  assert (NN : 0 < INR n) by (apply lt_0_INR; lia).
  assert (E1 : slope + omsum * h' = slope / (1 + h0 / (INR n * rho 0) * omsum)).
  { apply Rmult_eq_reg_r with (1 + h0 / (INR n * rho 0) * omsum); [|exact HO].
    replace (slope / (1 + h0 / (INR n * rho 0) * omsum) * (1 + h0 / (INR n * rho 0) * omsum)) with slope by (field; split; [lra|split; [lra|]]; intros Z; apply HO; apply Rmult_eq_reg_l with (INR n * rho 0); [|apply Rgt_not_eq, Rmult_lt_0_compat; assumption]; field_simplify; lra).
    set (S_ := slope + omsum * h') in *. 
    replace (S_ * (1 + h0 / (INR n * rho 0) * omsum)) with (S_ - omsum * (- h0 / (INR n * rho 0) * S_)) by (unfold Rdiv; ring).
    rewrite <- E. unfold S_. ring. }
  rewrite E1 in Hr, E. split; [exact Hr|]. rewrite <- E. exact Hh.
Qed.
End D6.
