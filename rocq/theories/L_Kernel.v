(** Proofs about the smoothing kernels. *)
From Verif Require Import Prelude Vec M_Box L_Box M_Kernel S_Kernel.
From Coq Require Import Reals Lra Lia Psatz.
From Coquelicot Require Import Coquelicot.
Local Open Scope R_scope.

(** ** Gluing two functions at a point *)
Definition pw (a : R) (f g : R -> R) (s : R) : R := if rltb s a then f s else g s.

Lemma pw_lt : forall a f g s, s < a -> pw a f g s = f s.
Proof. intros. unfold pw, rltb. destruct (Rlt_dec s a); [reflexivity | lra]. Qed.
Lemma pw_ge : forall a f g s, a <= s -> pw a f g s = g s.
Proof. intros. unfold pw, rltb. destruct (Rlt_dec s a); [lra | reflexivity]. Qed.

Lemma loc_lt : forall (a s : R), s < a -> locally s (fun x => x < a).
Proof. intros a s H. apply open_lt. exact H. Qed.
Lemma loc_gt : forall (a s : R), a < s -> locally s (fun x => a < x).
Proof. intros a s H. apply open_gt. exact H. Qed.

Lemma pw_derive_at : forall a f g l, is_derive f a l -> is_derive g a l -> f a = g a ->
  is_derive (pw a f g) a l.
Proof.
  intros a f g l Hf Hg E.
  apply is_derive_Reals in Hf. apply is_derive_Reals in Hg. apply is_derive_Reals.
  intros eps He. destruct (Hf eps He) as [d1 H1]. destruct (Hg eps He) as [d2 H2].
  assert (0 < Rmin d1 d2) as Hp by (apply Rmin_pos; [apply d1 | apply d2]).
  exists (mkposreal _ Hp). intros h Hh Hlt. cbn in Hlt.
  pose proof (Rmin_l d1 d2). pose proof (Rmin_r d1 d2).
  rewrite (pw_ge a f g a) by lra. destruct (Rlt_le_dec h 0) as [Hn|Hn].
  - rewrite pw_lt by lra. rewrite <- E. apply H1; [exact Hh | lra].
  - rewrite pw_ge by lra. apply H2; [exact Hh | lra].
Qed.

Lemma pw_derive : forall a f g f' g' s,
  (s <= a -> is_derive f s (f' s)) -> (a <= s -> is_derive g s (g' s)) ->
  f a = g a -> f' a = g' a -> is_derive (pw a f g) s (pw a f' g' s).
Proof.
  intros a f g f' g' s Hf Hg E E'.
  destruct (Rtotal_order s a) as [H|[H|H]].
  - rewrite pw_lt by exact H. apply is_derive_ext_loc with f.
    + generalize (loc_lt a s H). apply filter_imp. intros x Hx. symmetry. apply pw_lt. exact Hx.
    + apply Hf. lra.
  - subst s. rewrite pw_ge by lra. apply pw_derive_at; [rewrite <- E'; apply Hf; lra | apply Hg; lra | exact E].
  - rewrite pw_ge by lra. apply is_derive_ext_loc with g.
    + generalize (loc_gt a s H). apply filter_imp. intros x Hx. symmetry. apply pw_ge. lra.
    + apply Hg. lra.
Qed.

Lemma pw_cont : forall a f g s,
  (s <= a -> continuous f s) -> (a <= s -> continuous g s) -> f a = g a -> continuous (pw a f g) s.
Proof.
  intros a f g s Hf Hg E. destruct (Rtotal_order s a) as [H|[H|H]].
  - apply continuous_ext_loc with f; [|apply Hf; lra].
    generalize (loc_lt a s H). apply filter_imp. intros x Hx. symmetry. apply pw_lt. exact Hx.
  - subst s. specialize (Hf ltac:(lra)). specialize (Hg ltac:(lra)).
    apply continuity_pt_filterlim. apply continuity_pt_filterlim in Hf. apply continuity_pt_filterlim in Hg.
    intros eps He. destruct (Hf eps He) as [d1 [P1 H1]]. destruct (Hg eps He) as [d2 [P2 H2]].
    exists (Rmin d1 d2). split; [apply Rmin_pos; assumption|].
    intros x [Hx Hd]. pose proof (Rmin_l d1 d2). pose proof (Rmin_r d1 d2).
    rewrite (pw_ge a f g a) by lra. destruct (Rlt_le_dec x a) as [L|L].
    + rewrite pw_lt by lra. rewrite <- E. apply H1. split; [exact Hx | lra].
    + rewrite pw_ge by lra. apply H2. split; [exact Hx | lra].
  - apply continuous_ext_loc with g; [|apply Hg; lra].
    generalize (loc_gt a s H). apply filter_imp. intros x Hx. symmetry. apply pw_ge. lra.
Qed.

(** A function with a non-positive derivative on [0, oo) does not increase there. *)
Lemma decr_of_derive : forall (f f' : R -> R), (forall s, is_derive f s (f' s)) ->
  (forall s, 0 <= s -> f' s <= 0) -> forall s t, 0 <= s <= t -> f t <= f s.
Proof.
  intros f f' Hd Hn s t [Hs Ht]. destruct (Req_dec s t) as [->|Hne]; [lra|].
  destruct (MVT_cor2 f f' s t) as [c [Ec [Hc1 Hc2]]]; [lra | intros; apply is_derive_Reals; apply Hd |].
  assert (f' c <= 0) by (apply Hn; lra). nra.
Qed.

Ltac dpoly := intros; auto_derive; [try (repeat split; lra || nra) | ].
Ltac fld := intros; cbv beta; match goal with |- @eq _ ?x ?y => change (@eq R x y) end; field.
Ltac cpoly := intros; apply (@ex_derive_continuous R_AbsRing R_NormedModule); auto_derive; try (repeat split; lra || nra).

Lemma m4_norm_pos : forall n, (1 <= n <= 3)%nat -> 0 < m4_kernnorm n.
Proof.
  intros n Hn. pose proof PI_RGT_0 as Hp. pose proof (Rinv_0_lt_compat _ Hp).
  destruct n as [|[|[|[|n]]]]; try lia; cbn [m4_kernnorm]; unfold invpi; lra.
Qed.
Lemma q_norm_pos : forall n, (1 <= n <= 3)%nat -> 0 < q_kernnorm n.
Proof.
  intros n Hn. pose proof PI_RGT_0 as Hp. pose proof (Rinv_0_lt_compat _ Hp).
  destruct n as [|[|[|[|n]]]]; try lia; cbn [q_kernnorm]; unfold invpi; lra.
Qed.

(** ** M4 *)
Lemma m4_w_derive : forall n s, is_derive (m4_w0 n) s (m4_w1 n s).
Proof.
  intros n s.
  change (is_derive (pw 1 (fun s => m4_kernnorm n * (1 - (3/2)*s*s + (3/4)*s*s*s))
    (pw 2 (fun s => (1/4) * m4_kernnorm n * (2 - s)^3) (fun _ => 0))) s
    (pw 1 (fun s => m4_kernnorm n * (-3*s + (9/4)*s*s))
      (pw 2 (fun s => -(3/4) * m4_kernnorm n * (2 - s) * (2 - s)) (fun _ => 0)) s)).
  set (k := m4_kernnorm n).
  apply pw_derive.
  - dpoly. fld.
  - intros _. apply pw_derive.
    + dpoly. fld.
    + dpoly. ring.
    + fld.
    + fld.
  - rewrite pw_lt by lra. fld.
  - rewrite pw_lt by lra. fld.
Qed.

Lemma m4_w1_cont : forall n s, continuous (m4_w1 n) s.
Proof.
  intros n s.
  change (continuous (pw 1 (fun s => m4_kernnorm n * (-3*s + (9/4)*s*s))
      (pw 2 (fun s => -(3/4) * m4_kernnorm n * (2 - s) * (2 - s)) (fun _ => 0))) s).
  apply pw_cont; [cpoly | intros _; apply pw_cont; [cpoly | cpoly | fld] |].
  rewrite pw_lt by lra. fld.
Qed.

Lemma m4_omega : forall n s, m4_womega n s = - (INR n * m4_w0 n s + s * m4_w1 n s).
Proof.
  intros n s. unfold m4_womega, m4_w0, m4_w1, rltb.
  destruct (Rlt_dec s 1); [fld|]. destruct (Rlt_dec s 2); [fld|ring].
Qed.

Lemma m4_w1_neg : forall n s, (1 <= n <= 3)%nat -> 0 <= s -> m4_w1 n s <= 0.
Proof.
  intros n s Hn Hs. pose proof (m4_norm_pos n Hn) as Hk. unfold m4_w1, rltb.
  destruct (Rlt_dec s 1); [|destruct (Rlt_dec s 2); [|lra]].
  - assert (-3*s + (9/4)*s*s <= 0) by nra. nra.
  - assert (0 <= (2-s)*(2-s)) by nra. nra.
Qed.

Lemma m4_inside : forall n s, (1 <= n <= 3)%nat -> 0 <= s < 2 -> 0 < m4_w0 n s.
Proof.
  intros n s Hn Hs. pose proof (m4_norm_pos n Hn) as Hk. unfold m4_w0, rltb.
  destruct (Rlt_dec s 1); [|destruct (Rlt_dec s 2); [|lra]].
  - apply Rmult_lt_0_compat; [exact Hk|]. assert (0 <= s*s*s) by (apply Rmult_le_pos; nra). 
    assert (s*s*s >= 0) by lra. nra.
  - assert (0 < (2-s)^3) by (apply pow_lt; lra). apply Rmult_lt_0_compat; [lra | assumption].
Qed.

Lemma m4_density : forall n, (1 <= n <= 3)%nat ->
  density_kernel n m4_kernrange (m4_w0 n) (m4_w1 n) (m4_womega n).
Proof.
  intros n Hn. assert (forall s, 2 <= s -> m4_w0 n s = 0 /\ m4_w1 n s = 0) as Hout.
  { intros s Hs. unfold m4_w0, m4_w1, rltb. destruct (Rlt_dec s 1); [lra|]. destruct (Rlt_dec s 2); [lra|]. auto. }
  split.
  - apply m4_w_derive.
  - apply m4_w1_cont.
  - apply m4_omega.
  - intros s Hs. destruct (Rlt_le_dec s 2); [apply Rlt_le, m4_inside; [exact Hn | lra] |].
    destruct (Hout s) as [-> _]; lra.
  - unfold m4_kernrange. intros s Hs. apply m4_inside; assumption.
  - apply decr_of_derive with (m4_w1 n); [apply m4_w_derive | intros; apply m4_w1_neg; assumption].
  - unfold m4_kernrange. intros s Hs. rewrite m4_omega. destruct (Hout s Hs) as [-> ->]. repeat split; ring.
Qed.

Lemma m4_pot_derive : forall s, is_derive m4_wpot s (- m4_wgrav s).
Proof.
  intros s.
  replace (- m4_wgrav s) with
    (pw 1 (fun s => - ((4/3)*s - (6/5)*s^3 + (1/2)*s^4))
       (pw 2 (fun s => - ((8/3)*s - 3*s*s + (6/5)*s^3 - (1/6)*s^4 - (1/15)/(s*s)))
             (fun s => - (1/(s*s)))) s).
  2:{ unfold m4_wgrav, pw. destruct (rltb s 1); [reflexivity|]. destruct (rltb s 2); reflexivity. }
  change (is_derive (pw 1 (fun s => (7/5) - (2/3)*s*s + (3/10)*s^4 - (1/10)*s^5)
    (pw 2 (fun s => - (1)/(15*s) + (8/5) - (4/3)*s*s + s^3 - (3/10)*s^4 + (1/30)*s^5) (fun s => 1/s))) s
    (pw 1 (fun s => - ((4/3)*s - (6/5)*s^3 + (1/2)*s^4))
       (pw 2 (fun s => - ((8/3)*s - 3*s*s + (6/5)*s^3 - (1/6)*s^4 - (1/15)/(s*s)))
             (fun s => - (1/(s*s)))) s)).
  apply pw_derive.
  - dpoly. fld.
  - intros H1. apply pw_derive.
    + dpoly. fld. lra.
    + dpoly. fld. lra.
    + fld.
    + fld.
  - rewrite pw_lt by lra. fld.
  - rewrite pw_lt by lra. fld.
Qed.

Lemma m4_grav_cont : forall s, continuous m4_wgrav s.
Proof.
  intros s.
  change (continuous (pw 1 (fun s => (4/3)*s - (6/5)*s^3 + (1/2)*s^4)
       (pw 2 (fun s => (8/3)*s - 3*s*s + (6/5)*s^3 - (1/6)*s^4 - (1/15)/(s*s))
             (fun s => 1/(s*s)))) s).
  apply pw_cont; [cpoly | intros H1; apply pw_cont; [cpoly | cpoly | fld] |].
  rewrite pw_lt by lra. fld.
Qed.

Lemma m4_grav_pos : forall s, 0 < s -> 0 < m4_wgrav s.
Proof.
  intros s Hs. unfold m4_wgrav, rltb.
  destruct (Rlt_dec s 1); [|destruct (Rlt_dec s 2)].
  - replace (4/3*s - (6/5)*s^3 + (1/2)*s^4) with (s*(4/3 - (6/5)*s^2 + (1/2)*s^3)) by ring.
    apply Rmult_lt_0_compat; [exact Hs|]. assert (0 < s^3) by (apply pow_lt; lra). nra.
  - apply Rmult_lt_reg_l with (s^2); [apply pow_lt; lra|]. rewrite Rmult_0_r.
    replace (s^2*(8/3*s - 3*s*s + (6/5)*s^3 - 1/6*s^4 - 1/15/(s*s)))
      with (8/3*s^3 - 3*s^4 + (6/5)*s^5 - 1/6*s^6 - 1/15) by (fld; lra).
    (* with u = 2 - s in (0,1]: the value is 1 minus a small polynomial *)
    assert (exists u, s = 2 - u) as [u Hu] by (exists (2 - s); ring). subst s.
    assert (0 < u <= 1) by lra.
    replace (8/3*(2-u)^3 - 3*(2-u)^4 + (6/5)*(2-u)^5 - 1/6*(2-u)^6 - 1/15)
      with (1 - u^4*(1 - 4/5*u + 1/6*u^2)) by fld.
    assert (u^4 <= 1). { assert (0 <= u^2 <= 1) by nra. replace (u^4) with (u^2*u^2) by ring. nra. }
    assert (0 <= u^4) by (apply pow_le; lra).
    assert (0 < 1 - 4/5*u + 1/6*u^2 < 1) by (split; nra). nra.
  - apply Rdiv_lt_0_compat; nra.
Qed.

Lemma m4_gravity : gravity_kernel m4_kernrange m4_wgrav m4_wpot m4_wzeta.
Proof.
  split.
  - apply m4_pot_derive.
  - apply m4_grav_cont.
  - intros s. rewrite (is_derive_unique _ _ _ (m4_pot_derive s)).
    unfold m4_wzeta, m4_wpot, m4_wgrav, rltb.
    destruct (Rlt_dec s 1); [fld|]. destruct (Rlt_dec s 2); fld; lra.
  - unfold m4_kernrange. intros s Hs. unfold m4_wgrav, m4_wpot, rltb.
    destruct (Rlt_dec s 1); [lra|]. destruct (Rlt_dec s 2); [lra|]. split; fld; lra.
  - unfold m4_wgrav, rltb. destruct (Rlt_dec 0 1); [ring | lra].
  - apply m4_grav_pos.
Qed.

(** Integration of a piecewise polynomial. *)
Lemma is_RInt_poly : forall (F f g : R -> R) a b v, a < b ->
  (forall x, is_derive F x (f x)) -> (forall x, continuous f x) ->
  (forall x, a < x < b -> g x = f x) -> F b - F a = v -> is_RInt g a b v.
Proof.
  intros F f g a b v Hab HF Hf Hg <-. apply is_RInt_ext with f.
  - intros x Hx. rewrite Rmin_left, Rmax_right in Hx by lra. symmetry. apply Hg. exact Hx.
  - apply (is_RInt_derive (V:=R_CompleteNormedModule) F f); intros; [apply HF | apply Hf].
Qed.

Lemma m4_normalised : forall n, (1 <= n <= 3)%nat -> normalised n m4_kernrange (m4_w0 n).
Proof.
  intros n Hn. unfold normalised, m4_kernrange. pose proof PI_neq0 as Hpi.
  set (k := m4_kernnorm n).
  assert (forall x, 0 < x < 1 -> m4_w0 n x = k * (1 - (3/2)*x*x + (3/4)*x*x*x)) as E1.
  { intros x Hx. unfold m4_w0, rltb. destruct (Rlt_dec x 1); [reflexivity | lra]. }
  assert (forall x, 1 < x < 2 -> m4_w0 n x = (1/4) * k * (2 - x)^3) as E2.
  { intros x Hx. unfold m4_w0, rltb. destruct (Rlt_dec x 1); [lra|]. destruct (Rlt_dec x 2); [reflexivity | lra]. }
  assert (forall v1 v2, is_RInt (fun s => shell n s * m4_w0 n s) 0 1 v1 ->
     is_RInt (fun s => shell n s * m4_w0 n s) 1 2 v2 -> v1 + v2 = 1 ->
     is_RInt (fun s => shell n s * m4_w0 n s) 0 2 1) as Hs.
  { intros v1 v2 H1 H2 <-. apply (is_RInt_Chasles (V:=R_NormedModule) _ 0 1 2 v1 v2 H1 H2). }
  unfold m4_kernnorm, invpi in k.
  destruct n as [|[|[|[|n]]]]; try lia; cbn [shell].
  - eapply Hs.
    + apply (is_RInt_poly (fun x => 2*k*(x - (1/2)*x^3 + (3/16)*x^4))
        (fun x => 2*(k * (1 - (3/2)*x*x + (3/4)*x*x*x)))); [lra | dpoly; fld | cpoly | | reflexivity].
      intros x Hx. rewrite E1 by lra. reflexivity.
    + apply (is_RInt_poly (fun x => 2*k*(-(1/16)*(2-x)^4))
        (fun x => 2*((1/4) * k * (2 - x)^3))); [lra | dpoly; fld | cpoly | | reflexivity].
      intros x Hx. rewrite E2 by lra. reflexivity.
    + unfold k. fld.
  - eapply Hs.
    + apply (is_RInt_poly (fun x => 2*PI*k*(x^2/2 - (3/2)*x^4/4 + (3/4)*x^5/5))
        (fun x => 2*PI*x*(k * (1 - (3/2)*x*x + (3/4)*x*x*x)))); [lra | dpoly; fld | cpoly | | reflexivity].
      intros x Hx. rewrite E1 by lra. reflexivity.
    + apply (is_RInt_poly (fun x => 2*PI*k*(1/4)*(8*x^2/2 - 12*x^3/3 + 6*x^4/4 - x^5/5))
        (fun x => 2*PI*x*((1/4) * k * (2 - x)^3))); [lra | dpoly; fld | cpoly | | reflexivity].
      intros x Hx. rewrite E2 by lra. reflexivity.
    + unfold k. fld. exact Hpi.
  - eapply Hs.
    + apply (is_RInt_poly (fun x => 4*PI*k*(x^3/3 - (3/2)*x^5/5 + (3/4)*x^6/6))
        (fun x => 4*PI*(x*x)*(k * (1 - (3/2)*x*x + (3/4)*x*x*x)))); [lra | dpoly; fld | cpoly | | reflexivity].
      intros x Hx. rewrite E1 by lra. reflexivity.
    + apply (is_RInt_poly (fun x => 4*PI*k*(1/4)*(8*x^3/3 - 12*x^4/4 + 6*x^5/5 - x^6/6))
        (fun x => 4*PI*(x*x)*((1/4) * k * (2 - x)^3))); [lra | dpoly; fld | cpoly | | reflexivity].
      intros x Hx. rewrite E2 by lra. reflexivity.
    + unfold k. fld. exact Hpi.
Qed.

Lemma m4_drag_normalised : forall n, (1 <= n <= 3)%nat -> normalised n m4_kernrange (m4_wdrag n).
Proof.
  intros n Hn. unfold normalised, m4_kernrange. pose proof PI_neq0 as Hpi.
  set (k := m4_kernnorm n). set (d := m4_kernnormdrag n).
  assert (forall x, 0 < x < 1 -> m4_wdrag n x = d*x*x*(k * (1 - (3/2)*x*x + (3/4)*x*x*x))) as E1.
  { intros x Hx. unfold m4_wdrag, m4_w0, rltb. destruct (Rlt_dec x 1); [reflexivity | lra]. }
  assert (forall x, 1 < x < 2 -> m4_wdrag n x = d*x*x*((1/4) * k * (2 - x)^3)) as E2.
  { intros x Hx. unfold m4_wdrag, m4_w0, rltb. destruct (Rlt_dec x 1); [lra|]. destruct (Rlt_dec x 2); [reflexivity | lra]. }
  assert (forall v1 v2, is_RInt (fun s => shell n s * m4_wdrag n s) 0 1 v1 ->
     is_RInt (fun s => shell n s * m4_wdrag n s) 1 2 v2 -> v1 + v2 = 1 ->
     is_RInt (fun s => shell n s * m4_wdrag n s) 0 2 1) as Hs.
  { intros v1 v2 H1 H2 <-. apply (is_RInt_Chasles (V:=R_NormedModule) _ 0 1 2 v1 v2 H1 H2). }
  unfold m4_kernnorm, m4_kernnormdrag, invpi in k, d.
  destruct n as [|[|[|[|n]]]]; try lia; cbn [shell].
  - eapply Hs.
    + apply (is_RInt_poly (fun x => 2*d*k*(x^3/3 - (3/2)*x^5/5 + (3/4)*x^6/6))
        (fun x => 2*(d*x*x*(k * (1 - (3/2)*x*x + (3/4)*x*x*x))))); [lra | dpoly; fld | cpoly | | reflexivity].
      intros x Hx. rewrite E1 by lra. reflexivity.
    + apply (is_RInt_poly (fun x => 2*d*k*(1/4)*(8*x^3/3 - 12*x^4/4 + 6*x^5/5 - x^6/6))
        (fun x => 2*(d*x*x*((1/4) * k * (2 - x)^3)))); [lra | dpoly; fld | cpoly | | reflexivity].
      intros x Hx. rewrite E2 by lra. reflexivity.
    + unfold k, d. fld.
  - eapply Hs.
    + apply (is_RInt_poly (fun x => 2*PI*d*k*(x^4/4 - (3/2)*x^6/6 + (3/4)*x^7/7))
        (fun x => 2*PI*x*(d*x*x*(k * (1 - (3/2)*x*x + (3/4)*x*x*x))))); [lra | dpoly; fld | cpoly | | reflexivity].
      intros x Hx. rewrite E1 by lra. reflexivity.
    + apply (is_RInt_poly (fun x => 2*PI*d*k*(1/4)*(8*x^4/4 - 12*x^5/5 + 6*x^6/6 - x^7/7))
        (fun x => 2*PI*x*(d*x*x*((1/4) * k * (2 - x)^3)))); [lra | dpoly; fld | cpoly | | reflexivity].
      intros x Hx. rewrite E2 by lra. reflexivity.
    + unfold k, d. fld. exact Hpi.
  - eapply Hs.
    + apply (is_RInt_poly (fun x => 4*PI*d*k*(x^5/5 - (3/2)*x^7/7 + (3/4)*x^8/8))
        (fun x => 4*PI*(x*x)*(d*x*x*(k * (1 - (3/2)*x*x + (3/4)*x*x*x))))); [lra | dpoly; fld | cpoly | | reflexivity].
      intros x Hx. rewrite E1 by lra. reflexivity.
    + apply (is_RInt_poly (fun x => 4*PI*d*k*(1/4)*(8*x^5/5 - 12*x^6/6 + 6*x^7/7 - x^8/8))
        (fun x => 4*PI*(x*x)*(d*x*x*((1/4) * k * (2 - x)^3)))); [lra | dpoly; fld | cpoly | | reflexivity].
      intros x Hx. rewrite E2 by lra. reflexivity.
    + unfold k, d. fld. exact Hpi.
Qed.

Lemma m4_gauss : gauss_law (m4_w0 3) m4_wgrav.
Proof.
  intros s. pose proof PI_neq0 as Hpi.
  apply is_derive_ext with
    (pw 1 (fun x => x^2*((4/3)*x - (6/5)*x^3 + (1/2)*x^4))
     (pw 2 (fun x => x^2*((8/3)*x - 3*x*x + (6/5)*x^3 - (1/6)*x^4 - (1/15)/(x*x))) (fun x => x^2*(1/(x*x))))).
  { intros t. unfold pw, m4_wgrav. destruct (rltb t 1); [reflexivity|]. destruct (rltb t 2); reflexivity. }
  replace (4*PI*s^2*m4_w0 3 s) with
    (pw 1 (fun s => 4*s^2*(1 - (3/2)*s*s + (3/4)*s*s*s)) (pw 2 (fun s => s^2*(2-s)^3) (fun _ => 0)) s).
  2:{ unfold pw, m4_w0, m4_kernnorm, invpi. destruct (rltb s 1); [fld; exact Hpi|]. destruct (rltb s 2); [fld; exact Hpi|ring]. }
  apply pw_derive.
  - dpoly. fld.
  - intros H1. apply pw_derive.
    + dpoly. fld. lra.
    + dpoly. fld. lra.
    + fld.
    + fld.
  - rewrite pw_lt by lra. fld.
  - rewrite pw_lt by lra. fld.
Qed.
