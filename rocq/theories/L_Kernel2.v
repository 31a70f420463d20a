(** Proofs about the quintic and Gaussian kernels. *)
From Verif Require Import Prelude Vec M_Box L_Box M_Kernel S_Kernel L_Kernel.
From Coq Require Import Reals Lra Lia Psatz.
From Coquelicot Require Import Coquelicot.
Local Open Scope R_scope.

Ltac q_cases s :=
  unfold rltb;
  repeat match goal with |- context [Rlt_dec ?a ?b] => destruct (Rlt_dec a b); try (exfalso; lra) end.

(** ** Quintic *)
Lemma q_w_derive : forall n s, is_derive (q_w0 n) s (q_w1 n s).
Proof.
  intros n s.
  change (is_derive (pw 1 (fun s => q_kernnorm n * (66 - 60*s*s + 30*s^4 - 10*s^5))
    (pw 2 (fun s => q_kernnorm n * (51 + 75*s - 210*s*s + 150*s^3 - 45*s^4 + 5*s^5))
    (pw 3 (fun s => q_kernnorm n * (243 - 405*s + 270*s*s - 90*s^3 + 15*s^4 - s^5)) (fun _ => 0)))) s
    (pw 1 (fun s => q_kernnorm n * (-120*s + 120*s^3 - 50*s^4))
    (pw 2 (fun s => q_kernnorm n * (75 - 420*s + 450*s*s - 180*s^3 + 25*s^4))
    (pw 3 (fun s => q_kernnorm n * (-405 + 540*s - 270*s*s + 60*s^3 - 5*s^4)) (fun _ => 0))) s)).
  set (k := q_kernnorm n).
  apply pw_derive; [dpoly; fld | intros _; apply pw_derive; [dpoly; fld | intros _; apply pw_derive | |] | |].
  - dpoly. fld.
  - dpoly. ring.
  - fld.
  - fld.
  - rewrite pw_lt by lra. fld.
  - rewrite pw_lt by lra. fld.
  - rewrite pw_lt by lra. fld.
  - rewrite pw_lt by lra. fld.
Qed.

Lemma q_w1_cont : forall n s, continuous (q_w1 n) s.
Proof.
  intros n s.
  change (continuous (pw 1 (fun s => q_kernnorm n * (-120*s + 120*s^3 - 50*s^4))
    (pw 2 (fun s => q_kernnorm n * (75 - 420*s + 450*s*s - 180*s^3 + 25*s^4))
    (pw 3 (fun s => q_kernnorm n * (-405 + 540*s - 270*s*s + 60*s^3 - 5*s^4)) (fun _ => 0)))) s).
  apply pw_cont; [cpoly | intros _; apply pw_cont; [cpoly | intros _; apply pw_cont; [cpoly | cpoly | fld] |] |];
  rewrite pw_lt by lra; fld.
Qed.

Lemma q_omega : forall n s, q_womega n s = - (INR n * q_w0 n s + s * q_w1 n s).
Proof.
  intros n s. unfold q_womega, q_w0, q_w1. q_cases s; fld.
Qed.

Lemma pow_unit : forall u k, 0 <= u <= 1 -> 0 <= u^(S k) <= u^k.
Proof.
  intros u k Hu. assert (0 <= u^k) by (apply pow_le; lra). cbn [pow]. split; nra.
Qed.

Lemma q_w1_neg : forall n s, (1 <= n <= 3)%nat -> 0 <= s -> q_w1 n s <= 0.
Proof.
  intros n s Hn Hs. pose proof (q_norm_pos n Hn) as Hk. unfold q_w1. q_cases s.
  - replace (-120*s + 120*s^3 - 50*s^4) with (-(s*(120 - 120*s^2 + 50*s^3))) by ring.
    assert (0 <= s^3) by (apply pow_le; lra). assert (s^2 <= 1) by nra.
    assert (0 <= s*(120 - 120*s^2 + 50*s^3)) by (apply Rmult_le_pos; lra). nra.
  - assert (exists u, s = 2 - u) as [u Hu] by (exists (2 - s); ring). subst s.
    replace (75 - 420*(2-u) + 450*(2-u)*(2-u) - 180*(2-u)^3 + 25*(2-u)^4)
      with (-(5*(1 + 4*u + 6*u^2 + 4*u^3 - 5*u^4))) by ring.
    assert (0 <= u <= 1) as Hu by lra.
    pose proof (pow_unit u 1 Hu). pose proof (pow_unit u 2 Hu). pose proof (pow_unit u 3 Hu). nra.
  - replace (-405 + 540*s - 270*s*s + 60*s^3 - 5*s^4) with (-(5*(3-s)^4)) by ring.
    assert (0 <= (3-s)^4) by (apply pow_le; lra). nra.
  - lra.
Qed.

Lemma q_inside : forall n s, (1 <= n <= 3)%nat -> 0 <= s < 3 -> 0 < q_w0 n s.
Proof.
  intros n s Hn Hs. pose proof (q_norm_pos n Hn) as Hk. unfold q_w0.
  q_cases s; apply Rmult_lt_0_compat; try exact Hk.
  - assert (0 <= s <= 1) as Hu by lra. pose proof (pow_unit s 4 Hu). assert (s*s <= 1) by nra. lra.
  - assert (exists u, s = 2 - u) as [u Hu] by (exists (2 - s); ring). subst s.
    replace (51 + 75*(2-u) - 210*(2-u)*(2-u) + 150*(2-u)^3 - 45*(2-u)^4 + 5*(2-u)^5)
      with (1 + 5*u + 10*u^2 + 10*u^3 + 5*u^4 - 5*u^5) by ring.
    assert (0 <= u <= 1) as Hu by lra.
    pose proof (pow_unit u 1 Hu). pose proof (pow_unit u 2 Hu). pose proof (pow_unit u 3 Hu).
    pose proof (pow_unit u 4 Hu). lra.
  - replace (243 - 405*s + 270*s*s - 90*s^3 + 15*s^4 - s^5) with ((3-s)^5) by ring.
    apply pow_lt. lra.
Qed.

Lemma q_density : forall n, (1 <= n <= 3)%nat ->
  density_kernel n q_kernrange (q_w0 n) (q_w1 n) (q_womega n).
Proof.
  intros n Hn. assert (forall s, 3 <= s -> q_w0 n s = 0 /\ q_w1 n s = 0) as Hout.
  { intros s Hs. unfold q_w0, q_w1. q_cases s. auto. }
  split.
  - apply q_w_derive.
  - apply q_w1_cont.
  - apply q_omega.
  - intros s Hs. destruct (Rlt_le_dec s 3); [apply Rlt_le, q_inside; [exact Hn | lra] |].
    destruct (Hout s) as [-> _]; lra.
  - unfold q_kernrange. intros s Hs. apply q_inside; assumption.
  - apply decr_of_derive with (q_w1 n); [apply q_w_derive | intros; apply q_w1_neg; assumption].
  - unfold q_kernrange. intros s Hs. rewrite q_omega. destruct (Hout s Hs) as [-> ->]. repeat split; ring.
Qed.

(** The gravity kernel inside the range, as one function. *)
Definition q_pot_in : R -> R :=
  pw 1 (fun s => (12/359) * (-11*s*s + 3*s^4 - (5/7)*s^6 + (5/28)*s^7 + 478/14))
  (pw 2 (fun s => (12/359) * (-(17/2)*s*s - (25/4)*s^3 + (21/2)*s^4 - 5*s^5 + (15/14)*s^6 - (5/56)*s^7
                + 473/14 + (5/56)/s))
  (fun s => (12/359) * (-(81/2)*s*s + (135/4)*s^3 - (27/2)*s^4 + 3*s^5 - (5/14)*s^6 + (1/56)*s^7
                + 729/14 - (507/56)/s))).
Definition q_grav_in : R -> R :=
  pw 1 (fun s => (12/359) * (22*s - 12*s^3 + (30/7)*s^5 - (5/4)*s^6))
  (pw 2 (fun s => (12/359) * (17*s + (75/4)*s*s - 42*s^3 + 25*s^4 - (45/7)*s^5 + (5/8)*s^6 + (5/56)/(s*s)))
  (fun s => (12/359) * (81*s - (405/4)*s^2 + 54*s^3 - 15*s^4 + (15/7)*s^5 - (1/8)*s^6 - (507/56)/(s*s)))).
Lemma q_pot_in_eq : forall s, s < 3 -> q_wpot s = q_pot_in s.
Proof. intros s Hs. unfold q_wpot, q_pot_in, pw. q_cases s; reflexivity. Qed.
Lemma q_grav_in_eq : forall s, s < 3 -> q_wgrav s = q_grav_in s.
Proof. intros s Hs. unfold q_wgrav, q_grav_in, pw. q_cases s; reflexivity. Qed.

Lemma q_pot_in_derive : forall s, is_derive q_pot_in s (- q_grav_in s).
Proof.
  intros s.
  replace (- q_grav_in s) with
   (pw 1 (fun s => - ((12/359) * (22*s - 12*s^3 + (30/7)*s^5 - (5/4)*s^6)))
    (pw 2 (fun s => - ((12/359) * (17*s + (75/4)*s*s - 42*s^3 + 25*s^4 - (45/7)*s^5 + (5/8)*s^6 + (5/56)/(s*s))))
     (fun s => - ((12/359) * (81*s - (405/4)*s^2 + 54*s^3 - 15*s^4 + (15/7)*s^5 - (1/8)*s^6 - (507/56)/(s*s))))) s).
  2:{ unfold q_grav_in, pw. destruct (rltb s 1); [reflexivity|]. destruct (rltb s 2); reflexivity. }
  unfold q_pot_in. apply pw_derive; [dpoly; fld | intros H1; apply pw_derive | |].
  - dpoly. fld. lra.
  - dpoly. fld. lra.
  - fld.
  - fld.
  - rewrite pw_lt by lra. fld.
  - rewrite pw_lt by lra. fld.
Qed.

Lemma q_pot_derive : forall s, s <> 3 -> is_derive q_wpot s (- q_wgrav s).
Proof.
  intros s Hs. destruct (Rlt_le_dec s 3) as [L|L].
  - rewrite q_grav_in_eq by exact L. apply is_derive_ext_loc with q_pot_in; [|apply q_pot_in_derive].
    generalize (loc_lt 3 s L). apply filter_imp. intros x Hx. symmetry. apply q_pot_in_eq. exact Hx.
  - apply is_derive_ext_loc with (fun s => 1/s).
    + generalize (loc_gt 3 s ltac:(lra)). apply filter_imp. intros x Hx. unfold q_wpot. q_cases x. reflexivity.
    + unfold q_wgrav. q_cases s. dpoly. fld. lra.
Qed.

Lemma q_newton : forall s, q_kernrange <= s -> q_wgrav s = / s^2 /\ q_wpot s = / s.
Proof. unfold q_kernrange. intros s Hs. unfold q_wgrav, q_wpot. q_cases s. split; field; lra. Qed.

(** Left limit at the edge differs from the value there. *)
Lemma jump_not_cont : forall (f g : R -> R) a, (forall s, s < a -> f s = g s) -> continuous g a ->
  f a <> g a -> ~ continuous f a.
Proof.
  intros f g a E Hg Hne Hf.
  assert (0 < Rabs (f a - g a) / 2) as He.
  { assert (0 < Rabs (f a - g a)) by (apply Rabs_pos_lt; lra). lra. }
  apply continuity_pt_filterlim in Hf. apply continuity_pt_filterlim in Hg.
  destruct (Hf _ He) as [d1 [P1 H1]]. destruct (Hg _ He) as [d2 [P2 H2]].
  pose proof (Rmin_l d1 d2). pose proof (Rmin_r d1 d2). assert (0 < Rmin d1 d2) by (apply Rmin_pos; assumption).
  set (x := a - Rmin d1 d2 / 2). assert (x < a) as Hx by (unfold x; lra).
  assert (Rabs (x - a) = Rmin d1 d2 / 2) as Ea.
  { unfold x. rewrite Rabs_left by lra. ring. }
  specialize (H1 x). specialize (H2 x). cbn in H1, H2. unfold R_dist in H1, H2.
  assert (D_x no_cond a x /\ Rabs (x - a) < d1) as C1 by (split; [split; [exact I | lra] | lra]).
  assert (D_x no_cond a x /\ Rabs (x - a) < d2) as C2 by (split; [split; [exact I | lra] | lra]).
  specialize (H1 C1). specialize (H2 C2). rewrite E in H1 by exact Hx.
  assert (Rabs (f a - g a) <= Rabs (g x - f a) + Rabs (g x - g a)).
  { replace (f a - g a) with (- (g x - f a) + (g x - g a)) by ring.
    eapply Rle_trans; [apply Rabs_triang|]. rewrite Rabs_Ropp. lra. }
  lra.
Qed.

Lemma q_grav_in_cont3 : continuous q_grav_in 3.
Proof.
  unfold q_grav_in. apply pw_cont; [lra | intros _; apply pw_cont; [lra | cpoly | fld] |].
  rewrite pw_lt by lra. fld.
Qed.
Lemma q_pot_in_cont3 : continuous q_pot_in 3.
Proof.
  apply (@ex_derive_continuous R_AbsRing R_NormedModule). exists (- q_grav_in 3). apply q_pot_in_derive.
Qed.

Lemma q_grav_jump : ~ continuous q_wgrav 3.
Proof.
  apply jump_not_cont with q_grav_in; [apply q_grav_in_eq | apply q_grav_in_cont3 |].
  unfold q_wgrav, q_grav_in. rewrite !pw_ge by lra. q_cases 3. lra.
Qed.
Lemma q_pot_jump : ~ continuous q_wpot 3.
Proof.
  apply jump_not_cont with q_pot_in; [apply q_pot_in_eq | apply q_pot_in_cont3 |].
  unfold q_wpot, q_pot_in. rewrite !pw_ge by lra. q_cases 3. lra.
Qed.

(** Inside the range the force is 360/359 of the force of the enclosed mass. *)
Lemma q_gauss_in : forall s, s < 3 ->
  is_derive (fun x => x^2 * q_wgrav x) s (360/359 * (4 * PI * s^2 * q_w0 3 s)).
Proof.
  intros s Hs. pose proof PI_neq0 as Hpi.
  apply is_derive_ext_loc with
   (pw 1 (fun s => s^2*((12/359) * (22*s - 12*s^3 + (30/7)*s^5 - (5/4)*s^6)))
    (pw 2 (fun s => s^2*((12/359) * (17*s + (75/4)*s*s - 42*s^3 + 25*s^4 - (45/7)*s^5 + (5/8)*s^6 + (5/56)/(s*s))))
     (fun s => s^2*((12/359) * (81*s - (405/4)*s^2 + 54*s^3 - 15*s^4 + (15/7)*s^5 - (1/8)*s^6 - (507/56)/(s*s)))))).
  { generalize (loc_lt 3 s Hs). apply filter_imp. intros t Ht. unfold pw, q_wgrav. q_cases t; reflexivity. }
  replace (360/359 * (4*PI*s^2*q_w0 3 s)) with
    (pw 1 (fun s => (12/359)*s^2*(66 - 60*s*s + 30*s^4 - 10*s^5))
    (pw 2 (fun s => (12/359)*s^2*(51 + 75*s - 210*s*s + 150*s^3 - 45*s^4 + 5*s^5))
          (fun s => (12/359)*s^2*(243 - 405*s + 270*s*s - 90*s^3 + 15*s^4 - s^5))) s).
  2:{ unfold pw, q_w0, q_kernnorm, invpi. q_cases s; field; exact Hpi. }
  apply pw_derive; [dpoly; fld | intros H1; apply pw_derive | |].
  - dpoly. fld. lra.
  - dpoly. fld. lra.
  - fld.
  - fld.
  - rewrite pw_lt by lra. fld.
  - rewrite pw_lt by lra. fld.
Qed.

Lemma q_zeta_refuted : exists s, 0 <= s < q_kernrange /\ q_wzeta s <> q_wpot s + s * Derive q_wpot s.
Proof.
  exists 0. unfold q_kernrange. split; [lra|].
  rewrite Rmult_0_l. unfold q_wzeta, q_wpot. q_cases 0. lra.
Qed.

(** wzeta is, to the accuracy of its literals, -359/12 times what it should be: the sign is
    always wrong, everywhere in the core. *)
Lemma q_zeta_sign : q_wzeta 0 < 0 /\ 0 < q_wpot 0 + 0 * Derive q_wpot 0.
Proof.
  rewrite Rmult_0_l. unfold q_wzeta, q_wpot. q_cases 0. split; lra.
Qed.

Lemma q_normalised : forall n, (1 <= n <= 3)%nat -> normalised n q_kernrange (q_w0 n).
Proof.
  intros n Hn. unfold normalised, q_kernrange. pose proof PI_neq0 as Hpi.
  set (k := q_kernnorm n). set (d := q_kernnormdrag n).
  assert (forall x, 0 < x < 1 -> q_w0 n x = (k * (66 - 60*x*x + 30*x^4 - 10*x^5))) as E0.
  { intros x Hx. unfold q_w0. q_cases x. reflexivity. }
  assert (forall x, 1 < x < 2 -> q_w0 n x = (k * (51 + 75*x - 210*x*x + 150*x^3 - 45*x^4 + 5*x^5))) as E1.
  { intros x Hx. unfold q_w0. q_cases x. reflexivity. }
  assert (forall x, 2 < x < 3 -> q_w0 n x = (k * (243 - 405*x + 270*x*x - 90*x^3 + 15*x^4 - x^5))) as E2.
  { intros x Hx. unfold q_w0. q_cases x. reflexivity. }
  assert (forall v1 v2 v3, is_RInt (fun s => shell n s * q_w0 n s) 0 1 v1 ->
     is_RInt (fun s => shell n s * q_w0 n s) 1 2 v2 -> is_RInt (fun s => shell n s * q_w0 n s) 2 3 v3 ->
     v1 + v2 + v3 = 1 -> is_RInt (fun s => shell n s * q_w0 n s) 0 3 1) as Hs.
  { intros v1 v2 v3 H1 H2 H3 <-. apply (is_RInt_Chasles (V:=R_NormedModule) _ 0 2 3 (v1+v2) v3); [|exact H3].
    apply (is_RInt_Chasles (V:=R_NormedModule) _ 0 1 2 v1 v2 H1 H2). }
  unfold q_kernnorm, q_kernnormdrag, invpi in k, d.
  destruct n as [|[|[|[|n]]]]; try lia; cbn [shell].
  - eapply Hs.
    + apply (is_RInt_poly (fun x => 2*k*((66)*x^1/1 + (-60)*x^3/3 + (30)*x^5/5 + (-10)*x^6/6))
        (fun x => 2*((k * (66 - 60*x*x + 30*x^4 - 10*x^5))))); [lra | dpoly; fld | cpoly | | reflexivity].
      intros x Hx. rewrite E0 by lra. reflexivity.
    + apply (is_RInt_poly (fun x => 2*k*((51)*x^1/1 + (75)*x^2/2 + (-210)*x^3/3 + (150)*x^4/4 + (-45)*x^5/5 + (5)*x^6/6))
        (fun x => 2*((k * (51 + 75*x - 210*x*x + 150*x^3 - 45*x^4 + 5*x^5))))); [lra | dpoly; fld | cpoly | | reflexivity].
      intros x Hx. rewrite E1 by lra. reflexivity.
    + apply (is_RInt_poly (fun x => 2*k*((243)*x^1/1 + (-405)*x^2/2 + (270)*x^3/3 + (-90)*x^4/4 + (15)*x^5/5 + (-1)*x^6/6))
        (fun x => 2*((k * (243 - 405*x + 270*x*x - 90*x^3 + 15*x^4 - x^5))))); [lra | dpoly; fld | cpoly | | reflexivity].
      intros x Hx. rewrite E2 by lra. reflexivity.
    + unfold k, d. fld.
  - eapply Hs.
    + apply (is_RInt_poly (fun x => 2*PI*k*((66)*x^2/2 + (-60)*x^4/4 + (30)*x^6/6 + (-10)*x^7/7))
        (fun x => 2*PI*x*((k * (66 - 60*x*x + 30*x^4 - 10*x^5))))); [lra | dpoly; fld | cpoly | | reflexivity].
      intros x Hx. rewrite E0 by lra. reflexivity.
    + apply (is_RInt_poly (fun x => 2*PI*k*((51)*x^2/2 + (75)*x^3/3 + (-210)*x^4/4 + (150)*x^5/5 + (-45)*x^6/6 + (5)*x^7/7))
        (fun x => 2*PI*x*((k * (51 + 75*x - 210*x*x + 150*x^3 - 45*x^4 + 5*x^5))))); [lra | dpoly; fld | cpoly | | reflexivity].
      intros x Hx. rewrite E1 by lra. reflexivity.
    + apply (is_RInt_poly (fun x => 2*PI*k*((243)*x^2/2 + (-405)*x^3/3 + (270)*x^4/4 + (-90)*x^5/5 + (15)*x^6/6 + (-1)*x^7/7))
        (fun x => 2*PI*x*((k * (243 - 405*x + 270*x*x - 90*x^3 + 15*x^4 - x^5))))); [lra | dpoly; fld | cpoly | | reflexivity].
      intros x Hx. rewrite E2 by lra. reflexivity.
    + unfold k, d. fld. exact Hpi.
  - eapply Hs.
    + apply (is_RInt_poly (fun x => 4*PI*k*((66)*x^3/3 + (-60)*x^5/5 + (30)*x^7/7 + (-10)*x^8/8))
        (fun x => 4*PI*(x*x)*((k * (66 - 60*x*x + 30*x^4 - 10*x^5))))); [lra | dpoly; fld | cpoly | | reflexivity].
      intros x Hx. rewrite E0 by lra. reflexivity.
    + apply (is_RInt_poly (fun x => 4*PI*k*((51)*x^3/3 + (75)*x^4/4 + (-210)*x^5/5 + (150)*x^6/6 + (-45)*x^7/7 + (5)*x^8/8))
        (fun x => 4*PI*(x*x)*((k * (51 + 75*x - 210*x*x + 150*x^3 - 45*x^4 + 5*x^5))))); [lra | dpoly; fld | cpoly | | reflexivity].
      intros x Hx. rewrite E1 by lra. reflexivity.
    + apply (is_RInt_poly (fun x => 4*PI*k*((243)*x^3/3 + (-405)*x^4/4 + (270)*x^5/5 + (-90)*x^6/6 + (15)*x^7/7 + (-1)*x^8/8))
        (fun x => 4*PI*(x*x)*((k * (243 - 405*x + 270*x*x - 90*x^3 + 15*x^4 - x^5))))); [lra | dpoly; fld | cpoly | | reflexivity].
      intros x Hx. rewrite E2 by lra. reflexivity.
    + unfold k, d. fld. exact Hpi.
Qed.

Lemma q_drag_normalised : forall n, (1 <= n <= 3)%nat -> normalised n q_kernrange (q_wdrag n).
Proof.
  intros n Hn. unfold normalised, q_kernrange. pose proof PI_neq0 as Hpi.
  set (k := q_kernnorm n). set (d := q_kernnormdrag n).
  assert (forall x, 0 < x < 1 -> q_wdrag n x = d*x*x*(k * (66 - 60*x*x + 30*x^4 - 10*x^5))) as E0.
  { intros x Hx. unfold q_wdrag, q_w0. q_cases x. reflexivity. }
  assert (forall x, 1 < x < 2 -> q_wdrag n x = d*x*x*(k * (51 + 75*x - 210*x*x + 150*x^3 - 45*x^4 + 5*x^5))) as E1.
  { intros x Hx. unfold q_wdrag, q_w0. q_cases x. reflexivity. }
  assert (forall x, 2 < x < 3 -> q_wdrag n x = d*x*x*(k * (243 - 405*x + 270*x*x - 90*x^3 + 15*x^4 - x^5))) as E2.
  { intros x Hx. unfold q_wdrag, q_w0. q_cases x. reflexivity. }
  assert (forall v1 v2 v3, is_RInt (fun s => shell n s * q_wdrag n s) 0 1 v1 ->
     is_RInt (fun s => shell n s * q_wdrag n s) 1 2 v2 -> is_RInt (fun s => shell n s * q_wdrag n s) 2 3 v3 ->
     v1 + v2 + v3 = 1 -> is_RInt (fun s => shell n s * q_wdrag n s) 0 3 1) as Hs.
  { intros v1 v2 v3 H1 H2 H3 <-. apply (is_RInt_Chasles (V:=R_NormedModule) _ 0 2 3 (v1+v2) v3); [|exact H3].
    apply (is_RInt_Chasles (V:=R_NormedModule) _ 0 1 2 v1 v2 H1 H2). }
  unfold q_kernnorm, q_kernnormdrag, invpi in k, d.
  destruct n as [|[|[|[|n]]]]; try lia; cbn [shell].
  - eapply Hs.
    + apply (is_RInt_poly (fun x => 2*d*k*((66)*x^3/3 + (-60)*x^5/5 + (30)*x^7/7 + (-10)*x^8/8))
        (fun x => 2*(d*x*x*(k * (66 - 60*x*x + 30*x^4 - 10*x^5))))); [lra | dpoly; fld | cpoly | | reflexivity].
      intros x Hx. rewrite E0 by lra. reflexivity.
    + apply (is_RInt_poly (fun x => 2*d*k*((51)*x^3/3 + (75)*x^4/4 + (-210)*x^5/5 + (150)*x^6/6 + (-45)*x^7/7 + (5)*x^8/8))
        (fun x => 2*(d*x*x*(k * (51 + 75*x - 210*x*x + 150*x^3 - 45*x^4 + 5*x^5))))); [lra | dpoly; fld | cpoly | | reflexivity].
      intros x Hx. rewrite E1 by lra. reflexivity.
    + apply (is_RInt_poly (fun x => 2*d*k*((243)*x^3/3 + (-405)*x^4/4 + (270)*x^5/5 + (-90)*x^6/6 + (15)*x^7/7 + (-1)*x^8/8))
        (fun x => 2*(d*x*x*(k * (243 - 405*x + 270*x*x - 90*x^3 + 15*x^4 - x^5))))); [lra | dpoly; fld | cpoly | | reflexivity].
      intros x Hx. rewrite E2 by lra. reflexivity.
    + unfold k, d. fld.
  - eapply Hs.
    + apply (is_RInt_poly (fun x => 2*PI*d*k*((66)*x^4/4 + (-60)*x^6/6 + (30)*x^8/8 + (-10)*x^9/9))
        (fun x => 2*PI*x*(d*x*x*(k * (66 - 60*x*x + 30*x^4 - 10*x^5))))); [lra | dpoly; fld | cpoly | | reflexivity].
      intros x Hx. rewrite E0 by lra. reflexivity.
    + apply (is_RInt_poly (fun x => 2*PI*d*k*((51)*x^4/4 + (75)*x^5/5 + (-210)*x^6/6 + (150)*x^7/7 + (-45)*x^8/8 + (5)*x^9/9))
        (fun x => 2*PI*x*(d*x*x*(k * (51 + 75*x - 210*x*x + 150*x^3 - 45*x^4 + 5*x^5))))); [lra | dpoly; fld | cpoly | | reflexivity].
      intros x Hx. rewrite E1 by lra. reflexivity.
    + apply (is_RInt_poly (fun x => 2*PI*d*k*((243)*x^4/4 + (-405)*x^5/5 + (270)*x^6/6 + (-90)*x^7/7 + (15)*x^8/8 + (-1)*x^9/9))
        (fun x => 2*PI*x*(d*x*x*(k * (243 - 405*x + 270*x*x - 90*x^3 + 15*x^4 - x^5))))); [lra | dpoly; fld | cpoly | | reflexivity].
      intros x Hx. rewrite E2 by lra. reflexivity.
    + unfold k, d. fld. exact Hpi.
  - eapply Hs.
    + apply (is_RInt_poly (fun x => 4*PI*d*k*((66)*x^5/5 + (-60)*x^7/7 + (30)*x^9/9 + (-10)*x^10/10))
        (fun x => 4*PI*(x*x)*(d*x*x*(k * (66 - 60*x*x + 30*x^4 - 10*x^5))))); [lra | dpoly; fld | cpoly | | reflexivity].
      intros x Hx. rewrite E0 by lra. reflexivity.
    + apply (is_RInt_poly (fun x => 4*PI*d*k*((51)*x^5/5 + (75)*x^6/6 + (-210)*x^7/7 + (150)*x^8/8 + (-45)*x^9/9 + (5)*x^10/10))
        (fun x => 4*PI*(x*x)*(d*x*x*(k * (51 + 75*x - 210*x*x + 150*x^3 - 45*x^4 + 5*x^5))))); [lra | dpoly; fld | cpoly | | reflexivity].
      intros x Hx. rewrite E1 by lra. reflexivity.
    + apply (is_RInt_poly (fun x => 4*PI*d*k*((243)*x^5/5 + (-405)*x^6/6 + (270)*x^7/7 + (-90)*x^8/8 + (15)*x^9/9 + (-1)*x^10/10))
        (fun x => 4*PI*(x*x)*(d*x*x*(k * (243 - 405*x + 270*x*x - 90*x^3 + 15*x^4 - x^5))))); [lra | dpoly; fld | cpoly | | reflexivity].
      intros x Hx. rewrite E2 by lra. reflexivity.
    + unfold k, d. fld. exact Hpi.
Qed.

(** ** Gaussian *)
Lemma g_norm_pos : forall n, (1 <= n <= 3)%nat -> 0 < g_kernnorm n.
Proof.
  intros n Hn. pose proof PI_RGT_0 as Hp. pose proof (Rinv_0_lt_compat _ Hp) as Hi.
  assert (0 < sqrt invpi) by (apply sqrt_lt_R0; exact Hi).
  destruct n as [|[|[|[|n]]]]; try lia; cbn [g_kernnorm]; try assumption.
  apply Rmult_lt_0_compat; assumption.
Qed.

Lemma g_w_derive : forall n s, s <> g_kernrange -> is_derive (g_w0 n) s (g_w1 n s).
Proof.
  intros n s Hs. unfold g_kernrange in Hs. destruct (Rlt_le_dec s 3) as [L|L].
  - apply is_derive_ext_loc with (fun s => g_kernnorm n * exp (- s * s)).
    + generalize (loc_lt 3 s L). apply filter_imp. intros x Hx. unfold g_w0, g_kernrange. q_cases x. reflexivity.
    + unfold g_w1, g_kernrange. q_cases s. dpoly. fld.
  - apply is_derive_ext_loc with (fun _ => 0).
    + generalize (loc_gt 3 s ltac:(lra)). apply filter_imp. intros x Hx. unfold g_w0, g_kernrange. q_cases x. reflexivity.
    + unfold g_w1, g_kernrange. q_cases s. dpoly. ring.
Qed.

Lemma g_w0_pos : forall n s, (1 <= n <= 3)%nat -> 0 <= g_w0 n s /\ (s < g_kernrange -> 0 < g_w0 n s) /\
  (g_kernrange <= s -> g_w0 n s = 0 /\ g_w1 n s = 0 /\ g_womega n s = 0).
Proof.
  intros n s Hn. pose proof (g_norm_pos n Hn) as Hk. pose proof (exp_pos (- s * s)) as He.
  assert (0 < g_kernnorm n * exp (- s * s)) by (apply Rmult_lt_0_compat; assumption).
  unfold g_w0, g_w1, g_womega, g_kernrange. q_cases s; repeat split; intros; try lra.
Qed.

Lemma g_w0_decr : forall n s t, (1 <= n <= 3)%nat -> 0 <= s <= t -> g_w0 n t <= g_w0 n s.
Proof.
  intros n s t Hn Hst. destruct (g_w0_pos n s Hn) as [H0 _]. pose proof (g_norm_pos n Hn) as Hk.
  destruct (Rlt_le_dec t 3) as [L|L].
  - unfold g_w0, g_kernrange. q_cases s. apply Rmult_le_compat_l; [lra|].
    destruct (Req_dec s t) as [->|Hne]; [lra|]. apply Rlt_le, exp_increasing. nra.
  - destruct (g_w0_pos n t Hn) as (_ & _ & H). unfold g_kernrange in H. destruct (H L) as [-> _]. exact H0.
Qed.

Lemma g_omega_where : forall n s, (1 <= n <= 3)%nat -> 0 <= s < g_kernrange ->
  (g_womega n s = - (INR n * g_w0 n s + s * g_w1 n s) <-> s = 0 \/ s = 1).
Proof.
  intros n s Hn Hs. pose proof (g_norm_pos n Hn) as Hk. pose proof (exp_pos (- s * s)) as He.
  assert (0 < g_kernnorm n * exp (- s * s)) as Hp by (apply Rmult_lt_0_compat; assumption).
  unfold g_womega, g_w0, g_w1, g_kernrange in *. q_cases s.
  assert (forall x, x = s * s -> (g_kernnorm n * (2 * s * exp (- s * s) - INR n * exp (- s * s)) =
    - (INR n * (g_kernnorm n * exp (- s * s)) + s * (-2 * g_kernnorm n * s * exp (- s * s))) <->
      (g_kernnorm n * exp (- s * s)) * (2 * s - 2 * x) = 0)) as Eq.
  { intros x ->. split; intros H; lra. }
  rewrite (Eq _ eq_refl). split.
  - intros H. apply Rmult_integral in H. destruct H as [H|H]; [lra|].
    assert (s * (1 - s) = 0) as H2 by lra. apply Rmult_integral in H2. destruct H2; [left; lra | right; lra].
  - intros [ -> | -> ]; ring.
Qed.

Lemma g_jump : forall n, (1 <= n <= 3)%nat -> ~ continuous (g_w0 n) g_kernrange.
Proof.
  intros n Hn. unfold g_kernrange.
  apply jump_not_cont with (fun s => g_kernnorm n * exp (- s * s)).
  - intros s Hs. unfold g_w0, g_kernrange. q_cases s. reflexivity.
  - cpoly.
  - unfold g_w0, g_kernrange. q_cases 3. pose proof (g_norm_pos n Hn). pose proof (exp_pos (- (3) * 3)).
    assert (0 < g_kernnorm n * exp (- (3) * 3)) by (apply Rmult_lt_0_compat; assumption). cbv beta. apply Rlt_not_eq. assumption.
Qed.

Lemma g_no_gravity : forall s, g_wgrav s = 0 /\ g_wpot s = 0 /\ g_wzeta s = 0.
Proof. intros s. unfold g_wgrav, g_wpot, g_wzeta. destruct (rltb s g_kernrange); auto. Qed.

(** In two dimensions the integral is 1 - exp(-9), not 1. *)
Lemma g_norm2 : is_RInt (fun s => shell 2 s * g_w0 2 s) 0 g_kernrange (1 - exp (-9)).
Proof.
  unfold g_kernrange. pose proof PI_neq0 as Hpi.
  apply (is_RInt_poly (fun x => - exp (- x * x)) (fun x => 2 * x * exp (- x * x))).
  - lra.
  - dpoly. fld.
  - cpoly.
  - intros x Hx. unfold g_w0, g_kernrange, g_kernnorm, invpi. cbn [shell]. q_cases x. field. exact Hpi.
  - replace (- (0) * 0) with 0 by ring. rewrite exp_0. replace (- (3) * 3) with (-9) by ring. ring.
Qed.
Lemma g_norm2_not1 : ~ normalised 2 g_kernrange (g_w0 2).
Proof.
  intros H. unfold normalised in H. pose proof g_norm2 as H'.
  apply (is_RInt_unique (V:=R_CompleteNormedModule)) in H. apply (is_RInt_unique (V:=R_CompleteNormedModule)) in H'. rewrite H in H'.
  pose proof (exp_pos (-9)). lra.
Qed.
