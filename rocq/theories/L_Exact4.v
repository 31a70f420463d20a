(** The profile: a shock or a fan on each side, joined by a contact. *)
From Verif Require Import Prelude Vec M_Box L_Box M_Exact S_Exact L_Exact L_Exact2 L_Exact3 L_Eos L_Diag3.
From Coq Require Import Reals Lra Lia Psatz List.
From Coquelicot Require Import Coquelicot.
Local Open Scope R_scope.

Lemma loc_between a b s : a < s < b -> locally s (fun x => a < x < b).
Proof. intros [H1 H2]. apply filter_and; [apply (open_gt a s H1)|apply (open_lt b s H2)]. Qed.

Section Local.
Variable gamma : R.
Lemma euler_loc W V s a b : a < s < b -> (forall x, a < x < b -> W x = V x) -> euler_at gamma V s -> euler_at gamma W s.
Proof.
  intros Hs E [d' [u' [p' [D [U [P Eq]]]]]]. assert (L : locally s (fun x => V x = W x)) by (apply filter_imp with (2 := loc_between a b s Hs); intros; symmetry; apply E; assumption).
  exists d', u', p'. rewrite (E s Hs). split; [|split; [|split; [|exact Eq]]].
  - apply is_derive_ext_loc with (2 := D). apply filter_imp with (2 := L). intros x ->. reflexivity.
  - apply is_derive_ext_loc with (2 := U). apply filter_imp with (2 := L). intros x ->. reflexivity.
  - apply is_derive_ext_loc with (2 := P). apply filter_imp with (2 := L). intros x ->. reflexivity.
Qed.
Lemma euler_const w s : euler_at gamma (fun _ => w) s.
Proof. exists 0, 0, 0. split; [apply @is_derive_const|split; [apply @is_derive_const|split; [apply @is_derive_const|repeat split; ring]]]. Qed.
Definition conts (A : R -> state) (s : R) : Prop := forall f, In f (de :: ve :: pe :: nil) -> continuous (fun x => f (A x)) s.
Lemma conts_const w s : conts (fun _ => w) s.
Proof. intros f _. apply continuous_const. Qed.
Lemma jump_two W A B s a b : a < s < b -> (forall x, a < x < s -> W x = A x) -> (forall x, s < x < b -> W x = B x) ->
  conts A s -> conts B s -> rankine gamma s (A s) (B s) -> entropic gamma s (A s) (B s) -> jump_at gamma W s.
Proof.
  intros Hs EA EB CA CB Rk En. exists (A s), (B s). split; [|split; assumption]. intros f Hf. split.
  - apply filterlim_ext_loc with (f := fun x => f (A x)).
    + unfold at_left, within. apply filter_imp with (2 := loc_between a b s Hs). intros x Hx Hxs. rewrite EA by lra. reflexivity.
    + apply filterlim_filter_le_1 with (2 := CA f Hf). intros P HP. apply filter_imp with (2 := HP). auto.
  - apply filterlim_ext_loc with (f := fun x => f (B x)).
    + unfold at_right, within. apply filter_imp with (2 := loc_between a b s Hs). intros x Hx Hxs. rewrite EB by lra. reflexivity.
    + apply filterlim_filter_le_1 with (2 := CB f Hf). intros P HP. apply filter_imp with (2 := HP). auto.
Qed.
Lemma rankine_refl s w : rankine gamma s w w.
Proof. repeat split; ring. Qed.
Lemma entropic_refl s w : entropic gamma s w w.
Proof. unfold entropic. rewrite Rminus_eq_0, Rmult_0_r. lra. Qed.
(** Seen in a mirror. *)
Definition mir (w : state) : state := (de w, - ve w, pe w).
Lemma mir_mir w : mir (mir w) = w.
Proof. destruct w as [[d u] p]. unfold mir, de, ve, pe. simpl. rewrite Ropp_involutive. reflexivity. Qed.
Lemma mir_alg (x y z s d' u' p' : R) : (y - - s) * d' + x * u' = 0 -> x * (y - - s) * u' + p' = 0 -> (y - - s) * p' + gamma * z * u' = 0 ->
  (- y - s) * - d' + x * u' = 0 /\ x * (- y - s) * u' + - p' = 0 /\ (- y - s) * - p' + gamma * z * u' = 0.
Proof. intros. repeat split; lra. Qed.
Lemma euler_mir W V s : (forall x, W x = mir (V (- x))) -> euler_at gamma V (- s) -> euler_at gamma W s.
Proof.
  intros E [d' [u' [p' [D [U [P [E1 [E2 E3]]]]]]]]. exists (- d'), u', (- p').
  assert (N : is_derive (fun x : R => - x) s (-1)) by (auto_derive; [exact I|ring]).
  pose proof (mir_alg _ _ _ _ _ _ _ E1 E2 E3) as EE. clear E1 E2 E3. rewrite (E s). split; [|split; [|split; [|exact EE]]]; clear EE; unfold de, ve, pe, mir in *; simpl.
  - apply is_derive_ext with (f := fun x => fst (fst (V (- x)))); [intros; rewrite E; reflexivity|].
    evar_last; [apply (is_derive_comp (fun x => fst (fst (V x))) (fun x => - x) s d' (-1)); assumption|]. unfold scal; simpl; unfold mult; simpl. ring.
  - apply is_derive_ext with (f := fun x => - snd (fst (V (- x)))); [intros; rewrite E; reflexivity|].
    evar_last; [apply (is_derive_opp (fun x => snd (fst (V (- x))))), (is_derive_comp (fun x => snd (fst (V x))) (fun x => - x) s u' (-1)); assumption|]. unfold opp, scal; simpl; unfold mult; simpl. ring.
  - apply is_derive_ext with (f := fun x => snd (V (- x))); [intros; rewrite E; reflexivity|].
    evar_last; [apply (is_derive_comp (fun x => snd (V x)) (fun x => - x) s p' (-1)); assumption|]. unfold scal; simpl; unfold mult; simpl. ring.
Qed.
Lemma jump_mir W V s : (forall x, W x = mir (V (- x))) -> jump_at gamma V (- s) -> jump_at gamma W s.
Proof.
  intros E [a [b [L [[R1 [R2 R3]] En]]]]. exists (mir b), (mir a). split; [|split].
  - assert (G : forall f, In f (de :: ve :: pe :: nil) -> exists sg, (forall w, f (mir w) = sg * f w)).
    { intros f [<-|[<-|[<-|[]]]]; [exists 1|exists (-1)|exists 1]; intros [[d u] p]; unfold mir, de, ve, pe; simpl; ring. }
    intros f Hf. destruct (G f Hf) as [sg Hs]. destruct (L f Hf) as [L1 L2]. rewrite !Hs. split.
    + apply filterlim_ext with (f := fun x => sg * f (V (- x))); [intros; rewrite E, Hs; reflexivity|].
      apply (filterlim_comp _ _ _ (fun x => f (V (- x))) (fun y => sg * y) _ (locally (f b))).
      * apply (filterlim_comp _ _ _ Ropp (fun y => f (V y)) _ (at_right (- s))); [apply filterlim_Ropp_left|exact L2].
      * apply (filterlim_scal_r sg (f b)).
    + apply filterlim_ext with (f := fun x => sg * f (V (- x))); [intros; rewrite E, Hs; reflexivity|].
      apply (filterlim_comp _ _ _ (fun x => f (V (- x))) (fun y => sg * y) _ (locally (f a))).
      * apply (filterlim_comp _ _ _ Ropp (fun y => f (V y)) _ (at_left (- s))); [apply filterlim_Ropp_right|exact L1].
      * apply (filterlim_scal_r sg (f a)).
  - unfold rankine, flux_m, flux_p, flux_e, energy, mir, de, ve, pe in *. simpl. repeat split; lra.
  - unfold entropic, mir, de, ve, pe in *. simpl in *. unfold flux_m, de, ve, pe in R1. 
    set (D := snd b * Rpower (fst (fst b)) (- gamma) - snd a * Rpower (fst (fst a)) (- gamma)) in *.
    replace (snd a * Rpower (fst (fst a)) (- gamma) - snd b * Rpower (fst (fst b)) (- gamma)) with (- D) by (unfold D; ring).
    replace (fst (fst b) * (- snd (fst b) - s) * - D) with (fst (fst b) * (snd (fst b) - - s) * D) by ring.
    replace (fst (fst b) * (snd (fst b) - - s)) with (fst (fst a) * (snd (fst a) - - s)) by lra. exact En.
Qed.
Lemma contact_rankine d1 d2 u p : rankine gamma u (d1, u, p) (d2, u, p) /\ entropic gamma u (d1, u, p) (d2, u, p).
Proof. unfold rankine, entropic, flux_m, flux_p, flux_e, energy, de, ve, pe; simpl. split; [repeat split; ring|]. rewrite Rminus_eq_0. rewrite Rmult_0_r, Rmult_0_l. lra. Qed.
End Local.

Section Half.
Variables (gamma p d c u ps us : R).
Hypotheses (Hg : 1 < gamma) (Hp : 0 < p) (Hd : 0 < d) (Hc : c = sqrt (gamma * p / d)) (Hps : 0 < ps)
  (Hus : us = u - fside gamma p d c ps).
Local Definition Cp : 0 < c := c_pos gamma p d c Hg Hp Hd Hc.
Local Notation q := (qshock gamma p d ps).
Definition side : state := (d, u, p).
Definition star_sh : state := (d * (ps / p + g6 gamma) / (ps / p * g6 gamma + 1), us, ps).
Definition star_ra : state := (d * Rpower (ps / p) (invgamma gamma), us, ps).
Definition cm : R := c * Rpower (ps / p) (g1 gamma).
Definition kfan (s : R) : R := g5 gamma * (c + g7 gamma * (u - s)).
Definition fan (s : R) : state := (d * Rpower (kfan s / c) (g4 gamma), g5 gamma * (c + g7 gamma * u + s), p * Rpower (kfan s / c) (g3 gamma)).
Definition star_of : state := if rltb p ps then star_sh else star_ra.
(** The profile left of the contact, but for its breaks. *)
Definition half (W : R -> state) : Prop :=
  (p < ps -> (forall s, s < u - q / d -> W s = side) /\ (forall s, u - q / d < s < us -> W s = star_sh)) /\
  (ps <= p -> (forall s, s < u - c -> W s = side) /\ (forall s, u - c < s < us - cm -> W s = fan s) /\ (forall s, us - cm < s < us -> W s = star_ra)).

Lemma q_pos : 0 < q.
Proof. apply qshock_pos; lra. Qed.
Lemma d_of_q : d = 2 * (q * q) / ((gamma + 1) * ps + (gamma - 1) * p).
Proof. rewrite qshock_sqr by lra. field. nra. Qed.
Lemma shock_speed : c * sqrt (g2 gamma * (ps / p) + g1 gamma) = q / d.
Proof.
  pose proof q_pos. pose proof Cp. pose proof (g1_pos gamma Hg). pose proof (g2_pos gamma Hg).
  assert (0 < g2 gamma * (ps / p) + g1 gamma). { assert (0 < ps / p) by (apply Rdiv_lt_0_compat; lra). nra. }
  rewrite <- (sqrt_square c) by lra. rewrite <- sqrt_mult by nra. rewrite <- (sqrt_square (q / d)) by (left; apply Rdiv_lt_0_compat; lra). f_equal.
  rewrite (c_sqr gamma p d c Hg Hp Hd Hc). replace (q / d * (q / d)) with (q * q / (d * d)) by (field; lra). rewrite qshock_sqr by lra.
  unfold g1, g2. field. repeat split; lra.
Qed.
Lemma us_shock : p <= ps -> us = u - (ps - p) / q.
Proof. intros. pose proof q_pos. rewrite Hus. rewrite <- (fs_shock gamma p d c Hg Hp Hd ps H). field. lra. Qed.
Lemma star_sh_d : de star_sh = d * (((gamma + 1) * ps + (gamma - 1) * p) / ((gamma - 1) * ps + (gamma + 1) * p)).
Proof. unfold star_sh, de; simpl. unfold g6. field. repeat split; try lra; nra. Qed.
Lemma shock_before_contact : p <= ps -> u - q / d < us.
Proof.
  intros. rewrite us_shock by assumption. pose proof q_pos. assert ((ps - p) / q < q / d); [|lra].
  apply Rmult_lt_reg_r with (q * d); [nra|]. replace ((ps - p) / q * (q * d)) with ((ps - p) * d) by (field; lra).
  replace (q / d * (q * d)) with (q * q) by (field; lra). rewrite qshock_sqr by lra.
  assert (0 < (gamma - 1) * (ps + p)) by (apply Rmult_lt_0_compat; lra).
  replace (d / 2 * ((gamma + 1) * ps + (gamma - 1) * p)) with ((ps - p) * d + d * (p + (gamma - 1) * (ps + p) / 2)) by field.
  assert (0 < d * (p + (gamma - 1) * (ps + p) / 2)) by (apply Rmult_lt_0_compat; lra). lra.
Qed.
Lemma shock_rankine : p <= ps -> rankine gamma (u - q / d) side star_sh.
Proof.
  intros H. pose proof q_pos. pose proof (us_shock H) as U. set (N := (gamma + 1) * ps + (gamma - 1) * p). assert (HN : 0 < N) by (unfold N; nra).
  assert (HM : 0 < (gamma - 1) * ps + (gamma + 1) * p) by nra.
  pose proof star_sh_d as Ed. pose proof d_of_q as DQ. fold N in DQ. fold N in Ed. set (k := q) in *. clearbody k.
  unfold rankine, flux_m, flux_p, flux_e, energy. change (ve star_sh) with us. change (pe star_sh) with ps. rewrite Ed.
  unfold side, de, ve, pe; simpl. rewrite U, DQ. unfold N in *. clear - H0 HN HM Hg.
  repeat split; field; repeat split; lra.
Qed.
Lemma compress x : 1 <= x -> Rpower ((x + g6 gamma) / (x * g6 gamma + 1)) gamma <= x.
Proof.
  intros Hx. pose proof (g6_pos gamma Hg) as G6. set (g := g6 gamma) in *.
  assert (0 <= ln x - gamma * (ln (x + g) - ln (x * g + 1))).
  { destruct (MVT_gen (fun x => ln x - gamma * (ln (x + g) - ln (x * g + 1))) 1 x (fun x => / x - gamma * (/ (x + g) - g / (x * g + 1)))) as [y [Hy He]].
    - intros y Hy. rewrite Rmin_left, Rmax_right in Hy by lra. assert (0 < y * g) by (apply Rmult_lt_0_compat; lra). auto_derive; [repeat split; try exact I; lra|]. field. repeat split; lra.
    - intros y Hy. rewrite Rmin_left, Rmax_right in Hy by lra. apply derivable_continuous_pt. exists (/ y - gamma * (/ (y + g) - g / (y * g + 1))). apply is_derive_Reals.
      assert (0 < y * g) by (apply Rmult_lt_0_compat; lra). auto_derive; [repeat split; try exact I; lra|]. field. repeat split; lra.
    - rewrite Rmin_left, Rmax_right in Hy by lra. rewrite ln_1 in He. rewrite Rmult_1_l, (Rplus_comm g 1) in He.
      assert (0 <= / y - gamma * (/ (y + g) - g / (y * g + 1))).
      { replace (/ y - gamma * (/ (y + g) - g / (y * g + 1))) with (((y + g) * (y * g + 1) - gamma * y * (1 - g * g)) / (y * (y + g) * (y * g + 1))) by (field; repeat split; nra).
        apply Rmult_le_pos; [|left; apply Rinv_0_lt_compat; assert (0 < y * (y + g)) by nra; nra].
        replace ((y + g) * (y * g + 1) - gamma * y * (1 - g * g)) with ((gamma * gamma - 1) / ((gamma + 1) * (gamma + 1)) * ((y - 1) * (y - 1))) by (unfold g, g6; field; lra).
        apply Rmult_le_pos; [apply Rmult_le_pos; [nra|left; apply Rinv_0_lt_compat; nra]|nra]. }
      assert (0 <= (/ y - gamma * (/ (y + g) - g / (y * g + 1))) * (x - 1)) by (apply Rmult_le_pos; lra). lra. }
  unfold Rpower. rewrite <- (exp_ln x) at 3 by lra. rewrite ln_div by nra.
  destruct H as [H|H]; [left; apply exp_increasing; lra|right; f_equal; lra].
Qed.
Lemma shock_entropic : p <= ps -> entropic gamma (u - q / d) side star_sh.
Proof.
  intros H. unfold entropic, side, star_sh, de, ve, pe; simpl. pose proof q_pos. pose proof (g6_pos gamma Hg) as G6.
  replace (d * (u - (u - q / d))) with q by (field; lra). apply Rle_ge, Rmult_le_pos; [lra|].
  set (x := ps / p). assert (Hx : 1 <= x). { unfold x. apply Rmult_le_reg_r with p; [lra|]. replace (ps / p * p) with ps by (field; lra). lra. }
  set (y := (x + g6 gamma) / (x * g6 gamma + 1)). assert (Hy : 0 < y) by (unfold y; apply Rdiv_lt_0_compat; nra).
  replace (d * (x + g6 gamma) / (x * g6 gamma + 1)) with (d * y) by (unfold y; field; nra). rewrite rpower_prod by lra.
  replace ps with (p * x) by (unfold x; field; lra). pose proof (compress x Hx) as Cx. fold y in Cx.
  replace (p * x * (Rpower d (- gamma) * Rpower y (- gamma)) - p * Rpower d (- gamma)) with (p * Rpower d (- gamma) * (x * Rpower y (- gamma) - 1)) by ring.
  pose proof (rpower_pos d (- gamma)). apply Rmult_le_pos; [nra|]. rewrite (Rpower_Ropp y gamma). pose proof (rpower_pos y gamma).
  assert (1 <= x * / Rpower y gamma); [|lra]. apply Rmult_le_reg_r with (Rpower y gamma); [lra|]. rewrite Rmult_assoc, Rinv_l by lra. lra.
Qed.

(** The fan. *)
Lemma us_fan : ps <= p -> us = u - g4 gamma * (cm - c).
Proof. intros. rewrite Hus, (fs_lo gamma p d c) by lra. cbv beta. unfold cm. ring. Qed.
Lemma cm_pos : 0 < cm.
Proof. unfold cm. pose proof Cp. pose proof (rpower_pos (ps / p) (g1 gamma)). nra. Qed.
Lemma cm_le : ps <= p -> cm <= c.
Proof.
  intros. unfold cm. pose proof Cp. pose proof (g1_pos gamma Hg). assert (Rpower (ps / p) (g1 gamma) <= 1); [|nra].
  rewrite <- (rpower_1_l (g1 gamma)). apply Rle_Rpower_l; [lra|]. split; [apply Rdiv_lt_0_compat; lra|].
  apply Rmult_le_reg_r with p; [lra|]. replace (ps / p * p) with ps by (field; lra). lra.
Qed.
Lemma kfan_head : kfan (u - c) = c.
Proof. unfold kfan, g5, g7. field. lra. Qed.
Lemma kfan_tail : ps <= p -> kfan (us - cm) = cm.
Proof. intros. rewrite us_fan by assumption. unfold kfan, g5, g7, g4. field. lra. Qed.
Lemma head_tail : ps <= p -> u - c <= us - cm.
Proof.
  intros. rewrite us_fan by assumption. pose proof (cm_le H). pose proof (g4_pos gamma Hg). nra.
Qed.
Lemma kfan_anti s t : s <= t -> kfan t <= kfan s.
Proof. intros. unfold kfan. assert (0 < g5 gamma) by (unfold g5; apply Rdiv_lt_0_compat; lra). assert (0 < g7 gamma) by (unfold g7; lra). apply Rmult_le_compat_l; nra. Qed.
Lemma kfan_pos s : ps <= p -> s <= us - cm -> 0 < kfan s.
Proof. intros. pose proof (kfan_anti s (us - cm) H0). rewrite (kfan_tail H) in H1. pose proof cm_pos. lra. Qed.
Lemma fan_euler s : 0 < kfan s -> euler_at gamma fan s.
Proof.
  intros Hk. pose proof Cp as HC.
  assert (Dk : is_derive (fun x => kfan x / c) s (- (g6 gamma) / c)).
  { unfold kfan. auto_derive; [exact I|]. unfold g5, g6, g7. field. lra. }
  assert (Q : 0 < kfan s / c) by (apply Rdiv_lt_0_compat; lra).
  assert (Eu : g5 gamma * (c + g7 gamma * u + s) - s = kfan s) by (unfold kfan, g5, g7; field; lra).
  set (X := Rpower (kfan s / c) (g4 gamma)). set (Y := Rpower (kfan s / c) (g3 gamma)).
  assert (EY : Y = X * ((kfan s / c) * (kfan s / c))).
  { unfold X, Y. replace (g3 gamma) with (g4 gamma + 1 + 1) by (unfold g3, g4; field; lra). rewrite !rpower_succ by lra. ring. }
  assert (P1 : forall e, Rpower (kfan s / c) (e - 1) = Rpower (kfan s / c) e * c / kfan s).
  { intros e. replace e with (e - 1 + 1) at 2 by ring. rewrite rpower_succ by lra. field. lra. }
  exists (d * (g4 gamma * (- (g6 gamma) / c) * (X * c / kfan s))), (g5 gamma), (p * (g3 gamma * (- (g6 gamma) / c) * (Y * c / kfan s))).
  unfold fan, de, ve, pe; simpl. fold X Y. rewrite Eu.
  assert (Ec : d * (c * c) = gamma * p) by apply (c_gp gamma p d c Hg Hp Hd Hc).
  split; [|split; [|split]].
  - apply (is_derive_scal (fun x => Rpower (kfan x / c) (g4 gamma)) s d). unfold X. rewrite <- P1. apply (der_rpower (fun x => kfan x / c) s (- g6 gamma / c) (g4 gamma)); assumption.
  - auto_derive; [exact I|ring].
  - apply (is_derive_scal (fun x => Rpower (kfan x / c) (g3 gamma)) s p). unfold Y. rewrite <- P1. apply (der_rpower (fun x => kfan x / c) s (- g6 gamma / c) (g3 gamma)); assumption.
  - assert (Hpp : p = d * (c * c) / gamma) by (rewrite Ec; field; lra). rewrite EY, Hpp. unfold g3, g4, g5, g6. repeat split; field; repeat split; lra.
Qed.
Lemma euler_conts A s : euler_at gamma A s -> conts A s.
Proof.
  intros [d' [u' [p' [D [U [P _]]]]]] f [<-|[<-|[<-|[]]]]; [apply (ex_derive_continuous (V := R_NormedModule) (fun x => de (A x)) s); exists d'; exact D|apply (ex_derive_continuous (V := R_NormedModule) (fun x => ve (A x)) s); exists u'; exact U|apply (ex_derive_continuous (V := R_NormedModule) (fun x => pe (A x)) s); exists p'; exact P].
Qed.
Lemma fan_head : fan (u - c) = side.
Proof.
  pose proof Cp. unfold fan, side. rewrite kfan_head. replace (c / c) with 1 by (field; lra). rewrite !rpower_1_l, !Rmult_1_r. f_equal. f_equal. unfold g5, g7. field. lra.
Qed.
Lemma fan_tail : ps <= p -> fan (us - cm) = star_ra.
Proof.
  intros H. pose proof Cp. assert (Q : 0 < ps / p) by (apply Rdiv_lt_0_compat; lra). unfold fan, star_ra. rewrite (kfan_tail H). replace (cm / c) with (Rpower (ps / p) (g1 gamma)) by (unfold cm; field; lra).
  rewrite !Rpower_mult. replace (g1 gamma * g4 gamma) with (invgamma gamma) by (unfold g1, g4, invgamma; field; lra).
  replace (g1 gamma * g3 gamma) with 1 by (unfold g1, g3; field; lra). rewrite (Rpower_1 (ps / p)) by exact Q.
  replace (p * (ps / p)) with ps by (field; lra). f_equal. f_equal. rewrite (us_fan H). unfold g5, g7, g4. field. lra.
Qed.

Lemma half_good W : half W -> exists B, (forall s, s < us -> (~ In s B -> euler_at gamma W s) /\ (In s B -> jump_at gamma W s)) /\
  (forall s, In s B -> s < us) /\ (exists m, m < us /\ forall s, m < s < us -> W s = star_of) /\ (exists m, forall s, s < m -> W s = side).
Proof.
  intros [Hs Hr]. unfold star_of. destruct (Rlt_dec p ps) as [L|L].
  - rewrite (proj2 (rltb_true _ _) L). destruct (Hs L) as [H1 H2]. clear Hs Hr. pose proof (shock_before_contact ltac:(lra)) as O.
    exists ((u - q / d) :: nil). split; [|split; [|split]].
    + intros s Hss. split; intros Hi.
      * assert (s <> u - q / d) by (intros ->; apply Hi; left; reflexivity).
        destruct (Rlt_dec s (u - q / d)).
        { apply (euler_loc gamma W (fun _ => side) s (s - 1) (u - q / d)); [lra|intros; apply H1; lra|apply euler_const]. }
        { apply (euler_loc gamma W (fun _ => star_sh) s (u - q / d) us); [lra|intros; apply H2; lra|apply euler_const]. }
      * destruct Hi as [<-|[]]. apply (jump_two gamma W (fun _ => side) (fun _ => star_sh) (u - q / d) (u - q / d - 1) us); [lra|intros; apply H1; lra|intros; apply H2; lra|apply conts_const|apply conts_const| |].
        { apply shock_rankine; lra. } { apply shock_entropic; lra. }
    + intros s [<-|[]]. lra.
    + exists (u - q / d). split; [lra|exact H2].
    + exists (u - q / d). exact H1.
  - assert (L' : ps <= p) by lra. rewrite (proj2 (rltb_false _ _) L'). destruct (Hr L') as [H1 [H2 H3]]. clear Hs Hr. pose proof (head_tail L') as O. pose proof cm_pos as O2.
    assert (KP : forall s, s <= us - cm -> 0 < kfan s) by (intros; apply kfan_pos; lra).
    exists ((u - c) :: (us - cm) :: nil). split; [|split; [|split]].
    + intros s Hss. split; intros Hi.
      * assert (s <> u - c) by (intros ->; apply Hi; left; reflexivity). assert (s <> us - cm) by (intros ->; apply Hi; right; left; reflexivity).
        destruct (Rlt_dec s (u - c)); [|destruct (Rlt_dec s (us - cm))].
        { apply (euler_loc gamma W (fun _ => side) s (s - 1) (u - c)); [lra|intros; apply H1; lra|apply euler_const]. }
        { apply (euler_loc gamma W fan s (u - c) (us - cm)); [lra|intros; apply H2; lra|]. apply fan_euler, KP. lra. }
        { apply (euler_loc gamma W (fun _ => star_ra) s (us - cm) us); [lra|intros; apply H3; lra|apply euler_const]. }
      * destruct (Req_dec (u - c) (us - cm)) as [E|E].
        { assert (s = u - c) as -> by (destruct Hi as [<-|[<-|[]]]; lra).
          assert (ES : side = star_ra) by (rewrite <- fan_head, <- (fan_tail L'), E; reflexivity).
          apply (jump_two gamma W (fun _ => side) (fun _ => star_ra) (u - c) (u - c - 1) us); [lra|intros; apply H1; lra|intros; apply H3; lra|apply conts_const|apply conts_const| |];
          rewrite ES; [apply rankine_refl|apply entropic_refl]. }
        { destruct Hi as [<-|[<-|[]]].
          - apply (jump_two gamma W (fun _ => side) fan (u - c) (u - c - 1) (us - cm)); [lra|intros; apply H1; lra|intros; apply H2; lra|apply conts_const|apply euler_conts, fan_euler, KP; lra| |];
            rewrite fan_head; [apply rankine_refl|apply entropic_refl].
          - apply (jump_two gamma W fan (fun _ => star_ra) (us - cm) (u - c) us); [lra|intros; apply H2; lra|intros; apply H3; lra|apply euler_conts, fan_euler, KP; lra|apply conts_const| |];
            rewrite (fan_tail L'); [apply rankine_refl|apply entropic_refl]. }
    + intros s [<-|[<-|[]]]; lra.
    + exists (us - cm). split; [lra|exact H3].
    + exists (u - c). exact H1.
Qed.
End Half.
