(** Particular cases: one dimension, cubic spline kernel. *)
From Verif Require Import Prelude Vec M_Box L_Box M_Force M_Dens S_Dens S_Stock L_Stock M_Kernel S_Kernel L_Kernel L_Dens L_Dens2 L_Dens3 L_Dens4.
From Coq Require Import Reals Lra Lia Psatz.
Local Open Scope R_scope.

Definition at_ (x g : R) : dneib := mkdneib (fun _ => x) 1 g 0.
Definition here : vec := fun _ => 0.
(** A particle at the origin with the length [h]. *)
Definition part_ (h g : R) : dpart := mkdpart here 1 h 0 0 0 0 0 0 g false false 0.
Notation w := (m4_w0 1).
Notation s2 f := (fun s => f (sqrt s)).

Lemma D1 : density_kernel 1 2 (m4_w0 1) (m4_w1 1) (m4_womega 1).
Proof. apply (m4_density 1). lia. Qed.
Lemma far1 : forall x g, far 1 here (at_ x g) = Rabs x.
Proof. intros. unfold far, norm, dot, vsub, at_, here. cbn. rewrite <- sqrt_Rsqr_abs. unfold Rsqr. f_equal. ring. Qed.
Lemma w_in : forall s, 0 <= s < 1 -> w s = 2 / 3 * (1 - 3 / 2 * s * s + 3 / 4 * s * s * s).
Proof. intros s H. unfold m4_w0, rltb. destruct (Rlt_dec s 1); [reflexivity | lra]. Qed.
Lemma w_mid : forall s, 1 <= s < 2 -> w s = 1 / 6 * (2 - s) ^ 3.
Proof. intros s H. unfold m4_w0, rltb. destruct (Rlt_dec s 1); [lra|]. destruct (Rlt_dec s 2); [|lra]. cbn. field. Qed.
Lemma w_out : forall s, 2 <= s -> w s = 0.
Proof. intros s H. apply (dk_out _ _ _ _ _ D1). exact H. Qed.
Lemma w_0 : w 0 = 2 / 3. Proof. rewrite w_in by lra. field. Qed.
Lemma func1 : forall hf m rho, 0 < hf -> 0 < m -> 0 < rho -> h_rho_func 1 hf m rho = hf * m / rho.
Proof.
  intros hf m rho H1 H2 H3. apply (belongs_unique 1 (Nat.le_refl _) hf m _ _ rho H3).
  - apply (func_belongs 1 (Nat.le_refl _) hf H1 m rho H2 H3).
  - split; [apply Rdiv_lt_0_compat; [apply Rmult_lt_0_compat|]; assumption|]. cbn. field. lra.
Qed.
Lemma rltb_true : forall x y, x < y -> rltb x y = true.
Proof. intros. unfold rltb. destruct (Rlt_dec x y); [reflexivity | lra]. Qed.
Lemma rltb_false : forall x y, y <= x -> rltb x y = false.
Proof. intros. unfold rltb. destruct (Rlt_dec x y); [lra | reflexivity]. Qed.

(** ** The lower limit on the length *)
Definition c_l : list dneib := at_ 0 0 :: repeat (at_ 2 0) 6 ++ repeat (at_ (-2) 0) 6.
Lemma c_dens : forall h, 0 < h -> dens 1 w here c_l h = (2 / 3 + 12 * w (2 / h)) / h.
Proof.
  intros h H. unfold dens, c_l. cbn [repeat app lsum nb_m at_]. fold (at_ 0 0) (at_ 2 0) (at_ (-2) 0). rewrite !far1.
  rewrite Rabs_R0, (Rabs_right 2) by lra. rewrite (Rabs_left (-2)) by lra. replace (- -2) with 2 by lra. replace (0 / h) with 0 by (field; lra).
  rewrite w_0, pow_1. field. lra.
Qed.
Lemma c_dens2 : dens 1 w here c_l 2 = 4 / 3.
Proof. rewrite c_dens by lra. replace (2 / 2) with 1 by field. rewrite w_mid by lra. field. Qed.
Lemma c_dens1 : dens 1 w here c_l 1 = 2 / 3.
Proof. rewrite c_dens by lra. rewrite w_out by lra. field. Qed.

Lemma c_solution : exists hs, 1 < hs < 2 /\ belongs 1 (6 / 5) 1 hs (dens 1 w here c_l hs).
Proof.
  set (c := root 3 (4 / 15)). assert (C3 : c ^ 3 = 4 / 15).
  { unfold c. apply (root_pow 3 ltac:(lia)). lra. }
  assert (C0 : 0 < c) by (unfold c, root, Rpower; apply exp_pos).
  assert (C1 : c < 7 / 10) by nra. assert (C2 : 6 / 10 < c) by nra.
  exists (2 / (2 - c)). split.
  - split; apply Rmult_lt_reg_r with (2 - c); try lra; replace (2 / (2 - c) * (2 - c)) with 2 by (field; lra); lra.
  - assert (P : 0 < 2 / (2 - c)) by (apply Rdiv_lt_0_compat; lra). split; [exact P|].
    rewrite c_dens by exact P. replace (2 / (2 / (2 - c))) with (2 - c) by (field; lra).
    rewrite w_mid by lra. replace (2 - (2 - c)) with c by ring. rewrite C3. rewrite !pow_1. field. lra.
Qed.

Lemma clipped : exists p', ComputeH 1 (s2 w) (s2 (m4_womega 1)) (s2 m4_wzeta) 4 (6 / 5) (1 / 100) (fun x => x) (Some (6 / 5)) false false false [] (part_ 2 0) 3 c_l = Ret 1 p' /\
  p_h p' = 1 /\ p_rho p' = 4 / 3.
Proof.
  unfold ComputeH. cbn [p_m part_ p_r p_h].
  assert (EL : 6 / 5 * root 1 (1 / (6 / 5)) = 1).
  { change (h_rho_func 1 (6 / 5) 1 (6 / 5) = 1). rewrite func1 by lra. field. }
  rewrite EL. rewrite (rltb_false 3 1) by lra. cbn [andb].
  assert (EH : forall k, hloop 1 (s2 w) (6 / 5) (1 / 100) (fun x => x) (S k) 1 here c_l 3 0 2 1 3 = Left 2 1).
  { intros k. cbn [hloop]. rewrite (rho_sum_dens 1 w), c_dens2 by lra. rewrite func1 by lra.
    replace (6 / 5 * 1 / (4 / 3)) with (9 / 10) by field.
    rewrite (rltb_false (Rabs (2 - 9 / 10) * (1 / 2)) (1 / 100)) by (rewrite Rabs_right; lra).
    rewrite andb_false_r. cbn [Z.add Z.ltb Z.compare Pos.compare Pos.compare_cont].
    rewrite (rltb_false 3 (9 / 10)), (rltb_false 1 (9 / 10)) by lra. reflexivity. }
  rewrite (EH 149%nat). cbv zeta. rewrite (rho_sum_dens 1 w) by lra. rewrite c_dens2, func1 by lra.
  rewrite (Rmax_right (6 / 5 * 1 / (4 / 3)) 1) by lra. replace (rleb 1 3) with true by (symmetry; apply rleb_t; lra).
  eexists. split; [reflexivity|]. split; reflexivity.
Qed.

(** A particle whose cell has no length as large as the limit is left as it was. *)
Lemma stuck : forall hmask gather k, dens_cell 1 4 (S k) (ComputeH 1 (s2 w) (s2 (m4_womega 1)) (s2 m4_wzeta) 4 (6 / 5) (1 / 100) (fun x => x) (Some (6 / 5)) false false false [])
   hmask gather [part_ (1 / 2) 0] (1 / 2) = Ok [part_ (1 / 2) 0].
Proof.
  intros hmask gather k. cbn [dens_cell do_active]. unfold ComputeH at 1. cbn [p_m part_].
  assert (EL : 6 / 5 * root 1 (1 / (6 / 5)) = 1).
  { change (h_rho_func 1 (6 / 5) 1 (6 / 5) = 1). rewrite func1 by lra. field. }
  rewrite EL. rewrite (rltb_true (105 / 100 * (1 / 2)) 1) by lra. reflexivity.
Qed.

(** ** The deepest potential *)
(** The particle has a neighbour deeper in the potential at the distance 1. *)
Definition d_l : list dneib := [at_ 1 3; at_ 0 2; at_ (-1) 1; at_ (-1) 1; at_ (205 / 100) 1].
(** The particle is the deepest of those within its range; one deeper lies outside. *)
Definition d_l2 : list dneib := [at_ 1 1; at_ (-1) 1; at_ (-1) 1; at_ 0 2; at_ (205 / 100) 3].
Lemma d_dens : forall l, l = d_l \/ l = d_l2 -> dens 1 w here l 1 = 7 / 6.
Proof.
  intros l H. assert (HW : forall x g, at_ x g = at_ x g) by reflexivity.
  destruct H as [-> | ->]; unfold dens, d_l, d_l2; cbn [lsum]; rewrite !far1; cbn [nb_m at_]; rewrite Rabs_R0, Rabs_R1, (Rabs_left (-1)), (Rabs_right (205 / 100)) by lra;
    replace (- -1 / 1) with 1 by field; replace (1 / 1) with 1 by field; replace (0 / 1) with 0 by field; rewrite (w_out (205 / 100 / 1)) by lra; rewrite w_0, w_mid, !pow_1 by lra; field.
Qed.

Lemma dot1 : forall x y, dot 1 x y = x O * y O.
Proof. intros. unfold dot. cbn. ring. Qed.
Lemma d_potmin : potmin_loop 1 4 (part_ 1 2) 1 d_l (last_dr (part_ 1 2) d_l) true = true.
Proof.
  unfold last_dr, d_l. cbn [rev app potmin_loop]. rewrite !dot1. cbn [at_ nb_r nb_gpot part_ p_r p_gpot vsub here]. unfold vsub, here.
  rewrite (rltb_true (1000000001 / 1000000000 * 2) 3) by lra. rewrite (rltb_false ((205 / 100 - 0) * (205 / 100 - 0) * 1) 4) by lra.
  rewrite (rltb_false (1000000001 / 1000000000 * 2) 2), (rltb_false (1000000001 / 1000000000 * 2) 1) by lra. reflexivity.
Qed.
Lemma d_potmin2 : potmin_loop 1 4 (part_ 1 2) 1 d_l2 (last_dr (part_ 1 2) d_l2) true = false.
Proof.
  unfold last_dr, d_l2. cbn [rev app potmin_loop]. rewrite !dot1. cbn [at_ nb_r nb_gpot part_ p_r p_gpot vsub here]. unfold vsub, here.
  rewrite (rltb_true (1000000001 / 1000000000 * 2) 3) by lra.
  rewrite (rltb_false (1000000001 / 1000000000 * 2) 2), (rltb_false (1000000001 / 1000000000 * 2) 1) by lra. cbn [andb].
  rewrite rltb_true by lra. reflexivity.
Qed.
