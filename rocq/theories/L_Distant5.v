(** Where the limit from distant particles fails, continued. *)
From Verif Require Import Prelude L_Prelude Vec S_Tree S_KD M_Walk L_Tree M_KDTree L_KDStruct L_KDBuild L_KDTop M_Stock S_Stock L_Stock L_StockTree S_Box S_Search
  M_Search L_Search M_Box L_Box M_Gather L_Gather L_StockTop L_ExTree M_Util M_Periodic M_Ghost M_Distant S_Distant L_Distant L_Distant2 L_Distant3 L_Distant4.
From Coq Require Import Reals Lra Permutation.
Local Open Scope R_scope.

(** ** A periodic domain in one dimension: gas that leaves on one side and comes in on the other *)
Definition u_part (x v : R) : particle :=
  {| p_r := fun _ => x; p_v := fun _ => v; p_h := 1; p_m := 1; p_sound := 1; p_dead := false; p_active := true; p_grav := true |}.
Definition u_pd : list particle := [u_part 0 0; u_part 1 0; u_part 4 9; u_part 6 9].
Definition u_dom : dombox := mkbox (fun _ => 0) (fun _ => 10) (fun _ => periodicB) (fun _ => periodicB).
Definition u_act : apart := mka (fun _ => 0) (fun _ => 0) 1 1 2.
Definition u_s1 : kst := match BuildTree [[0;1;4;6]]%Z [false;false;false;false] 3 4 0 4 [0]%Z [10]%Z ex_s0 [0;0]%Z with Ok (s, _) => s | _ => ex_s0 end.
Lemma u_built : exists g2c, BuildTree [[0;1;4;6]]%Z [false;false;false;false] 3 4 0 4 [0]%Z [10]%Z ex_s0 [0;0]%Z = Ok (u_s1, g2c).
Proof. eexists. vm_compute. reflexivity. Qed.
Lemma u_ready : ready 2 1 3 3 (mkts u_s1 ex_gs) [0;1;2;3]%Z.
Proof.
  unfold ready. split.
  { vm_compute. split; [|split]; eexists; repeat split. }
  split; [reflexivity|]. split; [lia|]. split.
  { exists [0;1]%Z, [2;3]%Z. split; [reflexivity|]. split; eexists; (split; [vm_compute; reflexivity|]); (split; [|vm_compute; congruence]); vm_compute; repeat split. }
  split; [repeat constructor; cbn; intuition lia|]. split; [|vm_compute; congruence].
  intros p Hp. change (zlen (inext (ts_k (mkts u_s1 ex_gs)))) with 4%Z. cbn in Hp. intuition lia.
Qed.
Lemma u_stocked : exists s, StockTree 2 1 2 1 true u_pd 1 0 (mkts u_s1 ex_gs) = Ok s /\
  stocked 1 2 1 true u_pd 2 s 3 (ptree 1 0) [0;1;2;3]%Z.
Proof.
  destruct (stock_one 1 2 1 true 2 1 3 3 (mkts u_s1 ex_gs) [0;1;2;3]%Z u_pd u_ready) as (s & E & _ & S & _).
  { intros p Hp. cbn in Hp. destruct Hp as [<-|[<-|[<-|[<-|[]]]]]; eexists; (split; [reflexivity|]); cbn; lra. }
  exists s. split; [exact E|exact S].
Qed.

Lemma u_dr : forall tg d, f_anyper (t_f tg) = true -> f_per (t_f tg) 0 = true -> dhalf (f_dom (t_f tg)) 0%nat = 5 ->
  -5 <= d 0%nat <= 5 -> GF_NearestPeriodicVector 1 (t_f tg) d = (flag_none, d).
Proof.
  intros tg d A B C H. unfold GF_NearestPeriodicVector. rewrite A. unfold loopk. cbn [seq fold_left]. rewrite B, C.
  rewrite (proj2 (rltb_false 5 (d 0%nat))) by lra. rewrite (proj2 (rltb_false (d 0%nat) (-(5)))) by lra. reflexivity.
Qed.

Lemma periodic_run : forall s, stocked 1 2 1 true u_pd 2 s 3 (ptree 1 0) [0;1;2;3]%Z ->
  exists gl tg, aget (ts_g s) 1 = Ok gl /\ member 1 gl u_act /\ target_of 1 u_dom gl = Ok tg /\ distant 1 tg false u_pd s 3 gl [u_act] = Ok ([u_act], false).
Proof.
  intros s ST. assert (HBig := big1000). assert (Hsm := small_pos).
  destruct (tree3 _ _ _ _ _ _ _ _ _ _ _ ST ltac:(lia)) as (xa & xb & xc & xd & g & gl & gr & Pab & Pcd & G0 & G1 & G2 & D0 & D1 & D2 & O0 & O1 & O2 & N1 & (y & N2 & Hy) & C1 & LL).
  cbn in Pab. injection Pab as <- <-. cbn in Pcd. injection Pcd as <- <-.
  pose proof (d_bb _ _ _ _ _ _ D1 0%nat ltac:(lia)) as B1. pose proof (d_vb _ _ _ _ _ _ D1 0%nat ltac:(lia)) as V1.
  pose proof (d_bb _ _ _ _ _ _ D2 0%nat ltac:(lia)) as B2. pose proof (d_vb _ _ _ _ _ _ D2 0%nat ltac:(lia)) as V2.
  pose proof (d_bb _ _ _ _ _ _ D0 0%nat ltac:(lia)) as B0.
  apply extent2 in B1; [|cbn; lra|cbn; lra]. apply extent2 in V1; [|cbn; lra|cbn; lra].
  apply extent2 in B2; [|cbn; lra|cbn; lra]. apply extent2 in V2; [|cbn; lra|cbn; lra].
  apply extent4 in B0; [|intros w [<-|[<-|[<-|[<-|[]]]]]; cbn; lra].
  cbn [p_r p_v u_part] in *.
  assert (MM : forall p q, p <= q -> Rmin p q = p /\ Rmax p q = q).
  { intros p q H. split; [apply Rmin_left|apply Rmax_right]; lra. }
  destruct (MM 0 0 ltac:(lra)) as (a1 & a2). destruct (MM 9 9 ltac:(lra)) as (b1 & b2).
  destruct (MM 0 1 ltac:(lra)) as (c1 & c2). destruct (MM 4 6 ltac:(lra)) as (e1 & e2).
  destruct (MM 0 4 ltac:(lra)) as (f1 & f2). destruct (MM 1 6 ltac:(lra)) as (h1 & h2).
  repeat rewrite ?a1, ?a2, ?b1, ?b2, ?c1, ?c2, ?e1, ?e2, ?f1, ?f2, ?h1, ?h2 in *.
  destruct B1 as [B1a B1b], V1 as [V1a V1b], B2 as [B2a B2b], V2 as [V2a V2b], B0 as [B0a B0b].
  assert (S1 : gmaxsound gl = 1).
  { destruct (d_satt _ _ _ _ _ _ D1) as [E|(p & [<-|[<-|[]]] & E)]; [|now rewrite <- E|now rewrite <- E].
    assert (X := d_sound _ _ _ _ _ _ D1 (u_part 0 0) ltac:(now left)). cbn in X. lra. }
  assert (S2 : gmaxsound gr = 1).
  { destruct (d_satt _ _ _ _ _ _ D2) as [E|(p & [<-|[<-|[]]] & E)]; [|now rewrite <- E|now rewrite <- E].
    assert (X := d_sound _ _ _ _ _ _ D2 (u_part 4 9) ltac:(now left)). cbn in X. lra. }
  assert (RC : grcell gl 0%nat = 1 / 2).
  { rewrite (d_rcell _ _ _ _ _ _ D1 ltac:(discriminate)). rewrite B1a, B1b. lra. }
  set (tg := SetTargetCell 1 {| f_dom := u_dom; f_per := fun k => beq (blhs u_dom k) periodicB;
             f_mlhs := fun k => beq (blhs u_dom k) mirrorB; f_mrhs := fun k => beq (brhs u_dom k) mirrorB;
             f_anyper := true; f_anymir := false |} (grcell gl) (gbmin gl) (gbmax gl) (ghbmin gl) (ghbmax gl)).
  assert (ET : target_of 1 u_dom gl = Ok tg) by reflexivity.
  assert (HF : dhalf (f_dom (t_f tg)) 0%nat = 5) by (cbn; lra).
  assert (Hdr := fun d => u_dr tg d eq_refl eq_refl HF).
  assert (DT : dt_guess [u_act] = 1 / 2) by (rewrite dt_one; cbn; lra).
  exists gl, tg. split; [exact G1|]. split.
  { split; [|cbn; lra]. split; [|split; [|cbn; lra]]; intros [|k] Hk; try lia; cbn [a_r a_v u_act]; lra. }
  split; [exact ET|].
  assert (X0 : box_open 1 tg gl g (1/2) = true).
  { unfold box_open. rewrite Hdr by (rewrite B0a, B0b, B1a, B1b; lra). cbv zeta. unfold loopk. cbn [seq fold_left andb snd].
    rewrite B0a, B0b, B1a, B1b. rewrite (proj2 (rltb_true _ _)); [reflexivity|]. rewrite Rabs_pos_eq; lra. }
  assert (X1 : box_open 1 tg gl gl (1/2) = true).
  { unfold box_open. rewrite Hdr by (rewrite B1a, B1b; lra). cbv zeta. unfold loopk. cbn [seq fold_left andb snd].
    rewrite B1a, B1b. rewrite (proj2 (rltb_true _ _)); [reflexivity|]. rewrite Rabs_pos_eq; lra. }
  assert (X2 : box_open 1 tg gl gr (1/2) = false).
  { unfold box_open. rewrite Hdr by (rewrite B2a, B2b, B1a, B1b; lra). cbv zeta. unfold loopk. cbn [seq fold_left andb snd sumf].
    rewrite B2a, B2b, B1a, B1b, V2a, V2b, V1a, V1b, S1, S2.
    replace (rltb (Rabs (1/2*(6+4) - 1/2*(1+0))) (1/2*(1-0)+1/2*(6-4))) with false by (symmetry; apply rltb_false; rewrite Rabs_pos_eq; lra).
    rewrite (proj2 (rltb_true 0 (1/2*(6+4) - 1/2*(1+0))) ltac:(lra)).
    apply rltb_false.
    match goal with |- _ <= sqrt ?q => replace q with (3 * 3) by field end. rewrite sqrt_square by lra.
    match goal with |- context [?q / (3 + small_number)] => replace q with 27 by field; assert (0 < 27 / (3 + small_number)) by (apply Rmult_lt_0_compat; [lra|apply Rinv_0_lt_compat; lra]) end. lra. }
  (* the particles of the cell itself *)
  assert (GH : forall i x v, 0 <= x <= 1 -> exists q, ConstructAllGhosts 1 tg (as_gpart i (u_part x v)) (repeat blank (Z.to_nat (MaxNumGhosts 1 (t_f tg)))) = Ok ([q], 1%Z)
     /\ gp_r q = (fun _ => x) /\ gp_v q = (fun _ => v)).
  { intros i x v Hx. unfold ConstructAllGhosts. change (Z.to_nat (MaxNumGhosts 1 (t_f tg))) with 1%nat. cbn [repeat].
    change (aset [blank] 0 (as_gpart i (u_part x v))) with (Ok [as_gpart i (u_part x v)]). cbn [bind].
    change (f_anyper (t_f tg)) with true. change (t_need tg) with false. cbv iota.
    change (aget [as_gpart i (u_part x v)] 0) with (Ok (as_gpart i (u_part x v))). cbn [bind].
    unfold MakePeriodicGhost. rewrite Hdr.
    2:{ change (t_centre tg 0%nat) with (grcell gl 0%nat). rewrite RC. cbn [gp_r as_gpart p_r u_part]. lra. }
    change (is_periodic flag_none) with false. cbv iota.
    eexists. split; [reflexivity|]. split; reflexivity. }
  assert (UL : update_leaf 1 tg u_pd [0;1]%Z [u_act] = Ok [u_act]).
  { cbn [update_leaf]. change (aget u_pd 0) with (Ok (u_part 0 0)). change (aget u_pd 1) with (Ok (u_part 1 0)). cbn [bind].
    destruct (GH 0%Z 0 0 ltac:(lra)) as (q0 & -> & Q0 & W0). destruct (GH 1%Z 1 0 ltac:(lra)) as (q1 & Eq1 & Q1 & W1).
    cbn [bind]. change (firstn (Z.to_nat 1) [q0]) with [q0].
    assert (U0 : update_acts 1 (p_sound (u_part 0 0)) [q0] [u_act] = Ok [u_act]).
    { cbn [update_acts update_images]. unfold update_pair. cbn [sumf]. rewrite Q0, W0. cbn [a_r a_v u_act].
      rewrite (proj2 (rltb_false 0 _)) by lra. reflexivity. }
    rewrite U0. cbn [bind]. rewrite Eq1. cbn [bind]. change (firstn (Z.to_nat 1) [q1]) with [q1].
    assert (U1 : update_acts 1 (p_sound (u_part 1 0)) [q1] [u_act] = Ok [u_act]).
    { cbn [update_acts update_images]. unfold update_pair. cbn [sumf]. rewrite Q1, W1. cbn [a_r a_v a_h a_sound a_vsig u_act p_sound u_part].
      rewrite (proj2 (rltb_true 0 _)) by lra.
      replace (0 + (0 - 1) * (0 - 1)) with (1 * 1) by ring. rewrite sqrt_square by lra.
      rewrite (Rmax_left 1 1) by lra. replace (0 + (0 - 1) * (0 - 0)) with 0 by ring. rewrite Rdiv_0_l0.
      replace ((1 + 1 - 0) * 1 / 1) with 2 by field. rewrite (Rmax_left 2 2) by lra. rewrite (proj2 (rltb_false 2 0)) by lra. reflexivity. }
    rewrite U1. reflexivity. }
  unfold distant. change (Z.to_nat 3) with 3%nat.
  rewrite (walk3_skip _ _ _ _ _ y O0 N1 N2 Hy) with (s1 := ([u_act], dt_guess [u_act])).
  - reflexivity.
  - unfold distant_visit. rewrite G0. cbn [bind]. rewrite DT, X0, O0. reflexivity.
  - unfold distant_visit. rewrite G1. cbn [bind]. rewrite DT, X1, O1. cbn [bind]. change (negb (-1 =? -1)%Z) with false. cbv iota.
    rewrite C1. cbn [bind]. change (2 =? 0)%Z with false. cbv iota. rewrite LL. cbn [bind]. rewrite UL. cbn [bind]. rewrite DT. reflexivity.
  - unfold distant_visit. rewrite G2. cbn [bind]. rewrite DT, X2. reflexivity.
Qed.

(** The image of the particle at 6 is at -4 and comes in with speed 9. *)
Lemma periodic_need : 2 < need 1 u_act (fun _ => 6 - 10) (p_v (u_part 6 9)) (p_sound (u_part 6 9)).
Proof.
  unfold need, needed, signal, closing. rewrite norm1. unfold dot, vsub. cbn [sumf a_r a_v a_h a_sound u_act p_v p_sound u_part].
  rewrite Rabs_pos_eq by lra. rewrite Rmax_left by lra. assert (Hsm := small_pos).
  assert (small_number < 1).
  { unfold small_number. rewrite <- Rinv_1. apply Rinv_lt_contravar; [|apply Rlt_pow_R1; [lra|lia]].
    rewrite Rmult_1_l. apply pow_lt. lra. }
  replace (0 - (6 - 10)) with 4 by ring.
  assert (6 < - (0 + 4 * (0 - 9)) / (4 + small_number)); [|lra].
  replace (- (0 + 4 * (0 - 9))) with 36 by ring.
  apply (Rmult_lt_reg_r (4 + small_number)); [lra|]. replace (36 / (4 + small_number) * (4 + small_number)) with 36 by (field; lra). lra.
Qed.

(** ** The octal tree *)
Lemma oct_vbox_all : forall vs, (forall x, In x vs -> - big_number <= x <= big_number) -> oct_vbox vs = (- big_number, big_number).
Proof.
  unfold oct_vbox. induction vs as [|x vs IH]; intros H; cbn [fold_left fst snd]; [reflexivity|].
  destruct (H x (or_introl eq_refl)).
  replace (lower (- big_number) x) with (- big_number); [replace (raise big_number x) with big_number; [apply IH; intros; apply H; now right|]|].
  - unfold raise. destruct (Rlt_dec _ _); lra.
  - unfold lower. destruct (Rlt_dec _ _); lra.
Qed.

(** Two cells of 1 by 4 side by side with a gap of 1, as the octal tree describes them. *)
Definition oct_cell (lo hi c : R) (vs : list (R * R)) : gcell :=
  let b := fun k => match k with 0%nat => oct_vbox (map fst vs) | _ => oct_vbox (map snd vs) end in
  mkg 1 1 1 1 1 c 1 zerov zerov zerov
    (fun k => match k with 0%nat => lo | _ => 0 end) (fun k => match k with 0%nat => hi | _ => 4 end)
    zerov zerov (fun k => fst (b k)) (fun k => snd (b k)) zerov.

Lemma oct_skipped : forall tg c0 c vs0 vs dt, plain tg ->
  (forall x, In x (vs0 ++ vs) -> - big_number <= fst x <= big_number /\ - big_number <= snd x <= big_number) ->
  c0 + c <= big_number -> 0 <= dt ->
  box_open 2 tg (oct_cell 0 1 c0 vs0) (oct_cell 2 3 c vs) dt = false.
Proof.
  intros tg c0 c vs0 vs dt HP HV HC Hdt. assert (HB := big1000). assert (Hsm := small_pos).
  assert (Hs1 : small_number < 1).
  { unfold small_number. rewrite <- Rinv_1. apply Rinv_lt_contravar; [|apply Rlt_pow_R1; [lra|lia]].
    rewrite Rmult_1_l. apply pow_lt. lra. }
  assert (E : forall l, (forall x, In x l -> - big_number <= fst x <= big_number /\ - big_number <= snd x <= big_number) ->
     oct_vbox (map fst l) = (- big_number, big_number) /\ oct_vbox (map snd l) = (- big_number, big_number)).
  { intros l Hl. split; apply oct_vbox_all; intros x Hx; apply in_map_iff in Hx; destruct Hx as (z & <- & Hz); apply (Hl z Hz). }
  destruct (E vs0) as [E1 E2]; [intros; apply HV, in_or_app; now left|].
  destruct (E vs) as [E3 E4]; [intros; apply HV, in_or_app; now right|].
  unfold box_open. rewrite plain_dr by exact HP. cbv zeta. unfold loopk. cbn [seq fold_left sumf oct_cell gbmin gbmax gvmin gvmax gmaxsound].
  rewrite E1, E2, E3, E4. cbn [fst snd].
  replace (rltb (Rabs (1/2*(3+2) - 1/2*(1+0))) (1/2*(1-0)+1/2*(3-2))) with false by (symmetry; apply rltb_false; rewrite Rabs_pos_eq; lra).
  cbn [andb]. rewrite (proj2 (rltb_true 0 (1/2*(3+2) - 1/2*(1+0))) ltac:(lra)).
  replace (rltb 0 (1/2*(4+0) - 1/2*(4+0))) with false by (symmetry; apply rltb_false; lra).
  apply rltb_false.
  match goal with |- _ <= sqrt ?q => replace q with 17 by field end.
  match goal with |- context [?q / (sqrt 17 + _)] => replace q with (6 * big_number) by field end.
  assert (H5 : sqrt 17 <= 5). { rewrite <- (sqrt_square 5) by lra. apply sqrt_le_1; lra. }
  assert (H0 := sqrt_pos 17).
  assert (big_number <= 6 * big_number / (sqrt 17 + small_number)).
  { apply (Rmult_le_reg_r (sqrt 17 + small_number)); [lra|].
    replace (6 * big_number / (sqrt 17 + small_number) * (sqrt 17 + small_number)) with (6 * big_number) by (field; lra).
    rewrite (Rmult_comm 6). apply Rmult_le_compat_l; lra. }
  apply Rle_trans with 0; [|exact H0].
  replace 0 with (dt * 0) by ring. apply Rmult_le_compat_l; lra.
Qed.

Lemma oct_need : forall c, 0 < c -> need 2 (mka (fun k => match k with 0%nat => 1 | _ => 0 end) zerov 1 c 1)
  (fun k => match k with 0%nat => 2 | _ => 0 end) zerov c = 2 * c.
Proof.
  intros c Hc. unfold need, needed, signal, closing, norm, dot. cbn [sumf a_r a_v a_h a_sound]. unfold vsub, zerov.
  match goal with |- context [sqrt ?q] => replace q with (1 * 1) by ring end. rewrite sqrt_square by lra. rewrite Rmax_left by lra.
  assert (Hsm := small_pos). field. lra.
Qed.
