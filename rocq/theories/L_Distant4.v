(** Where the limit from distant particles fails. *)
From Verif Require Import Prelude L_Prelude Vec S_Tree S_KD M_Walk L_Tree M_KDTree L_KDStruct L_KDBuild L_KDTop M_Stock S_Stock L_Stock L_StockTree S_Box S_Search
  M_Search L_Search M_Box L_Box M_Gather L_Gather L_StockTop L_ExTree M_Util M_Periodic M_Ghost M_Distant S_Distant L_Distant L_Distant2 L_Distant3.
From Coq Require Import Reals Lra Permutation.
Local Open Scope R_scope.

Lemma extent2 : forall A big lo hi (f : A -> R) x y, extent big lo hi f f [x; y] ->
  - big <= f x <= big -> - big <= f y <= big -> lo = Rmin (f x) (f y) /\ hi = Rmax (f x) (f y).
Proof.
  intros A big lo hi f x y [HB HA] Hx Hy.
  destruct (HB x (or_introl eq_refl)) as [X1 X2]. destruct (HB y (or_intror (or_introl eq_refl))) as [Y1 Y2].
  destruct (HA ltac:(discriminate)) as [(u & Hu & Eu) (w & Hw & Ew)].
  { intros z [<-|[<-|[]]]; lra. }
  split.
  - destruct Hu as [<-|[<-|[]]]; unfold Rmin; destruct (Rle_dec _ _); lra.
  - destruct Hw as [<-|[<-|[]]]; unfold Rmax; destruct (Rle_dec _ _); lra.
Qed.
Lemma extent4 : forall A big lo hi (f : A -> R) x y z u, extent big lo hi f f [x; y; z; u] ->
  (forall w, In w [x;y;z;u] -> - big <= f w <= big) ->
  lo = Rmin (Rmin (f x) (f y)) (Rmin (f z) (f u)) /\ hi = Rmax (Rmax (f x) (f y)) (Rmax (f z) (f u)).
Proof.
  intros A big lo hi f x y z u [HB HA] H.
  destruct (HB x ltac:(cbn; auto)) as [X1 X2]. destruct (HB y ltac:(cbn; auto)) as [Y1 Y2].
  destruct (HB z ltac:(cbn; auto)) as [Z1 Z2]. destruct (HB u ltac:(cbn; auto)) as [U1 U2].
  destruct (HA ltac:(discriminate)) as [(a & Ha & Ea) (b & Hb & Eb)].
  { intros w Hw. specialize (H w Hw). lra. }
  split.
  - assert (M : forall p q, Rmin p q = p \/ Rmin p q = q) by (intros; unfold Rmin; destruct (Rle_dec _ _); auto).
    assert (M1 : forall p q, Rmin p q <= p /\ Rmin p q <= q) by (intros; split; [apply Rmin_l|apply Rmin_r]).
    destruct (M1 (Rmin (f x) (f y)) (Rmin (f z) (f u))). destruct (M1 (f x) (f y)). destruct (M1 (f z) (f u)).
    apply Rle_antisym.
    + destruct (M (Rmin (f x) (f y)) (Rmin (f z) (f u))) as [-> | ->]; [destruct (M (f x) (f y)) as [-> | ->]|destruct (M (f z) (f u)) as [-> | ->]]; lra.
    + cbn in Ha. destruct Ha as [<-|[<-|[<-|[<-|[]]]]]; lra.
  - assert (M : forall p q, Rmax p q = p \/ Rmax p q = q) by (intros; unfold Rmax; destruct (Rle_dec _ _); auto).
    assert (M1 : forall p q, p <= Rmax p q /\ q <= Rmax p q) by (intros; split; [apply Rmax_l|apply Rmax_r]).
    destruct (M1 (Rmax (f x) (f y)) (Rmax (f z) (f u))). destruct (M1 (f x) (f y)). destruct (M1 (f z) (f u)).
    apply Rle_antisym.
    + cbn in Hb. destruct Hb as [<-|[<-|[<-|[<-|[]]]]]; lra.
    + destruct (M (Rmax (f x) (f y)) (Rmax (f z) (f u))) as [-> | ->]; [destruct (M (f x) (f y)) as [-> | ->]|destruct (M (f z) (f u)) as [-> | ->]]; lra.
Qed.

Lemma big1000 : 1000 <= big_number.
Proof. unfold big_number. assert (1 <= 10 ^ 19) by (apply pow_R1_Rle; lra). lra. Qed.

Lemma max_att2 : forall (m : R) (f : particle -> R) x y, f x <= m -> f y <= m -> 0 < f x ->
  (m = 0 \/ exists p, In p [x; y] /\ f p = m) -> m = Rmax (f x) (f y).
Proof.
  intros m f x y Hx Hy H0 [H|(p & [<-|[<-|[]]] & Hp)]; [lra| |]; unfold Rmax; destruct (Rle_dec _ _); lra.
Qed.

(** The fields of a stocked tree of three cells. *)
Lemma tree3 : forall ndim kr th2 quad pd Nl s a b c d, stocked ndim kr th2 quad pd Nl s 3 (ptree 1 0) [a;b;c;d] -> (Nl <= 2)%Z ->
  exists xa xb xc xd g gl gr, parts_of pd [a;b] = Ok [xa; xb] /\ parts_of pd [c;d] = Ok [xc; xd] /\
    aget (ts_g s) 0 = Ok g /\ aget (ts_g s) 1 = Ok gl /\ aget (ts_g s) 2 = Ok gr /\
    describes ndim kr th2 quad g [xa; xb; xc; xd] /\ describes ndim kr th2 quad gl [xa; xb] /\ describes ndim kr th2 quad gr [xc; xd] /\
    let v := view_of (ts_k s) in
    vopen v 0%Z = Ok 1%Z /\ vopen v 1%Z = Ok (-1)%Z /\ vopen v 2%Z = Ok (-1)%Z /\
    vnext v 1%Z = Ok 2%Z /\ (exists y, vnext v 2%Z = Ok y /\ (3 <= y)%Z) /\ vN v 1%Z = Ok 2%Z /\
    cell_list (tfuel (ts_k s)) v 1%Z = Ok [a; b].
Proof.
  intros ndim kr th2 quad pd Nl s a b c d ST HNl.
  assert (HC := stocked_hides ndim kr th2 quad pd Nl s 3 (ptree 1 0) [a;b;c;d] ST
     {| t_f := {| f_dom := mkbox zerov zerov (fun _ => openB) (fun _ => openB); f_per := fun _ => false; f_mlhs := fun _ => false; f_mrhs := fun _ => false; f_anyper := false; f_anymir := false |};
        t_centre := zerov; t_cmin := zerov; t_cmax := zerov; t_hmin := zerov; t_hmax := zerov; t_need := false |} g_init
     (fun _ => False) (fun acts a0 x g xs _ _ _ _ F => False_ind _ F)).
  destruct ST as [st_root0 st_cells0 st_links0 st_desc0 st_nodup0 st_range0].
  change (ptree 1 0) with (RNode 0 [RNode 1 []; RNode 2 []]) in *.
  destruct (ctree2_inv _ _ _ st_desc0) as (q1 & q2 & El & P0 & P1 & L1 & P2 & L2).
  destruct (ctree2_inv _ _ _ HC) as (q1' & q2' & El' & _ & (C1' & g1' & x1' & _) & L1' & (C2' & g2' & x2' & _) & L2').
  destruct L1 as (k1 & A1 & B1 & N1). destruct L2 as (k2 & A2 & B2 & N2).
  assert (HQ : forall p1 p2 : list Z, [a;b;c;d] = p1 ++ p2 -> (zlen p1 <= 2)%Z -> (zlen p2 <= 2)%Z -> p1 = [a;b] /\ p2 = [c;d]).
  { intros p1 p2 E Z1 Z2. unfold zlen in *. destruct p1 as [|u1 [|u2 [|u3 p1]]]; cbn in E, Z1; try lia.
    - subst p2. cbn in Z2. lia.
    - injection E as _ <-. cbn in Z2. lia.
    - injection E as -> -> <-. auto. }
  destruct (HQ q1 q2 El ltac:(lia) ltac:(lia)) as [-> ->].
  destruct P0 as (k0 & g & xs0 & Ak0 & Bk0 & Ck0 & Dk0 & Ek0).
  destruct P1 as (k1' & gl & xs1 & Ak1 & Bk1 & Ck1 & Dk1 & Ek1).
  destruct P2 as (k2' & gr & xs2 & Ak2 & Bk2 & Ck2 & Dk2 & Ek2).
  assert (PX : forall u w xs, parts_of pd [u; w] = Ok xs -> exists x y, xs = [x; y]).
  { intros u w xs H. cbn in H. destruct (aget pd u); cbn [bind] in H; try discriminate.
    destruct (aget pd w); cbn [bind] in H; try discriminate. injection H as <-. eauto. }
  destruct (PX _ _ _ Dk1) as (xa & xb & ->). destruct (PX _ _ _ Dk2) as (xc & xd & ->).
  assert (xs0 = [xa;xb;xc;xd]) as ->.
  { assert (X := parts_app2 pd [a;b] [c;d] _ _ Dk1 Dk2). cbn [app] in X. rewrite Dk0 in X. now injection X as ->. }
  exists xa, xb, xc, xd, g, gl, gr. repeat (split; [assumption|]). cbv zeta.
  rewrite linked_unfold in st_links0. destruct st_links0 as (_ & O0 & LL0). cbn [root] in O0.
  cbn [linked_list] in LL0. destruct LL0 as (LA & LB & _).
  rewrite linked_unfold in LA. destruct LA as ((y1 & Y1 & S1) & O1 & _).
  rewrite linked_unfold in LB. destruct LB as ((y2 & Y2 & S2) & O2 & _).
  cbn [root] in S1.
  split; [exact O0|]. split; [exact O1|]. split; [exact O2|].
  split; [destruct S1 as [ -> |[? ?]]; [exact Y1|lia]|].
  split; [exists y2; split; [exact Y2|]; destruct S2 as [ -> |[? ?]]; lia|].
  split.
  { cbn. unfold kget. rewrite Ak1. cbn [bind]. rewrite Bk1. reflexivity. }
  assert (zlen q1' = 2)%Z.
  { unfold count_ok in C1'. cbn in C1'. unfold kget in C1'. rewrite Ak1 in C1'. cbn [bind] in C1'. rewrite Bk1 in C1'. injection C1' as <-. reflexivity. }
  assert (zlen q2' = 2)%Z.
  { unfold count_ok in C2'. cbn in C2'. unfold kget in C2'. rewrite Ak2 in C2'. cbn [bind] in C2'. rewrite Bk2 in C2'. injection C2' as <-. reflexivity. }
  destruct (HQ q1' q2' El' ltac:(lia) ltac:(lia)) as [-> _]. exact (L1' eq_refl).
Qed.

Lemma walk3_skip : forall (S : Type) co cn (visit : Z -> S -> res (S * ctl)) s y,
  co 0%Z = Ok 1%Z -> cn 1%Z = Ok 2%Z -> cn 2%Z = Ok y -> (3 <= y)%Z ->
  visit 0%Z s = Ok (s, Down) -> forall s1, visit 1%Z s = Ok (s1, Skip) -> visit 2%Z s1 = Ok (s1, Skip) ->
  walk co cn 3 visit 3 0 s = Ok (s1, false).
Proof.
  intros S co cn visit s y O0 N1 N2 Hy V0 s1 V1 V2.
  cbn [walk]. change (0 <? 3)%Z with true. cbv iota. rewrite V0. cbn [bind]. rewrite O0. cbn [bind].
  change (1 <? 3)%Z with true. cbv iota. rewrite V1. cbn [bind]. rewrite N1. cbn [bind].
  change (2 <? 3)%Z with true. cbv iota. rewrite V2. cbn [bind]. rewrite N2. cbn [bind].
  replace (y <? 3)%Z with false by lia. reflexivity.
Qed.

(** ** Two dimensions: cold gas at rest beside hot gas at rest *)
Definition w_part (x y c : R) : particle :=
  {| p_r := fun k => match k with 0%nat => x | _ => y end; p_v := zerov; p_h := 7 / 20; p_m := 1; p_sound := c;
     p_dead := false; p_active := true; p_grav := true |}.
Definition w_pd : list particle := [w_part 0 0 1; w_part 0 2 1; w_part 3 0 9; w_part 3 2 9].
Definition w_s1 : kst := match BuildTree [[0;0;3;3];[0;2;0;2]]%Z [false;false;false;false] 3 4 0 4 [0;0]%Z [3;2]%Z ex_s0 [0;0]%Z with Ok (s, _) => s | _ => ex_s0 end.
Lemma w_built : exists g2c, BuildTree [[0;0;3;3];[0;2;0;2]]%Z [false;false;false;false] 3 4 0 4 [0;0]%Z [3;2]%Z ex_s0 [0;0]%Z = Ok (w_s1, g2c).
Proof. eexists. vm_compute. reflexivity. Qed.
Lemma w_ready : ready 2 1 3 3 (mkts w_s1 ex_gs) [0;1;3;2]%Z.
Proof.
  unfold ready. split.
  { vm_compute. split; [|split]; eexists; repeat split. }
  split; [reflexivity|]. split; [lia|]. split.
  { exists [0;1]%Z, [3;2]%Z. split; [reflexivity|]. split; eexists; (split; [vm_compute; reflexivity|]); (split; [|vm_compute; congruence]); vm_compute; repeat split. }
  split; [repeat constructor; cbn; intuition lia|]. split; [|vm_compute; congruence].
  intros p Hp. change (zlen (inext (ts_k (mkts w_s1 ex_gs)))) with 4%Z. cbn in Hp. intuition lia.
Qed.
Lemma w_stocked : exists s, StockTree 2 2 2 1 true w_pd 1 0 (mkts w_s1 ex_gs) = Ok s /\
  stocked 2 2 1 true w_pd 2 s 3 (ptree 1 0) [0;1;3;2]%Z.
Proof.
  destruct (stock_one 2 2 1 true 2 1 3 3 (mkts w_s1 ex_gs) [0;1;3;2]%Z w_pd w_ready) as (s & E & _ & S & _).
  { intros p Hp. cbn in Hp. destruct Hp as [<-|[<-|[<-|[<-|[]]]]]; eexists; (split; [reflexivity|]); cbn; lra. }
  exists s. split; [exact E|exact S].
Qed.
Definition w_act : apart := mka (fun _ => 0) zerov (7 / 20) 1 1.

Lemma Rdiv_0_l0 : forall x : R, 0 / x = 0.
Proof. intros x. unfold Rdiv. ring. Qed.
Lemma dt_one : forall a, 0 < a_h a -> 0 < a_vsig a -> dt_guess [a] = a_h a / a_vsig a.
Proof.
  intros a H V. unfold dt_guess. cbn [fold_left]. rewrite (proj2 (rltb_true _ _) V). apply Rmax_right.
  apply Rlt_le, Rmult_lt_0_compat; [exact H|now apply Rinv_0_lt_compat].
Qed.

Lemma plane_run : forall tg s, stocked 2 2 1 true w_pd 2 s 3 (ptree 1 0) [0;1;3;2]%Z -> plain tg ->
  exists gl, aget (ts_g s) 1 = Ok gl /\ member 2 gl w_act /\ distant 2 tg false w_pd s 3 gl [w_act] = Ok ([w_act], false).
Proof.
  intros tg s ST HP. assert (HBig := big1000). assert (Hsm := small_pos).
  destruct (tree3 _ _ _ _ _ _ _ _ _ _ _ ST ltac:(lia)) as (xa & xb & xc & xd & g & gl & gr & Pab & Pcd & G0 & G1 & G2 & D0 & D1 & D2 & O0 & O1 & O2 & N1 & (y & N2 & Hy) & _ & _).
  cbn in Pab. injection Pab as <- <-. cbn in Pcd. injection Pcd as <- <-.
  (* boxes *)
  pose proof (d_bb _ _ _ _ _ _ D1 0%nat ltac:(lia)) as B1x. pose proof (d_bb _ _ _ _ _ _ D1 1%nat ltac:(lia)) as B1y.
  pose proof (d_vb _ _ _ _ _ _ D1 0%nat ltac:(lia)) as V1x. pose proof (d_vb _ _ _ _ _ _ D1 1%nat ltac:(lia)) as V1y.
  pose proof (d_bb _ _ _ _ _ _ D2 0%nat ltac:(lia)) as B2x. pose proof (d_bb _ _ _ _ _ _ D2 1%nat ltac:(lia)) as B2y.
  pose proof (d_vb _ _ _ _ _ _ D2 0%nat ltac:(lia)) as V2x. pose proof (d_vb _ _ _ _ _ _ D2 1%nat ltac:(lia)) as V2y.
  pose proof (d_bb _ _ _ _ _ _ D0 0%nat ltac:(lia)) as B0x. pose proof (d_bb _ _ _ _ _ _ D0 1%nat ltac:(lia)) as B0y.
  pose proof (d_vb _ _ _ _ _ _ D0 0%nat ltac:(lia)) as V0x. pose proof (d_vb _ _ _ _ _ _ D0 1%nat ltac:(lia)) as V0y.
  apply extent2 in B1x; [|cbn; lra|cbn; lra]. apply extent2 in B1y; [|cbn; lra|cbn; lra].
  apply extent2 in V1x; [|cbn; unfold zerov; lra|cbn; unfold zerov; lra]. apply extent2 in V1y; [|cbn; unfold zerov; lra|cbn; unfold zerov; lra].
  apply extent2 in B2x; [|cbn; lra|cbn; lra]. apply extent2 in B2y; [|cbn; lra|cbn; lra].
  apply extent2 in V2x; [|cbn; unfold zerov; lra|cbn; unfold zerov; lra]. apply extent2 in V2y; [|cbn; unfold zerov; lra|cbn; unfold zerov; lra].
  apply extent4 in B0x; [|intros w [<-|[<-|[<-|[<-|[]]]]]; cbn; lra]. apply extent4 in B0y; [|intros w [<-|[<-|[<-|[<-|[]]]]]; cbn; lra].
  apply extent4 in V0x; [|intros w [<-|[<-|[<-|[<-|[]]]]]; cbn; unfold zerov; lra]. apply extent4 in V0y; [|intros w [<-|[<-|[<-|[<-|[]]]]]; cbn; unfold zerov; lra].
  cbn [p_r p_v w_part] in *. unfold zerov in *.
  assert (MM : forall p q, p <= q -> Rmin p q = p /\ Rmin q p = p /\ Rmax p q = q /\ Rmax q p = q).
  { intros p q H. repeat split; [apply Rmin_left|apply Rmin_right|apply Rmax_right|apply Rmax_left]; lra. }
  destruct (MM 0 0 ltac:(lra)) as (a1 & _ & a2 & _). destruct (MM 3 3 ltac:(lra)) as (b1 & _ & b2 & _).
  destruct (MM 0 2 ltac:(lra)) as (c1 & c2 & c3 & c4). destruct (MM 0 3 ltac:(lra)) as (e1 & _ & e2 & _). destruct (MM 2 2 ltac:(lra)) as (f1 & _ & f2 & _).
  repeat rewrite ?a1, ?a2, ?b1, ?b2, ?c1, ?c2, ?c3, ?c4, ?e1, ?e2, ?f1, ?f2 in *.
  assert (S1 : gmaxsound gl = 1).
  { destruct (d_satt _ _ _ _ _ _ D1) as [E|(p & [<-|[<-|[]]] & E)]; [|now rewrite <- E|now rewrite <- E].
    assert (X := d_sound _ _ _ _ _ _ D1 (w_part 0 0 1) ltac:(now left)). cbn in X. lra. }
  assert (S2 : gmaxsound gr = 9).
  { destruct (d_satt _ _ _ _ _ _ D2) as [E|(p & [<-|[<-|[]]] & E)]; [|now rewrite <- E|now rewrite <- E].
    assert (X := d_sound _ _ _ _ _ _ D2 (w_part 3 2 9) ltac:(now left)). cbn in X. lra. }
  assert (S0 : 9 <= gmaxsound g).
  { exact (d_sound _ _ _ _ _ _ D0 (w_part 3 2 9) ltac:(cbn; auto)). }
  destruct B1x as [B1a B1b], B1y as [B1c B1d], V1x as [V1a V1b], V1y as [V1c V1d], B2x as [B2a B2b], B2y as [B2c B2d],
    V2x as [V2a V2b], V2y as [V2c V2d], B0x as [B0a B0b], B0y as [B0c B0d], V0x as [V0a V0b], V0y as [V0c V0d].
  assert (DT : dt_guess [w_act] = 7 / 20) by (rewrite dt_one; cbn; lra).
  exists gl. split; [exact G1|]. split.
  { split; [|cbn; lra]. split; [|split; [|cbn; lra]]; intros [|[|k]] Hk; try lia; cbn [a_r a_v w_act]; unfold zerov; lra. }
  assert (X0 : box_open 2 tg gl g (7/20) = true).
  { unfold box_open. rewrite plain_dr by exact HP. cbv zeta. unfold loopk. cbn [seq fold_left sumf].
    rewrite B0a, B0b, B0c, B0d, V0a, V0b, V0c, V0d, B1a, B1b, B1c, B1d, V1a, V1b, V1c, V1d, S1.
    replace (rltb (Rabs (1/2*(3+0) - 1/2*(0+0))) (1/2*(0-0)+1/2*(3-0))) with false by (symmetry; apply rltb_false; rewrite Rabs_pos_eq; lra).
    cbn [andb]. rewrite (proj2 (rltb_true 0 (1/2*(3+0) - 1/2*(0+0))) ltac:(lra)).
    replace (rltb 0 (1/2*(2+0) - 1/2*(2+0))) with false by (symmetry; apply rltb_false; lra).
    apply rltb_true.
    replace (0 + (1 / 2 * (3 + 0) - 1 / 2 * (0 + 0) - (1 / 2 * (0 - 0) + 1 / 2 * (3 - 0))) * (1 / 2 * (3 + 0) - 1 / 2 * (0 + 0) - (1 / 2 * (0 - 0) + 1 / 2 * (3 - 0))) +
      (1 / 2 * (2 + 0) - 1 / 2 * (2 + 0) + (1 / 2 * (2 - 0) + 1 / 2 * (2 - 0))) * (1 / 2 * (2 + 0) - 1 / 2 * (2 + 0) + (1 / 2 * (2 - 0) + 1 / 2 * (2 - 0)))) with (2 * 2) by field.
    rewrite sqrt_square by lra.
    match goal with |- _ < _ * (_ + _ - ?q / _) => replace q with 0 by field end. rewrite Rdiv_0_l0. lra. }
  assert (X1 : box_open 2 tg gl gl (7/20) = false).
  { unfold box_open. rewrite plain_dr by exact HP. cbv zeta. unfold loopk. cbn [seq fold_left sumf].
    rewrite B1a, B1b, B1c, B1d, V1a, V1b, V1c, V1d, S1.
    replace (rltb (Rabs (1/2*(0+0) - 1/2*(0+0))) (1/2*(0-0)+1/2*(0-0))) with false by (symmetry; apply rltb_false; rewrite Rabs_pos_eq; lra).
    cbn [andb].
    replace (rltb 0 (1/2*(2+0) - 1/2*(2+0))) with false by (symmetry; apply rltb_false; lra).
    replace (rltb 0 (1/2*(0+0) - 1/2*(0+0))) with false by (symmetry; apply rltb_false; lra).
    apply rltb_false.
    match goal with |- _ <= sqrt ?q => replace q with (2 * 2) by field end. rewrite sqrt_square by lra.
    match goal with |- _ * (_ + _ - ?q / _) <= _ => replace q with 0 by field end. rewrite Rdiv_0_l0. lra. }
  assert (X2 : box_open 2 tg gl gr (7/20) = false).
  { unfold box_open. rewrite plain_dr by exact HP. cbv zeta. unfold loopk. cbn [seq fold_left sumf].
    rewrite B2a, B2b, B2c, B2d, V2a, V2b, V2c, V2d, B1a, B1b, B1c, B1d, V1a, V1b, V1c, V1d, S1, S2.
    replace (rltb (Rabs (1/2*(3+3) - 1/2*(0+0))) (1/2*(0-0)+1/2*(3-3))) with false by (symmetry; apply rltb_false; rewrite Rabs_pos_eq; lra).
    cbn [andb]. rewrite (proj2 (rltb_true 0 (1/2*(3+3) - 1/2*(0+0))) ltac:(lra)).
    replace (rltb 0 (1/2*(2+0) - 1/2*(2+0))) with false by (symmetry; apply rltb_false; lra).
    apply rltb_false.
    match goal with |- _ * (_ + _ - ?q / _) <= _ => replace q with 0 by field end. rewrite Rdiv_0_l0.
    match goal with |- _ <= sqrt ?q => replace q with 13 by field end.
    apply Rsqr_incr_0_var; [|apply sqrt_pos]. rewrite Rsqr_sqrt by lra. unfold Rsqr. lra. }
  unfold distant. change (Z.to_nat 3) with 3%nat.
  rewrite (walk3_skip _ _ _ _ _ y O0 N1 N2 Hy) with (s1 := ([w_act], dt_guess [w_act])).
  - reflexivity.
  - unfold distant_visit. rewrite G0. cbn [bind]. rewrite DT, X0, O0. reflexivity.
  - unfold distant_visit. rewrite G1. cbn [bind]. rewrite DT, X1. reflexivity.
  - unfold distant_visit. rewrite G2. cbn [bind]. rewrite DT, X2. reflexivity.
Qed.

Lemma plane_need : need 2 w_act (p_r (w_part 3 0 9)) (p_v (w_part 3 0 9)) (p_sound (w_part 3 0 9)) = 7 / 6.
Proof.
  unfold need, needed, signal, closing, dot, norm. cbn [sumf a_r a_v a_h a_sound w_act p_r p_v p_sound w_part]. unfold dot. cbn [sumf]. unfold vsub, zerov.
  match goal with |- context [sqrt ?q] => replace q with (3 * 3) by ring end. rewrite sqrt_square by lra. rewrite Rmax_left by lra.
  assert (Hsm := small_pos). field. lra.
Qed.
