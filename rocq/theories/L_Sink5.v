From Verif Require Import Prelude L_Prelude Vec M_Box L_Box M_Sink S_Stock L_Stock S_Sink L_Sink L_Sink2 L_Sink3 L_Sink4.
From Coq Require Import Reals Lra Permutation.
Local Open Scope R_scope.

(** ** A sink that finds nothing takes nothing; one that has one particle takes it *)
Section One.
Variables (ndim : nat) (w0 wpot : R -> R) (sfrac sdt alpha_ss mmean : R).
Lemma accrete_nothing : forall sm nnow timestep s sk ps, (s_nstep sk <> 0)%Z ->
  exists sk', accrete_sink ndim w0 wpot sm sfrac sdt alpha_ss mmean nnow timestep s sk ps [] = Ok (ps, sk') /\ s_m sk' = s_m sk.
Proof.
  intros sm nnow timestep s sk ps H. unfold accrete_sink. destruct (s_Ngas sk =? 0)%Z; [eauto|].
  destruct (Z.eqb_spec (s_nstep sk) 0); [contradiction|]. destruct (negb _); [eauto|]. cbn [own_list bind].
  change (map fst (InsertionSortIds [])) with (@nil Z). cbn [enclosed bind]. destruct (accreted _ _ _ _ _) as [[macc trot] dmdt].
  cbn [loop1 bind loop2]. eexists. split; reflexivity.
Qed.
Lemma accrete_not_mine : forall sm nnow timestep s sk ps i p, (s_nstep sk <> 0)%Z -> aget ps i = Ok p -> g_sinkid p <> s ->
  exists sk', accrete_sink ndim w0 wpot sm sfrac sdt alpha_ss mmean nnow timestep s sk ps [i] = Ok (ps, sk') /\ s_m sk' = s_m sk.
Proof.
  intros sm nnow timestep s sk ps i p H Ep Ns. unfold accrete_sink. destruct (s_Ngas sk =? 0)%Z; [eauto|].
  destruct (Z.eqb_spec (s_nstep sk) 0); [contradiction|]. destruct (negb _); [eauto|]. cbn [own_list bind]. rewrite Ep. cbn [bind].
  destruct (Z.eqb_spec (g_sinkid p) s); [contradiction|].
  assert (X : (if g_dead p then Ok (ps, []) else Ok (ps, @nil (Z * R))) = Ok (ps, [])) by now destruct (g_dead p). rewrite X. cbn [bind].
  change (map fst (InsertionSortIds [])) with (@nil Z). cbn [enclosed bind]. destruct (accreted _ _ _ _ _) as [[macc trot] dmdt].
  cbn [loop1 bind loop2]. eexists. split; reflexivity.
Qed.
(** Without smooth accretion the first particle is always taken; the loops stop when less than
    [tiny] is left. *)
Lemma accrete_first : forall nnow timestep s sk ps i j p q, (s_nstep sk <> 0)%Z -> (s_Ngas sk <> 0)%Z -> Z.rem nnow (s_nstep sk) = 0%Z ->
  aget ps i = Ok p -> aget ps j = Ok q -> i <> j -> g_dead p = false -> g_dead q = false -> g_sinkid p = s -> g_sinkid q = s ->
  inside ndim sk p = true -> inside ndim sk q = true -> (forall k, g_r p k = g_r q k) -> g_m q < tiny ->
  exists ps' sk' lv, accrete_sink ndim w0 wpot 0 sfrac sdt alpha_ss mmean nnow timestep s sk ps [i; j] = Ok (ps', sk') /\
    aget ps' j = Ok (set_levelneib lv q).
Proof.
  intros nnow timestep s sk ps i j p q Hn Hg Hr Ep Eq Nij Dp Dq Sp Sq Ip Iq Rpq Hq. unfold accrete_sink.
  destruct (Z.eqb_spec (s_Ngas sk) 0); [contradiction|]. destruct (Z.eqb_spec (s_nstep sk) 0); [contradiction|].
  rewrite Hr, Z.eqb_refl. cbn [negb].
  assert (NB : forall g, inside ndim sk g = true -> rltb (s_radius sk * s_radius sk) (dot ndim (vsub (g_r g) (s_r sk)) (vsub (g_r g) (s_r sk))) = false).
  { intros g H. unfold inside, rleb in H. destruct (Rle_dec _ _); [|discriminate]. unfold rltb. destruct (Rlt_dec _ _); [lra|reflexivity]. }
  destruct (aget_Ok_inv _ _ _ Ep) as [Bi _]. destruct (aget_Ok_inv _ _ _ Eq) as [Bj _].
  cbn [own_list]. rewrite Ep. cbn [bind]. rewrite Dp, Sp, Z.eqb_refl. cbv zeta. rewrite (NB p Ip). rewrite aset_in by exact Bi. cbn [bind].
  set (p1 := set_levelneib _ p). set (ps1 := upd ps (Z.to_nat i) p1).
  assert (Eq1 : aget ps1 j = Ok q) by (unfold ps1; rewrite aget_upd_ne by (try lia; congruence); exact Eq).
  rewrite Eq1. cbn [bind]. rewrite Dq, Sq, Z.eqb_refl. rewrite (NB q Iq). rewrite aset_in by (unfold ps1; rewrite zlen_upd; exact Bj). cbn [bind].
  set (q1 := set_levelneib _ q). set (ps2 := upd ps1 (Z.to_nat j) q1).
  assert (Z1 : zlen ps2 = zlen ps) by (unfold ps2, ps1; now rewrite !zlen_upd).
  assert (E1 : aget ps2 i = Ok p1). { unfold ps2. rewrite aget_upd_ne by (try lia; congruence). unfold ps1. now apply aget_upd_eq. }
  assert (E2 : aget ps2 j = Ok q1). { unfold ps2. apply aget_upd_eq. unfold ps1. rewrite zlen_upd. exact Bj. }
  set (D := dot ndim (vsub (g_r p) (s_r sk)) (vsub (g_r p) (s_r sk))). set (D2 := dot ndim (vsub (g_r q) (s_r sk)) (vsub (g_r q) (s_r sk))).
  assert (DD : D = D2). { unfold D, D2, dot, vsub. apply sumf_ext. intros k _. now rewrite Rpq. }
  assert (SO : map fst (InsertionSortIds [(i, D); (j, D2)]) = [i; j]).
  { unfold InsertionSortIds. cbn [fold_left insert_rev snd]. rewrite DD. unfold rleb. destruct (Rle_dec D2 D2); [reflexivity|lra]. }
  rewrite SO. cbn [enclosed]. rewrite E1. cbn [bind]. change (g_dead p1) with (g_dead p). rewrite Dp. rewrite E2. cbn [bind]. change (g_dead q1) with (g_dead q). rewrite Dq.
  cbn [enclosed bind accreted Z.eqb esum1 e_menc]. change (g_m p1) with (g_m p). change (g_m q1) with (g_m q).
  set (macc := 0 + g_m p + g_m q).
  match goal with |- context [loop1 0 sfrac sdt mmean ?T ps2 [i; j] ?M ?C] => destruct (loop1_takes 0 sfrac sdt mmean T ps2 [i; j] M C) as (c & -> & _) end.
  { intros k [<-|[<-|[]]]; rewrite Z1; assumption. }
  cbn [bind]. cbn [loop2]. rewrite E1. cbn [bind]. change (g_dead p1) with (g_dead p). rewrite Dp. cbv zeta. unfold whole. cbn [Z.eqb orb].
  rewrite aset_in by (rewrite Z1; exact Bi). cbn [bind]. change (g_m p1) with (g_m p).
  assert (X : rltb (macc - g_m p) tiny = true) by (apply rltb_true; unfold macc; lra). rewrite X. cbn [bind].
  eexists _, _, _. split; [reflexivity|]. rewrite aget_upd_ne by (try lia; congruence). exact E2.
Qed.
Lemma accrete_one : forall nnow timestep s sk ps i p, (s_nstep sk <> 0)%Z -> (s_Ngas sk <> 0)%Z -> Z.rem nnow (s_nstep sk) = 0%Z ->
  aget ps i = Ok p -> g_dead p = false -> g_sinkid p = s -> inside ndim sk p = true ->
  exists ps' sk', accrete_sink ndim w0 wpot 0 sfrac sdt alpha_ss mmean nnow timestep s sk ps [i] = Ok (ps', sk') /\ s_m sk' = s_m sk + g_m p.
Proof.
  intros nnow timestep s sk ps i p Hn Hg Hr Ep Dp Sp Ip. unfold accrete_sink.
  destruct (Z.eqb_spec (s_Ngas sk) 0); [contradiction|]. destruct (Z.eqb_spec (s_nstep sk) 0); [contradiction|].
  rewrite Hr, Z.eqb_refl. cbn [negb].
  assert (NB : rltb (s_radius sk * s_radius sk) (dot ndim (vsub (g_r p) (s_r sk)) (vsub (g_r p) (s_r sk))) = false).
  { unfold inside, rleb in Ip. destruct (Rle_dec _ _); [|discriminate]. unfold rltb. destruct (Rlt_dec _ _); [lra|reflexivity]. }
  destruct (aget_Ok_inv _ _ _ Ep) as [Bi _].
  cbn [own_list]. rewrite Ep. cbn [bind]. rewrite Dp, Sp, Z.eqb_refl. cbv zeta. rewrite NB. rewrite aset_in by exact Bi. cbn [bind].
  set (p1 := set_levelneib _ p). set (ps1 := upd ps (Z.to_nat i) p1).
  assert (E1 : aget ps1 i = Ok p1) by (unfold ps1; now apply aget_upd_eq).
  match goal with |- context [InsertionSortIds [?x]] => change (map fst (InsertionSortIds [x])) with [i] end.
  cbn [enclosed]. rewrite E1. cbn [bind]. change (g_dead p1) with (g_dead p). rewrite Dp.
  cbn [enclosed bind accreted Z.eqb esum1 e_menc]. change (g_m p1) with (g_m p).
  cbn [loop1]. rewrite E1. cbn [bind]. change (g_dead p1) with (g_dead p). rewrite Dp. cbv zeta. unfold whole. cbn [Z.eqb orb]. change (g_m p1) with (g_m p).
  assert (X : rltb (0 + g_m p - g_m p) tiny = true).
  { apply rltb_true. unfold tiny. assert (0 < / 10 ^ 20) by (apply Rinv_0_lt_compat, pow_lt; lra). lra. }
  rewrite X. cbn [bind loop2]. rewrite E1. cbn [bind]. change (g_dead p1) with (g_dead p). rewrite Dp. cbv zeta. unfold whole. cbn [Z.eqb orb].
  rewrite aset_in by (unfold ps1; rewrite zlen_upd; exact Bi). cbn [bind]. change (g_m p1) with (g_m p). rewrite X. cbn [bind].
  eexists _, _. split; [reflexivity|]. reflexivity.
Qed.
End One.
