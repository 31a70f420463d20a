(** C50: the point search over the trees of the real and of the ghost particles. *)
From Verif Require Import Prelude L_Prelude Vec S_Tree M_Walk M_KDTree L_KDStruct M_Search L_Search M_Stock S_Stock S_Search L_Stock L_StockTop
  M_Box L_Box M_Gather L_Gather M_GatherGhost L_GatherGhost L_ExTree.
From Coq Require Import Reals Lra.
Local Open Scope Z_scope.

(** All live real and ghost particles in range, if the buffer has room for them and one leaf. *)
Theorem C50_complete_partial : forall ndim kr th2 quad pd Nl s Ncell t ps Nlg sg Ncellg tg psg,
  stocked ndim kr th2 quad pd Nl s Ncell t ps -> stocked ndim kr th2 quad pd Nlg sg Ncellg tg psg -> (0 <= kr)%R ->
  (forall p x, aget pd p = Ok x -> (0 <= p_h x)%R) ->
  forall Nneibmax rp rsearch, (0 <= rsearch)%R -> 0 <= Nneibmax ->
  let real := near_live ndim pd rp rsearch ps in
  let ghost := near_live ndim pd rp rsearch psg in
  Nl + zlen real < Nneibmax -> Nlg + zlen (real ++ ghost) < Nneibmax ->
  GetGatherNeighbourList ndim pd s Ncell Nl sg Ncellg Nlg Nneibmax rp rsearch = Ok (Some (real ++ ghost)).
Proof. intros ndim kr th2 quad pd Nl s Ncell t ps Nlg sg Ncellg tg psg Hs Hg Hkr Hh. exact (two_trees_fit ndim kr th2 quad pd Nl s Ncell t ps Nlg sg Ncellg tg psg Hs Hg Hkr Hh). Qed.
Print Assumptions C50_complete_partial.

(** In all cases: the complete list, or -1 because of too small a buffer, or an invalid write;
    the last exactly when the search of the real particles returned -1 and a ghost is in range. *)
Theorem C50_cases_partial : forall ndim kr th2 quad pd Nl s Ncell t ps Nlg sg Ncellg tg psg,
  stocked ndim kr th2 quad pd Nl s Ncell t ps -> stocked ndim kr th2 quad pd Nlg sg Ncellg tg psg -> (0 <= kr)%R ->
  (forall p x, aget pd p = Ok x -> (0 <= p_h x)%R) ->
  forall Nneibmax rp rsearch, (0 <= rsearch)%R -> 0 <= Nneibmax -> Nlg <= Nneibmax ->
  let real := near_live ndim pd rp rsearch ps in
  let ghost := near_live ndim pd rp rsearch psg in
  let r := GetGatherNeighbourList ndim pd s Ncell Nl sg Ncellg Nlg Nneibmax rp rsearch in
  (r = Ok (Some (real ++ ghost)) /\ zlen (real ++ ghost) <= Nneibmax) \/
  (r = Ok None /\ Nneibmax <= Z.max Nl Nlg + zlen (real ++ ghost)) \/
  (r = UB /\ gather_point ndim pd s Ncell Nl Nneibmax rp rsearch [] = Ok None /\ ghost <> []).
Proof. intros ndim kr th2 quad pd Nl s Ncell t ps Nlg sg Ncellg tg psg Hs Hg Hkr Hh. exact (two_trees ndim kr th2 quad pd Nl s Ncell t ps Nlg sg Ncellg tg psg Hs Hg Hkr Hh). Qed.
Print Assumptions C50_cases_partial.

(** A larger buffer never changes a complete answer. *)
Theorem C50_larger_buffer : forall ndim pd s Ncell Nl sg Ncellg Nlg cap cap' rp rs l, cap <= cap' ->
  GetGatherNeighbourList ndim pd s Ncell Nl sg Ncellg Nlg cap rp rs = Ok (Some l) ->
  GetGatherNeighbourList ndim pd s Ncell Nl sg Ncellg Nlg cap' rp rs = Ok (Some l).
Proof. exact search_larger. Qed.
Print Assumptions C50_larger_buffer.

(** Four particles at 0, 1, 2, 3 and four ghosts at -4, -3, -2, -1 (a periodic box of size 4). *)
Definition ex_pd8 : list particle :=
  [ex_part 0 false; ex_part 1 false; ex_part 2 false; ex_part 3 false; ex_part (-4) false; ex_part (-3) false; ex_part (-2) false; ex_part (-1) false].
Definition ex_pos8 : list (list Z) := [[0;1;2;3;-4;-3;-2;-1]].
Definition ex_dead8 : list bool := repeat false 8.
Definition ex_s8 := mkst (repeat 0 8) (repeat 0 8) (repeat ex_blank 3).
Definition ex_real : kst := match BuildTree ex_pos8 ex_dead8 3 4 0 4 [0] [3] ex_s8 [0;0] with Ok (s, _) => s | _ => ex_s0 end.
Definition ex_ghost : kst := match BuildTree ex_pos8 ex_dead8 3 4 4 4 [-4] [-1] ex_s8 [0;0] with Ok (s, _) => s | _ => ex_s0 end.
Lemma ex_real_ready : ready 2 1 3 3 (mkts ex_real ex_gs) [0;1;2;3].
Proof.
  unfold ready. split.
  { vm_compute. split; [|split]; eexists; repeat split. }
  split; [reflexivity|]. split; [lia|]. split.
  { exists [0;1], [2;3]. split; [reflexivity|]. split; eexists; (split; [vm_compute; reflexivity|]); (split; [|vm_compute; congruence]); vm_compute; repeat split. }
  split; [repeat constructor; cbn; intuition lia|]. split; [|vm_compute; congruence].
  intros p Hp. change (zlen (inext (ts_k (mkts ex_real ex_gs)))) with 8. cbn in Hp. intuition lia.
Qed.
Lemma ex_ghost_ready : ready 2 1 3 3 (mkts ex_ghost ex_gs) [4;5;6;7].
Proof.
  unfold ready. split.
  { vm_compute. split; [|split]; eexists; repeat split. }
  split; [reflexivity|]. split; [lia|]. split.
  { exists [4;5], [6;7]. split; [reflexivity|]. split; eexists; (split; [vm_compute; reflexivity|]); (split; [|vm_compute; congruence]); vm_compute; repeat split. }
  split; [repeat constructor; cbn; intuition lia|]. split; [|vm_compute; congruence].
  intros p Hp. change (zlen (inext (ts_k (mkts ex_ghost ex_gs)))) with 8. cbn in Hp. intuition lia.
Qed.
Lemma ex_parts8 : forall p, 0 <= p < 8 -> exists x, aget ex_pd8 p = Ok x /\ (0 <= gmass x)%R.
Proof.
  intros p Hp. assert (p = 0 \/ p = 1 \/ p = 2 \/ p = 3 \/ p = 4 \/ p = 5 \/ p = 6 \/ p = 7) as X by lia.
  destruct X as [ -> |[ -> |[ -> |[ -> |[ -> |[ -> |[ -> | -> ]]]]]]]; eexists; (split; [reflexivity|]); cbn; lra.
Qed.
Lemma ex_h8 : forall p x, aget ex_pd8 p = Ok x -> (0 <= p_h x)%R.
Proof.
  intros p x H. unfold aget in H. destruct (p <? 0); [discriminate|].
  destruct (nth_error ex_pd8 (Z.to_nat p)) eqn:E; [|discriminate]. injection H as ->.
  apply nth_error_In in E. cbn in E. destruct E as [<-|[<-|[<-|[<-|[<-|[<-|[<-|[<-|[]]]]]]]]]; cbn; lra.
Qed.
Lemma ex_two : exists s sg, stocked 1 2 1 true ex_pd8 2 s 3 (ptree 1 0) [0;1;2;3] /\ stocked 1 2 1 true ex_pd8 2 sg 3 (ptree 1 0) [4;5;6;7].
Proof.
  destruct (stock_one 1 2 1 true 2 1 3 3 (mkts ex_real ex_gs) [0;1;2;3] ex_pd8 ex_real_ready) as (s & _ & _ & S & _).
  { intros p Hp. apply ex_parts8. cbn in Hp. intuition lia. }
  destruct (stock_one 1 2 1 true 2 1 3 3 (mkts ex_ghost ex_gs) [4;5;6;7] ex_pd8 ex_ghost_ready) as (sg & _ & _ & Sg & _).
  { intros p Hp. apply ex_parts8. cbn in Hp. intuition lia. }
  exists s, sg. split; [exact S|exact Sg].
Qed.
Lemma ex_near8 : near_live 1 ex_pd8 (fun _ => 0)%R (5/2)%R [0;1;2;3] = [0;1;2] /\ near_live 1 ex_pd8 (fun _ => 0)%R (5/2)%R [4;5;6;7] = [6;7].
Proof.
  assert (N : forall x, rltb (norm 1 (vsub (fun _ => x) (fun _ => 0)%R)) (5/2) = rltb (x * x) (25/4)).
  { intros x. apply Bool.eq_iff_eq_true. rewrite !rltb_true. rewrite <- norm_lt_sqr by lra. unfold dot, vsub. cbn.
    rewrite Rplus_0_l, !Rminus_0_r. replace (5 / 2 * (5 / 2))%R with (25 / 4)%R by lra. reflexivity. }
  split; unfold near_live; cbn [filter];
  change (aget ex_pd8 0) with (Ok (ex_part 0 false)); change (aget ex_pd8 1) with (Ok (ex_part 1 false));
  change (aget ex_pd8 2) with (Ok (ex_part 2 false)); change (aget ex_pd8 3) with (Ok (ex_part 3 false));
  change (aget ex_pd8 4) with (Ok (ex_part (-4) false)); change (aget ex_pd8 5) with (Ok (ex_part (-3) false));
  change (aget ex_pd8 6) with (Ok (ex_part (-2) false)); change (aget ex_pd8 7) with (Ok (ex_part (-1) false));
  cbn [ex_part p_r p_dead negb andb]; rewrite !N; unfold rltb; repeat (destruct (Rlt_dec _ _); try lra); reflexivity.
Qed.

(** With a buffer of 2 entries, the search around 0 with radius 2.5 (five particles in range)
    writes outside the buffer instead of returning -1. *)
Theorem C50_no_overrun_refuted : exists pd s sg Ncell Nl Nneibmax rp rsearch t tg,
  stocked 1 2 1 true pd Nl s Ncell t [0;1;2;3] /\ stocked 1 2 1 true pd Nl sg Ncell tg [4;5;6;7] /\ (forall p x, aget pd p = Ok x -> (0 <= p_h x)%R) /\
  (0 <= rsearch)%R /\ Nl <= Nneibmax /\
  GetGatherNeighbourList 1 pd s Ncell Nl sg Ncell Nl Nneibmax rp rsearch = UB.
Proof.
  destruct ex_two as (s & sg & Ss & Sg). exists ex_pd8, s, sg, 3, 2, 2, (fun _ => 0)%R, (5/2)%R, (ptree 1 0), (ptree 1 0).
  split; [exact Ss|]. split; [exact Sg|]. split; [exact ex_h8|]. split; [lra|]. split; [lia|].
  destruct ex_near8 as [NR NG].
  apply (two_trees_overflow 1 2 1 true ex_pd8 2 s 3 2 sg 3 (ptree 1 0) [4;5;6;7] Sg ltac:(lra) ex_h8); [lra|lia| |].
  - destruct (gather_point_correct 1 2 1 true ex_pd8 2 s 3 (ptree 1 0) [0;1;2;3] Ss ltac:(lra) ltac:(intros p x _; apply ex_h8) 2 (fun _ => 0)%R (5/2)%R []) as (r & E & H);
      [lra|unfold zlen; cbn; lia|]. fold (near_live 1 ex_pd8 (fun _ => 0)%R (5/2)%R [0;1;2;3]) in H. rewrite NR in H.
    rewrite E. destruct r as [l|]; [|reflexivity]. destruct H as [-> H]. unfold zlen in H. cbn in H. lia.
  - rewrite NG. discriminate.
Qed.
Print Assumptions C50_no_overrun_refuted.

(** With ten entries all five are found. *)
Example C50_example : exists s sg, stocked 1 2 1 true ex_pd8 2 s 3 (ptree 1 0) [0;1;2;3] /\ stocked 1 2 1 true ex_pd8 2 sg 3 (ptree 1 0) [4;5;6;7] /\
  GetGatherNeighbourList 1 ex_pd8 s 3 2 sg 3 2 10 (fun _ => 0)%R (5/2)%R = Ok (Some [0;1;2;6;7]).
Proof.
  destruct ex_two as (s & sg & Ss & Sg). exists s, sg. split; [exact Ss|]. split; [exact Sg|]. destruct ex_near8 as [NR NG].
  rewrite (C50_complete_partial 1 2 1 true ex_pd8 2 s 3 (ptree 1 0) [0;1;2;3] 2 sg 3 (ptree 1 0) [4;5;6;7] Ss Sg ltac:(lra) ex_h8 10 (fun _ => 0)%R (5/2)%R);
    rewrite ?NR, ?NG; try lra; try (unfold zlen; cbn; lia). reflexivity.
Qed.
