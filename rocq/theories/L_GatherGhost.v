From Verif Require Import Prelude L_Prelude Vec S_Tree M_Walk M_KDTree L_KDStruct M_Search L_Search M_Stock S_Stock S_Search M_Box L_Box M_Gather L_Gather M_GatherGhost.
From Coq Require Import Reals Lra.
Local Open Scope Z_scope.

Lemma push_mono : forall cap keep l neib n2, push_all cap keep l neib = Ok n2 -> zlen neib <= zlen n2.
Proof.
  intros cap keep. induction l as [|p l IH]; intros neib n2 H; cbn in H; [injection H as <-; lia|].
  destruct (keep p) as [[|]| | |]; try discriminate; cbn [bind] in H; [|auto].
  destruct (zlen neib <? cap); [|discriminate]. apply IH in H. unfold zlen in *. rewrite app_length in H. lia.
Qed.
Lemma push_neg_spec : forall cap keep l n2, push_all cap keep l [] = Ok n2 -> push_neg keep l = match n2 with [] => Ok tt | _ => UB end.
Proof.
  intros cap keep. induction l as [|p l IH]; intros n2 H; cbn in H |- *; [injection H as <-; reflexivity|].
  destruct (keep p) as [[|]| | |]; try discriminate; cbn [bind] in *; [|auto].
  destruct (0 <? cap); [|discriminate]. apply push_mono in H. destruct n2; [unfold zlen in H; cbn in H; lia|reflexivity].
Qed.

(** The walk with counter -1 follows the walk with an empty, large enough buffer until the
    first particle is found. *)
Section Sim.
Variables (fuel : nat) (v : tview) (opn keep : Z -> res bool) (Nl Nmax cap Ncell : Z).
Hypothesis (Hneg : -1 + Nl < Nmax).
Lemma visit_mono : forall c neib n2 ct, gather_visit fuel v opn keep Nl cap c neib = Ok (n2, ct) -> zlen neib <= zlen n2.
Proof.
  intros c neib n2 ct. unfold gather_visit. destruct (opn c) as [[|]| | |]; cbn [bind]; try discriminate; [|intros [= <- <-]; lia].
  destruct (vopen v c) as [co| | |]; cbn [bind]; try discriminate. destruct (negb _); [intros [= <- <-]; lia|].
  destruct (vN v c) as [n| | |]; cbn [bind]; try discriminate. destruct (n =? 0); [intros [= <- <-]; lia|].
  destruct (_ <? _); [|intros [= <- <-]; lia]. destruct (cell_list fuel v c) as [l| | |]; cbn [bind]; try discriminate.
  destruct (push_all cap keep l neib) as [n3| | |] eqn:E; cbn [bind]; try discriminate. intros [= <- <-]. eapply push_mono; eauto.
Qed.
Lemma walk_mono : forall f cc neib n2 b, walk (vopen v) (vnext v) Ncell (gather_visit fuel v opn keep Nl cap) f cc neib = Ok (n2, b) -> zlen neib <= zlen n2.
Proof.
  induction f as [|f IH]; intros cc neib n2 b; cbn [walk]; destruct (cc <? Ncell); try discriminate; try (intros [= <- <-]; lia).
  destruct (gather_visit fuel v opn keep Nl cap cc neib) as [[n3 ct]| | |] eqn:E; cbn [bind]; try discriminate. apply visit_mono in E.
  destruct ct.
  - destruct (vopen v cc); cbn [bind]; try discriminate. intros H. apply IH in H. lia.
  - destruct (vnext v cc); cbn [bind]; try discriminate. intros H. apply IH in H. lia.
  - intros [= <- <-]. lia.
Qed.
Lemma neg_sim : forall f cc n2, walk (vopen v) (vnext v) Ncell (gather_visit fuel v opn keep Nl cap) f cc [] = Ok (n2, false) ->
  walk (vopen v) (vnext v) Ncell (gather_visit_neg fuel v opn keep Nl Nmax) f cc tt = match n2 with [] => Ok (tt, false) | _ => UB end.
Proof.
  induction f as [|f IH]; intros cc n2; cbn [walk]; destruct (cc <? Ncell); try discriminate; try (intros [= <-]; reflexivity).
  destruct (gather_visit fuel v opn keep Nl cap cc []) as [[n3 ct]| | |] eqn:E; cbn [bind]; try discriminate.
  unfold gather_visit in E. unfold gather_visit_neg at 1.
  destruct (opn cc) as [[|]| | |]; cbn [bind] in *; try discriminate.
  - destruct (vopen v cc) as [co| | |]; cbn [bind] in *; try discriminate. destruct (negb (co =? -1)).
    { injection E as <- <-. cbn [bind]. apply IH. }
    destruct (vN v cc) as [n| | |]; cbn [bind] in *; try discriminate. destruct (n =? 0).
    { injection E as <- <-. cbn [bind]. destruct (vnext v cc); cbn [bind]; try discriminate. apply IH. }
    destruct (Z.ltb_spec (-1 + Nl) Nmax); [|lia].
    destruct (_ <? _); [|injection E as <- <-; discriminate].
    destruct (cell_list fuel v cc) as [l| | |]; cbn [bind] in *; try discriminate.
    destruct (push_all cap keep l []) as [n4| | |] eqn:P; cbn [bind] in *; try discriminate. injection E as <- <-.
    rewrite (push_neg_spec _ _ _ _ P). destruct n4 as [|x n4].
    + cbn [bind]. destruct (vnext v cc); cbn [bind]; try discriminate. apply IH.
    + cbn [bind]. destruct (vnext v cc); cbn [bind]; try discriminate. intros W. apply walk_mono in W.
      destruct n2; [unfold zlen in W; cbn in W; lia|reflexivity].
  - injection E as <- <-. cbn [bind]. destruct (vnext v cc); cbn [bind]; try discriminate. apply IH.
Qed.
End Sim.

(** The live particles of [ps] closer to [rp] than [rsearch]. *)
Definition near_live (ndim : nat) (pd : list particle) (rp : vec) (rsearch : R) (ps : list Z) : list Z :=
  filter (fun i => match aget pd i with
                   | Ok p => negb (p_dead p) && rltb (norm ndim (vsub (p_r p) rp)) rsearch
                   | _ => false end) ps.
Section Two.
Context (ndim : nat) (kr th2 : R) (quad : bool) (pd : list particle).
Context (Nl : Z) (s : tstate) (Ncell : Z) (t : rtree) (ps : list Z).
Context (Nlg : Z) (sg : tstate) (Ncellg : Z) (tg : rtree) (psg : list Z).
Context (Hs : stocked ndim kr th2 quad pd Nl s Ncell t ps) (Hg : stocked ndim kr th2 quad pd Nlg sg Ncellg tg psg).
Context (Hkr : (0 <= kr)%R) (Hh : forall p x, aget pd p = Ok x -> (0 <= p_h x)%R).

Lemma neg_correct : forall Nneibmax rp rsearch, (0 <= rsearch)%R -> -1 + Nlg < Nneibmax ->
  gather_point_neg ndim pd sg Ncellg Nlg Nneibmax rp rsearch = match near_live ndim pd rp rsearch psg with [] => Ok None | _ => UB end.
Proof.
  intros Nneibmax rp rs Hrs Hn.
  set (cap := Z.max 0 (Nlg + zlen (near_live ndim pd rp rs psg) + 1)).
  destruct (gather_point_correct ndim kr th2 quad pd Nlg sg Ncellg tg psg Hg Hkr (fun p x _ => Hh p x) cap rp rs [] Hrs) as (r & E & H).
  { unfold cap, zlen. cbn. lia. }
  fold (near_live ndim pd rp rs psg) in H. unfold gather_point in E.
  set (W := walk _ _ _ _ _ _ _) in E. destruct W as [[n b]| | |] eqn:EW; cbn [bind] in E; try discriminate. injection E as <-. unfold W in EW. clear W.
  destruct b; [exfalso; unfold cap, zlen in H; cbn in H; unfold zlen in H; lia|]. destruct H as [H _]. cbn [app] in H.
  unfold gather_point_neg. rewrite (neg_sim _ _ _ _ _ _ _ _ Hn _ _ _ EW). rewrite <- H. destruct n; reflexivity.
Qed.

Lemma two_trees : forall Nneibmax rp rsearch, (0 <= rsearch)%R -> 0 <= Nneibmax -> Nlg <= Nneibmax ->
  let real := near_live ndim pd rp rsearch ps in
  let ghost := near_live ndim pd rp rsearch psg in
  let r := GetGatherNeighbourList ndim pd s Ncell Nl sg Ncellg Nlg Nneibmax rp rsearch in
  (r = Ok (Some (real ++ ghost)) /\ zlen (real ++ ghost) <= Nneibmax) \/
  (r = Ok None /\ Nneibmax <= Z.max Nl Nlg + zlen (real ++ ghost)) \/
  (r = UB /\ gather_point ndim pd s Ncell Nl Nneibmax rp rsearch [] = Ok None /\ ghost <> []).
Proof.
  intros Nneibmax rp rs Hrs H0 Hn real ghost r. unfold r, GetGatherNeighbourList.
  assert (ZA : zlen (real ++ ghost) = zlen real + zlen ghost) by (unfold zlen; rewrite app_length; lia).
  assert (ZR : 0 <= zlen real) by (unfold zlen; lia). assert (ZG : 0 <= zlen ghost) by (unfold zlen; lia).
  destruct (gather_point_correct ndim kr th2 quad pd Nl s Ncell t ps Hs Hkr (fun p x _ => Hh p x) Nneibmax rp rs [] Hrs) as (r1 & E1 & H1).
  { unfold zlen. cbn. lia. }
  fold (near_live ndim pd rp rs ps) in H1. fold real in H1. rewrite E1. cbn [bind]. destruct r1 as [l|].
  - destruct H1 as [-> L1]. cbn [app] in *.
    destruct (gather_point_correct ndim kr th2 quad pd Nlg sg Ncellg tg psg Hg Hkr (fun p x _ => Hh p x) Nneibmax rp rs real Hrs L1) as (r2 & E2 & H2).
    fold (near_live ndim pd rp rs psg) in H2. fold ghost in H2. rewrite E2. destruct r2 as [l|].
    + left. destruct H2 as [-> L2]. auto.
    + right. left. split; [reflexivity|]. lia.
  - change (zlen (@nil Z)) with 0 in H1. rewrite neg_correct by (assumption || lia). fold ghost. destruct ghost as [|g gs] eqn:G.
    + right. left. split; [reflexivity|]. lia.
    + right. right. split; [reflexivity|]. split; [reflexivity|discriminate].
Qed.
Lemma two_trees_fit : forall Nneibmax rp rsearch, (0 <= rsearch)%R -> 0 <= Nneibmax ->
  let real := near_live ndim pd rp rsearch ps in
  let ghost := near_live ndim pd rp rsearch psg in
  Nl + zlen real < Nneibmax -> Nlg + zlen (real ++ ghost) < Nneibmax ->
  GetGatherNeighbourList ndim pd s Ncell Nl sg Ncellg Nlg Nneibmax rp rsearch = Ok (Some (real ++ ghost)).
Proof.
  intros Nneibmax rp rs Hrs H0 real ghost Hf Hf2. unfold GetGatherNeighbourList.
  destruct (gather_point_correct ndim kr th2 quad pd Nl s Ncell t ps Hs Hkr (fun p x _ => Hh p x) Nneibmax rp rs [] Hrs) as (r1 & E1 & H1).
  { unfold zlen. cbn. lia. }
  fold (near_live ndim pd rp rs ps) in H1. fold real in H1. rewrite E1. cbn [bind]. destruct r1 as [l|].
  - destruct H1 as [-> L1]. cbn [app] in *.
    destruct (gather_point_correct ndim kr th2 quad pd Nlg sg Ncellg tg psg Hg Hkr (fun p x _ => Hh p x) Nneibmax rp rs real Hrs L1) as (r2 & E2 & H2).
    fold (near_live ndim pd rp rs psg) in H2. fold ghost in H2. rewrite E2. destruct r2 as [l|].
    + destruct H2 as [-> L2]. reflexivity.
    + exfalso. unfold zlen in *. rewrite app_length in Hf2. lia.
  - exfalso. change (zlen (@nil Z)) with 0 in H1. lia.
Qed.
(** The overflow is not noticed. *)
Lemma two_trees_overflow : forall Nneibmax rp rsearch, (0 <= rsearch)%R -> -1 + Nlg < Nneibmax ->
  gather_point ndim pd s Ncell Nl Nneibmax rp rsearch [] = Ok None -> near_live ndim pd rp rsearch psg <> [] ->
  GetGatherNeighbourList ndim pd s Ncell Nl sg Ncellg Nlg Nneibmax rp rsearch = UB.
Proof.
  intros Nneibmax rp rs Hrs Hn E G. unfold GetGatherNeighbourList. rewrite E. cbn [bind]. rewrite neg_correct by assumption.
  destruct (near_live ndim pd rp rs psg); [contradiction|reflexivity].
Qed.
End Two.

(** ** A larger buffer does not change the answer *)
Lemma push_larger : forall keep cap cap' l neib n2, cap <= cap' -> push_all cap keep l neib = Ok n2 -> push_all cap' keep l neib = Ok n2.
Proof.
  intros keep cap cap'. induction l as [|p l IH]; intros neib n2 Hc H; cbn in H |- *; [exact H|].
  destruct (keep p) as [[|]| | |]; try discriminate; cbn [bind] in *; [|auto].
  destruct (Z.ltb_spec (zlen neib) cap); [|discriminate]. destruct (Z.ltb_spec (zlen neib) cap'); [auto|lia].
Qed.
Lemma walk_larger : forall fuel v opn keep Nl cap cap' Ncell, cap <= cap' -> forall f cc neib n2,
  walk (vopen v) (vnext v) Ncell (gather_visit fuel v opn keep Nl cap) f cc neib = Ok (n2, false) ->
  walk (vopen v) (vnext v) Ncell (gather_visit fuel v opn keep Nl cap') f cc neib = Ok (n2, false).
Proof.
  intros fuel v opn keep Nl cap cap' Ncell Hc. induction f as [|f IH]; intros cc neib n2; cbn [walk]; destruct (cc <? Ncell); auto.
  destruct (gather_visit fuel v opn keep Nl cap cc neib) as [[n3 ct]| | |] eqn:E; cbn [bind]; try discriminate. intros H.
  assert (ct = Stop \/ gather_visit fuel v opn keep Nl cap' cc neib = Ok (n3, ct)) as [ -> | -> ].
  { unfold gather_visit in *. destruct (opn cc) as [[|]| | |]; cbn [bind] in *; try discriminate; auto.
    destruct (vopen v cc) as [co| | |]; cbn [bind] in *; try discriminate. destruct (negb _); auto.
    destruct (vN v cc) as [n| | |]; cbn [bind] in *; try discriminate. destruct (n =? 0); auto.
    destruct (Z.ltb_spec (zlen neib + Nl) cap); [|injection E as <- <-; auto]. right.
    destruct (Z.ltb_spec (zlen neib + Nl) cap'); [|lia].
    destruct (cell_list fuel v cc) as [l| | |]; cbn [bind] in *; try discriminate.
    destruct (push_all cap keep l neib) as [n4| | |] eqn:P; cbn [bind] in *; try discriminate. rewrite (push_larger _ _ _ _ _ _ Hc P). exact E. }
  - discriminate.
  - cbn [bind]. destruct ct.
    + destruct (vopen v cc); cbn [bind] in *; try discriminate. auto.
    + destruct (vnext v cc); cbn [bind] in *; try discriminate. auto.
    + exact H.
Qed.
Lemma point_larger : forall ndim pd s Ncell Nl cap cap' rp rs neib l, cap <= cap' ->
  gather_point ndim pd s Ncell Nl cap rp rs neib = Ok (Some l) -> gather_point ndim pd s Ncell Nl cap' rp rs neib = Ok (Some l).
Proof.
  intros ndim pd s Ncell Nl cap cap' rp rs neib l Hc. unfold gather_point. intros H.
  destruct (walk _ _ _ _ _ _ _) as [[n b]| | |] eqn:E; cbn [bind] in H; try discriminate. destruct b; [discriminate|].
  rewrite (walk_larger _ _ _ _ _ _ _ _ Hc _ _ _ _ E). exact H.
Qed.
Lemma search_larger : forall ndim pd s Ncell Nl sg Ncellg Nlg cap cap' rp rs l, cap <= cap' ->
  GetGatherNeighbourList ndim pd s Ncell Nl sg Ncellg Nlg cap rp rs = Ok (Some l) ->
  GetGatherNeighbourList ndim pd s Ncell Nl sg Ncellg Nlg cap' rp rs = Ok (Some l).
Proof.
  intros ndim pd s Ncell Nl sg Ncellg Nlg cap cap' rp rs l Hc. unfold GetGatherNeighbourList.
  destruct (gather_point ndim pd s Ncell Nl cap rp rs []) as [[l1|]| | |] eqn:E; cbn [bind]; try discriminate.
  - rewrite (point_larger _ _ _ _ _ _ _ _ _ _ _ Hc E). cbn [bind]. now apply point_larger.
  - unfold gather_point_neg. destruct (walk _ _ _ _ _ _ _) as [[n b]| | |]; cbn [bind]; discriminate.
Qed.
