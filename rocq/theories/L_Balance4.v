(** The new domains. *)
From Verif Require Import Prelude L_Prelude Vec S_Box L_Box S_Tree L_Tree M_Box M_Stock M_Balance S_Balance L_Balance3.
From Coq Require Import Reals Lra.
Local Open Scope Z_scope.

Section Tiles.
Variable ndim : nat.
Lemma aget_app : forall A (a b : list A) i, aget (a ++ b) i = if i <? zlen a then aget a i else aget b (i - zlen a).
Proof.
  intros A a b i. unfold aget, zlen. destruct (Z.ltb_spec i 0).
  - destruct (Z.ltb_spec i (Z.of_nat (length a))); [reflexivity|lia].
  - destruct (Z.ltb_spec i (Z.of_nat (length a))).
    + now rewrite nth_error_app1 by lia.
    + destruct (Z.ltb_spec (i - Z.of_nat (length a)) 0); [lia|]. rewrite nth_error_app2 by lia. now replace (Z.to_nat (i - Z.of_nat (length a))) with (Z.to_nat i - length a)%nat by lia.
Qed.
Lemma owner_app : forall a b x g, owner ndim (a ++ b) x g <-> (g < zlen a /\ owner ndim a x g) \/ (zlen a <= g /\ owner ndim b x (g - zlen a)).
Proof.
  intros a b x g. unfold owner. rewrite aget_app. destruct (Z.ltb_spec g (zlen a)); split; intros H0; try (destruct H0 as [[? ?]|[? ?]]; auto; lia); [left|right]; (split; [lia|exact H0]).
Qed.
Lemma owner_range : forall a x g, owner ndim a x g -> 0 <= g < zlen a.
Proof. intros a x g (b & A & _). now apply aget_Ok_inv in A. Qed.
Lemma tiles_one : forall B, tiles ndim [B] B.
Proof.
  intros B x. split.
  - intros H. exists 0. split; [exists B; now split|]. intros g G. apply owner_range in G. unfold zlen in G. cbn in G. lia.
  - intros g (b & A & H). pose proof (aget_Ok_inv _ _ _ A) as [G _]. unfold zlen in G. cbn in G. replace g with 0 in A by lia. now injection A as <-.
Qed.
Lemma split_inside : forall c x, (mk c < ndim)%nat -> (bmin (mbox c) (mk c) < mr c < bmax (mbox c) (mk c))%R ->
  (inside ndim (lbox c) x <-> inside ndim (mbox c) x /\ (x (mk c) < mr c)%R) /\ (inside ndim (rbox c) x <-> inside ndim (mbox c) x /\ (mr c <= x (mk c))%R).
Proof.
  intros c x K [H1 H2]. unfold inside, in_hbox. cbn [lbox rbox bmin bmax]. unfold setv. split; split.
  - intros H. split; [|specialize (H (mk c) K); rewrite Nat.eqb_refl in H; apply H]. intros k Hk. specialize (H k Hk). destruct (Nat.eqb_spec k (mk c)) as [E|E]; try rewrite E in *; lra.
  - intros [H L] k Hk. specialize (H k Hk). destruct (Nat.eqb_spec k (mk c)) as [E|E]; try rewrite E in *; lra.
  - intros H. split; [|specialize (H (mk c) K); rewrite Nat.eqb_refl in H; apply H]. intros k Hk. specialize (H k Hk). destruct (Nat.eqb_spec k (mk c)) as [E|E]; try rewrite E in *; lra.
  - intros [H L] k Hk. specialize (H k Hk). destruct (Nat.eqb_spec k (mk c)) as [E|E]; try rewrite E in *; lra.
Qed.
Lemma tiles_two : forall c a b, (mk c < ndim)%nat -> (bmin (mbox c) (mk c) < mr c < bmax (mbox c) (mk c))%R ->
  tiles ndim a (lbox c) -> tiles ndim b (rbox c) -> tiles ndim (a ++ b) (mbox c).
Proof.
  intros c a b K H Ta Tb x. destruct (split_inside c x K H) as [SL SR]. destruct (Ta x) as [Ta1 Ta2]. destruct (Tb x) as [Tb1 Tb2]. split.
  - intros I. destruct (Rlt_le_dec (x (mk c)) (mr c)) as [L|L].
    + destruct Ta1 as (g & G & U); [now apply SL|]. exists g. split; [apply owner_app; left; split; [now apply owner_range in G|exact G]|].
      intros g' G'. apply owner_app in G' as [[_ G']|[_ G']]; [now apply U|]. apply Tb2, SR in G'. lra.
    + destruct Tb1 as (g & G & U); [now apply SR|]. exists (g + zlen a). split.
      * apply owner_app. right. pose proof (owner_range _ _ _ G). split; [lia|]. now replace (g + zlen a - zlen a) with g by lia.
      * intros g' G'. apply owner_app in G' as [[_ G']|[E G']]; [apply Ta2, SL in G'; lra|]. apply U in G'. lia.
  - intros g G. apply owner_app in G as [[_ G]|[_ G]]; [now apply Ta2, SL in G|now apply Tb2, SR in G].
Qed.
End Tiles.

Section Top.
Variables (ndim : nat) (work : vec -> vec -> R) (ltot : Z).
Definition nobox : box := mkbox (fun _ => 0%R) (fun _ => 0%R).
Definition bx (cs : list mcell) (c : Z) : box := match aget cs c with Ok x => mbox x | _ => nobox end.
Lemma good_tiles : forall d c B cs, layout ndim ltot d c (aget cs) -> good work d d c B (aget cs) ->
  tiles ndim (map (bx cs) (leaves d c)) B /\ (forall i, In i (leaves d c) -> exists x, aget cs i = Ok x) /\
  (forall i x, c <= i < c + 2 * p2 d - 1 -> aget cs i = Ok x -> mlevel x < ltot -> cut work x).
Proof.
  induction d as [|d IH]; intros c B cs LY GD.
  - destruct GD as (x & A & <- & _). cbn [leaves map]. unfold bx. rewrite A. split; [apply tiles_one|]. split; [intros i [<-|[]]; eauto|].
    intros i y Hi Y L. cbn in Hi. replace i with c in Y by lia. destruct LY as (z & Zz & Lv & _). rewrite Y in Zz. injection Zz as <-. cbn in Lv. lia.
  - pose proof (p2_pos d). destruct LY as (x & A & Lv & Kx & C2 & LL & LR). destruct GD as (x0 & A0 & <- & CU & GL & GR). rewrite A in A0. injection A0 as <-.
    destruct (IH _ _ _ LL GL) as (TL & OL & CL). destruct (IH _ _ _ LR GR) as (TR & OR & CR). cbn [leaves]. rewrite map_app.
    split; [apply tiles_two; auto; apply CU|]. split; [intros i Hi; apply in_app_or in Hi as [Hi|Hi]; auto|].
    intros i y Hi Y L. cbn [p2] in *. destruct (Z.eq_dec i c) as [->|]; [rewrite A in Y; now injection Y as <-|].
    destruct (Z_lt_ge_dec i (c + 2 * p2 d)); [apply (CL i); auto; lia|apply (CR i); auto; lia].
Qed.
Lemma read_ok : forall cs l pre, (forall i, In i l -> exists x, aget cs i = Ok x) ->
  read_domains cs (pre ++ l) (length l) (zlen pre) = Ok (map (bx cs) l).
Proof.
  intros cs. induction l as [|c l IH]; intros pre H; [reflexivity|]. cbn [read_domains length map].
  rewrite aget_app. destruct (Z.ltb_spec (zlen pre) (zlen pre)); [lia|]. rewrite Z.sub_diag. change (aget (c :: l) 0) with (Ok c). cbn [bind].
  destruct (H c (or_introl eq_refl)) as (x & A). rewrite A. cbn [bind].
  specialize (IH (pre ++ [c]) (fun i Hi => H i (or_intror Hi))). rewrite <- app_assoc in IH. cbn [app] in IH.
  replace (zlen (pre ++ [c])) with (zlen pre + 1) in IH by (unfold zlen; rewrite app_length; cbn; lia). rewrite IH. cbn [bind]. unfold bx at 2. now rewrite A.
Qed.

Lemma levels_ok : forall fuel D n l cs B Ncell, Ncell = 2 * p2 D - 1 -> ltot = Z.of_nat D -> (l + n = D)%nat -> Ncell <= zlen cs ->
  layout ndim ltot D 0 (aget cs) -> good work l D 0 B (aget cs) -> wide ndim B ->
  balance_levels work fuel n (Z.of_nat l) ltot Ncell cs = NoFuel \/
  exists cs', balance_levels work fuel n (Z.of_nat l) ltot Ncell cs = Ok cs' /\ zlen cs' = zlen cs /\ layout ndim ltot D 0 (aget cs') /\ good work D D 0 B (aget cs') /\
    (forall i x, 0 <= i -> aget cs i = Ok x -> exists y, aget cs' i = Ok y /\ like y x).
Proof.
  intros fuel D. induction n as [|n IH]; intros l cs B Ncell EN EL Hl HZ LY GD PB.
  - right. exists cs. replace l with D in GD by lia. split; [reflexivity|]. split; [reflexivity|]. split; [exact LY|]. split; [exact GD|]. intros i x _ X. exists x. now repeat split.
  - cbn [balance_levels]. unfold UpdateBoundingBoxes. subst Ncell. change (Z.to_nat (2 * p2 D - 1)) with (sz D).
    destruct (divide_ok ndim ltot work fuel l D 0 B cs) as [E|(cs1 & E1 & Z1 & L1 & R1 & _ & K1)]; [lia|lia|lia|exact LY|exact GD|exact PB| |];
      replace (ltot - Z.of_nat D + Z.of_nat l) with (Z.of_nat l) in * by lia.
    { left. now rewrite E. }
    rewrite E1. cbn [bind].
    destruct (update_ok ndim ltot work D 0 cs1) as (cs2 & E2 & Z2 & L2 & _ & _ & K2 & G2); [lia|lia|exact L1|]. rewrite E2. cbn [bind].
    replace (Z.of_nat l + 1) with (Z.of_nat (S l)) by lia.
    destruct (IH (S l) cs2 B (2 * p2 D - 1)) as [E|(cs3 & E3 & Z3 & L3 & G3 & K3)]; [reflexivity|exact EL|lia|lia|exact L2|now apply G2|exact PB|now left|].
    right. exists cs3. split; [exact E3|]. split; [lia|]. split; [exact L3|]. split; [exact G3|].
    intros i x Hi X. destruct (K1 i x Hi X) as (y & Y & [a1 [a2 a3]]). destruct (K2 i y Hi Y) as (z & Zz & [b1 [b2 b3]]). destruct (K3 i z Hi Zz) as (w & W & [e1 [e2 e3]]).
    exists w. split; [exact W|]. repeat split; congruence.
Qed.
Lemma layout_shape : forall d c g g', (forall i x, c <= i < c + 2 * p2 d - 1 -> g i = Ok x -> exists y, g' i = Ok y /\ mlevel y = mlevel x /\ mc2 y = mc2 x /\ (mk y < ndim)%nat) ->
  layout ndim ltot d c g -> layout ndim ltot d c g'.
Proof.
  induction d as [|d IH]; intros c g g' E (x & A & B & C & D).
  - destruct (E c x) as (y & Y & L1 & L2 & L3); [cbn; lia|exact A|]. exists y. rewrite L1. now repeat split.
  - pose proof (p2_pos d). destruct (E c x) as (y & Y & L1 & L2 & L3); [cbn [p2]; lia|exact A|]. exists y. rewrite L1, L2. split; [exact Y|]. split; [exact B|]. split; [exact L3|].
    destruct D as (D1 & D2 & D3). split; [exact D1|]. cbn [p2] in *. split; [apply (IH _ g)|apply (IH _ g)]; auto; intros i z Hi; apply E; lia.
Qed.
Lemma domains_ok : forall fuel D cs B Ncell Nmpi, Ncell = 2 * p2 D - 1 -> ltot = Z.of_nat D -> Nmpi = p2 D -> Ncell <= zlen cs ->
  layout ndim ltot D 0 (aget cs) -> wide ndim B ->
  NewDomains work fuel Nmpi ltot Ncell B cs (leaves D 0) = NoFuel \/
  exists cs' doms, NewDomains work fuel Nmpi ltot Ncell B cs (leaves D 0) = Ok (cs', doms) /\ zlen doms = Nmpi /\ tiles ndim doms B /\ zlen cs' = zlen cs /\
    (forall i x, 0 <= i < Ncell -> aget cs' i = Ok x -> mlevel x < ltot -> cut work x) /\
    (forall i x, 0 <= i -> aget cs i = Ok x -> exists y, aget cs' i = Ok y /\ like y x).
Proof.
  intros fuel D cs B Ncell Nmpi EN EL EP HZ LY PB. unfold NewDomains. pose proof (p2_pos D). pose proof LY as LY0. apply layout_root in LY0. destruct LY0 as (x & A & _ & _). rewrite A. cbn [bind]. rewrite aset_in by lia. cbn [bind].
  set (cs1 := upd cs (Z.to_nat 0) (set_mbox x B)).
  assert (LK : forall i w, 0 <= i -> aget cs i = Ok w -> exists u, aget cs1 i = Ok u /\ like u w).
  { intros i w Hi W. unfold cs1. destruct (Z.eq_dec i 0) as [->|].
    - rewrite aget_upd_eq by lia. rewrite A in W. injection W as <-. eexists. split; [reflexivity|now repeat split].
    - rewrite aget_upd_ne by lia. exists w. now repeat split. }
  destruct (levels_ok fuel D D 0 cs1 B Ncell EN EL) as [E|(cs2 & E2 & Z2 & L2 & G2 & K2)]; [lia|unfold cs1; rewrite zlen_upd; lia|..].
  - apply (layout_like ndim ltot D 0 (aget cs)); [|exact LY]. intros i w Hi. apply LK. lia.
  - exists (set_mbox x B). split; [|split; [reflexivity|exact I]]. unfold cs1. apply aget_upd_eq. lia.
  - exact PB.
  - left. change 0 with (Z.of_nat 0). rewrite EL, Nat2Z.id. rewrite EL in E. now rewrite E.
  - right. destruct (good_tiles D 0 B cs2 L2 G2) as (T & O & C).
    assert (EB : balance_levels work fuel (Z.to_nat ltot) 0 ltot Ncell cs1 = Ok cs2) by (rewrite EL, Nat2Z.id; rewrite EL in E2; exact E2).
    rewrite EB. cbn [bind].
    pose proof (leaves_length D 0) as LL. replace (Z.to_nat Nmpi) with (length (leaves D 0)) by (unfold zlen in LL; lia).
    pose proof (read_ok cs2 (leaves D 0) [] O) as RO. cbn [app] in RO. change (zlen (@nil Z)) with 0 in RO. rewrite RO. cbn [bind].
    exists cs2, (map (bx cs2) (leaves D 0)). split; [reflexivity|]. split; [unfold zlen in *; rewrite map_length; lia|]. split; [exact T|]. split; [unfold cs1 in Z2; rewrite zlen_upd in Z2; exact Z2|].
    split; [intros i y Hi; apply (C i); lia|]. intros i w Hi W. destruct (LK i w Hi W) as (u & U & [a1 [a2 a3]]). destruct (K2 i u Hi U) as (v & V & [b1 [b2 b3]]). exists v. split; [exact V|]. repeat split; congruence.
Qed.

Lemma levels_fuel : forall D f l, (l <= D)%nat -> (D <= f + l)%nat -> tree_levels f (Z.of_nat l) (p2 D) = Ok (Z.of_nat D).
Proof.
  intros D. induction f as [|f IH]; intros l Hl Hf; unfold tree_levels; fold tree_levels.
  - replace l with D by lia. rewrite <- p2_pow. now rewrite Z.ltb_irrefl.
  - rewrite <- p2_pow. destruct (Z.ltb_spec (p2 l) (p2 D)) as [L|L].
    + replace (Z.of_nat l + 1) with (Z.of_nat (S l)) by lia. apply IH; [|lia]. destruct (Nat.eq_dec l D) as [->|]; lia.
    + destruct (Nat.eq_dec l D) as [->|N]; [reflexivity|]. exfalso. assert (p2 l < p2 D); [|lia]. rewrite !p2_pow. apply Z.pow_lt_mono_r; lia.
Qed.
Lemma tree_size : forall D, ComputeMpiTreeSize (p2 D) = Ok (Z.of_nat D, 2 * p2 D - 1).
Proof.
  intros D. unfold ComputeMpiTreeSize. change 0 with (Z.of_nat 0) at 1. rewrite levels_fuel; [cbn [bind]; now rewrite <- p2_pow|lia|].
  assert (forall n, Z.of_nat n <= p2 n). { induction n as [|n IHn]; [easy|]. pose proof (p2_pos n). cbn [p2]. lia. } specialize (H D). lia.
Qed.
Lemma structure_top : forall D cs, 2 * p2 D - 1 <= zlen cs -> kok ndim cs -> ltot = Z.of_nat D ->
  exists cs', CreateTreeStructure ltot (2 * p2 D - 1) cs = Ok (cs', leaves D 0) /\ zlen cs' = zlen cs /\ layout ndim ltot D 0 (aget cs').
Proof.
  intros D cs HZ K EL. unfold CreateTreeStructure. pose proof (p2_pos D).
  assert (ZM : zlen (map clear_cell cs) = zlen cs) by (unfold zlen; now rewrite map_length).
  assert (AM : forall i y, aget (map clear_cell cs) i = Ok y -> exists x, aget cs i = Ok x /\ y = clear_cell x).
  { intros i y Y. apply aget_Ok_inv in Y as [Hi Y]. rewrite ZM in Hi. destruct (aget_in cs i Hi) as (x & X). exists x. split; [exact X|]. apply aget_Ok_inv in X as [_ X]. apply (map_nth_error clear_cell) in X. congruence. }
  destruct (aget_in (map clear_cell cs) 0) as (x & A); [lia|]. rewrite A. cbn [bind]. rewrite aset_in by lia. cbn [bind].
  set (x' := mkmc 0 (mc2 x) (mk x) (mr x) (mbox x)).
  destruct (structure_ok ndim ltot D 0 (upd (map clear_cell cs) (Z.to_nat 0) x') [] x') as (cs' & E & Z1 & K1 & L1 & _); [lia|rewrite zlen_upd; lia| | | |].
  - intros i y Y. destruct (Z.eq_dec i 0) as [->|N].
    + rewrite aget_upd_eq in Y by lia. injection Y as <-. destruct (AM 0 x A) as (w & W & ->). exact (K 0 w W).
    + rewrite aget_upd_ne in Y by lia. destruct (AM i y Y) as (w & W & ->). exact (K i w W).
  - apply aget_upd_eq. lia.
  - cbn. lia.
  - exists cs'. change (Z.to_nat (2 * p2 D - 1)) with (sz D). rewrite E. split; [reflexivity|]. split; [rewrite Z1, zlen_upd; lia|exact L1].
Qed.
End Top.
