(** The tree of domains and its divisions. *)
From Verif Require Import Prelude L_Prelude Vec S_Box L_Box S_Tree L_Tree M_Box M_Stock M_Balance S_Balance.
From Coq Require Import Reals Lra.
Local Open Scope Z_scope.

(** ** Shape of the tree *)
Fixpoint p2 (d : nat) : Z := match d with O => 1 | S d => 2 * p2 d end.
Lemma p2_pos : forall d, 1 <= p2 d.
Proof. induction d; cbn [p2]; lia. Qed.
Lemma p2_pow : forall d, p2 d = 2 ^ Z.of_nat d.
Proof. induction d as [|d IH]; [reflexivity|]. cbn [p2]. rewrite IH, Nat2Z.inj_succ, Z.pow_succ_r by lia. reflexivity. Qed.
Definition sz (d : nat) : nat := Z.to_nat (2 * p2 d - 1).
Lemma sz_seq : forall d c, zseq c (sz (S d)) = c :: zseq (c + 1) (sz d) ++ zseq (c + p2 (S d)) (sz d).
Proof.
  intros d c. pose proof (p2_pos d). unfold sz. cbn [p2]. replace (Z.to_nat (2 * (2 * p2 d) - 1)) with (1 + (sz d + sz d))%nat by (unfold sz; lia).
  rewrite (zseq_app 1). cbn [zseq app]. f_equal. rewrite zseq_app. unfold sz. f_equal. f_equal. lia.
Qed.
Lemma sz_0 : forall c, zseq c (sz 0) = [c].
Proof. reflexivity. Qed.

Definition gmap := Z -> res mcell.
Definition lbox (x : mcell) : box := mkbox (bmin (mbox x)) (setv (bmax (mbox x)) (mk x) (mr x)).
Definition rbox (x : mcell) : box := mkbox (setv (bmin (mbox x)) (mk x) (mr x)) (bmax (mbox x)).

Section Shape.
Variables (ndim : nat) (ltot : Z).
(** Levels and right children; the directions are valid. *)
Fixpoint layout (d : nat) (c : Z) (g : gmap) : Prop := exists x, g c = Ok x /\ mlevel x = ltot - Z.of_nat d /\ (mk x < ndim)%nat /\
  match d with O => True | S e => mc2 x = c + p2 d /\ layout e (c + 1) g /\ layout e (c + p2 d) g end.
Lemma layout_ext : forall d c g g', (forall i, c <= i < c + 2 * p2 d - 1 -> g' i = g i) -> layout d c g -> layout d c g'.
Proof.
  induction d as [|d IH]; intros c g g' E (x & A & B & C & D).
  - exists x. rewrite E by (cbn; lia). now repeat split.
  - pose proof (p2_pos d). exists x. rewrite E by (cbn [p2]; lia). split; [exact A|]. split; [exact B|]. split; [exact C|]. destruct D as (D1 & D2 & D3). split; [exact D1|]. cbn [p2] in *.
    split; [apply (IH _ g)|apply (IH _ g)]; auto; intros i Hi; apply E; lia.
Qed.
(** A change that keeps level, right child and direction. *)
Definition like (x y : mcell) : Prop := mlevel x = mlevel y /\ mc2 x = mc2 y /\ mk x = mk y.
Lemma layout_like : forall d c g g', (forall i x, c <= i < c + 2 * p2 d - 1 -> g i = Ok x -> exists y, g' i = Ok y /\ like y x) -> layout d c g -> layout d c g'.
Proof.
  induction d as [|d IH]; intros c g g' E (x & A & B & C & D).
  - destruct (E c x) as (y & Y & L1 & L2 & L3); [cbn; lia|exact A|]. exists y. rewrite L1, L3. now repeat split.
  - pose proof (p2_pos d). destruct (E c x) as (y & Y & L1 & L2 & L3); [cbn [p2]; lia|exact A|]. exists y. rewrite L1, L2, L3. split; [exact Y|]. split; [exact B|]. split; [exact C|].
    destruct D as (D1 & D2 & D3). split; [exact D1|]. cbn [p2] in *. split; [apply (IH _ g)|apply (IH _ g)]; auto; intros i z Hi; apply E; lia.
Qed.

Fixpoint leaves (d : nat) (c : Z) : list Z := match d with O => [c] | S e => leaves e (c + 1) ++ leaves e (c + p2 d) end.
Lemma leaves_length : forall d c, zlen (leaves d c) = p2 d.
Proof. induction d as [|d IH]; intros c; [reflexivity|]. cbn [leaves]. unfold zlen. rewrite app_length, Nat2Z.inj_add. pose proof (IH (c + 1)). pose proof (IH (c + p2 (S d))). unfold zlen in *. cbn [p2] in *. lia. Qed.

Lemma loop_app : forall A (f : Z -> A -> res A) l l' a, loop f (l ++ l') a = let! a := loop f l a in loop f l' a.
Proof. intros A f. induction l as [|c l IH]; intros l' a; [reflexivity|]. cbn [app loop]. destruct (f c a); cbn [bind]; auto. Qed.

(** ** CreateTreeStructure *)
Definition kok (cs : list mcell) : Prop := forall i x, aget cs i = Ok x -> (mk x < ndim)%nat.
Lemma kok_aset : forall cs i y cs', aset cs i y = Ok cs' -> (mk y < ndim)%nat -> kok cs -> kok cs'.
Proof.
  intros cs i y cs' H Hy K j x Hx. pose proof (aset_Ok_inv _ _ _ _ H) as [Hi ->]. destruct (Z.eq_dec j i) as [->|Ne].
  - rewrite aget_upd_eq in Hx by exact Hi. now injection Hx as <-.
  - rewrite aget_upd_ne in Hx by lia. now apply (K j).
Qed.
Lemma structure_ok : forall d c cs g2c x, 0 <= c -> c + 2 * p2 d - 1 <= zlen cs -> kok cs ->
  aget cs c = Ok x -> mlevel x = ltot - Z.of_nat d -> 
  exists cs', loop (structure_step ltot) (zseq c (sz d)) (cs, g2c) = Ok (cs', g2c ++ leaves d c) /\ zlen cs' = zlen cs /\ kok cs' /\
    layout d c (aget cs') /\ forall i, 0 <= i -> ~ (c <= i < c + 2 * p2 d - 1) -> aget cs' i = aget cs i.
Proof.
  induction d as [|d IH]; intros c cs g2c x Hc Hl K A Lv.
  - rewrite sz_0. cbn [loop]. unfold structure_step. rewrite A. cbn [bind]. rewrite Lv. replace (ltot - Z.of_nat 0) with ltot by lia. rewrite Z.eqb_refl. cbn [bind].
    exists cs. cbn [leaves]. split; [reflexivity|]. split; [reflexivity|]. split; [exact K|]. split; [|reflexivity].
    exists x. split; [exact A|]. split; [exact Lv|]. split; [exact (K c x A)|easy].
  - pose proof (p2_pos d) as P0. cbn [p2] in Hl.
    assert (EC : c + 2 ^ (ltot - mlevel x) = c + p2 (S d)). { rewrite Lv. replace (ltot - (ltot - Z.of_nat (S d))) with (Z.of_nat (S d)) by lia. now rewrite p2_pow. }
    rewrite sz_seq. cbn [loop]. unfold structure_step at 1. rewrite A. cbn [bind]. destruct (Z.eqb_spec (mlevel x) ltot) as [E|_]; [lia|].
    destruct (aget_in cs (c + 1)) as (y & Y); [lia|]. rewrite Y. cbn [bind]. rewrite aset_in by lia. cbn [bind].
    set (y' := mkmc (mlevel x + 1) (mc2 y) (mk y) (mr y) (mbox y)). set (cs1 := upd cs (Z.to_nat (c + 1)) y').
    assert (G1 : forall i, 0 <= i -> aget cs1 i = if i =? c + 1 then Ok y' else aget cs i).
    { intros i Hi. unfold cs1. destruct (Z.eqb_spec i (c + 1)) as [->|]; [apply aget_upd_eq; lia|apply aget_upd_ne; lia]. }
    assert (Z1 : zlen cs1 = zlen cs) by apply zlen_upd.
    rewrite (G1 c Hc). destruct (Z.eqb_spec c (c + 1)); [lia|]. rewrite A. cbn [bind]. rewrite EC. rewrite aset_in by lia. cbn [bind].
    set (x' := mkmc (mlevel x) (c + p2 (S d)) (mk x) (mr x) (mbox x)). set (cs2 := upd cs1 (Z.to_nat c) x').
    assert (G2 : forall i, 0 <= i -> aget cs2 i = if i =? c then Ok x' else aget cs1 i).
    { intros i Hi. unfold cs2. destruct (Z.eqb_spec i c) as [->|]; [apply aget_upd_eq; lia|apply aget_upd_ne; lia]. }
    assert (Z2 : zlen cs2 = zlen cs) by (unfold cs2; now rewrite zlen_upd).
    destruct (aget_in cs2 (c + p2 (S d))) as (z & Zz); [cbn [p2]; lia|]. rewrite Zz. cbn [bind]. rewrite aset_in by (cbn [p2]; lia). cbn [bind].
    set (z' := mkmc (mlevel x + 1) (mc2 z) (mk z) (mr z) (mbox z)). set (cs3 := upd cs2 (Z.to_nat (c + p2 (S d))) z').
    assert (G3 : forall i, 0 <= i -> aget cs3 i = if i =? c + p2 (S d) then Ok z' else aget cs2 i).
    { intros i Hi. unfold cs3. destruct (Z.eqb_spec i (c + p2 (S d))) as [->|]; [apply aget_upd_eq; cbn [p2]; lia|apply aget_upd_ne; cbn [p2] in *; lia]. }
    assert (Z3 : zlen cs3 = zlen cs) by (unfold cs3; now rewrite zlen_upd).
    assert (K3 : kok cs3).
    { assert (K1 : kok cs1) by (refine (kok_aset cs (c + 1) y' cs1 _ _ K); [apply aset_in; lia|exact (K (c + 1) y Y)]).
      assert (K2 : kok cs2) by (refine (kok_aset cs1 c x' cs2 _ _ K1); [apply aset_in; lia|exact (K c x A)]).
      refine (kok_aset cs2 (c + p2 (S d)) z' cs3 _ _ K2); [apply aset_in; cbn [p2]; lia|exact (K2 _ z Zz)]. }
    rewrite loop_app.
    destruct (IH (c + 1) cs3 g2c y') as (cs4 & E4 & Z4 & K4 & L4 & F4); [lia|lia|exact K3| | |].
    { rewrite G3 by lia. destruct (Z.eqb_spec (c + 1) (c + p2 (S d))); [cbn [p2] in *; lia|]. rewrite G2 by lia. destruct (Z.eqb_spec (c + 1) c); [lia|]. rewrite G1 by lia. now rewrite Z.eqb_refl. }
    { cbn. lia. }
    rewrite E4. cbn [bind].
    destruct (IH (c + p2 (S d)) cs4 (g2c ++ leaves d (c + 1)) z') as (cs5 & E5 & Z5 & K5 & L5 & F5); [cbn [p2]; lia|cbn [p2]; lia|exact K4| | |].
    { rewrite F4 by (cbn [p2]; lia). rewrite G3 by (cbn [p2]; lia). now rewrite Z.eqb_refl. }
    { cbn. lia. }
    exists cs5. rewrite E5. cbn [leaves]. rewrite <- app_assoc. split; [reflexivity|]. split; [lia|]. split; [exact K5|]. split.
    + exists x'. split.
      { rewrite F5 by (cbn [p2]; lia). rewrite F4 by lia. rewrite G3 by lia. destruct (Z.eqb_spec c (c + p2 (S d))); [cbn [p2] in *; lia|]. rewrite G2 by lia. now rewrite Z.eqb_refl. }
      split; [exact Lv|]. split; [exact (K c x A)|]. split; [reflexivity|]. split; [|exact L5].
      apply (layout_ext d (c + 1) (aget cs4)); [|exact L4]. intros i Hi. apply F5; cbn [p2]; lia.
    + intros i Hi N. cbn [p2] in N. rewrite F5 by (cbn [p2]; lia). rewrite F4 by lia. rewrite G3 by lia. cbn [p2]. destruct (Z.eqb_spec i (c + 2 * p2 d)); [lia|].
      rewrite G2 by lia. destruct (Z.eqb_spec i c); [lia|]. rewrite G1 by lia. destruct (Z.eqb_spec i (c + 1)); [lia|reflexivity].
Qed.

(** ** The divisions *)
Section Work.
Variable work : vec -> vec -> R.
Definition halves (x : mcell) : Prop :=
  let wl := work (bmin (mbox x)) (setv (bmax (mbox x)) (mk x) (mr x)) in
  let wr := work (setv (bmin (mbox x)) (mk x) (mr x)) (bmax (mbox x)) in
  (wl + wr = 0)%R \/ (1/2 - 1/1000 <= wl / (wl + wr) <= 1/2 + 1/1000)%R.
Definition cut (x : mcell) : Prop := (bmin (mbox x) (mk x) < mr x < bmax (mbox x) (mk x))%R /\ halves x.

Lemma bisect_ok : forall fuel k lo hi r rmin rmax, (rmin < r < rmax)%R ->
  match bisect work fuel k lo hi r rmin rmax with
  | Ok r' => (rmin < r' < rmax)%R /\
      let wl := work lo (setv hi k r') in let wr := work (setv lo k r') hi in
      ((wl + wr = 0)%R \/ (1/2 - 1/1000 <= wl / (wl + wr) <= 1/2 + 1/1000)%R)
  | NoFuel => True | _ => False end.
Proof.
  induction fuel as [|f IH]; intros k lo hi r rmin rmax H; [exact I|]. cbn [bisect].
  destruct (Req_EM_T _ _) as [E|E]; [split; [exact H|now left]|].
  destruct (rltb _ (1/2 - 1/1000)) eqn:A.
  - specialize (IH k lo hi (1/2 * (r + rmax))%R r rmax ltac:(lra)). destruct (bisect _ _ _ _ _ _ _ _); auto. destruct IH as [I1 I2]. split; [lra|exact I2].
  - destruct (rltb (1/2 + 1/1000) _) eqn:B.
    + specialize (IH k lo hi (1/2 * (rmin + r))%R rmin r ltac:(lra)). destruct (bisect _ _ _ _ _ _ _ _); auto. destruct IH as [I1 I2]. split; [lra|exact I2].
    + split; [exact H|]. right. apply rltb_false in A. apply rltb_false in B. lra.
Qed.

(** Boxes are right down to [n] levels below, divisions above that. *)
Fixpoint good (n d : nat) (c : Z) (B : box) (g : gmap) : Prop := exists x, g c = Ok x /\ mbox x = B /\
  match n, d with S m, S e => cut x /\ good m e (c + 1) (lbox x) g /\ good m e (c + p2 d) (rbox x) g | _, _ => True end.
Fixpoint rdy (n d : nat) (c : Z) (B : box) (g : gmap) : Prop := exists x, g c = Ok x /\ mbox x = B /\
  match d with
  | O => True
  | S e => cut x /\ match n with O => True | S m => rdy m e (c + 1) (lbox x) g /\ rdy m e (c + p2 d) (rbox x) g end
  end.
Lemma good_ext : forall n d c B g g', (forall i, c <= i < c + 2 * p2 d - 1 -> g' i = g i) -> good n d c B g -> good n d c B g'.
Proof.
  induction n as [|n IH]; intros d c B g g' E (x & A & Bx & D); (assert (c <= c < c + 2 * p2 d - 1) by (pose proof (p2_pos d); lia)); exists x; rewrite E by assumption; (split; [exact A|]); (split; [exact Bx|]); [exact I|].
  destruct d as [|d]; [exact I|]. destruct D as (D1 & D2 & D3). pose proof (p2_pos d). cbn [p2] in *. split; [exact D1|]. split; [apply (IH d _ _ g)|apply (IH d _ _ g)]; auto; intros i Hi; apply E; lia.
Qed.
Lemma rdy_ext : forall n d c B g g', (forall i, c <= i < c + 2 * p2 d - 1 -> g' i = g i) -> rdy n d c B g -> rdy n d c B g'.
Proof.
  induction n as [|n IH]; intros d c B g g' E R; (assert (c <= c < c + 2 * p2 d - 1) by (pose proof (p2_pos d); lia)); destruct d as [|d]; destruct R as (x & A & Bx & D); exists x; rewrite E by assumption; (split; [exact A|]); (split; [exact Bx|]); auto.
  destruct D as (D1 & D2 & D3). pose proof (p2_pos d). cbn [p2] in *. split; [exact D1|]. split; [apply (IH d _ _ g)|apply (IH d _ _ g)]; auto; intros i Hi; apply E; lia.
Qed.
Lemma layout_root : forall d c g, layout d c g -> exists x, g c = Ok x /\ mlevel x = ltot - Z.of_nat d /\ (mk x < ndim)%nat.
Proof. intros [|d] c g (x & A & B & C & _); exists x; auto. Qed.

(** ** The boxes of the children *)
Lemma update_ok : forall d c cs, 0 <= c -> c + 2 * p2 d - 1 <= zlen cs -> layout d c (aget cs) ->
  exists cs', loop (update_step ltot) (zseq c (sz d)) cs = Ok cs' /\ zlen cs' = zlen cs /\ layout d c (aget cs') /\
    aget cs' c = aget cs c /\ (forall i, 0 <= i -> ~ (c <= i < c + 2 * p2 d - 1) -> aget cs' i = aget cs i) /\
    (forall i x, 0 <= i -> aget cs i = Ok x -> exists y, aget cs' i = Ok y /\ like y x) /\
    forall n B, rdy n d c B (aget cs) -> good (S n) d c B (aget cs').
Proof.
  induction d as [|d IH]; intros c cs Hc Hl LY.
  - destruct LY as (x & A & Lv & Kx & _). rewrite sz_0. cbn [loop]. unfold update_step. rewrite A. cbn [bind]. rewrite Lv. replace (ltot - Z.of_nat 0) with ltot by lia. rewrite Z.eqb_refl. cbn [bind].
    exists cs. split; [reflexivity|]. split; [reflexivity|]. split; [exists x; auto|]. split; [exact A|]. split; [reflexivity|]. split; [intros i y _ Y; exists y; now repeat split|].
    intros n B R. destruct n; destruct R as (y & Y & By & _); exists y; auto.
  - pose proof (p2_pos d) as P0. cbn [p2] in Hl. destruct LY as (x & A & Lv & Kx & C2 & LL & LR). cbn [p2] in C2, LR.
    rewrite sz_seq. cbn [loop p2]. unfold update_step at 1. rewrite A. cbn [bind]. destruct (Z.eqb_spec (mlevel x) ltot) as [E|_]; [lia|]. rewrite C2.
    destruct (aget_in cs (c + 1)) as (y & Y); [lia|]. rewrite Y. cbn [bind]. rewrite aset_in by lia. cbn [bind]. fold (lbox x).
    set (y' := set_mbox y (lbox x)). set (cs1 := upd cs (Z.to_nat (c + 1)) y').
    assert (G1 : forall i, 0 <= i -> aget cs1 i = if i =? c + 1 then Ok y' else aget cs i).
    { intros i Hi. unfold cs1. destruct (Z.eqb_spec i (c + 1)) as [->|]; [apply aget_upd_eq; lia|apply aget_upd_ne; lia]. }
    assert (Z1 : zlen cs1 = zlen cs) by apply zlen_upd.
    destruct (aget_in cs (c + 2 * p2 d)) as (z & Zz); [lia|]. rewrite (G1 (c + 2 * p2 d)) by lia. destruct (Z.eqb_spec (c + 2 * p2 d) (c + 1)); [lia|]. rewrite Zz. cbn [bind]. rewrite aset_in by lia. cbn [bind]. fold (rbox x).
    set (z' := set_mbox z (rbox x)). set (cs2 := upd cs1 (Z.to_nat (c + 2 * p2 d)) z').
    assert (G2 : forall i, 0 <= i -> aget cs2 i = if i =? c + 2 * p2 d then Ok z' else aget cs1 i).
    { intros i Hi. unfold cs2. destruct (Z.eqb_spec i (c + 2 * p2 d)) as [->|]; [apply aget_upd_eq; lia|apply aget_upd_ne; lia]. }
    assert (Z2 : zlen cs2 = zlen cs) by (unfold cs2; now rewrite zlen_upd).
    assert (LK : forall i w, 0 <= i -> aget cs i = Ok w -> exists u, aget cs2 i = Ok u /\ like u w).
    { intros i w Hi W. rewrite G2 by exact Hi. destruct (Z.eqb_spec i (c + 2 * p2 d)) as [->|]; [rewrite Zz in W; injection W as <-; exists z'; now repeat split|].
      rewrite G1 by exact Hi. destruct (Z.eqb_spec i (c + 1)) as [->|]; [rewrite Y in W; injection W as <-; exists y'; now repeat split|]. exists w. now repeat split. }
    rewrite loop_app.
    destruct (IH (c + 1) cs2) as (cs3 & E3 & Z3 & L3 & R3 & F3 & K3 & D3); [lia|lia| |].
    { apply (layout_like d (c + 1) (aget cs)); [|exact LL]. intros i w Hi. apply LK. lia. }
    rewrite E3. cbn [bind].
    destruct (IH (c + 2 * p2 d) cs3) as (cs4 & E4 & Z4 & L4 & R4 & F4 & K4 & D4); [lia|lia| |].
    { apply (layout_like d (c + 2 * p2 d) (aget cs)); [|exact LR]. intros i w Hi W. rewrite F3 by lia. apply LK; [lia|exact W]. }
    exists cs4. rewrite E4. split; [reflexivity|]. split; [lia|].
    assert (Ac : aget cs4 c = Ok x).
    { rewrite F4 by lia. rewrite F3 by lia. rewrite G2 by lia. destruct (Z.eqb_spec c (c + 2 * p2 d)); [lia|]. rewrite G1 by lia. destruct (Z.eqb_spec c (c + 1)); [lia|exact A]. }
    split.
    { exists x. split; [exact Ac|]. split; [exact Lv|]. split; [exact Kx|]. cbn [p2]. split; [exact C2|]. split; [|exact L4].
      apply (layout_ext d (c + 1) (aget cs3)); [|exact L3]. intros i Hi. apply F4; lia. }
    split; [exact Ac|]. split.
    { intros i Hi N. cbn [p2] in N. rewrite F4 by lia. rewrite F3 by lia. rewrite G2 by lia. destruct (Z.eqb_spec i (c + 2 * p2 d)); [lia|]. rewrite G1 by lia. destruct (Z.eqb_spec i (c + 1)); [lia|reflexivity]. }
    split.
    { intros i w Hi W. destruct (LK i w Hi W) as (u & U & [a1 [a2 a3]]). destruct (K3 i u Hi U) as (u3 & U3 & [b1 [b2 b3]]). destruct (K4 i u3 Hi U3) as (u4 & U4 & [e1 [e2 e3]]).
      exists u4. split; [exact U4|]. repeat split; congruence. }
    clear n; intros n B R. cbn [good]. destruct n as [|n].
    + destruct R as (x0 & A0 & B0 & CU & _). rewrite A in A0. injection A0 as <-. exists x. split; [exact Ac|]. split; [exact B0|]. split; [exact CU|]. cbn [p2]. split.
      * exists y'. split; [|split; [reflexivity|exact I]]. rewrite F4 by lia. rewrite R3. rewrite G2 by lia. destruct (Z.eqb_spec (c + 1) (c + 2 * p2 d)); [lia|]. rewrite G1 by lia. now rewrite Z.eqb_refl.
      * exists z'. split; [|split; [reflexivity|exact I]]. rewrite R4. rewrite F3 by lia. rewrite G2 by lia. now rewrite Z.eqb_refl.
    + destruct R as (x0 & A0 & B0 & CU & RL & RR). rewrite A in A0. injection A0 as <-. cbn [p2] in RR. exists x. split; [exact Ac|]. split; [exact B0|]. split; [exact CU|]. cbn [p2].
      assert (Yb : mbox y = lbox x). { destruct n; destruct d; destruct RL as (w & W & Wb & _); rewrite Y in W; injection W as <-; exact Wb. }
      assert (Zb : mbox z = rbox x). { destruct n; destruct d; destruct RR as (w & W & Wb & _); rewrite Zz in W; injection W as <-; exact Wb. }
      assert (SAME : forall i, 0 <= i -> aget cs2 i = aget cs i).
      { intros i Hi. rewrite G2 by exact Hi. destruct (Z.eqb_spec i (c + 2 * p2 d)) as [->|]; [rewrite Zz; unfold z'; rewrite <- Zb; now destruct z|].
        rewrite G1 by exact Hi. destruct (Z.eqb_spec i (c + 1)) as [->|]; [rewrite Y; unfold y'; rewrite <- Yb; now destruct y|reflexivity]. }
      split.
      * apply (good_ext (S n) d (c + 1) _ (aget cs3)); [intros i Hi; apply F4; lia|]. apply D3. apply (rdy_ext n d (c + 1) _ (aget cs)); [intros i Hi; apply SAME; lia|exact RL].
      * apply D4. apply (rdy_ext n d (c + 2 * p2 d) _ (aget cs)); [|exact RR]. intros i Hi. rewrite F3 by lia. apply SAME. lia.
Qed.

(** ** The divisions of one level *)
Lemma divide_other : forall fuel l l2 cs, (forall c, In c l2 -> exists x, aget cs c = Ok x /\ mlevel x <> l) -> loop (divide_step work fuel l) l2 cs = Ok cs.
Proof.
  intros fuel l. induction l2 as [|c l2 IH]; intros cs H; [reflexivity|]. cbn [loop]. destruct (H c (or_introl eq_refl)) as (x & A & N).
  unfold divide_step. rewrite A. cbn [bind]. destruct (Z.eqb_spec (mlevel x) l); [contradiction|]. cbn [negb bind]. apply IH. intros; apply H; now right.
Qed.
Lemma layout_levels : forall d c g, layout d c g -> forall i, In i (zseq c (sz d)) -> exists x, g i = Ok x /\ ltot - Z.of_nat d <= mlevel x.
Proof.
  induction d as [|d IH]; intros c g L i Hi.
  - rewrite sz_0 in Hi. destruct Hi as [<-|[]]. destruct L as (x & A & Lv & _). exists x. split; [exact A|lia].
  - rewrite sz_seq in Hi. destruct L as (x & A & Lv & _ & _ & LL & LR). destruct Hi as [<-|Hi]; [exists x; split; [exact A|lia]|].
    apply in_app_or in Hi as [Hi|Hi]; [destruct (IH _ _ LL i Hi) as (y & Y & G)|destruct (IH _ _ LR i Hi) as (y & Y & G)]; exists y; (split; [exact Y|lia]).
Qed.
Definition wide (B : box) : Prop := forall k, (k < ndim)%nat -> (bmin B k < bmax B k)%R.
Lemma wide_split : forall x, cut x -> wide (mbox x) -> wide (lbox x) /\ wide (rbox x).
Proof.
  intros x [[A1 A2] _] P. split; intros k Hk; cbn [lbox rbox bmin bmax]; unfold setv; specialize (P k Hk); destruct (Nat.eqb_spec k (mk x)) as [->|]; lra.
Qed.
Lemma divide_ok : forall fuel n d c B cs, (n < d)%nat -> 0 <= c -> c + 2 * p2 d - 1 <= zlen cs -> layout d c (aget cs) -> good n d c B (aget cs) -> wide B ->
  loop (divide_step work fuel (ltot - Z.of_nat d + Z.of_nat n)) (zseq c (sz d)) cs = NoFuel \/
  exists cs', loop (divide_step work fuel (ltot - Z.of_nat d + Z.of_nat n)) (zseq c (sz d)) cs = Ok cs' /\ zlen cs' = zlen cs /\ layout d c (aget cs') /\ rdy n d c B (aget cs') /\
    (forall i, 0 <= i -> ~ (c <= i < c + 2 * p2 d - 1) -> aget cs' i = aget cs i) /\
    (forall i x, 0 <= i -> aget cs i = Ok x -> exists y, aget cs' i = Ok y /\ like y x).
Proof.
  intros fuel. induction n as [|n IH]; intros d c B cs Hnd Hc Hl LY GD PB.
  - destruct d as [|d]; [lia|]. pose proof (p2_pos d) as P0. cbn [p2] in Hl. rewrite sz_seq. cbn [loop p2].
    pose proof LY as LY0. destruct LY0 as (x & A & Lv & Kx & C2 & LL & LR). cbn [p2] in C2, LR. destruct GD as (x0 & A0 & Bx & _). rewrite A in A0. injection A0 as <-.
    unfold divide_step at 1 3. rewrite A. cbn [bind]. replace (ltot - Z.of_nat (S d) + Z.of_nat 0) with (mlevel x) by lia. rewrite Z.eqb_refl. cbn [negb]. rewrite Bx.
    pose proof (PB (mk x) Kx) as PK.
    set (r0 := if rleb (mr x) (bmin B (mk x)) || rleb (bmax B (mk x)) (mr x) then (1 / 2 * (bmin B (mk x) + bmax B (mk x)))%R else mr x).
    assert (R0 : (bmin B (mk x) < r0 < bmax B (mk x))%R).
    { unfold r0. destruct (rleb (mr x) (bmin B (mk x))) eqn:E1; [cbn [orb]; lra|]. destruct (rleb (bmax B (mk x)) (mr x)) eqn:E2; cbn [orb]; [lra|]. apply rleb_false in E1. apply rleb_false in E2. lra. }
    rewrite (proj2 (rltb_true _ _) (proj1 R0)), (proj2 (rltb_true _ _) (proj2 R0)). cbn [andb].
    unfold FindLoadBalancingDivision. pose proof (bisect_ok fuel (mk x) (bmin B) (bmax B) r0 (bmin B (mk x)) (bmax B (mk x)) R0) as BI.
    destruct (bisect _ _ _ _ _ _ _ _) as [r'| | |]; [|contradiction|contradiction|now left]. cbn [bind]. right. rewrite aset_in by lia. cbn [bind].
    set (x' := mkmc (mlevel x) (mc2 x) (mk x) r' B). set (cs1 := upd cs (Z.to_nat c) x').
    assert (G1 : forall i, 0 <= i -> aget cs1 i = if i =? c then Ok x' else aget cs i).
    { intros i Hi. unfold cs1. destruct (Z.eqb_spec i c) as [->|]; [apply aget_upd_eq; lia|apply aget_upd_ne; lia]. }
    assert (G1' : forall i, c < i -> aget cs1 i = aget cs i). { intros i Hi. rewrite G1 by lia. destruct (Z.eqb_spec i c); [lia|reflexivity]. }
    assert (LL1 : layout d (c + 1) (aget cs1)) by (apply (layout_ext d _ (aget cs)); [intros i Hi; apply G1'; lia|exact LL]).
    assert (LR1 : layout d (c + 2 * p2 d) (aget cs1)) by (apply (layout_ext d _ (aget cs)); [intros i Hi; apply G1'; lia|exact LR]).
    exists cs1. split.
    { rewrite divide_other; [reflexivity|]. intros i Hi. apply in_app_or in Hi as [Hi|Hi]; [destruct (layout_levels _ _ _ LL1 i Hi) as (y & Y & G)|destruct (layout_levels _ _ _ LR1 i Hi) as (y & Y & G)]; exists y; (split; [exact Y|lia]). }
    split; [apply zlen_upd|]. split.
    { exists x'. split; [rewrite G1 by lia; now rewrite Z.eqb_refl|]. split; [exact Lv|]. split; [exact Kx|]. cbn [p2]. split; [exact C2|]. now split. }
    split.
    { exists x'. split; [rewrite G1 by lia; now rewrite Z.eqb_refl|]. split; [reflexivity|]. split; [exact BI|exact I]. }
    split; [intros i Hi N; cbn [p2] in N; rewrite G1 by lia; destruct (Z.eqb_spec i c); [lia|reflexivity]|].
    intros i w Hi W. rewrite G1 by lia. destruct (Z.eqb_spec i c) as [->|]; [rewrite A in W; injection W as <-; exists x'; now repeat split|exists w; now repeat split].
  - destruct d as [|d]; [lia|]. pose proof (p2_pos d) as P0. cbn [p2] in Hl. rewrite sz_seq. cbn [loop p2].
    pose proof LY as LY0. destruct LY0 as (x & A & Lv & Kx & C2 & LL & LR). cbn [p2] in C2, LR. destruct GD as (x0 & A0 & Bx & CU & GL & GR). rewrite A in A0. injection A0 as <-. cbn [p2] in GR.
    unfold divide_step at 1 3. rewrite A. cbn [bind]. destruct (Z.eqb_spec (mlevel x) (ltot - Z.of_nat (S d) + Z.of_nat (S n))); [lia|]. cbn [negb bind]. rewrite loop_app.
    rewrite <- Bx in PB. destruct (wide_split x CU PB) as [PL PR].
    destruct (IH d (c + 1) (lbox x) cs) as [E|(cs1 & E1 & Z1 & L1 & R1 & F1 & K1)]; [lia|lia|lia|exact LL|exact GL|exact PL| |].
    { left. replace (ltot - Z.of_nat (S d) + Z.of_nat (S n)) with (ltot - Z.of_nat d + Z.of_nat n) by lia. now rewrite E. }
    replace (ltot - Z.of_nat (S d) + Z.of_nat (S n)) with (ltot - Z.of_nat d + Z.of_nat n) by lia. rewrite E1. cbn [bind].
    destruct (IH d (c + 2 * p2 d) (rbox x) cs1) as [E|(cs2 & E2 & Z2 & L2 & R2 & F2 & K2)]; [lia|lia|lia|..].
    { apply (layout_ext d _ (aget cs)); [intros i Hi; apply F1; lia|exact LR]. }
    { apply (good_ext n d _ _ (aget cs)); [intros i Hi; apply F1; lia|exact GR]. }
    { exact PR. }
    { left. now rewrite E. }
    right. exists cs2. rewrite E2. split; [reflexivity|]. split; [lia|].
    assert (Ac : aget cs2 c = Ok x) by (rewrite F2 by lia; rewrite F1 by lia; exact A).
    split.
    { exists x. split; [exact Ac|]. split; [exact Lv|]. split; [exact Kx|]. cbn [p2]. split; [exact C2|]. split; [|exact L2]. apply (layout_ext d _ (aget cs1)); [intros i Hi; apply F2; lia|exact L1]. }
    split.
    { exists x. split; [exact Ac|]. split; [exact Bx|]. split; [exact CU|]. cbn [p2]. split; [|exact R2]. apply (rdy_ext n d _ _ (aget cs1)); [intros i Hi; apply F2; lia|exact R1]. }
    split; [intros i Hi N; cbn [p2] in N; rewrite F2 by lia; apply F1; lia|].
    intros i w Hi W. destruct (K1 i w Hi W) as (u & U & [a1 [a2 a3]]). destruct (K2 i u Hi U) as (u2 & U2 & [b1 [b2 b3]]). exists u2. split; [exact U2|]. repeat split; congruence.
Qed.
End Work.
End Shape.
